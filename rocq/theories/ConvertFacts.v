(** Facts about the conversions of convert.rs. *)
From Coq Require Import Strings.Byte.
From Verif Require Import Base BytesFacts Convert.
Local Open Scope Z_scope.

(** The number whose binary digits, least significant first, are l. *)
Fixpoint val (l : list bool) : Z :=
  match l with
  | [] => 0
  | b :: t => (if b then 1 else 0) + 2 * val t
  end.
Lemma val_bounds l : 0 <= val l < 2 ^ Z.of_nat (length l).
Proof.
  induction l as [|b l IH]; [cbn; lia|]. cbn [val length]. rewrite Nat2Z.inj_succ, Z.pow_succ_r by lia. destruct b; lia.
Qed.
Lemma val_app l m : val (l ++ m) = val l + 2 ^ Z.of_nat (length l) * val m.
Proof.
  induction l as [|b l IH]; [cbn [app val length]; change (2 ^ Z.of_nat 0) with 1; lia|]. cbn [app val length]. rewrite IH, Nat2Z.inj_succ, Z.pow_succ_r by lia. ring.
Qed.
Lemma val_false n : val (repeat false n) = 0.
Proof. induction n; cbn [repeat val]; lia. Qed.
Lemma val_inj : forall l m, length l = length m -> val l = val m -> l = m.
Proof.
  induction l as [|b l IH]; destruct m as [|c m]; cbn [length val]; intros L E; try discriminate; [reflexivity|].
  assert (b = c) by (destruct b, c; try reflexivity; lia). subst c. f_equal. apply IH; [lia|destruct b; lia].
Qed.

Lemma bits_loop_length k x : length (byte_bits_loop k x) = k.
Proof. revert x; induction k; intros; cbn; [reflexivity|now rewrite IHk]. Qed.
Lemma bits_loop_val k : forall x, 0 <= x -> val (byte_bits_loop k x) = x mod 2 ^ Z.of_nat k.
Proof.
  induction k as [|k IH]; intros x X; [cbn; now rewrite Z.mod_1_r|].
  cbn [byte_bits_loop val]. rewrite IH by (apply Z.div_pos; lia). rewrite Nat2Z.inj_succ, Z.pow_succ_r by lia.
  rewrite Z.rem_mul_r by lia. pose proof (Z.mod_pos_bound x 2 ltac:(lia)).
  destruct (Z.eqb_spec (x mod 2) 1); lia.
Qed.
Lemma byte_bits_length b : length (byte_bits b) = 8%nat.
Proof. apply bits_loop_length. Qed.
Lemma byte_bits_val b : val (byte_bits b) = b2z b.
Proof. unfold byte_bits. pose proof (b2z_range b). rewrite bits_loop_val by lia. apply Z.mod_small. change (2 ^ Z.of_nat 8) with 256. lia. Qed.
Lemma bytes_to_bits_length x : length (bytes_to_bits x) = (8 * length x)%nat.
Proof. unfold bytes_to_bits. induction x; [reflexivity|]. cbn [flat_map length]. rewrite app_length, byte_bits_length, IHx. lia. Qed.
Lemma bytes_to_bits_app x y : bytes_to_bits (x ++ y) = bytes_to_bits x ++ bytes_to_bits y.
Proof. apply flat_map_app. Qed.
Lemma bytes_to_bits_cons b y : bytes_to_bits (b :: y) = byte_bits b ++ bytes_to_bits y.
Proof. reflexivity. Qed.

(** Packing: groups of eight bits, the last one possibly incomplete. *)
Fixpoint pack_fuel (k : nat) (l : list bool) : list byte :=
  match k, l with
  | O, _ | _, [] => []
  | S k', _ => z2b (val (firstn 8 l)) :: pack_fuel k' (skipn 8 l)
  end.
Definition pack (l : list bool) : list byte := pack_fuel (length l) l.

Lemma u8_ok pr z : 0 <= z < 256 -> u8 pr z = Ok z.
Proof. intros. unfold u8. destruct (Z.leb_spec 0 z), (Z.ltb_spec z 256); cbn; lia || reflexivity. Qed.

(** One incomplete group. *)
Lemma step_group pr : forall l out pre, (length pre + length l < 8)%nat ->
  foldM (bits_to_bytes_step pr) l (out, length pre, val pre, 2 ^ Z.of_nat (length pre))
  = Ok (out, length (pre ++ l), val (pre ++ l), 2 ^ Z.of_nat (length (pre ++ l))).
Proof.
  induction l as [|b l IH]; intros out pre L; [now rewrite app_nil_r|]. cbn [length] in L. cbn [foldM].
  assert (P : 2 ^ Z.of_nat (length pre) <= 2 ^ 6) by (apply Z.pow_le_mono_r; lia). assert (P0 : 0 < 2 ^ Z.of_nat (length pre)) by (apply Z.pow_pos_nonneg; lia).
  pose proof (val_bounds pre). change (2 ^ 6) with 64 in P.
  assert (E : bits_to_bytes_step pr (out, length pre, val pre, 2 ^ Z.of_nat (length pre)) b
    = Ok (out, length (pre ++ [b]), val (pre ++ [b]), 2 ^ Z.of_nat (length (pre ++ [b])))).
  { unfold bits_to_bytes_step. rewrite u8_ok by (destruct b; lia). cbn [bind]. rewrite u8_ok by (destruct b; lia). cbn [bind].
    destruct (Nat.eqb_spec (S (length pre)) 8); [lia|]. rewrite u8_ok by lia. cbn [bind]. rewrite app_length, val_app. cbn [length val].
    rewrite Nat.add_1_r. f_equal. f_equal; [f_equal; f_equal; lia|]. rewrite Nat2Z.inj_succ, Z.pow_succ_r by lia. lia. }
  rewrite E. cbn [bind]. rewrite IH by (rewrite app_length; cbn; lia). now rewrite <- app_assoc.
Qed.
(** One complete group. *)
Lemma step_full pr : forall l out, length l = 8%nat ->
  foldM (bits_to_bytes_step pr) l (out, 0%nat, 0, 1) = Ok (out ++ [z2b (val l)], 0%nat, 0, 1).
Proof.
  intros l out L. destruct (exists_last (l := l)) as (pre & b & ->); [intros ->; discriminate|].
  rewrite app_length in L. cbn [length] in L.
  assert (FA : forall l1 l2 s, foldM (bits_to_bytes_step pr) (l1 ++ l2) s = let* s := foldM (bits_to_bytes_step pr) l1 s in foldM (bits_to_bytes_step pr) l2 s).
  { induction l1 as [|x l1 IH]; intros; cbn [app foldM bind]; [reflexivity|]. destruct (bits_to_bytes_step pr s x); cbn [bind]; auto. }
  rewrite FA. pose proof (step_group pr pre out [] ltac:(cbn; lia)) as G. change (length (@nil bool)) with 0%nat in G. change (val []) with 0 in G. change (2 ^ Z.of_nat 0) with 1 in G.
  rewrite G. cbn [app bind foldM]. assert (P : 2 ^ Z.of_nat (length pre) = 128) by (replace (length pre) with 7%nat by lia; reflexivity).
  pose proof (val_bounds pre). unfold bits_to_bytes_step. rewrite P in *. rewrite u8_ok by (destruct b; lia). cbn [bind]. rewrite u8_ok by (destruct b; lia). cbn [bind].
  destruct (Nat.eqb_spec (S (length pre)) 8); [|lia]. cbn [bind]. rewrite val_app. cbn [val]. rewrite P. repeat f_equal. destruct b; lia.
Qed.
Lemma bits_to_bytes_gen pr : forall k l out, (length l <= k)%nat ->
  (let* (o, j, tmp, _) := foldM (bits_to_bytes_step pr) l (out, 0%nat, 0, 1) in if (j =? 0)%nat then Ok o else Ok (o ++ [z2b tmp]))
  = Ok (out ++ pack_fuel k l).
Proof.
  induction k as [|k IH]; intros l out L.
  - destruct l; [|cbn in L; lia]. cbn. now rewrite app_nil_r.
  - destruct l as [|b0 l0]; [cbn; now rewrite app_nil_r|]. set (l := b0 :: l0) in *. cbn [pack_fuel]. unfold l at 2. fold l.
    destruct (Nat.lt_ge_cases (length l) 8) as [LT|GE].
    + pose proof (step_group pr l out [] LT) as G. change (length (@nil bool)) with 0%nat in G. change (val []) with 0 in G. change (2 ^ Z.of_nat 0) with 1 in G.
      rewrite G. cbn [app bind]. destruct (Nat.eqb_spec (length l) 0); [discriminate|].
      rewrite (firstn_all2 l) by lia. rewrite (skipn_all2 l) by lia. destruct k; reflexivity.
    + rewrite <- (firstn_skipn 8 l) at 1.
      assert (FA : forall l1 l2 s, foldM (bits_to_bytes_step pr) (l1 ++ l2) s = let* s := foldM (bits_to_bytes_step pr) l1 s in foldM (bits_to_bytes_step pr) l2 s).
      { induction l1 as [|x l1 IH1]; intros; cbn [app foldM bind]; [reflexivity|]. destruct (bits_to_bytes_step pr s x); cbn [bind]; auto. }
      rewrite FA, step_full by (rewrite firstn_length; lia). cbn [bind]. rewrite IH by (rewrite skipn_length; lia). now rewrite <- app_assoc.
Qed.
Lemma bits_to_bytes_pack pr l : bits_to_bytes pr l = Ok (pack l).
Proof. unfold bits_to_bytes, pack. now rewrite (bits_to_bytes_gen pr (length l) l []) by lia. Qed.

Lemma pack_fuel_cons k l : (0 < length l <= k)%nat -> pack_fuel k l = z2b (val (firstn 8 l)) :: pack_fuel (k - 1) (skipn 8 l).
Proof. intros [L1 L2]. destruct k; [lia|]. destruct l; [cbn in L1; lia|]. cbn [pack_fuel]. replace (S k - 1)%nat with k by lia. reflexivity. Qed.
Lemma pack_fuel_enough : forall k k' l, (length l <= k)%nat -> (length l <= k')%nat -> pack_fuel k l = pack_fuel k' l.
Proof.
  induction k as [|k IH]; intros k' l L L'.
  - destruct l; [|cbn in L; lia]. now destruct k'.
  - destruct l; [now destruct k'|]. destruct k'; [cbn in L'; lia|]. cbn [pack_fuel]. f_equal. apply IH; rewrite skipn_length; cbn [length] in *; lia.
Qed.
Lemma pack_app a l : length a = 8%nat -> pack (a ++ l) = z2b (val a) :: pack l.
Proof.
  intros A. unfold pack. rewrite pack_fuel_cons by (rewrite app_length; lia). rewrite firstn_app, skipn_app, A, Nat.sub_diag, firstn_O, skipn_O, app_nil_r.
  rewrite (firstn_all2 a), (skipn_all2 a) by lia. cbn [app]. f_equal. apply pack_fuel_enough; rewrite ?app_length; lia.
Qed.
Lemma pack_bits x : pack (bytes_to_bits x) = x.
Proof.
  induction x as [|b x IH]; [reflexivity|]. rewrite bytes_to_bits_cons, pack_app by apply byte_bits_length. rewrite IH, byte_bits_val, z2b_b2z. reflexivity.
Qed.
Lemma byte_bits_pack a : (length a <= 8)%nat -> byte_bits (z2b (val a)) = a ++ repeat false (8 - length a).
Proof.
  intros L. apply val_inj; [rewrite byte_bits_length, app_length, repeat_length; lia|].
  rewrite byte_bits_val, val_app, val_false. pose proof (val_bounds a). assert (2 ^ Z.of_nat (length a) <= 2 ^ 8) by (apply Z.pow_le_mono_r; lia).
  change (2 ^ 8) with 256 in *. rewrite b2z_z2b, Z.mod_small by lia. lia.
Qed.
(** Padding with false up to a multiple of eight. *)
Definition pad8 (l : list bool) : list bool := l ++ repeat false ((8 - length l mod 8) mod 8).
Lemma bits_pack_fuel : forall k l, (length l <= k)%nat -> bytes_to_bits (pack_fuel k l) = pad8 l.
Proof.
  induction k as [|k IH]; intros l L; [destruct l; [reflexivity|cbn in L; lia]|].
  destruct l as [|b0 l0]; [reflexivity|]. set (l := b0 :: l0) in *. cbn [pack_fuel]. unfold l at 1. fold l. rewrite bytes_to_bits_cons.
  rewrite IH by (rewrite skipn_length; cbn [length l] in *; lia). unfold pad8.
  destruct (Nat.lt_ge_cases (length l) 8) as [LT|GE].
  - rewrite firstn_all2, skipn_all2 by lia. rewrite byte_bits_pack by lia. cbn [length app]. rewrite (Nat.mod_small (length l)) by lia.
    change ((8 - 0 mod 8) mod 8)%nat with 0%nat. cbn [repeat]. rewrite app_nil_r. f_equal. f_equal. rewrite Nat.mod_small; [reflexivity|]. cbn [length l]. lia.
  - rewrite byte_bits_pack by (rewrite firstn_length; lia). rewrite firstn_length, Nat.min_l by lia. cbn [Nat.sub repeat]. rewrite app_nil_r, app_assoc, firstn_skipn. f_equal. f_equal.
    rewrite skipn_length. rewrite <- (Nat.sub_add 8 (length l) GE) at 2. replace (length l - 8 + 8)%nat with (length l - 8 + 1 * 8)%nat by lia. now rewrite Nat.mod_add.
Qed.
Lemma bits_pack l : bytes_to_bits (pack l) = pad8 l.
Proof. apply bits_pack_fuel. lia. Qed.
Lemma pack_length8 l q : length l = (8 * q)%nat -> length (pack l) = q /\ bytes_to_bits (pack l) = l.
Proof.
  intros L. assert (E : bytes_to_bits (pack l) = l).
  { rewrite bits_pack. unfold pad8. rewrite L, Nat.mul_comm, Nat.mod_mul by lia. change ((8 - 0) mod 8)%nat with 0%nat. apply app_nil_r. }
  split; [|exact E]. apply (f_equal (@length bool)) in E. rewrite bytes_to_bits_length in E. lia.
Qed.

(** * Integers *)
Lemma usz_in pr z : 0 <= z < two64 -> usz pr z = Ok z.
Proof. intros. unfold usz. destruct (Z.leb_spec 0 z), (Z.ltb_spec z two64); cbn; lia || reflexivity. Qed.
Lemma usize_step_fold pr : forall l r k, (k + length l <= 63)%nat -> 0 <= r < 2 ^ Z.of_nat k ->
  foldM (bits_to_usize_step pr) l (r, 2 ^ Z.of_nat k) = Ok (r + 2 ^ Z.of_nat k * val l, 2 ^ Z.of_nat (k + length l)).
Proof.
  induction l as [|b l IH]; intros r k L R; [cbn [foldM val length]; rewrite Nat.add_0_r; repeat f_equal; lia|].
  cbn [length] in L. cbn [foldM]. assert (P : 2 ^ Z.of_nat k <= 2 ^ 62) by (apply Z.pow_le_mono_r; lia). change (2 ^ 62) with 4611686018427387904 in P.
  unfold bits_to_usize_step at 1. rewrite usz_in by (unfold two64; destruct b; lia). cbn [bind]. rewrite usz_in by (unfold two64; destruct b; lia). cbn [bind].
  rewrite usz_in by (unfold two64; lia). cbn [bind]. replace (2 ^ Z.of_nat k * 2) with (2 ^ Z.of_nat (S k)) by (rewrite Nat2Z.inj_succ, Z.pow_succ_r by lia; ring).
  rewrite IH by (try (rewrite Nat2Z.inj_succ, Z.pow_succ_r by lia; destruct b); lia). cbn [val]. rewrite Nat.add_succ_comm. cbn [length]. f_equal. f_equal.
  rewrite Nat2Z.inj_succ, Z.pow_succ_r by lia. destruct b; ring.
Qed.
Lemma bits_to_usize_val pr l : (length l <= 63)%nat -> bits_to_usize pr l = Ok (val l).
Proof.
  intros L. unfold bits_to_usize. change (0, 1) with (0, 2 ^ Z.of_nat 0). rewrite usize_step_fold by (first [exact (conj (Z.le_refl 0) eq_refl) | exact L]). cbn [bind].
  change (2 ^ Z.of_nat 0) with 1. f_equal. lia.
Qed.
Lemma bits_to_usize_panic l : (64 <= length l)%nat -> bits_to_usize Debug l = Panic.
Proof.
  intros L. unfold bits_to_usize. rewrite <- (firstn_skipn 63 l).
  assert (FA : forall l1 l2 s, foldM (bits_to_usize_step Debug) (l1 ++ l2) s = let* s := foldM (bits_to_usize_step Debug) l1 s in foldM (bits_to_usize_step Debug) l2 s).
  { induction l1 as [|x l1 IH]; intros; cbn [app foldM bind]; [reflexivity|]. destruct (bits_to_usize_step Debug s x); cbn [bind]; auto. }
  rewrite FA. change (0, 1) with (0, 2 ^ Z.of_nat 0). rewrite usize_step_fold by (first [exact (conj (Z.le_refl 0) eq_refl) | rewrite firstn_length; lia]). cbn [bind].
  destruct (skipn 63 l) as [|b t] eqn:E; [apply (f_equal (@length bool)) in E; rewrite skipn_length in E; cbn in E; lia|].
  cbn [foldM]. unfold bits_to_usize_step at 1. rewrite firstn_length, Nat.min_l by lia. cbn [Nat.add].
  pose proof (val_bounds (firstn 63 l)) as V. rewrite firstn_length, Nat.min_l in V by lia. change (2 ^ Z.of_nat 63) with 9223372036854775808 in *. change (2 ^ Z.of_nat 0) with 1 in *.
  rewrite usz_in by (unfold two64; destruct b; lia). cbn [bind]. rewrite usz_in by (unfold two64; destruct b; lia). reflexivity.
Qed.
(** Release builds wrap: the result is the value modulo 2^64. *)
Lemma usz_release z : usz Release z = Ok (z mod two64).
Proof. unfold usz. destruct (Z.leb_spec 0 z), (Z.ltb_spec z two64); cbn; try reflexivity. now rewrite Z.mod_small by lia. Qed.
Lemma usize_release_fold : forall l r k, exists r' b',
  foldM (bits_to_usize_step Release) l (r mod two64, 2 ^ Z.of_nat k mod two64) = Ok (r', b') /\ r' = (r + 2 ^ Z.of_nat k * val l) mod two64.
Proof.
  induction l as [|b l IH]; intros r k; [eexists _, _; split; [reflexivity|]; cbn [val]; f_equal; lia|].
  cbn [foldM]. unfold bits_to_usize_step at 1. do 3 (rewrite usz_release; cbn [bind]).
  replace ((2 ^ Z.of_nat k mod two64 * 2) mod two64) with (2 ^ Z.of_nat (S k) mod two64)
    by (rewrite Z.mul_mod_idemp_l by discriminate; f_equal; rewrite Nat2Z.inj_succ, Z.pow_succ_r by lia; ring).
  replace ((r mod two64 + (2 ^ Z.of_nat k mod two64 * (if b then 1 else 0)) mod two64) mod two64) with ((r + 2 ^ Z.of_nat k * (if b then 1 else 0)) mod two64)
    by (rewrite Z.mul_mod_idemp_l, <- Zplus_mod by discriminate; reflexivity).
  destruct (IH (r + 2 ^ Z.of_nat k * (if b then 1 else 0)) (S k)) as (r' & b' & E & ->). rewrite E. eexists _, _; split; [reflexivity|].
  cbn [val]. rewrite Nat2Z.inj_succ, Z.pow_succ_r by lia. f_equal. destruct b; ring.
Qed.
Lemma bits_to_usize_release l : bits_to_usize Release l = Ok (val l mod two64).
Proof.
  unfold bits_to_usize. destruct (usize_release_fold l 0 0) as (r' & b' & E & ->). change (0 mod two64) with 0 in E. change (2 ^ Z.of_nat 0 mod two64) with 1 in E.
  rewrite E. cbn [bind]. change (2 ^ Z.of_nat 0) with 1. do 2 f_equal. lia.
Qed.

Lemma upd_app {A} (a : list A) x y r : upd (a ++ x :: r) (length a) y = a ++ y :: r.
Proof. induction a as [|z a IH]; [reflexivity|]. cbn [app length upd]. now rewrite IH. Qed.
Lemma usize_loop : forall k fuel x pre, 0 <= x -> (k < fuel)%nat -> (0 < k)%nat ->
  usize_to_bits_loop fuel x (pre ++ repeat false k) (length pre) (length pre + k) = Some (Ok (pre ++ byte_bits_loop k x)).
Proof.
  induction k as [|k IH]; intros fuel x pre X F K; [lia|]. destruct fuel as [|fuel]; [lia|]. cbn [usize_to_bits_loop].
  destruct (Z.leb_spec x 0).
  - do 3 f_equal. assert (x = 0) by lia. subst x. clear. induction (S k) as [|q IH]; [reflexivity|]. cbn [repeat byte_bits_loop].
    change (0 mod 2 =? 1) with false. change (0 / 2) with 0. now rewrite IH.
  - cbn [repeat byte_bits_loop].
    assert (E : (if x mod 2 =? 1 then set_index (pre ++ false :: repeat false k) (length pre) true else Ok (pre ++ false :: repeat false k)) = Ok ((pre ++ [x mod 2 =? 1]) ++ repeat false k)).
    { rewrite <- app_assoc. cbn [app]. destruct (x mod 2 =? 1); [|reflexivity]. unfold set_index. destruct (Nat.ltb_spec (length pre) (length (pre ++ false :: repeat false k))) as [_|Q].
      - now rewrite upd_app.
      - rewrite app_length in Q. cbn in Q. lia. }
    rewrite E. cbn [bind]. destruct (Nat.leb_spec (length pre + S k) (S (length pre))).
    + assert (k = 0%nat) by lia. subst k. cbn [repeat byte_bits_loop]. now rewrite app_nil_r.
    + specialize (IH fuel (x / 2) (pre ++ [x mod 2 =? 1]) ltac:(apply Z.div_pos; lia) ltac:(lia) ltac:(lia)).
      rewrite app_length in IH. cbn [length] in IH. replace (length pre + 1)%nat with (S (length pre)) in IH by lia. replace (S (length pre) + k)%nat with (length pre + S k)%nat in IH by lia.
      rewrite IH. now rewrite <- app_assoc.
Qed.
Lemma usize_to_bits_ok x n : 0 <= x -> (0 < n)%nat -> usize_to_bits x n = Some (Ok (byte_bits_loop n x)).
Proof. intros X N. unfold usize_to_bits. exact (usize_loop n (S n) x [] X ltac:(lia) N). Qed.
Lemma usize_to_bits_0 x : 0 <= x -> usize_to_bits x 0 = Some (if x mod 2 =? 1 then Panic else Ok []).
Proof.
  intros X. unfold usize_to_bits. cbn [usize_to_bits_loop repeat]. destruct (Z.leb_spec x 0).
  - assert (x = 0) by lia. subst. reflexivity.
  - destruct (x mod 2 =? 1); reflexivity.
Qed.
