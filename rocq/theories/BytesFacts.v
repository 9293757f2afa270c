(** Facts about bytes, little-endian digits, files and lists. *)
From Verif Require Import Base Sloth Common.
From Coq Require Import Strings.Byte.
From Coq Require Import List.
Local Open Scope nat_scope.

Lemma bind_ok {A B} (m : res A) (k : A -> res B) b :
  bind m k = Ok b -> exists a, m = Ok a /\ k a = Ok b.
Proof. destruct m as [a|]; cbn; intros E; [exists a; auto|discriminate]. Qed.

(** * Bytes *)
Lemma b2z_range b : (0 <= b2z b < 256)%Z.
Proof. unfold b2z. pose proof (to_N_bounded b). lia. Qed.
Lemma z2b_b2z b : z2b (b2z b) = b.
Proof.
  unfold z2b. rewrite Z.mod_small by apply b2z_range. unfold b2z. rewrite N2Z.id, of_to_N. reflexivity.
Qed.
Lemma b2z_z2b z : b2z (z2b z) = (z mod 256)%Z.
Proof.
  unfold z2b. pose proof (Z.mod_pos_bound z 256 ltac:(lia)) as B.
  destruct (of_N (Z.to_N (z mod 256))) as [b|] eqn:E.
  - apply to_of_N in E. unfold b2z. rewrite E. lia.
  - apply of_N_None_iff in E. lia.
Qed.
Lemma b2z_inj a b : b2z a = b2z b -> a = b.
Proof. intros E. rewrite <- (z2b_b2z a), E. apply z2b_b2z. Qed.

Local Open Scope Z_scope.
Lemma pow256_pos n : 0 < 256 ^ Z.of_nat n. Proof. apply Z.pow_pos_nonneg; lia. Qed.
Lemma pow256_S n : 256 ^ Z.of_nat (S n) = 256 * 256 ^ Z.of_nat n.
Proof. rewrite Nat2Z.inj_succ, Z.pow_succ_r by lia. reflexivity. Qed.

Lemma le2z_range l : 0 <= le2z l < 256 ^ Z.of_nat (length l).
Proof.
  induction l as [|b l IH]; [cbn; lia|]. cbn [le2z length]. rewrite pow256_S.
  pose proof (b2z_range b). lia.
Qed.
Lemma le2z_nonneg l : 0 <= le2z l. Proof. apply le2z_range. Qed.
Lemma le2z_app a b : le2z (a ++ b) = le2z a + 256 ^ Z.of_nat (length a) * le2z b.
Proof.
  induction a as [|x a IH]; [cbn [app length le2z]; rewrite Z.pow_0_r; lia|].
  cbn [app length le2z]. rewrite IH, pow256_S. ring.
Qed.
Lemma le2z_zeros n : le2z (zeros n) = 0.
Proof. induction n as [|n IH]; [reflexivity|]. cbn [zeros repeat le2z]. unfold zeros in IH. now rewrite IH. Qed.
Lemma zeros_length n : length (zeros n) = n. Proof. apply repeat_length. Qed.
Lemma le2z_app_zeros a n : le2z (a ++ zeros n) = le2z a.
Proof. rewrite le2z_app, le2z_zeros. lia. Qed.

Lemma le2z_inj a b : length a = length b -> le2z a = le2z b -> a = b.
Proof.
  revert b. induction a as [|x a IH]; intros [|y b] L E; try discriminate; [reflexivity|].
  cbn [le2z length] in *. pose proof (b2z_range x). pose proof (b2z_range y).
  assert (b2z x = b2z y /\ le2z a = le2z b) as [E1 E2] by lia.
  f_equal; [apply b2z_inj; exact E1|apply IH; [lia|exact E2]].
Qed.

Lemma z2le_fuel_val n z : 0 <= z < 256 ^ Z.of_nat n -> le2z (z2le_fuel n z) = z.
Proof.
  revert z. induction n as [|n IH]; intros z Hz; [cbn in *; lia|]. cbn [z2le_fuel].
  destruct (Z.leb_spec z 0); [cbn; lia|]. cbn [le2z]. rewrite pow256_S in Hz.
  rewrite IH by (split; [apply Z.div_pos; lia|apply Z.div_lt_upper_bound; lia]).
  rewrite b2z_z2b. pose proof (Z.div_mod z 256). lia.
Qed.
Lemma z2le_fuel_len n z k : z < 256 ^ Z.of_nat k -> (length (z2le_fuel n z) <= k)%nat.
Proof.
  revert z k. induction n as [|n IH]; intros z k Hz; [cbn; lia|]. cbn [z2le_fuel].
  destruct (Z.leb_spec z 0); [cbn; lia|]. destruct k as [|k]; [cbn in Hz; lia|].
  cbn [length]. apply le_n_S. apply IH. rewrite pow256_S in Hz. apply Z.div_lt_upper_bound; lia.
Qed.

Lemma z2le_bound z : Z.abs z < 256 ^ Z.of_nat (Z.to_nat (Z.log2 (Z.abs z)) + 1).
Proof.
  destruct (Z.eq_dec z 0) as [->|N]; [cbn; lia|].
  pose proof (Z.log2_spec (Z.abs z) ltac:(lia)) as [_ B]. pose proof (Z.log2_nonneg (Z.abs z)).
  eapply Z.lt_le_trans; [exact B|]. rewrite Nat2Z.inj_add, Z2Nat.id by lia.
  apply Z.pow_le_mono_l. lia.
Qed.
Lemma le2z_z2le z : le2z (z2le z) = Z.abs z.
Proof. apply z2le_fuel_val. pose proof (z2le_bound z). lia. Qed.
Lemma z2le_len_le z k : Z.abs z < 256 ^ Z.of_nat k <-> (length (z2le z) <= k)%nat.
Proof.
  split; [apply z2le_fuel_len|]. intros L. rewrite <- le2z_z2le.
  pose proof (le2z_range (z2le z)). eapply Z.lt_le_trans; [apply H|]. apply Z.pow_le_mono_r; lia.
Qed.

Lemma pad_to_len l z : Z.abs z < 256 ^ Z.of_nat l -> length (pad_to l (z2le z)) = l.
Proof.
  intros B. apply z2le_len_le in B. unfold pad_to. destruct (Nat.ltb_spec (length (z2le z)) l).
  - rewrite app_length, zeros_length. lia.
  - lia.
Qed.
Lemma le2z_pad_to l bs : le2z (pad_to l bs) = le2z bs.
Proof. unfold pad_to. destruct (length bs <? l)%nat; [apply le2z_app_zeros|reflexivity]. Qed.

Lemma pad_exact_ok l z : Z.abs z < 256 ^ Z.of_nat l ->
  exists bs, pad_exact l (z2le z) = Ok bs /\ length bs = l /\ le2z bs = Z.abs z.
Proof.
  intros B. apply z2le_len_le in B. unfold pad_exact. destruct (Nat.leb_spec (length (z2le z)) l); [|lia].
  eexists. split; [reflexivity|]. split; [rewrite app_length, zeros_length; lia|].
  rewrite le2z_app_zeros. apply le2z_z2le.
Qed.
Lemma pad_exact_panic l z : 256 ^ Z.of_nat l <= Z.abs z -> pad_exact l (z2le z) = Panic.
Proof.
  intros B. unfold pad_exact. destruct (Nat.leb_spec (length (z2le z)) l) as [L|L]; [|reflexivity].
  apply z2le_len_le in L. lia.
Qed.

(** * modadd / modsub *)
Lemma modadd_ok u h p : 1 < p -> p <= 256 ^ Z.of_nat (length u) ->
  exists r, modadd u h p = Ok r /\ length r = length u /\ le2z r = (le2z u + le2z h) mod p.
Proof.
  intros Hp Hl. unfold modadd. destruct (Z.eqb_spec p 0); [lia|].
  pose proof (le2z_nonneg u). pose proof (le2z_nonneg h).
  rewrite Z.rem_mod_nonneg by lia. pose proof (Z.mod_pos_bound (le2z u + le2z h) p ltac:(lia)) as B.
  destruct (pad_exact_ok (length u) ((le2z u + le2z h) mod p)) as (r & E & L & V); [lia|].
  exists r. split; [exact E|]. split; [exact L|]. rewrite V. lia.
Qed.
Lemma modsub_ok u h p : 1 < p -> p <= 256 ^ Z.of_nat (length u) -> le2z h <= le2z u + p ->
  exists r, modsub u h p = Ok r /\ length r = length u /\ le2z r = (le2z u - le2z h) mod p.
Proof.
  intros Hp Hl Hh. unfold modsub. destruct (Z.eqb_spec p 0); [lia|].
  pose proof (le2z_nonneg u). pose proof (le2z_nonneg h).
  rewrite Z.rem_mod_nonneg by lia.
  pose proof (Z.mod_pos_bound (le2z u + p - le2z h) p ltac:(lia)) as B.
  destruct (pad_exact_ok (length u) ((le2z u + p - le2z h) mod p)) as (r & E & L & V); [lia|].
  exists r. split; [exact E|]. split; [exact L|]. rewrite V, Z.abs_eq by lia.
  replace (le2z u + p - le2z h) with (le2z u - le2z h + 1 * p) by ring. apply Z_mod_plus_full.
Qed.

Lemma modsub_modadd u h p a : 1 < p -> p <= 256 ^ Z.of_nat (length u) -> le2z u < p -> le2z h <= p ->
  modadd u h p = Ok a -> modsub a h p = Ok u.
Proof.
  intros Hp Hl Hu Hh E. destruct (modadd_ok u h p Hp Hl) as (r & E' & L & V).
  rewrite E in E'. injection E' as <-. pose proof (le2z_nonneg u). pose proof (le2z_nonneg h).
  pose proof (le2z_nonneg a).
  destruct (modsub_ok a h p Hp) as (s & Es & Ls & Vs); [rewrite L; exact Hl|lia|].
  rewrite Es. f_equal. apply le2z_inj; [lia|]. rewrite Vs, V.
  rewrite Zminus_mod_idemp_l. replace (le2z u + le2z h - le2z h) with (le2z u) by ring.
  apply Z.mod_small. lia.
Qed.

(** * Lists, files *)
Local Open Scope nat_scope.
Lemma upd_length {A} (l : list A) i a : length (upd l i a) = length l.
Proof. revert i. induction l as [|x l IH]; intros [|i]; cbn; auto. Qed.
Lemma nth_error_upd_eq {A} (l : list A) i a : i < length l -> nth_error (upd l i a) i = Some a.
Proof. revert i. induction l as [|x l IH]; intros [|i] L; cbn in *; try lia; [reflexivity|]. apply IH. lia. Qed.
Lemma nth_error_upd_neq {A} (l : list A) i j a : i <> j -> nth_error (upd l i a) j = nth_error l j.
Proof. revert i j. induction l as [|x l IH]; intros [|i] [|j] N; cbn; try reflexivity; try lia. apply IH. lia. Qed.
Lemma index_upd_eq {A} (l : list A) i a : i < length l -> index (upd l i a) i = Ok a.
Proof. intros L. unfold index. now rewrite nth_error_upd_eq. Qed.
Lemma index_upd_neq {A} (l : list A) i j a : i <> j -> index (upd l i a) j = index l j.
Proof. intros L. unfold index. now rewrite nth_error_upd_neq. Qed.
Lemma index_ok {A} (l : list A) i : i < length l -> exists a, index l i = Ok a.
Proof. intros L. unfold index. destruct (nth_error l i) eqn:E; [eauto|]. apply nth_error_None in E. lia. Qed.
Lemma index_lt {A} (l : list A) i a : index l i = Ok a -> i < length l.
Proof. unfold index. destruct (nth_error l i) eqn:E; [|discriminate]. intros _. apply nth_error_Some. congruence. Qed.
Lemma index_In {A} (l : list A) i a : index l i = Ok a -> In a l.
Proof. unfold index. destruct (nth_error l i) eqn:E; [|discriminate]. intros [= <-]. eapply nth_error_In; eauto. Qed.
Lemma index_panic {A} (l : list A) i : length l <= i -> index l i = Panic.
Proof. intros L. unfold index. apply nth_error_None in L. now rewrite L. Qed.
Lemma set_index_ok {A} (l : list A) i a : i < length l -> set_index l i a = Ok (upd l i a).
Proof. intros L. unfold set_index. destruct (Nat.ltb_spec i (length l)); [reflexivity|lia]. Qed.
Lemma upd_same {A} (l : list A) i a : index l i = Ok a -> upd l i a = l.
Proof.
  revert i. induction l as [|x l IH]; intros [|i]; cbn; try discriminate.
  - unfold index; cbn. now intros [= ->].
  - intros E. f_equal. apply IH. exact E.
Qed.
Lemma upd_upd {A} (l : list A) i a b : upd (upd l i a) i b = upd l i b.
Proof. revert i. induction l as [|x l IH]; intros [|i]; cbn; try reflexivity. now rewrite IH. Qed.
Lemma Forall_upd {A} (P : A -> Prop) l i a : Forall P l -> P a -> Forall P (upd l i a).
Proof.
  intros F Pa. revert i. induction F as [|x l Px F IH]; intros [|i]; cbn; constructor; auto.
Qed.
Lemma list_ext {A} (l1 l2 : list A) : (forall i, nth_error l1 i = nth_error l2 i) -> l1 = l2.
Proof.
  revert l2. induction l1 as [|x l1 IH]; intros [|y l2] E; [reflexivity| | |].
  - specialize (E 0). discriminate.
  - specialize (E 0). discriminate.
  - f_equal; [specialize (E 0); cbn in E; congruence|]. apply IH. intros i. exact (E (S i)).
Qed.

Lemma read_file_length f b l : length (read_file f b l) = l.
Proof. unfold read_file. rewrite app_length, zeros_length, firstn_length. lia. Qed.
Lemma read_file_nth f b l k : k < l -> nth_error (read_file f b l) k = Some (nth (b + k) f x00).
Proof.
  intros K. unfold read_file. set (a := firstn l (skipn b f)).
  assert (La : length a = Nat.min l (length f - b)) by (unfold a; rewrite firstn_length, skipn_length; lia).
  destruct (Nat.lt_ge_cases k (length a)) as [C|C].
  - rewrite nth_error_app1 by exact C. erewrite nth_error_nth' with (d := x00) by exact C. f_equal.
    unfold a. rewrite <- (firstn_skipn b f) at 2.
    assert (Lb : length (firstn b f) = b) by (rewrite firstn_length; lia).
    rewrite app_nth2 by lia. rewrite Lb. replace (b + k - b) with k by lia.
    rewrite <- (firstn_skipn l (skipn b f)) at 2. rewrite app_nth1 by (rewrite firstn_length, skipn_length; lia).
    reflexivity.
  - rewrite nth_error_app2 by exact C. rewrite nth_overflow by lia.
    unfold zeros. rewrite nth_error_repeat by lia. reflexivity.
Qed.
Lemma read_file_full f b l : b + l <= length f -> read_file f b l = firstn l (skipn b f).
Proof.
  intros L. unfold read_file. rewrite firstn_length, skipn_length.
  replace (l - Nat.min l (length f - b)) with 0 by lia. apply app_nil_r.
Qed.
Lemma read_file_ext f g b l : (forall k, b <= k < b + l -> nth k f x00 = nth k g x00) ->
  read_file f b l = read_file g b l.
Proof.
  intros E. apply list_ext. intros i. destruct (Nat.lt_ge_cases i l) as [C|C].
  - rewrite !read_file_nth by exact C. f_equal. apply E. lia.
  - assert (H1 := read_file_length f b l). assert (H2 := read_file_length g b l).
    rewrite (proj2 (nth_error_None _ _)) by lia. symmetry. apply nth_error_None. lia.
Qed.

Lemma write_at_length f pos buf : pos + length buf <= length f -> length (write_at f pos buf) = length f.
Proof.
  intros L. unfold write_at. destruct buf as [|x buf]; [reflexivity|]. set (b := x :: buf) in *.
  rewrite !app_length, zeros_length, firstn_length, skipn_length. lia.
Qed.
Lemma write_at_nth f pos buf k : pos + length buf <= length f ->
  nth k (write_at f pos buf) x00 =
  if (pos <=? k) && (k <? pos + length buf) then nth (k - pos) buf x00 else nth k f x00.
Proof.
  intros L. unfold write_at. destruct buf as [|x buf].
  { destruct (Nat.leb_spec pos k), (Nat.ltb_spec k (pos + length (@nil byte))); cbn in *; try reflexivity; lia. }
  set (b := x :: buf) in *. clearbody b. replace (pos - length f) with 0 by lia. cbn [zeros repeat app].
  assert (Lf : length (firstn pos f) = pos) by (rewrite firstn_length; lia).
  destruct (Nat.leb_spec pos k) as [C|C].
  - rewrite app_nth2 by lia. rewrite Lf. destruct (Nat.ltb_spec k (pos + length b)) as [D|D]; cbn [andb].
    + rewrite app_nth1 by lia. reflexivity.
    + rewrite app_nth2 by lia. rewrite <- (firstn_skipn (pos + length b) f) at 2.
      rewrite app_nth2 by (rewrite firstn_length; lia). rewrite firstn_length. f_equal. lia.
  - rewrite app_nth1 by lia. cbn [andb]. rewrite <- (firstn_skipn pos f) at 2.
    rewrite app_nth1 by lia. reflexivity.
Qed.
Lemma read_write_same f pos buf : pos + length buf <= length f -> read_file (write_at f pos buf) pos (length buf) = buf.
Proof.
  intros L. apply list_ext. intros i. destruct (Nat.lt_ge_cases i (length buf)) as [C|C].
  - rewrite read_file_nth by exact C. rewrite write_at_nth by exact L.
    destruct (Nat.leb_spec pos (pos + i)); [|lia]. destruct (Nat.ltb_spec (pos + i) (pos + length buf)); [|lia].
    cbn [andb]. replace (pos + i - pos) with i by lia. symmetry. apply nth_error_nth'. exact C.
  - assert (H1 := read_file_length (write_at f pos buf) pos (length buf)).
    rewrite (proj2 (nth_error_None _ _)) by lia. symmetry. apply nth_error_None. lia.
Qed.
Lemma read_write_other f pos buf b l : pos + length buf <= length f ->
  b + l <= pos \/ pos + length buf <= b -> read_file (write_at f pos buf) b l = read_file f b l.
Proof.
  intros L D. apply read_file_ext. intros k K. rewrite write_at_nth by exact L.
  destruct (Nat.leb_spec pos k), (Nat.ltb_spec k (pos + length buf)); cbn [andb]; try reflexivity; lia.
Qed.
Lemma file_ext (f g : file) : length f = length g -> (forall k, k < length f -> nth k f x00 = nth k g x00) -> f = g.
Proof. intros L E. apply (nth_ext f g x00 x00 L E). Qed.

(** * to_units / com_units *)
Lemma fold_left_app {A} (l : list (list A)) acc : fold_left (fun a u => a ++ u) l acc = acc ++ concat l.
Proof.
  revert acc. induction l as [|x l IH]; intros acc; cbn; [now rewrite app_nil_r|].
  rewrite IH. now rewrite app_assoc.
Qed.
Lemma com_units_concat us : com_units us = concat us.
Proof. unfold com_units. now rewrite fold_left_app. Qed.

Lemma mapM_ok {A B} (f : A -> res B) (g : A -> B) l : (forall a, In a l -> f a = Ok (g a)) -> mapM f l = Ok (map g l).
Proof.
  induction l as [|a l IH]; intros E; [reflexivity|]. cbn. rewrite E by now left. cbn.
  rewrite IH by (intros; apply E; now right). reflexivity.
Qed.
Lemma mapM_exists {A B} (f : A -> res B) (P : A -> B -> Prop) l :
  (forall a, In a l -> exists b, f a = Ok b /\ P a b) -> exists bs, mapM f l = Ok bs /\ Forall2 P l bs.
Proof.
  induction l as [|a l IH]; intros E; [exists []; split; [reflexivity|constructor]|].
  destruct (E a) as (b & Eb & Pb); [now left|]. destruct IH as (bs & Ebs & F); [intros; apply E; now right|].
  exists (b :: bs). cbn. rewrite Eb. cbn. rewrite Ebs. split; [reflexivity|now constructor].
Qed.
Lemma mapM_ext {A B} (f g : A -> res B) l : (forall a, In a l -> f a = g a) -> mapM f l = mapM g l.
Proof.
  induction l as [|a l IH]; intros E; [reflexivity|]. cbn. rewrite E by now left.
  rewrite IH by (intros; apply E; now right). reflexivity.
Qed.
Lemma mapM_length {A B} (f : A -> res B) l r : mapM f l = Ok r -> length r = length l.
Proof.
  revert r. induction l as [|a l IH]; intros r; cbn; [intros [= <-]; reflexivity|].
  destruct (f a); cbn; [|discriminate]. destruct (mapM f l); cbn; [|discriminate].
  intros [= <-]. cbn. f_equal. now apply IH.
Qed.
Lemma mapM_index {A B} (f : A -> res B) l r i a : mapM f l = Ok r -> nth_error l i = Some a ->
  exists b, f a = Ok b /\ index r i = Ok b.
Proof.
  revert r i. induction l as [|x l IH]; intros r i; cbn; [destruct i; discriminate|].
  destruct (f x) as [b|] eqn:E; cbn; [|discriminate]. destruct (mapM f l) as [bs|] eqn:E2; cbn; [|discriminate].
  intros [= <-]. destruct i as [|i]; cbn.
  - intros [= ->]. exists b. split; [exact E|reflexivity].
  - intros N. destruct (IH bs i eq_refl N) as (c & Ec & Ic). exists c. split; [exact Ec|exact Ic].
Qed.
Lemma mapM_panic {A B} (f : A -> res B) l a : In a l -> f a = Panic -> mapM f l = Panic.
Proof.
  induction l as [|x l IH]; cbn; [tauto|]. intros [->|I] E; [now rewrite E|].
  destruct (f x); [|reflexivity]. cbn. now rewrite IH.
Qed.

(** The pure version of to_units for a non-zero divisor of the length. *)
Definition chunk (len : nat) (data : list byte) (i : nat) : list byte := firstn len (skipn (i * len) data).
Definition chunks (len cnt : nat) (data : list byte) : list (list byte) := map (chunk len data) (seq 0 cnt).

Lemma skipn_skipn' {A} (m n : nat) (l : list A) : skipn m (skipn n l) = skipn (n + m) l.
Proof.
  revert l. induction n as [|n IH]; intros l; [reflexivity|].
  destruct l as [|x l]; [now rewrite !skipn_nil|]. cbn. apply IH.
Qed.
Lemma chunks_cons len cnt data : chunks len (S cnt) data = firstn len data :: chunks len cnt (skipn len data).
Proof.
  unfold chunks. cbn [seq map]. f_equal. rewrite <- seq_shift, map_map. apply map_ext. intros i.
  unfold chunk. rewrite skipn_skipn'. reflexivity.
Qed.
Lemma concat_chunks len cnt data : length data = cnt * len -> concat (chunks len cnt data) = data.
Proof.
  revert data. induction cnt as [|cnt IH]; intros data L.
  - destruct data; [reflexivity|cbn in L; lia].
  - rewrite chunks_cons. cbn [concat]. rewrite IH by (rewrite skipn_length; lia). apply firstn_skipn.
Qed.
Lemma chunks_length len cnt data : length (chunks len cnt data) = cnt.
Proof. unfold chunks. now rewrite map_length, seq_length. Qed.
Lemma chunks_each len cnt data : length data = cnt * len -> Forall (fun u => length u = len) (chunks len cnt data).
Proof.
  intros L. apply Forall_forall. intros u U. unfold chunks in U. apply in_map_iff in U as (i & <- & I).
  apply in_seq in I. unfold chunk. rewrite firstn_length, skipn_length. rewrite L.
  assert (i * len + len <= cnt * len) by nia. lia.
Qed.
Lemma chunks_concat len us : Forall (fun u => length u = len) us -> chunks len (length us) (concat us) = us.
Proof.
  induction us as [|u us IH]; intros F; [reflexivity|]. inversion F as [|? ? Lu F']; subst.
  cbn [length]. rewrite chunks_cons. cbn [concat].
  rewrite firstn_app, firstn_all, Nat.sub_diag, firstn_O, app_nil_r.
  rewrite skipn_app, skipn_all, Nat.sub_diag. cbn [skipn app]. f_equal. now apply IH.
Qed.
Lemma concat_length_uniform len (us : list (list byte)) : Forall (fun u => length u = len) us -> length (concat us) = length us * len.
Proof. induction 1 as [|u us L F IH]; [reflexivity|]. cbn. rewrite app_length, IH, L. reflexivity. Qed.

Lemma ceil_div_mul cnt len : 0 < len -> ceil_div (cnt * len) len = cnt.
Proof.
  intros L. unfold ceil_div. replace (cnt * len + (len - 1)) with ((len - 1) + cnt * len) by lia.
  rewrite Nat.div_add by lia. rewrite Nat.div_small by lia. reflexivity.
Qed.
Lemma to_units_ok len cnt data : 0 < len -> length data = cnt * len -> to_units data len = Ok (chunks len cnt data).
Proof.
  intros L E. unfold to_units, step_by. destruct len as [|len']; [lia|]. set (len := S len') in *. clearbody len. clear len'.
  cbn [bind]. rewrite E, ceil_div_mul by lia.
  rewrite mapM_ok with (g := fun i => firstn len (skipn i data)).
  - unfold chunks. rewrite map_map. reflexivity.
  - intros a I. apply in_map_iff in I as (k & <- & I). apply in_seq in I. unfold slice.
    assert (k * len + len <= cnt * len) by nia.
    destruct (Nat.leb_spec (k * len) (k * len + len)); [|lia].
    destruct (Nat.leb_spec (k * len + len) (length data)); [|lia]. cbn [andb]. do 2 f_equal. lia.
Qed.
Lemma to_units_panic len data : 0 < len -> ~ Nat.divide len (length data) -> to_units data len = Panic.
Proof.
  intros L ND. unfold to_units, step_by. destruct len as [|len']; [lia|]. set (len := S len') in *. clearbody len. clear len'.
  cbn [bind]. set (n := length data) in *.
  pose proof (Nat.div_mod n len ltac:(lia)) as DM. pose proof (Nat.mod_upper_bound n len ltac:(lia)) as MB.
  assert (MN : n mod len <> 0) by (intros E0; apply ND; exists (n / len); lia).
  assert (C : ceil_div n len = S (n / len)).
  { unfold ceil_div. rewrite DM at 1. replace (len * (n / len) + n mod len + (len - 1)) with ((n mod len - 1) + S (n / len) * len) by lia.
    rewrite Nat.div_add by lia. rewrite Nat.div_small by lia. reflexivity. }
  apply mapM_panic with (a := n / len * len).
  - apply in_map_iff. exists (n / len). split; [reflexivity|]. apply in_seq. lia.
  - unfold slice. fold n. destruct (Nat.leb_spec (n / len * len + len) n); [lia|]. now rewrite andb_false_r.
Qed.
