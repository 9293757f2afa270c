(** Facts about preparing, marking and reading the space. *)
From Coq Require Import Strings.Byte Sorted.
From Verif Require Import Base BytesFacts Field Mimc Convert ConvertFacts Space.

(** * Overwriting bits *)
Fixpoint splice (L : list bool) (p : nat) (l : list bool) : list bool :=
  match l with
  | [] => L
  | b :: l' => splice (upd L p b) (S p) l'
  end.
Lemma upd_length {A} (l : list A) : forall i a, length (upd l i a) = length l.
Proof. induction l; intros [|i] b; cbn; auto. Qed.
Lemma nth_upd {A} (l : list A) : forall i k a, nth_error (upd l i a) k = if (i =? k) && (i <? length l) then Some a else nth_error l k.
Proof.
  induction l as [|x l IH]; intros i k a; [now destruct i, k; cbn; rewrite ?andb_false_r|].
  destruct i as [|i], k as [|k]; cbn [upd nth_error]; try reflexivity. rewrite IH. reflexivity.
Qed.
Lemma splice_length l : forall L p, length (splice L p l) = length L.
Proof. induction l; intros; cbn [splice]; [reflexivity|]. now rewrite IHl, upd_length. Qed.
Lemma nth_splice l : forall L p i, p + length l <= length L ->
  nth_error (splice L p l) i = if (p <=? i) && (i <? p + length l) then nth_error l (i - p) else nth_error L i.
Proof.
  induction l as [|b l IH]; intros L p i B; cbn [splice length] in *.
  - rewrite Nat.add_0_r. destruct (Nat.leb_spec p i), (Nat.ltb_spec i p); cbn; reflexivity || lia.
  - rewrite IH by (rewrite upd_length; lia). rewrite nth_upd.
    destruct (Nat.eqb_spec p i), (Nat.ltb_spec p (length L)), (Nat.leb_spec (S p) i), (Nat.leb_spec p i), (Nat.ltb_spec i (S p + length l)), (Nat.ltb_spec i (p + S (length l))); cbn [andb]; try lia; try reflexivity.
    + subst. now rewrite Nat.sub_diag.
    + replace (i - p) with (S (i - S p)) by lia. reflexivity.
Qed.
Lemma upd_mid {A} (a c : list A) : forall b j x, j < length b -> upd (a ++ b ++ c) (length a + j) x = a ++ upd b j x ++ c.
Proof.
  intros b j x B. induction a as [|y a IH]; cbn [app length Nat.add upd]; [|now rewrite IH].
  revert j B. induction b as [|z b IHb]; intros j B; [cbn in B; lia|]. destruct j; [reflexivity|]. cbn [app upd]. f_equal. apply IHb. cbn in B. lia.
Qed.

Lemma bits_length8 b : length (bytes_to_bits [b]) = 8.
Proof. now rewrite bytes_to_bits_length. Qed.
Lemma bits_one b : bytes_to_bits [b] = byte_bits b.
Proof. cbn [bytes_to_bits flat_map]. apply app_nil_r. Qed.
Lemma write_mid a c d e : write_at (a ++ c :: d) (length a) [e] = a ++ e :: d.
Proof.
  unfold write_at. cbn [length]. rewrite firstn_app, Nat.sub_diag, firstn_O, app_nil_r, firstn_all. f_equal.
  replace (length a - length (a ++ c :: d)) with 0 by (rewrite app_length; cbn; lia). cbn [zeros repeat app]. f_equal.
  rewrite skipn_app, skipn_all2 by lia. replace (length a + 1 - length a) with 1 by lia. reflexivity.
Qed.
Lemma read_mid a c d buf : length buf = 1 -> read_into (a ++ c :: d) (length a) buf = [c].
Proof.
  intros L. unfold read_into. rewrite L, skipn_app, skipn_all2, Nat.sub_diag by lia. cbn [app skipn firstn length].
  destruct buf as [|x [|y t]]; try discriminate. reflexivity.
Qed.
Lemma read_end a buf : length buf = 1 -> read_into a (length a) buf = buf.
Proof. intros L. unfold read_into. rewrite skipn_all2 by lia. now rewrite firstn_nil. Qed.

(** What the file will contain once the pending byte is written. *)
Inductive pending (L : list bool) : file -> nat -> list bool -> nat -> Prop :=
| Pend_in a c d bb j : length bb = 8 -> j < 8 -> L = bytes_to_bits a ++ bb ++ bytes_to_bits d ->
    (j = 0 -> bb = byte_bits c) -> pending L (a ++ c :: d) (length a) bb j
| Pend_end f bb : L = bytes_to_bits f -> pending L f (length f) bb 0.

Lemma pend_read L f buf idx : length buf = 1 -> idx <= length f -> L = bytes_to_bits f ->
  pending L f idx (bytes_to_bits (read_into f idx buf)) 0.
Proof.
  intros B I E. destruct (Nat.eq_dec idx (length f)) as [->|N]; [now constructor|].
  destruct (skipn idx f) as [|c d] eqn:S; [apply (f_equal (@length byte)) in S; rewrite skipn_length in S; cbn [length] in S; lia|].
  assert (F : f = firstn idx f ++ c :: d) by (now rewrite <- S, firstn_skipn).
  assert (LA : length (firstn idx f) = idx) by (rewrite firstn_length; lia). set (a := firstn idx f) in *. clearbody a. clear S I. subst f idx. rewrite read_mid by exact B.
  cbn [bytes_to_bits flat_map]. rewrite app_nil_r. constructor; [apply byte_bits_length|lia| |reflexivity].
  rewrite E, bytes_to_bits_app, bytes_to_bits_cons. reflexivity.
Qed.

Definition commit (pr : profile) (s : file * nat * list byte * list bool * nat) : res file :=
  let '(f, idx, buf, buf_bits, j) := s in
  if (j =? 0) then Ok f else let* buf := bits_to_bytes pr buf_bits in Ok (write_at f idx buf).
Lemma mark_loop pr : forall l L f idx buf bb j, length buf = 1 -> pending L f idx bb j ->
  8 * idx + j + length l <= length L ->
  exists s f', foldM (mark_bit pr) l (f, idx, buf, bb, j) = Ok s /\ commit pr s = Ok f' /\
  bytes_to_bits f' = splice L (8 * idx + j) l.
Proof.
  induction l as [|b l IH]; intros L f idx buf bb j LB P B.
  - cbn [foldM splice]. inversion P as [a c d bb' j' L8 J EL Z|f0 bb' EL]; subst f idx; subst bb' ; try subst j'.
    + destruct (Nat.eqb_spec j 0) as [->|NZ].
      * eexists _, _. split; [reflexivity|]. cbn [commit Nat.eqb]. split; [reflexivity|]. rewrite bytes_to_bits_app, bytes_to_bits_cons, <- (Z eq_refl). now symmetry.
      * destruct (pack_length8 bb 1 L8) as [PL PB]. destruct (pack bb) as [|e [|]] eqn:PK; try discriminate.
        eexists _, (write_at (a ++ c :: d) (length a) [e]). split; [reflexivity|]. cbn [commit]. rewrite (proj2 (Nat.eqb_neq j 0) NZ), bits_to_bytes_pack, PK. cbn [bind]. split; [reflexivity|].
        rewrite write_mid, bytes_to_bits_app, bytes_to_bits_cons. cbn [bytes_to_bits flat_map] in PB. rewrite app_nil_r in PB. rewrite PB. now symmetry.
    + subst j. eexists _, _. split; [reflexivity|]. cbn [commit Nat.eqb]. now split.
  - cbn [length] in B. inversion P as [a c d bb' j' L8 J EL Z|f0 bb' EL]; subst f idx; subst bb'; try subst j'.
    2:{ subst j. rewrite EL, bytes_to_bits_length in B. lia. }
    assert (U : upd L (8 * length a + j) b = bytes_to_bits a ++ upd bb j b ++ bytes_to_bits d).
    { rewrite EL. rewrite <- (bytes_to_bits_length a). apply upd_mid. lia. }
    cbn [foldM splice]. unfold mark_bit at 1. unfold set_index. rewrite L8. destruct (Nat.ltb_spec j 8); [|lia]. cbn [bind].
    assert (L8' : length (upd bb j b) = 8) by (now rewrite upd_length).
    destruct (Nat.eqb_spec (S j) 8) as [J8|J8].
    + rewrite bits_to_bytes_pack. cbn [bind]. destruct (pack_length8 _ 1 L8') as [PL PB]. destruct (pack (upd bb j b)) as [|e [|]]; try discriminate.
      rewrite write_mid. cbn [bytes_to_bits flat_map] in PB. rewrite app_nil_r in PB.
      assert (E' : upd L (8 * length a + j) b = bytes_to_bits (a ++ e :: d)) by (rewrite U, bytes_to_bits_app, bytes_to_bits_cons, PB; reflexivity).
      assert (I' : S (length a) <= length (a ++ e :: d)) by (rewrite app_length; cbn; lia).
      pose proof (pend_read _ (a ++ e :: d) [e] (S (length a)) eq_refl I' E') as P'.
      assert (RB : length (read_into (a ++ e :: d) (S (length a)) [e]) = 1).
      { unfold read_into. cbn [length]. rewrite app_length, skipn_length, firstn_length. cbn [length]. lia. }
      destruct (IH _ _ _ _ _ _ RB P' ltac:(rewrite upd_length; lia)) as (s & f' & R & C & E). exists s, f'. split; [exact R|]. split; [exact C|].
      rewrite E. f_equal. lia.
    + assert (P' : pending (upd L (8 * length a + j) b) (a ++ c :: d) (length a) (upd bb j b) (S j)) by (constructor; auto; lia).
      destruct (IH _ _ _ _ _ _ LB P' ltac:(rewrite upd_length; lia)) as (s & f' & R & C & E). exists s, f'. split; [exact R|]. split; [exact C|].
      rewrite E. f_equal. lia.
Qed.

(** Slot y of a file of (n+1)-bit slots. *)
Definition slot (f : file) (n y : nat) : list bool := firstn (n + 1) (skipn ((n + 1) * y) (bytes_to_bits f)).

Lemma mark_slot_ok pr n f y l : length l = n + 1 -> (Z.of_nat ((n + 1) * y) < two64)%Z -> (n + 1) * (y + 1) <= 8 * length f ->
  exists f', mark_slot pr n f (Z.of_nat y) l = Ok f' /\ bytes_to_bits f' = splice (bytes_to_bits f) ((n + 1) * y) l.
Proof.
  intros LL U B. unfold mark_slot. assert (E : ((Z.of_nat n + 1) * Z.of_nat y)%Z = Z.of_nat ((n + 1) * y)) by lia. rewrite E.
  rewrite usz_in by lia. cbn [bind]. change 8%Z with (Z.of_nat 8). rewrite <- Nat2Z.inj_div, <- Nat2Z.inj_mod, !Nat2Z.id.
  replace ((n + 1) * (y + 1)) with ((n + 1) * y + (n + 1)) in B by ring. set (p := (n + 1) * y) in *. assert (P8 : 8 * (p / 8) + p mod 8 = p) by (symmetry; apply Nat.div_mod; lia). pose proof (Nat.mod_upper_bound p 8 ltac:(lia)).
  assert (PD : p / 8 < length f) by (apply Nat.div_lt_upper_bound; lia).
  assert (PEND : pending (bytes_to_bits f) f (p / 8) (bytes_to_bits (read_into f (p / 8) [x00])) (p mod 8)).
  { destruct (skipn (p / 8) f) as [|c d] eqn:S; [apply (f_equal (@length byte)) in S; rewrite skipn_length in S; cbn [length] in S; lia|].
    assert (F : f = firstn (p / 8) f ++ c :: d) by (now rewrite <- S, firstn_skipn).
    assert (LA : length (firstn (p / 8) f) = p / 8) by (rewrite firstn_length; lia). set (a := firstn (p / 8) f) in *. rewrite F, <- LA, read_mid by reflexivity.
    cbn [bytes_to_bits flat_map]. rewrite app_nil_r. constructor; [apply byte_bits_length|lia| |reflexivity]. now rewrite bytes_to_bits_app, bytes_to_bits_cons. }
  assert (RB : length (read_into f (p / 8) [x00]) = 1).
  { unfold read_into. cbn [length]. rewrite app_length, skipn_length, firstn_length. cbn [length]. lia. }
  destruct (mark_loop pr l _ _ _ _ _ _ RB PEND) as (s & f' & R & C & EB); [rewrite bytes_to_bits_length; lia|].
  rewrite R. cbn [bind]. destruct s as ((((f1 & i1) & b1) & bb1) & j1). exists f'. split; [exact C|]. now rewrite P8 in EB.
Qed.

Lemma nth_firstn_lt {A} k : forall (l : list A) i, i < k -> nth_error (firstn k l) i = nth_error l i.
Proof. induction k; intros l i L; [lia|]. destruct l, i; cbn; auto. apply IHk. lia. Qed.
Lemma nth_skipn {A} k : forall (l : list A) i, nth_error (skipn k l) i = nth_error l (k + i).
Proof. induction k; intros l i; [reflexivity|]. destruct l; cbn [skipn Nat.add nth_error]; [now destruct i|]. apply IHk. Qed.
Lemma list_ext {A} (l m : list A) : (forall i, nth_error l i = nth_error m i) -> l = m.
Proof.
  revert m. induction l as [|x l IH]; intros m E; destruct m as [|y m]; auto; try (specialize (E 0); discriminate).
  pose proof (E 0) as E0. cbn in E0. injection E0 as ->. f_equal. apply IH. intros i. exact (E (S i)).
Qed.
Lemma slot_ext f g n y : (forall i, i < n + 1 -> nth_error (bytes_to_bits f) ((n + 1) * y + i) = nth_error (bytes_to_bits g) ((n + 1) * y + i)) -> slot f n y = slot g n y.
Proof.
  intros E. apply list_ext. intros i. unfold slot. destruct (Nat.lt_ge_cases i (n + 1)) as [L|L].
  - rewrite !nth_firstn_lt, !nth_skipn by exact L. now apply E.
  - rewrite !(proj2 (nth_error_None _ _)); [reflexivity| |]; rewrite firstn_length; lia.
Qed.
Lemma slot_length f n y : (n + 1) * (y + 1) <= 8 * length f -> length (slot f n y) = n + 1.
Proof. intros B. unfold slot. rewrite firstn_length, skipn_length, bytes_to_bits_length. lia. Qed.

(** The effect of one marking on every slot. *)
Lemma mark_slot_slots pr n f y l : length l = n + 1 -> (Z.of_nat ((n + 1) * y) < two64)%Z -> (n + 1) * (y + 1) <= 8 * length f ->
  exists f', mark_slot pr n f (Z.of_nat y) l = Ok f' /\ length f' = length f /\ slot f' n y = l /\
  forall y', y' <> y -> slot f' n y' = slot f n y'.
Proof.
  intros LL U B. destruct (mark_slot_ok pr n f y l LL U B) as (f' & E & EB). exists f'. split; [exact E|].
  assert (LB : (n + 1) * y + length l <= length (bytes_to_bits f)) by (rewrite bytes_to_bits_length; lia).
  split; [|split].
  - apply (f_equal (@length bool)) in EB. rewrite splice_length, !bytes_to_bits_length in EB. lia.
  - apply list_ext. intros i. unfold slot. destruct (Nat.lt_ge_cases i (n + 1)) as [L|L].
    + rewrite nth_firstn_lt, nth_skipn, EB, nth_splice by auto.
      destruct (Nat.leb_spec ((n + 1) * y) ((n + 1) * y + i)), (Nat.ltb_spec ((n + 1) * y + i) ((n + 1) * y + length l)); try lia. cbn [andb]. f_equal. lia.
    + rewrite !(proj2 (nth_error_None _ _)); [reflexivity|lia|rewrite firstn_length; lia].
  - intros y' N. apply slot_ext. intros i L. rewrite EB, nth_splice by auto.
    destruct (Nat.leb_spec ((n + 1) * y) ((n + 1) * y' + i)), (Nat.ltb_spec ((n + 1) * y' + i) ((n + 1) * y + length l)); try reflexivity. cbn [andb]. exfalso. nia.
Qed.

(** * Marking a whole space *)
Definition int_bits (n : nat) (x : nat) : list bool := byte_bits_loop n (Z.of_nat x).
Lemma int_bits_length n x : length (int_bits n x) = n.
Proof. apply bits_loop_length. Qed.
(** Slot y after the inputs below X have been marked: the largest preimage wins. *)
Definition slot_spec (g : nat -> nat) (n X y : nat) (s : list bool) : Prop :=
  (exists x, x < X /\ g x = y /\ (forall x', x < x' < X -> g x' <> y) /\ s = int_bits n x ++ [true]) \/
  ((forall x, x < X -> g x <> y) /\ s = repeat false (n + 1)).

Lemma mark_all pr n (g : nat -> nat) (step : file -> nat -> res file) :
  (Z.of_nat ((n + 1) * 2 ^ n) <= two64)%Z -> (forall x, g x < 2 ^ n) ->
  (forall f x, step f x = mark_slot pr n f (Z.of_nat (g x)) (int_bits n x ++ [true])) ->
  forall X f, (n + 1) * 2 ^ n <= 8 * length f -> (forall y, y < 2 ^ n -> slot f n y = repeat false (n + 1)) ->
  exists f', foldM step (seq 0 X) f = Ok f' /\ length f' = length f /\ forall y, y < 2 ^ n -> slot_spec g n X y (slot f' n y).
Proof.
  intros U G ST X f LF Z0. induction X as [|X IH].
  - exists f. split; [reflexivity|]. split; [reflexivity|]. intros y Y. right. split; [lia|auto].
  - destruct IH as (f1 & R & L1 & S1). rewrite seq_S. cbn [Nat.add].
    assert (FA : forall l1 l2 s, foldM step (l1 ++ l2) s = let* s := foldM step l1 s in foldM step l2 s).
    { induction l1 as [|x l1 IH1]; intros; cbn [app foldM bind]; [reflexivity|]. destruct (step s x); cbn [bind]; auto. }
    rewrite FA, R. cbn [bind foldM]. rewrite ST. specialize (G X).
    destruct (mark_slot_slots pr n f1 (g X) (int_bits n X ++ [true])) as (f2 & E & L2 & SE & SO).
    { now rewrite app_length, int_bits_length. }
    { assert ((n + 1) * (g X + 1) <= (n + 1) * 2 ^ n) by (apply Nat.mul_le_mono_l; lia). lia. }
    { rewrite L1. assert ((n + 1) * (g X + 1) <= (n + 1) * 2 ^ n) by (apply Nat.mul_le_mono_l; lia). lia. }
    rewrite E. cbn [bind]. exists f2. split; [reflexivity|]. split; [lia|]. intros y Y. destruct (Nat.eq_dec y (g X)) as [->|N].
    + left. exists X. split; [lia|]. split; [reflexivity|]. split; [lia|exact SE].
    + rewrite SO by exact N. destruct (S1 y Y) as [(x & A & B & C & D)|(A & B)].
      * left. exists x. split; [lia|]. split; [exact B|]. split; [|exact D]. intros x' X'. destruct (Nat.eq_dec x' X) as [->|]; [congruence|]. apply C. lia.
      * right. split; [|exact B]. intros x X'. destruct (Nat.eq_dec x X) as [->|]; [congruence|]. apply A. lia.
Qed.

Lemma fold_writes k : forall g, g = zeros (length g) -> fold_left (fun g i => write_at g i [x00]) (seq (length g) k) g = zeros (length g + k).
Proof.
  induction k as [|k IH]; intros g G; [now rewrite Nat.add_0_r|]. cbn [seq fold_left].
  assert (E : write_at g (length g) [x00] = zeros (S (length g))).
  { unfold write_at. rewrite firstn_all, Nat.sub_diag. rewrite skipn_all2 by (cbn; lia). cbn [zeros repeat app].
    rewrite G at 1. unfold zeros. clear. induction (length g); cbn [repeat app]; [reflexivity|]. now rewrite IHn. }
  rewrite E. replace (S (length g)) with (length (zeros (S (length g)))) at 1 by apply repeat_length. rewrite IH; unfold zeros; rewrite repeat_length; [|reflexivity].
  f_equal. lia.
Qed.
Lemma space_fits n : n <= 58 -> (Z.of_nat ((n + 1) * 2 ^ n) < two64)%Z.
Proof.
  intros N. rewrite Nat2Z.inj_mul, Nat2Z.inj_pow. change (Z.of_nat 2) with 2%Z.
  assert (2 ^ Z.of_nat n <= 2 ^ 58)%Z by (apply Z.pow_le_mono_r; lia). assert (0 < 2 ^ Z.of_nat n)%Z by (apply Z.pow_pos_nonneg; lia).
  change (2 ^ 58)%Z with 288230376151711744%Z in *. unfold two64. nia.
Qed.
Lemma pow2_ok pr n : n <= 63 -> pow2 pr n = Ok (2 ^ Z.of_nat n)%Z.
Proof.
  intros N. unfold pow2. destruct (Z.ltb_spec (Z.of_nat n) (2 ^ 32)); [|lia]. apply usz_in.
  assert (2 ^ Z.of_nat n <= 2 ^ 63)%Z by (apply Z.pow_le_mono_r; lia). assert (0 < 2 ^ Z.of_nat n)%Z by (apply Z.pow_pos_nonneg; lia).
  change (2 ^ 63)%Z with 9223372036854775808%Z in *. unfold two64. lia.
Qed.
Lemma prepare_space_ok pr f n : n <= 58 -> prepare_space pr f n = Ok (zeros ((n + 1) * 2 ^ n / 8)).
Proof.
  intros N. unfold prepare_space. rewrite pow2_ok by lia. cbn [bind]. pose proof (space_fits n N) as F.
  assert (E : ((Z.of_nat n + 1) * 2 ^ Z.of_nat n)%Z = Z.of_nat ((n + 1) * 2 ^ n)) by (rewrite Nat2Z.inj_mul, Nat2Z.inj_pow; change (Z.of_nat 2) with 2%Z; lia).
  rewrite E, usz_in by lia. cbn [bind]. change 8%Z with (Z.of_nat 8). rewrite <- Nat2Z.inj_div, Nat2Z.id.
  rewrite (fold_writes _ [] eq_refl). reflexivity.
Qed.
Lemma prepare_space_panic f n : 59 <= n -> prepare_space Debug f n = Panic.
Proof.
  intros N. unfold prepare_space, pow2. destruct (Z.of_nat n <? 2 ^ 32)%Z; [|reflexivity].
  assert (P : (2 ^ 59 <= 2 ^ Z.of_nat n)%Z) by (apply Z.pow_le_mono_r; lia). change (2 ^ 59)%Z with 576460752303423488%Z in P.
  unfold usz at 1. destruct (_ && _)%bool eqn:B; [|reflexivity]. cbn [bind]. unfold usz.
  replace ((_ <=? _) && (_ <? two64))%Z with false; [reflexivity|]. symmetry. apply andb_false_iff. right. apply Z.ltb_ge. unfold two64. nia.
Qed.
Lemma slots_divide n : 3 <= n -> ((n + 1) * 2 ^ n) = 8 * ((n + 1) * 2 ^ n / 8).
Proof.
  intros N. replace n with (3 + (n - 3)) at 2 4 by lia. rewrite Nat.pow_add_r. change (2 ^ 3) with 8.
  replace ((n + 1) * (8 * 2 ^ (n - 3))) with ((n + 1) * 2 ^ (n - 3) * 8) by ring. rewrite Nat.div_mul by lia. ring.
Qed.
Lemma zeros_bits k : bytes_to_bits (zeros k) = repeat false (8 * k).
Proof.
  induction k as [|k IH]; [reflexivity|]. cbn [zeros repeat]. rewrite bytes_to_bits_cons. change (repeat x00 k) with (zeros k). rewrite IH.
  replace (8 * S k) with (8 + 8 * k) by lia. rewrite repeat_app. reflexivity.
Qed.
Lemma skipn_repeat {A} (x : A) k : forall n, skipn k (repeat x n) = repeat x (n - k).
Proof. induction k; intros n; [now rewrite Nat.sub_0_r|]. destruct n; [reflexivity|]. cbn. apply IHk. Qed.
Lemma firstn_repeat {A} (x : A) k : forall n, firstn k (repeat x n) = repeat x (Nat.min k n).
Proof. induction k; intros n; [reflexivity|]. destruct n; [reflexivity|]. cbn. now rewrite IHk. Qed.
Lemma slot_zeros k n y : (n + 1) * (y + 1) <= 8 * k -> slot (zeros k) n y = repeat false (n + 1).
Proof. intros B. unfold slot. rewrite zeros_bits, skipn_repeat, firstn_repeat. f_equal. lia. Qed.

Section Marked.
Context {K : prime_ops}.

(** The low n bits of the delay function of x, as a slot number. *)
Definition low_bits (n : nat) (y : K) : nat := Z.to_nat (repr y mod 2 ^ Z.of_nat n).

Lemma firstn_bits k : forall n x, n <= k -> firstn n (byte_bits_loop k x) = byte_bits_loop n x.
Proof. induction k; intros n x L; [now replace n with 0 by lia|]. destruct n; [reflexivity|]. cbn [byte_bits_loop firstn]. f_equal. apply IHk. lia. Qed.
Lemma mark_target_ok pr key m consts n x y : (forall z : K, (0 <= repr z)%Z) -> 0 < n <= 63 ->
  mimc5_df (fadd (of_Z (Z.of_nat x)) key) m consts = Ok y ->
  mark_target pr key m consts n (Z.of_nat x) = Ok (Z.of_nat (low_bits n y), int_bits n x ++ [true]).
Proof.
  intros RP N E. unfold mark_target. rewrite E. cbn [bind]. unfold slice, to_bits_le. rewrite bits_loop_length.
  destruct (Nat.leb_spec 0 n), (Nat.leb_spec n 256); try lia. cbn [andb bind]. rewrite Nat.sub_0_r. cbn [skipn]. rewrite firstn_bits by lia.
  rewrite bits_to_usize_val by (rewrite bits_loop_length; lia). cbn [bind]. rewrite usize_to_bits_ok by lia. cbn [bind].
  do 2 f_equal. rewrite bits_loop_val by apply RP. unfold low_bits. rewrite Z2Nat.id; [reflexivity|]. apply Z.mod_pos_bound. apply Z.pow_pos_nonneg; lia.
Qed.
Lemma low_bits_lt n (y : K) : low_bits n y < 2 ^ n.
Proof.
  unfold low_bits. assert (0 < 2 ^ Z.of_nat n)%Z by (apply Z.pow_pos_nonneg; lia). pose proof (Z.mod_pos_bound (repr y) (2 ^ Z.of_nat n) ltac:(lia)).
  apply Nat2Z.inj_lt. rewrite Z2Nat.id by lia. rewrite Nat2Z.inj_pow. change (Z.of_nat 2) with 2%Z. lia.
Qed.

Theorem mark_space_table pr key m consts n f df : (forall z : K, (0 <= repr z)%Z) -> 3 <= n <= 58 ->
  (forall x, mimc5_df (fadd (of_Z (Z.of_nat x)) key) m consts = Ok (df x)) ->
  exists f1 f2, prepare_space pr f n = Ok f1 /\ mark_space pr f1 key m consts n = Ok f2 /\ length f2 = length f1 /\
  forall y, y < 2 ^ n -> slot_spec (fun x => low_bits n (df x)) n (2 ^ n) y (slot f2 n y).
Proof.
  intros RP N DF. rewrite prepare_space_ok by lia. set (f1 := zeros ((n + 1) * 2 ^ n / 8)). exists f1. pose proof (slots_divide n ltac:(lia)) as DV.
  destruct (mark_all pr n (fun x => low_bits n (df x)) (fun f x => let* (y, x_bits) := mark_target pr key m consts n (Z.of_nat x) in mark_slot pr n f y x_bits)) with (X := 2 ^ n) (f := f1) as (f2 & R & L & S).
  - pose proof (space_fits n ltac:(lia)). lia.
  - intros x. apply low_bits_lt.
  - intros g x. rewrite (mark_target_ok pr key m consts n x (df x)) by (auto; lia). reflexivity.
  - unfold f1, zeros. rewrite repeat_length. lia.
  - intros y Y. apply slot_zeros. rewrite <- DV. apply Nat.mul_le_mono_l. lia.
  - exists f2. split; [reflexivity|]. split; [|split; [exact L|exact S]]. unfold mark_space. rewrite pow2_ok by lia. cbn [bind].
    replace (Z.to_nat (2 ^ Z.of_nat n)) with (2 ^ n); [exact R|]. apply Nat2Z.inj. rewrite Z2Nat.id by (apply Z.pow_nonneg; lia). now rewrite Nat2Z.inj_pow.
Qed.
End Marked.

(** * Reading slots of an arbitrary file *)
(** The byte seen at position i when reading started at position i0: past the end the
    buffer keeps its previous content. *)
Definition byte_seen (f : file) (i0 i : nat) : byte :=
  if i <? length f then nth i f x00 else if i0 <? length f then last f x00 else x00.
(** The n + 1 bits obtained for challenge yn. *)
Definition slot_read (f : file) (n yn : nat) : list bool :=
  let p := (n + 1) * yn in
  firstn (n + 1) (skipn (p mod 8) (bytes_to_bits (map (byte_seen f (p / 8)) (seq (p / 8) (n + 2))))).

Lemma read_into_1 f i c : read_into f i [c] = [nth i f c].
Proof.
  unfold read_into. cbn [length]. destruct (Nat.lt_ge_cases i (length f)) as [L|L].
  - destruct (skipn i f) as [|d t] eqn:S; [apply (f_equal (@length byte)) in S; rewrite skipn_length in S; cbn [length] in S; lia|].
    cbn [firstn length skipn app]. f_equal. rewrite <- (firstn_skipn i f), app_nth2, S, firstn_length, Nat.min_l, Nat.sub_diag by (rewrite ?firstn_length; lia). reflexivity.
  - rewrite skipn_all2 by lia. cbn [firstn length skipn app]. now rewrite nth_overflow.
Qed.
Lemma last_nth (f : list byte) : forall d, f <> [] -> last f d = nth (length f - 1) f d.
Proof.
  induction f as [|x f IH]; intros d N; [congruence|]. destruct f as [|y f]; [reflexivity|]. change (last (x :: y :: f) d) with (last (y :: f) d).
  rewrite IH by discriminate. cbn [length]. replace (S (S (length f)) - 1) with (S (S (length f) - 1)) by lia. reflexivity.
Qed.
Lemma seen_next f i0 i : i0 <= i -> nth (S i) f (byte_seen f i0 i) = byte_seen f i0 (S i).
Proof.
  intros I. unfold byte_seen. destruct (Nat.ltb_spec (S i) (length f)).
  - now apply nth_indep.
  - rewrite nth_overflow by lia. destruct (Nat.ltb_spec i (length f)), (Nat.ltb_spec i0 (length f)); try lia; try reflexivity.
    rewrite last_nth by (intros ->; cbn in *; lia). f_equal. lia.
Qed.
Lemma seen_first f i0 : nth i0 f x00 = byte_seen f i0 i0.
Proof. unfold byte_seen. destruct (Nat.ltb_spec i0 (length f)); [reflexivity|]. now apply nth_overflow. Qed.

Lemma nth_flat f i0 : forall k s i j, i < k -> j < 8 ->
  nth_error (bytes_to_bits (map (byte_seen f i0) (seq s k))) (8 * i + j) = nth_error (byte_bits (byte_seen f i0 (s + i))) j.
Proof.
  induction k as [|k IH]; intros s i j I J; [lia|]. cbn [seq map]. rewrite bytes_to_bits_cons. destruct i as [|i].
  - rewrite nth_error_app1 by (rewrite byte_bits_length; lia). now rewrite Nat.add_0_r.
  - rewrite nth_error_app2 by (rewrite byte_bits_length; lia). rewrite byte_bits_length. replace (8 * S i + j - 8) with (8 * i + j) by lia.
    rewrite IH by lia. do 3 f_equal. lia.
Qed.
Lemma read_loop f i0 : forall l i k acc, i0 <= i -> k < 8 ->
  exists i' k' , foldM (read_bit f) l (acc, i, [byte_seen f i0 i], byte_bits (byte_seen f i0 i), k)
  = Ok (acc ++ firstn (length l) (skipn k (bytes_to_bits (map (byte_seen f i0) (seq i (length l + 1))))), i', [byte_seen f i0 i'], byte_bits (byte_seen f i0 i'), k').
Proof.
  induction l as [|a l IH]; intros i k acc I J.
  - exists i, k. cbn [foldM length firstn]. now rewrite app_nil_r.
  - cbn [foldM]. unfold read_bit at 1. unfold index.
    destruct (nth_error (byte_bits (byte_seen f i0 i)) k) as [b|] eqn:NB; [|apply nth_error_None in NB; rewrite byte_bits_length in NB; lia]. cbn [bind].
    set (B := bytes_to_bits (map (byte_seen f i0) (seq i (length (a :: l) + 1)))).
    assert (HB : nth_error B k = Some b).
    { rewrite <- NB. unfold B. rewrite <- (Nat.add_0_r i) at 2. pose proof (nth_flat f i0 (length (a :: l) + 1) i 0 k ltac:(cbn; lia) J) as Q. cbn [Nat.mul Nat.add] in Q. exact Q. }
    assert (SK : skipn k B = b :: skipn (S k) B).
    { clearbody B. clear -HB. revert B HB. induction k; intros [|x B] HB; try discriminate; cbn in *; [congruence|]. now apply IHk. }
    destruct (Nat.eqb_spec (S k) 8) as [K8|K8].
    + rewrite read_into_1, seen_next by exact I. rewrite bits_one.
      destruct (IH (S i) 0 (acc ++ [b]) ltac:(lia) ltac:(lia)) as (i' & k' & E). exists i', k'. cbn [bind]. rewrite E. do 5 f_equal.
      rewrite <- app_assoc. f_equal. cbn [length firstn app]. rewrite SK. f_equal. f_equal.
      unfold B. cbn [length Nat.add seq map]. rewrite bytes_to_bits_cons, K8. rewrite skipn_app, (skipn_all2 (byte_bits _)) by (rewrite byte_bits_length; lia). rewrite byte_bits_length. reflexivity.
    + destruct (IH i (S k) (acc ++ [b]) I ltac:(lia)) as (i' & k' & E). exists i', k'. cbn [bind]. rewrite E. do 5 f_equal.
      rewrite <- app_assoc. f_equal. cbn [length app]. rewrite SK. cbn [firstn]. f_equal.
      apply list_ext. intros q. destruct (Nat.lt_ge_cases q (length l)) as [Q|Q].
      * rewrite !nth_firstn_lt, !nth_skipn by exact Q. unfold B. cbn [length].
        assert (QD : S k + q = 8 * ((S k + q) / 8) + (S k + q) mod 8) by (apply Nat.div_mod; lia). rewrite QD.
        assert ((S k + q) / 8 < q + 1) by (apply Nat.div_lt_upper_bound; lia).
        pose proof (Nat.mod_upper_bound (S k + q) 8 ltac:(lia)). rewrite !nth_flat by lia. reflexivity.
      * rewrite !(proj2 (nth_error_None _ _)); [reflexivity| |]; rewrite firstn_length; lia.
Qed.
Lemma slot_read_length f n yn : length (slot_read f n yn) = n + 1.
Proof.
  unfold slot_read. rewrite firstn_length, skipn_length, bytes_to_bits_length, map_length, seq_length.
  pose proof (Nat.mod_upper_bound ((n + 1) * yn) 8 ltac:(lia)). lia.
Qed.
Lemma read_slot_ok pr f n yn : (Z.of_nat ((n + 1) * yn) < two64)%Z -> read_slot pr f n (Z.of_nat yn) = Ok (slot_read f n yn).
Proof.
  intros U. unfold read_slot, slot_read. assert (E : ((Z.of_nat n + 1) * Z.of_nat yn)%Z = Z.of_nat ((n + 1) * yn)) by lia. rewrite E.
  rewrite usz_in by lia. cbn [bind]. change 8%Z with (Z.of_nat 8). rewrite <- Nat2Z.inj_div, <- Nat2Z.inj_mod, !Nat2Z.id.
  set (p := (n + 1) * yn) in *. rewrite read_into_1, seen_first. rewrite bits_one.
  destruct (read_loop f (p / 8) (seq 0 (n + 1)) (p / 8) (p mod 8) [] (le_n _) (Nat.mod_upper_bound p 8 ltac:(lia))) as (i' & k' & R).
  rewrite R. cbn [bind app]. rewrite seq_length. do 5 f_equal. f_equal. lia.
Qed.
(** Inside the file this is the slot itself. *)
Lemma slot_read_in f n yn : (n + 1) * (yn + 1) <= 8 * length f -> slot_read f n yn = slot f n yn.
Proof.
  intros B. apply list_ext. intros i. destruct (Nat.lt_ge_cases i (n + 1)) as [L|L].
  - unfold slot_read, slot. rewrite !nth_firstn_lt, !nth_skipn by exact L. set (p := (n + 1) * yn) in *.
    assert (PD : p = 8 * (p / 8) + p mod 8) by (apply Nat.div_mod; lia). pose proof (Nat.mod_upper_bound p 8 ltac:(lia)).
    assert (QD : p mod 8 + i = 8 * ((p mod 8 + i) / 8) + (p mod 8 + i) mod 8) by (apply Nat.div_mod; lia). pose proof (Nat.mod_upper_bound (p mod 8 + i) 8 ltac:(lia)).
    set (q := (p mod 8 + i) / 8) in *. set (r := (p mod 8 + i) mod 8) in *. rewrite QD. rewrite nth_flat by lia.
    assert (PI : p + i = 8 * (p / 8 + q) + r) by lia. assert (LQ : p / 8 + q < length f) by lia. rewrite PI. set (s := p / 8 + q) in *. unfold byte_seen.
    destruct (Nat.ltb_spec s (length f)); [|lia]. clear - LQ H0. clearbody s r. revert f LQ. induction s as [|s IH]; intros f LQ; destruct f as [|c f]; cbn [length] in LQ; try lia.
    + cbn [nth]. rewrite bytes_to_bits_cons, nth_error_app1 by (rewrite byte_bits_length; lia). f_equal. 
    + cbn [nth]. rewrite bytes_to_bits_cons, nth_error_app2 by (rewrite byte_bits_length; lia). rewrite byte_bits_length. replace (8 * S s + r - 8) with (8 * s + r) by lia. apply IH. lia.
  - rewrite !(proj2 (nth_error_None _ _)); [reflexivity| |rewrite slot_read_length; lia]. unfold slot. rewrite firstn_length. lia.
Qed.

Section Respond.
Context {K : prime_ops}.

Definition flag_at (f : file) (n yn : nat) : bool := nth n (slot_read f n yn) false.
Definition value_at (f : file) (n yn : nat) : Z := val (firstn n (slot_read f n yn)).

(** The challenges answered: the first RESPONSE_COUNT whose slot is flagged. *)
Definition answered (f : file) (n : nat) (cs : list nat) : list nat :=
  firstn RESPONSE_COUNT (filter (fun i => flag_at f n (nth i cs 0)) (seq 0 (length cs))).

Lemma respond_ok pr f n : n <= 63 -> forall cs pre (xs : list K) idxs,
  Forall (fun yn => (Z.of_nat ((n + 1) * yn) < two64)%Z) cs -> length xs < RESPONSE_COUNT ->
  let new := firstn (RESPONSE_COUNT - length xs) (filter (fun i => flag_at f n (nth i (pre ++ cs) 0)) (seq (length pre) (length cs))) in
  respond pr f n (length pre) (map Z.of_nat cs) xs idxs
  = Ok (xs ++ map (fun i => of_Z (value_at f n (nth i (pre ++ cs) 0))) new, idxs ++ new).
Proof.
  intros N63. induction cs as [|c cs IH]; intros pre xs idxs F L; cbn zeta.
  - cbn [map respond length seq filter]. rewrite firstn_nil. cbn [map]. now rewrite !app_nil_r.
  - inversion F as [|? ? FC FR]; subst. cbn [map respond]. rewrite read_slot_ok by exact FC. cbn [bind]. unfold index.
    destruct (nth_error (slot_read f n c) n) as [b|] eqn:NE; [|apply nth_error_None in NE; rewrite slot_read_length in NE; lia]. cbn [bind].
    assert (FL : flag_at f n c = b) by (unfold flag_at; now apply nth_error_nth).
    assert (NC : nth (length pre) (pre ++ c :: cs) 0 = c) by (rewrite app_nth2, Nat.sub_diag by lia; reflexivity).
    cbn [length seq filter]. rewrite NC, FL. specialize (IH (pre ++ [c])). rewrite app_length in IH. cbn [length] in IH. replace (length pre + 1) with (S (length pre)) in IH by lia. cbv zeta in IH.
    replace ((pre ++ [c]) ++ cs) with (pre ++ c :: cs) in IH by (now rewrite <- app_assoc). destruct b.
    + unfold slice. rewrite slot_read_length. destruct (Nat.leb_spec 0 n), (Nat.leb_spec n (n + 1)); try lia. cbn [andb bind]. rewrite Nat.sub_0_r. cbn [skipn].
      rewrite bits_to_usize_val by (rewrite firstn_length, slot_read_length; lia). cbn [bind]. rewrite app_length. cbn [length]. fold (value_at f n c).
      assert (Q : RESPONSE_COUNT - length xs = S (RESPONSE_COUNT - length (xs ++ [of_Z (value_at f n c)] : list K))) by (rewrite app_length; cbn [length]; lia). rewrite Q. cbn [firstn map].
      destruct (Nat.eqb_spec (length xs + 1) RESPONSE_COUNT) as [EQ|NEQ].
      * rewrite app_length. cbn [length]. rewrite EQ, Nat.sub_diag. cbn [firstn map]. now rewrite NC.
      * rewrite IH; [|exact FR|rewrite app_length; cbn [length]; lia]. rewrite <- !app_assoc. cbn [app]. now rewrite NC.
    + cbn [bind]. destruct (Nat.eqb_spec (length xs) RESPONSE_COUNT); [lia|]. now rewrite IH.
Qed.
End Respond.

(** * Reading a marked space *)
Lemma val_int_bits n x : x < 2 ^ n -> val (int_bits n x) = Z.of_nat x.
Proof.
  intros X. unfold int_bits. rewrite bits_loop_val by lia. apply Z.mod_small. split; [lia|]. apply Nat2Z.inj_lt in X. now rewrite Nat2Z.inj_pow in X.
Qed.
Lemma marked_flag g n y s : slot_spec g n (2 ^ n) y s ->
  (nth n s false = true /\ exists x, x < 2 ^ n /\ g x = y /\ val (firstn n s) = Z.of_nat x) \/
  (nth n s false = false /\ forall x, x < 2 ^ n -> g x <> y).
Proof.
  intros [(x & X & G & _ & ->)|(N & ->)].
  - left. split; [rewrite app_nth2, int_bits_length, Nat.sub_diag by (rewrite int_bits_length; lia); reflexivity|].
    exists x. split; [exact X|]. split; [exact G|]. rewrite firstn_app, int_bits_length, Nat.sub_diag, firstn_O, app_nil_r, firstn_all2 by (rewrite int_bits_length; lia). now apply val_int_bits.
  - right. split; [|exact N]. apply nth_repeat.
Qed.

Section RespondMarked.
Context {K : prime_ops} (g : nat -> nat) (n : nat) (f : file).

Hypothesis LEN : (n + 1) * 2 ^ n <= 8 * length f.
Hypothesis TAB : forall y, y < 2 ^ n -> slot_spec g n (2 ^ n) y (slot f n y).

Lemma flag_marked yn : yn < 2 ^ n ->
  (flag_at f n yn = true /\ exists x, x < 2 ^ n /\ g x = yn /\ value_at f n yn = Z.of_nat x) \/
  (flag_at f n yn = false /\ forall x, x < 2 ^ n -> g x <> yn).
Proof.
  intros Y. unfold flag_at, value_at. rewrite slot_read_in.
  - apply marked_flag. now apply TAB.
  - etransitivity; [|exact LEN]. apply Nat.mul_le_mono_l. lia.
Qed.
End RespondMarked.

Lemma filter_firstn_count {A} (P : A -> bool) k : forall l, length (firstn k (filter P l)) <= k.
Proof. intros l. rewrite firstn_length. lia. Qed.
Lemma filter_sorted (P : nat -> bool) : forall k s, StronglySorted lt (filter P (seq s k)).
Proof.
  induction k as [|k IH]; intros s; [constructor|]. cbn [seq filter]. destruct (P s); [|apply IH]. constructor; [apply IH|].
  apply Forall_forall. intros x I. apply filter_In in I. destruct I as [I _]. apply in_seq in I. lia.
Qed.
Lemma firstn_sorted k : forall l, StronglySorted lt l -> StronglySorted lt (firstn k l).
Proof.
  induction k as [|k IH]; intros [|x l] S; try constructor; inversion S; subst; [now apply IH|].
  apply Forall_forall. intros y I. rewrite Forall_forall in H2. apply H2. rewrite <- (firstn_skipn k l). apply in_or_app. now left.
Qed.
(** An index skipped although flagged comes after [k] answers. *)
Lemma firstn_skipped k : forall l i, StronglySorted lt l -> In i l -> ~ In i (firstn k l) -> length (firstn k l) = k /\ Forall (fun j => j < i) (firstn k l).
Proof.
  induction k as [|k IH]; intros l i S I N; [split; [reflexivity|constructor]|]. destruct l as [|x l]; [destruct I|]. cbn [firstn] in *. inversion S as [|? ? S' F]; subst.
  destruct I as [->|I]; [exfalso; apply N; now left|]. destruct (IH l i S' I) as [A B]; [intros Q; apply N; now right|]. cbn [length]. split; [lia|].
  constructor; [|exact B]. rewrite Forall_forall in F. now apply F.
Qed.
