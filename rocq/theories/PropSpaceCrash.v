(** Property C99: preparing or marking the space when the process is killed, and marking
    a file that is not freshly prepared.
    Vocabulary: [prepare_crash] and [mark_crash] from SpaceCrash, [maps_to] from PropSpace. *)
From Coq Require Import Strings.Byte.
From Verif Require Import Base BytesFacts Field Mimc MimcFacts Convert ConvertFacts Space SpaceCrash SpaceFacts SpaceCrashFacts FrField FrFacts PropSpace.
Local Open Scope nat_scope.

(** The n+1 bits of slot y. *)
Definition at_slot (n : nat) (g : file) (y : nat) : list bool := firstn (n + 1) (skipn ((n + 1) * y) (bytes_to_bits g)).
(** g is the table of the values below X written over [old]: slot y holds the largest of
    them that maps to y, followed by a set bit, or is as in [old]. *)
Definition table (K : prime_ops) (key m : K) (consts : list K) (n X : nat) (old g : file) : Prop :=
  length g = length old /\
  forall y, y < 2 ^ n ->
    (exists x, x < X /\ maps_to K key m consts n x y /\ (forall x', x < x' < X -> ~ maps_to K key m consts n x' y) /\
       exists xb, at_slot n g y = xb ++ [true] /\ usize_to_bits (Z.of_nat x) n = Some (Ok xb)) \/
    ((forall x, x < X -> ~ maps_to K key m consts n x y) /\ at_slot n g y = at_slot n old y).
(** The prover answers the single challenge y with x, or not at all. *)
Definition answers (K : prime_ops) (pr : profile) (key : K) (hash_consts : list K) (n : nat) (g : file) (y : nat) (o : option nat) : Prop :=
  exists h, response_1 pr g [Z.of_nat y] key hash_consts n = Ok (match o with Some x => ([of_Z (Z.of_nat x)], [0], h) | None => ([], [], h) end).

Section Facts.
Context (pr : profile) (K : prime_ops) (HK : is_prime_field K) (key m : K) (consts : list K) (n : nat).
Hypothesis N : 3 <= n <= 58.

Lemma table_over df X old g : (forall x, mimc5_df (fadd (of_Z (Z.of_nat x)) key) m consts = Ok (df x)) ->
  table K key m consts n X old g <-> length g = length old /\ forall y, y < 2 ^ n -> slot_over (fun x => low_bits n (df x)) n X y (slot old n y) (slot g n y).
Proof.
  intros D. unfold table, slot_over. change (at_slot n) with (fun g => slot g n). cbn beta. split; intros [L T]; (split; [exact L|]); intros y Y.
  - destruct (T y Y) as [(x & X1 & M & B & xb & E & U)|(NO & E)].
    + left. exists x. split; [exact X1|]. split; [now apply (maps_iff K HK key m consts n x y df D)|]. split.
      * intros x' X' Q. apply (B x' X'). now apply (maps_iff K HK key m consts n x' y df D).
      * rewrite E. f_equal. rewrite usize_to_bits_ok in U by lia. injection U as <-. reflexivity.
    + right. split; [|exact E]. intros x X1 Q. apply (NO x X1). now apply (maps_iff K HK key m consts n x y df D).
  - destruct (T y Y) as [(x & X1 & M & B & E)|(NO & E)].
    + left. exists x. split; [exact X1|]. split; [now apply (maps_iff K HK key m consts n x y df D)|]. split.
      * intros x' X' Q. apply (B x' X'). now apply (maps_iff K HK key m consts n x' y df D) in Q.
      * exists (int_bits n x). split; [exact E|]. apply usize_to_bits_ok; lia.
    + right. split; [|exact E]. intros x X1 Q. apply (NO x X1). now apply (maps_iff K HK key m consts n x y df D) in Q.
Qed.
Lemma table_upto df f : (forall x, mimc5_df (fadd (of_Z (Z.of_nat x)) key) m consts = Ok (df x)) -> 8 * length f = (n + 1) * 2 ^ n ->
  forall X g, table K key m consts n X f g <-> mark_upto pr f key m consts n X = Ok g.
Proof.
  intros D L X g. destruct (mark_upto_ok pr key m consts n df (fun z => proj1 (pf_repr K HK z)) N D f X L) as (g' & E & LG & SG).
  rewrite (table_over df X f g D). split.
  - intros [LG' SG']. rewrite E. f_equal. apply (slots_ext n); [lia|lia|]. intros y Y. exact (slot_over_fun _ _ _ _ _ _ _ (SG y Y) (SG' y Y)).
  - intros E'. rewrite E in E'. injection E' as <-. now split.
Qed.
Lemma answer_slot hc g y : length hc = MIMC5_HASH_ROUNDS -> 8 * length g = (n + 1) * 2 ^ n -> y < 2 ^ n ->
  answers K pr key hc n g y (if nth n (slot g n y) false then Some (Z.to_nat (val (firstn n (slot g n y)))) else None).
Proof.
  intros LH LG Y. assert (YB : (n + 1) * (y + 1) <= (n + 1) * 2 ^ n) by (apply Nat.mul_le_mono_l; lia). pose proof (space_fits n ltac:(lia)) as F.
  pose proof (respond_ok (K := K) pr g n ltac:(lia) [y] [] [] [] ltac:(repeat constructor; lia) ltac:(cbn; unfold RESPONSE_COUNT; lia)) as R.
  cbv zeta in R. cbn [app length map seq filter nth] in R. unfold flag_at, value_at in R. rewrite slot_read_in in R by lia.
  unfold answers, response_1.
  destruct (nth n (slot g n y) false).
  - eexists. rewrite R. change (firstn (RESPONSE_COUNT - 0) [0]) with [0]. cbn [map nth app bind]. rewrite slot_read_in by lia. rewrite multi_mimc5_ok by (try exact LH; exact (F_R (pf_field K HK))). cbn [bind].
    rewrite Z2Nat.id by apply val_bounds. reflexivity.
  - eexists. rewrite R. cbn [firstn RESPONSE_COUNT Nat.sub map app bind]. rewrite multi_mimc5_ok by (try exact LH; exact (F_R (pf_field K HK))). cbn [bind]. reflexivity.
Qed.
End Facts.

(** C99: killed while preparing.  The next preparation is not affected. *)
Theorem C99_prepare : forall pr f n g, n <= 58 -> prepare_crash pr f n g <-> g = f \/ exists k, k <= (n + 1) * 2 ^ n / 8 /\ g = repeat x00 k.
Proof. exact prepare_crash_iff. Qed.
Print Assumptions C99_prepare.
Theorem C99_prepare_again : forall pr f n g, n <= 58 -> prepare_crash pr f n g -> exists f1, prepare_space pr f n = Ok f1 /\ prepare_space pr g n = Ok f1.
Proof. intros pr f n g L _. exists (zeros ((n + 1) * 2 ^ n / 8)). split; now apply prepare_space_ok. Qed.
Print Assumptions C99_prepare_again.

(** Marking writes the table over whatever the file holds, so a slot no value maps to
    keeps its content. *)
Theorem C99_over : forall pr (K : prime_ops), is_prime_field K -> forall (key m : K) consts n f, length consts = MIMC5_DF_ROUNDS -> 3 <= n <= 58 ->
  8 * length f = (n + 1) * 2 ^ n -> exists g, mark_space pr f key m consts n = Ok g /\ table K key m consts n (2 ^ n) f g.
Proof.
  intros pr K HK key m consts n f LC N L. destruct (df_total K HK key m consts LC) as (df & D).
  destruct (mark_upto_ok pr key m consts n df (fun z => proj1 (pf_repr K HK z)) N D f (2 ^ n) L) as (g & E & _). exists g.
  split; [now rewrite mark_space_upto by exact N|]. now apply (table_upto pr K HK key m consts n N df f D L).
Qed.
Print Assumptions C99_over.

(** Killed while marking: the file is exactly the table of the values below some X, or
    that of the values below x with the first q bits of x already in the slot of x, where
    those bits end at a byte boundary inside the slot. *)
Theorem C99_states : forall pr (K : prime_ops), is_prime_field K -> forall (key m : K) consts n f, length consts = MIMC5_DF_ROUNDS -> 3 <= n <= 58 ->
  8 * length f = (n + 1) * 2 ^ n -> forall g,
  mark_crash pr f key m consts n g <->
  (exists X, X <= 2 ^ n /\ table K key m consts n X f g) \/
  (exists x y q g0 xb, x < 2 ^ n /\ y < 2 ^ n /\ maps_to K key m consts n x y /\ usize_to_bits (Z.of_nat x) n = Some (Ok xb) /\
     0 < q <= n /\ ((n + 1) * y + q) mod 8 = 0 /\ table K key m consts n x f g0 /\ length g = length f /\
     at_slot n g y = firstn q xb ++ skipn q (at_slot n g0 y) /\ forall y', y' < 2 ^ n -> y' <> y -> at_slot n g y' = at_slot n g0 y').
Proof.
  intros pr K HK key m consts n f LC N L g. destruct (df_total K HK key m consts LC) as (df & D).
  rewrite (mark_crash_iff pr key m consts n df (fun z => proj1 (pf_repr K HK z)) N D f g L).
  pose proof (table_upto pr K HK key m consts n N df f D L) as TU. change (at_slot n) with (fun g => slot g n). cbn beta.
  assert (FI : forall x q, q <= n -> firstn q (int_bits n x ++ [true]) = firstn q (int_bits n x)).
  { intros x q Q. rewrite firstn_app, int_bits_length. replace (q - n) with 0 by lia. cbn [firstn]. apply app_nil_r. }
  split.
  - intros [(X & XL & E)|(x & q & f1 & XL & Q & QM & E & LG & SE & SO)].
    + left. exists X. split; [exact XL|]. now apply TU.
    + right. exists x, (low_bits n (df x)), q, f1, (int_bits n x). split; [exact XL|]. split; [apply low_bits_lt|]. split; [now apply (maps_iff K HK key m consts n x _ df D)|].
      split; [apply usize_to_bits_ok; lia|]. split; [exact Q|]. split; [exact QM|]. apply TU in E. split; [exact E|]. split; [destruct E; lia|]. split; [|exact SO].
      now rewrite SE, FI by lia.
  - intros [(X & XL & E)|(x & y & q & g0 & xb & XL & YL & MT & U & Q & QM & T & LG & SE & SO)].
    + left. exists X. split; [exact XL|]. now apply TU.
    + right. apply (maps_iff K HK key m consts n x y df D) in MT. subst y. rewrite usize_to_bits_ok in U by lia. injection U as <-. exists x, q, g0. split; [exact XL|]. split; [exact Q|]. split; [exact QM|].
      split; [now apply TU|]. split; [destruct T; lia|]. split; [|exact SO]. rewrite FI by lia. exact SE.
Qed.
Print Assumptions C99_states.

Lemma val_torn n q x1 x2 : q <= n -> x1 < 2 ^ n -> x2 < 2 ^ n ->
  val (firstn q (int_bits n x1) ++ skipn q (int_bits n x2)) = Z.of_nat (x1 mod 2 ^ q + x2 / 2 ^ q * 2 ^ q).
Proof.
  intros Q X1 X2. rewrite val_app, firstn_length_le by (rewrite int_bits_length; lia).
  assert (V : forall x, x < 2 ^ n -> val (firstn q (int_bits n x)) = (Z.of_nat x mod 2 ^ Z.of_nat q)%Z /\ val (skipn q (int_bits n x)) = (Z.of_nat x / 2 ^ Z.of_nat q)%Z).
  { intros x X. pose proof (val_int_bits n x X) as E. rewrite <- (firstn_skipn q (int_bits n x)), val_app, firstn_length_le in E by (rewrite int_bits_length; lia).
    pose proof (val_bounds (firstn q (int_bits n x))) as B. rewrite firstn_length_le in B by (rewrite int_bits_length; lia).
    split.
    - rewrite <- E, Z.mul_comm, Z.mod_add by lia. symmetry. now apply Z.mod_small.
    - rewrite <- E, Z.mul_comm, Z.div_add, Z.div_small by lia. reflexivity. }
  rewrite (proj1 (V x1 X1)), (proj2 (V x2 X2)). rewrite Nat2Z.inj_add, Nat2Z.inj_mul, Nat2Z.inj_mod, Nat2Z.inj_div, Nat2Z.inj_pow. change (Z.of_nat 2) with 2%Z. ring.
Qed.

(** What the prover answers from the file of a killed run.  An answer is right, or, in
    one slot only, made of the low bits of one value and the high bits of a smaller one
    that map there.  A challenge without an answer is one no value below X maps to. *)
Theorem C99_answers : forall pr (K : prime_ops), is_prime_field K -> forall (key m : K) consts hash_consts n f f1, length consts = MIMC5_DF_ROUNDS ->
  length hash_consts = MIMC5_HASH_ROUNDS -> 3 <= n <= 58 -> prepare_space pr f n = Ok f1 -> forall g, mark_crash pr f1 key m consts n g ->
  exists X y0, X <= 2 ^ n /\ forall y, y < 2 ^ n -> exists o, answers K pr key hash_consts n g y o /\
  match o with
  | Some x => x < 2 ^ n /\ (maps_to K key m consts n x y \/
      (y = y0 /\ exists x1 x2 q, x2 < x1 <= X /\ maps_to K key m consts n x1 y /\ maps_to K key m consts n x2 y /\
        0 < q <= n /\ ((n + 1) * y + q) mod 8 = 0 /\ x = x1 mod 2 ^ q + x2 / 2 ^ q * 2 ^ q))
  | None => forall x, x < X -> ~ maps_to K key m consts n x y
  end.
Proof.
  intros pr K HK key m consts hc n f f1 LC LH N P g C. destruct (df_total K HK key m consts LC) as (df & D).
  destruct (C50_exact_bits pr f n N) as (f1' & P' & L1). rewrite P in P'. injection P' as <-.
  assert (ZS : forall y, y < 2 ^ n -> slot f1 n y = repeat false (n + 1)).
  { intros y Y. rewrite prepare_space_ok in P by lia. assert (f1 = zeros ((n + 1) * 2 ^ n / 8)) as -> by congruence. apply slot_zeros. rewrite <- (slots_divide n) by lia. apply Nat.mul_le_mono_l. lia. }
  apply (mark_crash_iff pr key m consts n df (fun z => proj1 (pf_repr K HK z)) N D f1 g L1) in C.
  pose proof (maps_iff K HK key m consts n) as MI.
  assert (FL : forall x, nth n (int_bits n x ++ [true]) false = true).
  { intros x. rewrite app_nth2, int_bits_length, Nat.sub_diag by (rewrite int_bits_length; lia). reflexivity. }
  assert (FV : forall x, firstn n (int_bits n x ++ [true]) = int_bits n x).
  { intros x. rewrite firstn_app, int_bits_length, Nat.sub_diag. cbn [firstn]. rewrite app_nil_r. apply firstn_all2. rewrite int_bits_length. lia. }
  assert (FZ : nth n (repeat false (n + 1)) false = false).
  { generalize n (n + 1). clear. induction n as [|n IH]; intros [|k]; auto. exact (IH k). }
  (* an intact slot *)
  assert (INT : forall X g' y, X <= 2 ^ n -> y < 2 ^ n -> slot_over (fun x => low_bits n (df x)) n X y (slot f1 n y) (slot g' n y) -> 8 * length g' = (n + 1) * 2 ^ n ->
    exists o, answers K pr key hc n g' y o /\ match o with Some x => x < 2 ^ n /\ maps_to K key m consts n x y | None => forall x, x < X -> ~ maps_to K key m consts n x y end).
  { intros X g' y XL Y SO LG. pose proof (answer_slot pr K HK key n N hc g' y LH LG Y) as A. destruct SO as [(x & XX & G & B & E)|(NO & E)].
    - rewrite E, FL, FV, val_int_bits, Nat2Z.id in A by lia. exists (Some x). split; [exact A|]. split; [lia|]. now apply (MI x y df D).
    - rewrite E, ZS, FZ in A by exact Y. exists None. split; [exact A|]. intros x XX Q. apply (MI x y df D) in Q. now apply (NO x XX). }
  destruct C as [(X & XL & E)|(x & q & f2 & XL & Q & QM & E & LG & SE & SO)].
  - exists X, 0. split; [exact XL|]. intros y Y. destruct (mark_upto_ok pr key m consts n df (fun z => proj1 (pf_repr K HK z)) N D f1 X L1) as (g' & E' & LG & SG). rewrite E in E'. injection E' as <-.
    destruct (INT X g y XL Y (SG y Y) ltac:(lia)) as ([x|] & A & B); [exists (Some x)|exists None]; (split; [exact A|]); [|exact B]. destruct B as [B1 B2]. split; [exact B1|now left].
  - destruct (mark_upto_ok pr key m consts n df (fun z => proj1 (pf_repr K HK z)) N D f1 x L1) as (g' & E' & LG' & SG). rewrite E in E'. injection E' as <-.
    exists x, (low_bits n (df x)). split; [lia|]. intros y Y. destruct (Nat.eq_dec y (low_bits n (df x))) as [->|NE].
    + pose proof (answer_slot pr K HK key n N hc g _ LH ltac:(lia) Y) as A. specialize (SG _ Y).
      assert (LQ : length (firstn q (int_bits n x ++ [true])) = q) by (rewrite firstn_length, app_length, int_bits_length; cbn [length]; lia).
      destruct SG as [(x2 & XX & G & B & E2)|(NO & E2)].
      * rewrite SE, E2 in A.
        assert (EA : firstn q (int_bits n x ++ [true]) ++ skipn q (int_bits n x2 ++ [true]) = (firstn q (int_bits n x) ++ skipn q (int_bits n x2)) ++ [true]).
        { rewrite firstn_app, skipn_app, int_bits_length, int_bits_length. replace (q - n) with 0 by lia. cbn [firstn skipn]. rewrite app_nil_r. now rewrite app_assoc. }
        assert (LM : length (firstn q (int_bits n x) ++ skipn q (int_bits n x2)) = n) by (rewrite app_length, firstn_length, skipn_length, !int_bits_length; lia).
        rewrite EA in A. rewrite app_nth2, LM, Nat.sub_diag in A by lia. cbn [nth] in A. rewrite firstn_app, LM, Nat.sub_diag in A. cbn [firstn] in A. rewrite app_nil_r, firstn_all2 in A by lia.
        rewrite val_torn, Nat2Z.id in A by lia. eexists. split; [exact A|]. cbv beta iota.
        assert (V : (val (firstn q (int_bits n x) ++ skipn q (int_bits n x2)) < 2 ^ Z.of_nat n)%Z) by (pose proof (val_bounds (firstn q (int_bits n x) ++ skipn q (int_bits n x2))) as VB; rewrite LM in VB; lia).
        rewrite val_torn in V by lia. split.
        { apply Nat2Z.inj_lt. rewrite (Nat2Z.inj_pow 2 n). exact V. }
        right. split; [reflexivity|]. exists x, x2, q. split; [lia|]. split; [now apply (MI x _ df D)|]. split; [now apply (MI x2 _ df D)|]. split; [exact Q|]. split; [exact QM|reflexivity].
      * rewrite SE, E2, ZS in A by exact Y.
        replace (nth n (firstn q (int_bits n x ++ [true]) ++ skipn q (repeat false (n + 1))) false) with false in A.
        2:{ symmetry. rewrite app_nth2, LQ, skipn_repeat by lia. generalize (n - q) (n + 1 - q). clear. induction n as [|n IH]; intros [|k]; auto. exact (IH k). }
        exists None. split; [exact A|]. intros x' X' QQ. apply (MI x' _ df D) in QQ. now apply (NO x' X').
    + pose proof (SG y Y) as SY. rewrite <- (SO y Y NE) in SY. destruct (INT x g y ltac:(lia) Y SY ltac:(lia)) as ([x'|] & A & B); [exists (Some x')|exists None]; (split; [exact A|]); [|exact B]. destruct B as [B1 B2]. split; [exact B1|now left].
Qed.
Print Assumptions C99_answers.
(** With slots of four or eight bits no slot crosses a byte boundary, and a kill only
    loses answers. *)
Theorem C99_whole : forall pr (K : prime_ops), is_prime_field K -> forall (key m : K) consts hash_consts n f f1, length consts = MIMC5_DF_ROUNDS ->
  length hash_consts = MIMC5_HASH_ROUNDS -> n = 3 \/ n = 7 -> prepare_space pr f n = Ok f1 -> forall g, mark_crash pr f1 key m consts n g ->
  forall y x, y < 2 ^ n -> answers K pr key hash_consts n g y (Some x) -> exists x', of_Z (Z.of_nat x) = of_Z (Z.of_nat x') :> K /\ x' < 2 ^ n /\ maps_to K key m consts n x' y.
Proof.
  intros pr K HK key m consts hc n f f1 LC LH N P g C y x Y (h & A).
  destruct (C99_answers pr K HK key m consts hc n f f1 LC LH ltac:(lia) P g C) as (X & y0 & _ & T). destruct (T y Y) as ([x'|] & (h' & A') & B); rewrite A in A'; [|discriminate].
  injection A' as E _. exists x'. split; [exact E|]. destruct B as [X' [M|(_ & x1 & x2 & q & _ & _ & _ & Q & QM & _)]]; [now split|].
  exfalso. destruct N as [-> | ->]; cbn [Nat.add] in QM.
  - destruct (Nat.Even_or_Odd y) as [[z ->]|[z ->]].
    + replace (4 * (2 * z) + q) with (q + z * 8) in QM by lia. rewrite Nat.mod_add, Nat.mod_small in QM by lia. lia.
    + replace (4 * (2 * z + 1) + q) with (4 + q + z * 8) in QM by lia. rewrite Nat.mod_add, Nat.mod_small in QM by lia. lia.
  - replace (8 * y + q) with (q + y * 8) in QM by lia. rewrite Nat.mod_add, Nat.mod_small in QM by lia. lia.
Qed.
Print Assumptions C99_whole.

(** Marking again from the start, over the file of a killed run, gives what the run would
    have given; preparing again is not needed. *)
Theorem C99_again : forall pr (K : prime_ops), is_prime_field K -> forall (key m : K) consts n f, length consts = MIMC5_DF_ROUNDS -> 3 <= n <= 58 ->
  8 * length f = (n + 1) * 2 ^ n -> forall g, mark_crash pr f key m consts n g ->
  exists f2, mark_space pr f key m consts n = Ok f2 /\ mark_space pr g key m consts n = Ok f2.
Proof.
  intros pr K HK key m consts n f LC N L g C. destruct (df_total K HK key m consts LC) as (df & D).
  exact (mark_again pr key m consts n df (fun z => proj1 (pf_repr K HK z)) N D f g L C).
Qed.
Print Assumptions C99_again.

(** * Wrong answers *)
(** With key 9, m = 2 and constants 0, the values 0..15 map to these slots of a four-bit
    space; none maps to 2, 3, 4, 8 or 13. *)
Definition nine : list nat := [10; 11; 5; 12; 14; 15; 1; 12; 10; 14; 6; 7; 9; 0; 14; 6].
Lemma nine_ok : forallb (fun x => match mimc5_df (K := FrBls) (@fadd FrBls (@of_Z FrBls (Z.of_nat x)) (fr 9)) (fr 2) zero_consts with
  Ok v => (repr (p := FrBls) v mod 16 =? Z.of_nat (nth x nine 0%nat))%Z | Panic => false end) (seq 0 16) = true.
Proof. vm_compute. reflexivity. Qed.
Lemma nine_maps x y : x < 16 -> maps_to FrBls (fr 9) (fr 2) zero_consts 4 x y <-> nth x nine 0 = y.
Proof.
  intros X. pose proof (proj1 (forallb_forall _ _) nine_ok x ltac:(apply in_seq; lia)) as E. cbv beta in E. unfold maps_to.
  destruct (mimc5_df (K := FrBls) (@fadd FrBls (@of_Z FrBls (Z.of_nat x)) (fr 9)) (fr 2) zero_consts) as [v|]; [|discriminate]. apply Z.eqb_eq in E. change (2 ^ Z.of_nat 4)%Z with 16%Z. split.
  - intros (v' & [= <-] & EV). rewrite E in EV. now apply Nat2Z.inj.
  - intros <-. exists v. now split.
Qed.
Lemma nine_target pr x : x < 16 -> mark_target (K := FrBls) pr (fr 9) (fr 2) zero_consts 4 (Z.of_nat x) = Ok (Z.of_nat (nth x nine 0), int_bits 4 x ++ [true]).
Proof.
  intros X. destruct (proj2 (nine_maps x _ X) eq_refl) as (v & E & M). rewrite (mark_target_ok (K := FrBls) pr (fr 9) (fr 2) zero_consts 4 x v (fun z => proj1 (pf_repr FrBls FrBls_prime_field z)) ltac:(lia) E).
  unfold low_bits. rewrite M, Nat2Z.id. reflexivity.
Qed.
Lemma mark_space_pow (K : prime_ops) pr f (key m : K) consts n c : pow2 pr n = Ok c -> mark_space pr f key m consts n = mark_upto pr f key m consts n (Z.to_nat c).
Proof. intros E. unfold mark_space. rewrite E. reflexivity. Qed.
Lemma nine_upto pr f X : X <= 16 -> mark_upto (K := FrBls) pr f (fr 9) (fr 2) zero_consts 4 X = foldM (fun f x => mark_slot pr 4 f (Z.of_nat (nth x nine 0)) (int_bits 4 x ++ [true])) (seq 0 X) f.
Proof.
  intros XL. unfold mark_upto. assert (F : Forall (fun x => x < 16) (seq 0 X)) by (apply Forall_forall; intros x I; apply in_seq in I; lia).
  revert f. induction F as [|x l B F IH]; intros f; [reflexivity|]. cbn [foldM]. rewrite (nine_target pr x B). cbn [bind]. destruct (mark_slot pr 4 f _ _); cbn [bind]; [apply IH|reflexivity].
Qed.

(** Killed inside value 9, after the part of it that lies in the first byte of its slot:
    challenge 14 is then answered with 5, made of the low bits of 9 and the high bits of 4,
    which does not map there.  So a kill can do more than lose answers. *)
Theorem C99_torn_refuted : exists f1 g, prepare_space Debug [] 4 = Ok f1 /\ mark_crash (K := FrBls) Debug f1 (fr 9) (fr 2) zero_consts 4 g /\
  answers FrBls Debug (fr 9) zero_consts 4 g 14 (Some 5) /\ ~ maps_to FrBls (fr 9) (fr 2) zero_consts 4 5 14.
Proof.
  assert (T : exists f2 g, foldM (fun f x => mark_slot Debug 4 f (Z.of_nat (nth x nine 0)) (int_bits 4 x ++ [true])) (seq 0 9) (zeros 10) = Ok f2 /\
    mark_slot_upto Debug 4 f2 14 (int_bits 4 9 ++ [true]) 2 = Ok g /\ slot g 4 14 = [true; false; true; false; true] /\ length g = 10).
  { eexists. eexists. split; [vm_compute; reflexivity|]. split; [vm_compute; reflexivity|]. split; vm_compute; reflexivity. }
  destruct T as (f2 & g & E & U & SG & LG). exists (zeros 10), g. split; [vm_compute; reflexivity|]. split; [|split].
  - apply (MC_inside (K := FrBls) Debug (zeros 10) (fr 9) (fr 2) zero_consts 4 16 9 2 f2 14 (int_bits 4 9 ++ [true]) g); [reflexivity|apply Nat.ltb_lt; reflexivity|rewrite nine_upto by lia; exact E| |exact U].
    exact (nine_target Debug 9 ltac:(lia)).
  - pose proof (answer_slot Debug FrBls FrBls_prime_field (fr 9) 4 ltac:(lia) zero_consts g 14 eq_refl ltac:(rewrite LG; reflexivity) ltac:(apply Nat.ltb_lt; reflexivity)) as A.
    rewrite SG in A. exact A.
  - intros Q. apply nine_maps in Q; [|lia]. discriminate.
Qed.
Print Assumptions C99_torn_refuted.
(** Preparation killed after 8 of its 10 bytes, and the space marked all the same:
    challenge 13 is answered although no value maps there. *)
Theorem C99_unprepared_refuted : exists f1 g, prepare_crash Debug [] 4 f1 /\ mark_space (K := FrBls) Debug f1 (fr 9) (fr 2) zero_consts 4 = Ok g /\
  answers FrBls Debug (fr 9) zero_consts 4 g 13 (Some 12) /\ forall x, x < 16 -> ~ maps_to FrBls (fr 9) (fr 2) zero_consts 4 x 13.
Proof.
  assert (T : exists g, foldM (fun f x => mark_slot Debug 4 f (Z.of_nat (nth x nine 0)) (int_bits 4 x ++ [true])) (seq 0 16) (zeros 8) = Ok g /\
    slot g 4 13 = [false; false; true; true; true] /\ length g = 10).
  { eexists. split; [vm_compute; reflexivity|]. split; vm_compute; reflexivity. }
  destruct T as (g & E & SG & LG). exists (zeros 8), g. split; [|split; [|split]].
  - apply C99_prepare; [lia|]. right. exists 8. split; [|reflexivity]. apply Nat.leb_le. reflexivity.
  - rewrite (mark_space_pow FrBls Debug (zeros 8) (fr 9) (fr 2) zero_consts 4 16 eq_refl). change (Z.to_nat 16) with 16. rewrite nine_upto by lia. exact E.
  - pose proof (answer_slot Debug FrBls FrBls_prime_field (fr 9) 4 ltac:(lia) zero_consts g 13 eq_refl ltac:(rewrite LG; reflexivity) ltac:(apply Nat.ltb_lt; reflexivity)) as A.
    rewrite SG in A. exact A.
  - intros x X Q. apply nine_maps in Q; [|exact X]. do 16 (destruct x as [|x]; [discriminate|]). lia.
Qed.
Print Assumptions C99_unprepared_refuted.
(** A space marked for one key and then for another without being prepared in between:
    a challenge nothing maps to under the second key is answered as under the first. *)
Theorem C99_stale : forall pr (K : prime_ops), is_prime_field K -> forall (key1 m1 key2 m2 key' : K) consts hash_consts n f f1 f2 f3, length consts = MIMC5_DF_ROUNDS ->
  length hash_consts = MIMC5_HASH_ROUNDS -> 3 <= n <= 58 -> prepare_space pr f n = Ok f1 -> mark_space pr f1 key1 m1 consts n = Ok f2 -> mark_space pr f2 key2 m2 consts n = Ok f3 ->
  forall y, y < 2 ^ n -> (forall x, x < 2 ^ n -> ~ maps_to K key2 m2 consts n x y) ->
  forall o, answers K pr key' hash_consts n f3 y o <-> answers K pr key' hash_consts n f2 y o.
Proof.
  intros pr K HK key1 m1 key2 m2 key' consts hc n f f1 f2 f3 LC LH N P M1 M2 y Y NO o.
  destruct (C50_exact_bits pr f n N) as (f1' & P' & L1). rewrite P in P'. injection P' as <-.
  destruct (C99_over pr K HK key1 m1 consts n f1 LC N L1) as (f2' & M1' & [L2 T1]). rewrite M1 in M1'. injection M1' as <-.
  destruct (C99_over pr K HK key2 m2 consts n f2 LC N ltac:(lia)) as (f3' & M2' & [L3 T2]). rewrite M2 in M2'. injection M2' as <-.
  destruct (T2 y Y) as [(x & X & M & _)|[_ E]]; [now destruct (NO x X)|]. change (slot f3 n y = slot f2 n y) in E.
  assert (YB : (n + 1) * (y + 1) <= (n + 1) * 2 ^ n) by (apply Nat.mul_le_mono_l; lia). pose proof (space_fits n ltac:(lia)) as F.
  assert (R : response_1 pr f3 [Z.of_nat y] key' hc n = response_1 pr f2 [Z.of_nat y] key' hc n).
  { unfold response_1, respond. rewrite !read_slot_ok, !slot_read_in, E by lia. reflexivity. }
  unfold answers. rewrite R. reflexivity.
Qed.
Print Assumptions C99_stale.
(** Key 0 first, then key 9: challenge 3 is answered with a value that maps there under
    key 0, though none does under key 9. *)
Lemma zero_two : match mimc5_df (K := FrBls) (@fadd FrBls (@of_Z FrBls 2) (fr 0)) (fr 2) zero_consts with Ok v => (repr (p := FrBls) v mod 16 =? 3)%Z | Panic => false end = true.
Proof. vm_compute. reflexivity. Qed.
Theorem C99_other_key_refuted : exists f1 f2 f3 x, prepare_space Debug [] 4 = Ok f1 /\ mark_space (K := FrBls) Debug f1 (fr 0) (fr 2) zero_consts 4 = Ok f2 /\
  mark_space (K := FrBls) Debug f2 (fr 9) (fr 2) zero_consts 4 = Ok f3 /\ answers FrBls Debug (fr 9) zero_consts 4 f3 3 (Some x) /\
  maps_to FrBls (fr 0) (fr 2) zero_consts 4 x 3 /\ forall x, x < 16 -> ~ maps_to FrBls (fr 9) (fr 2) zero_consts 4 x 3.
Proof.
  assert (NO : forall x, x < 2 ^ 4 -> ~ maps_to FrBls (fr 9) (fr 2) zero_consts 4 x 3).
  { intros x X Q. apply nine_maps in Q; [|exact X]. do 16 (destruct x as [|x]; [discriminate|]). cbn in X. lia. }
  assert (YES : maps_to FrBls (fr 0) (fr 2) zero_consts 4 2 3).
  { pose proof zero_two as E. unfold maps_to. change (Z.of_nat 2) with 2%Z. destruct (mimc5_df (K := FrBls) (@fadd FrBls (@of_Z FrBls 2) (fr 0)) (fr 2) zero_consts) as [v|]; [|discriminate].
    apply Z.eqb_eq in E. exists v. split; [reflexivity|exact E]. }
  destruct (C50_exact_bits Debug [] 4 ltac:(lia)) as (f1 & P & L1).
  destruct (C99_over Debug FrBls FrBls_prime_field (fr 0) (fr 2) zero_consts 4 f1 eq_refl ltac:(lia) L1) as (f2 & M1 & [L2 T1]).
  destruct (C99_over Debug FrBls FrBls_prime_field (fr 9) (fr 2) zero_consts 4 f2 eq_refl ltac:(lia) ltac:(lia)) as (f3 & M2 & [L3 T2]).
  destruct (T1 3 ltac:(apply Nat.ltb_lt; reflexivity)) as [(x & X & M & _ & xb & SX & U)|[N1 _]]; [|destruct (N1 2); [apply Nat.ltb_lt; reflexivity|exact YES]].
  exists f1, f2, f3, x. split; [exact P|]. split; [exact M1|]. split; [exact M2|]. split; [|split; [exact M|exact NO]].
  apply (C99_stale Debug FrBls FrBls_prime_field (fr 0) (fr 2) (fr 9) (fr 2) (fr 9) zero_consts zero_consts 4 [] f1 f2 f3 eq_refl eq_refl ltac:(lia) P M1 M2 3 ltac:(apply Nat.ltb_lt; reflexivity) NO (Some x)).
  pose proof (answer_slot Debug FrBls FrBls_prime_field (fr 9) 4 ltac:(lia) zero_consts f2 3 eq_refl ltac:(lia) ltac:(apply Nat.ltb_lt; reflexivity)) as A.
  change (slot f2 4 3 = xb ++ [true]) in SX. rewrite SX in A. rewrite usize_to_bits_ok in U by lia. assert (xb = int_bits 4 x) as -> by (unfold int_bits; congruence).
  rewrite app_nth2, int_bits_length, Nat.sub_diag in A by (rewrite int_bits_length; lia). cbn [nth] in A.
  assert (FV : firstn 4 (int_bits 4 x ++ [true]) = int_bits 4 x) by (rewrite <- (int_bits_length 4 x) at 1; rewrite firstn_app, Nat.sub_diag, firstn_all; apply app_nil_r).
  rewrite FV, (val_int_bits 4 x X), Nat2Z.id in A. exact A.
Qed.
Print Assumptions C99_other_key_refuted.
(** Killed after five of the eight values, slots of four bits. *)
Example C99_ex : exists f1 g, prepare_space Debug [xff] 3 = Ok f1 /\ 8 * length f1 = (3 + 1) * 2 ^ 3 /\ mark_crash (K := FrBls) Debug f1 (fr 1) (fr 2) zero_consts 3 g /\
  table FrBls (fr 1) (fr 2) zero_consts 3 5 f1 g.
Proof.
  destruct (C50_exact_bits Debug [xff] 3 ltac:(lia)) as (f1 & P & L1). destruct (df_total FrBls FrBls_prime_field (fr 1) (fr 2) zero_consts eq_refl) as (df & D).
  destruct (mark_upto_ok (K := FrBls) Debug (fr 1) (fr 2) zero_consts 3 df (fun z => proj1 (pf_repr FrBls FrBls_prime_field z)) ltac:(lia) D f1 5 L1) as (g & E & _).
  apply (table_upto Debug FrBls FrBls_prime_field (fr 1) (fr 2) zero_consts 3 ltac:(lia) df f1 D L1) in E.
  exists f1, g. split; [exact P|]. split; [exact L1|]. split; [|exact E]. apply (C99_states Debug FrBls FrBls_prime_field); [reflexivity|lia|exact L1|]. left. exists 5. split; [apply Nat.leb_le; reflexivity|exact E].
Qed.
