(** Facts about a killed preparation or marking of the space, and about marking a file
    with arbitrary content. *)
From Coq Require Import Strings.Byte.
From Verif Require Import Base BytesFacts Field Mimc Convert ConvertFacts Space SpaceFacts SpaceCrash.
Local Open Scope nat_scope.

Lemma foldM_cat {A S} (f : S -> A -> res S) l1 : forall l2 s, foldM f (l1 ++ l2) s = (let* t := foldM f l1 s in foldM f l2 t).
Proof. induction l1 as [|x l1 IH]; intros; cbn [app foldM bind]; [reflexivity|]. destruct (f s x); cbn [bind]; auto. Qed.

(** * The file while one slot is written *)
Lemma mark_bit_short pr : forall l f idx buf bb j f' idx' buf' bb' j', j + length l < 8 ->
  foldM (mark_bit pr) l (f, idx, buf, bb, j) = Ok (f', idx', buf', bb', j') -> f' = f.
Proof.
  induction l as [|b l IH]; intros f idx buf bb j f' idx' buf' bb' j' B E; cbn [foldM] in E; [now injection E as <- <- <- <- <-|].
  cbn [length] in B. unfold mark_bit at 1 in E. destruct (set_index bb j b) as [bb1|]; [|discriminate]. cbn [bind] in E.
  destruct (Nat.eqb_spec (S j) 8) as [J|J]; [lia|]. cbn [bind] in E. eapply IH; [|exact E]. lia.
Qed.
Lemma mark_bit_phase pr : forall l f idx buf bb j f' idx' buf' bb' j', j < 8 ->
  foldM (mark_bit pr) l (f, idx, buf, bb, j) = Ok (f', idx', buf', bb', j') -> j' = (j + length l) mod 8.
Proof.
  induction l as [|b l IH]; intros f idx buf bb j f' idx' buf' bb' j' J E; cbn [foldM length] in *.
  - injection E as <- <- <- <- <-. rewrite Nat.add_0_r. symmetry. now apply Nat.mod_small.
  - unfold mark_bit at 1 in E. destruct (set_index bb j b) as [bb1|]; [|discriminate]. cbn [bind] in E.
    destruct (Nat.eqb_spec (S j) 8) as [J8|J8].
    + destruct (bits_to_bytes pr bb1) as [e|]; [|discriminate]. cbn [bind] in E. apply IH in E; [|lia]. rewrite E.
      replace (j + S (length l)) with (length l + 1 * 8) by lia. rewrite Nat.mod_add by lia. reflexivity.
    + cbn [bind] in E. apply IH in E; [|lia]. rewrite E. f_equal. lia.
Qed.

(** The bits that have reached the file once t bits were handled, starting at bit p: those
    of the bytes that are complete. *)
Definition reached (p t : nat) : nat := t - (p + t) mod 8.
Lemma reached_le p t : reached p t <= t.
Proof. unfold reached. lia. Qed.
Lemma reached_cases p t : (reached p t = 0 /\ p mod 8 + t < 8) \/ ((p + reached p t) mod 8 = 0 /\ t < reached p t + 8).
Proof.
  unfold reached. pose proof (Nat.mod_upper_bound (p + t) 8 ltac:(lia)) as M. pose proof (Nat.mod_upper_bound p 8 ltac:(lia)) as MP. destruct (Nat.le_gt_cases ((p + t) mod 8) t) as [L|L].
  - right. split; [|lia]. pose proof (Nat.div_mod (p + t) 8 ltac:(lia)) as D. replace (p + (t - (p + t) mod 8)) with ((p + t) / 8 * 8) by lia. apply Nat.mod_mul. lia.
  - left. split; [lia|]. pose proof (Nat.div_mod p 8 ltac:(lia)) as D. rewrite D in L at 1.
    replace (8 * (p / 8) + p mod 8 + t) with (p mod 8 + t + (p / 8) * 8) in L by lia. rewrite Nat.mod_add in L by lia.
    destruct (Nat.lt_ge_cases (p mod 8 + t) 8); [assumption|]. exfalso.
    destruct (Nat.lt_ge_cases t 8) as [T|T]; [|pose proof (Nat.mod_upper_bound (p mod 8 + t) 8 ltac:(lia)); lia].
    replace (p mod 8 + t) with (p mod 8 + t - 8 + 1 * 8) in L by lia. rewrite Nat.mod_add, Nat.mod_small in L by lia. lia.
Qed.
Lemma reached_at p q : (p + q) mod 8 = 0 -> reached p q = q.
Proof. intros E. unfold reached. rewrite E. lia. Qed.

Lemma mark_slot_upto_ok pr n f y l t : length l = n + 1 -> t <= n + 1 -> (Z.of_nat ((n + 1) * y) < two64)%Z -> (n + 1) * (y + 1) <= 8 * length f ->
  exists f', mark_slot_upto pr n f (Z.of_nat y) l t = Ok f' /\
  bytes_to_bits f' = splice (bytes_to_bits f) ((n + 1) * y) (firstn (reached ((n + 1) * y) t) l).
Proof.
  intros LL T U B. unfold mark_slot_upto. assert (E : ((Z.of_nat n + 1) * Z.of_nat y)%Z = Z.of_nat ((n + 1) * y)) by lia. rewrite E.
  rewrite usz_in by lia. cbn [bind]. change 8%Z with (Z.of_nat 8). rewrite <- Nat2Z.inj_div, <- Nat2Z.inj_mod, !Nat2Z.id.
  replace ((n + 1) * (y + 1)) with ((n + 1) * y + (n + 1)) in B by ring. set (p := (n + 1) * y) in *. assert (P8 : 8 * (p / 8) + p mod 8 = p) by (symmetry; apply Nat.div_mod; lia). pose proof (Nat.mod_upper_bound p 8 ltac:(lia)) as PM.
  assert (PD : p / 8 < length f) by (apply Nat.div_lt_upper_bound; lia).
  assert (PEND : pending (bytes_to_bits f) f (p / 8) (bytes_to_bits (read_into f (p / 8) [x00])) (p mod 8)).
  { destruct (skipn (p / 8) f) as [|c d] eqn:S; [apply (f_equal (@length byte)) in S; rewrite skipn_length in S; cbn [length] in S; lia|].
    assert (F : f = firstn (p / 8) f ++ c :: d) by (now rewrite <- S, firstn_skipn).
    assert (LA : length (firstn (p / 8) f) = p / 8) by (rewrite firstn_length; lia). set (a := firstn (p / 8) f) in *. rewrite F, <- LA, read_mid by reflexivity.
    cbn [bytes_to_bits flat_map]. rewrite app_nil_r. constructor; [apply byte_bits_length|lia| |reflexivity]. now rewrite bytes_to_bits_app, bytes_to_bits_cons. }
  assert (RB : length (read_into f (p / 8) [x00]) = 1).
  { unfold read_into. cbn [length]. rewrite app_length, skipn_length, firstn_length. cbn [length]. lia. }
  pose proof (reached_le p t) as RL. set (q := reached p t) in *.
  destruct (mark_loop pr (firstn t l) _ _ _ _ _ _ RB PEND) as (s & f2 & R & _); [rewrite bytes_to_bits_length, firstn_length; lia|].
  rewrite R. cbn [bind]. destruct s as ((((f1 & i1) & b1) & bb1) & j1). exists f1. split; [reflexivity|].
  destruct (reached_cases p t) as [[Q S]|[Q S]]; fold q in Q.
  - rewrite Q. cbn [firstn splice]. f_equal. eapply mark_bit_short; [|exact R]. rewrite firstn_length. lia.
  - fold q in S. destruct (mark_loop pr (firstn q l) _ _ _ _ _ _ RB PEND) as (s & f3 & R1 & C1 & E1); [rewrite bytes_to_bits_length, firstn_length; lia|].
    destruct s as ((((f4 & i4) & b4) & bb4) & j4).
    assert (J4 : j4 = 0).
    { apply mark_bit_phase in R1; [|exact PM]. rewrite R1, firstn_length, Nat.min_l by lia. rewrite Nat.add_mod_idemp_l by lia. exact Q. }
    subst j4. cbn [commit Nat.eqb] in C1. injection C1 as <-. rewrite P8 in E1. rewrite <- E1. f_equal.
    replace (firstn t l) with (firstn q l ++ firstn (t - q) (skipn q l)) in R.
    2:{ rewrite <- (firstn_skipn q (firstn t l)) at 1. rewrite firstn_firstn, Nat.min_l by lia. f_equal. symmetry. apply skipn_firstn_comm. }
    rewrite foldM_cat, R1 in R. cbn [bind] in R. eapply mark_bit_short; [|exact R]. rewrite firstn_length. lia.
Qed.
(** The effect on every slot. *)
Lemma mark_slot_upto_slots pr n f y l t : length l = n + 1 -> t <= n + 1 -> (Z.of_nat ((n + 1) * y) < two64)%Z -> (n + 1) * (y + 1) <= 8 * length f ->
  exists f', mark_slot_upto pr n f (Z.of_nat y) l t = Ok f' /\ length f' = length f /\
  slot f' n y = firstn (reached ((n + 1) * y) t) l ++ skipn (reached ((n + 1) * y) t) (slot f n y) /\
  forall y', y' <> y -> slot f' n y' = slot f n y'.
Proof.
  intros LL T U B. destruct (mark_slot_upto_ok pr n f y l t LL T U B) as (f' & E & EB). exists f'. split; [exact E|].
  pose proof (reached_le ((n + 1) * y) t) as RL. set (q := reached ((n + 1) * y) t) in *. clearbody q.
  assert (LQ : length (firstn q l) = q) by (rewrite firstn_length; lia).
  assert (LB : (n + 1) * y + length (firstn q l) <= length (bytes_to_bits f)) by (rewrite bytes_to_bits_length; lia).
  split; [|split].
  - apply (f_equal (@length bool)) in EB. rewrite splice_length, !bytes_to_bits_length in EB. lia.
  - apply list_ext. intros i. destruct (Nat.lt_ge_cases i (n + 1)) as [L|L].
    + unfold slot at 1. rewrite nth_firstn_lt, nth_skipn, EB, nth_splice by auto. rewrite LQ. destruct (Nat.lt_ge_cases i q) as [I|I].
      * rewrite nth_error_app1 by lia.
        destruct (Nat.leb_spec ((n + 1) * y) ((n + 1) * y + i)), (Nat.ltb_spec ((n + 1) * y + i) ((n + 1) * y + q)); try lia. cbn [andb]. f_equal. lia.
      * destruct (Nat.leb_spec ((n + 1) * y) ((n + 1) * y + i)), (Nat.ltb_spec ((n + 1) * y + i) ((n + 1) * y + q)); try lia. cbn [andb].
        rewrite nth_error_app2, LQ, nth_skipn by lia. replace (q + (i - q)) with i by lia. unfold slot. now rewrite nth_firstn_lt, nth_skipn by exact L.
    + rewrite !(proj2 (nth_error_None _ _)); [reflexivity| |].
      * rewrite app_length, skipn_length, slot_length by exact B. lia.
      * unfold slot. rewrite firstn_length. lia.
  - intros y' N. apply slot_ext. intros i L. rewrite EB, nth_splice by auto. rewrite LQ.
    destruct (Nat.leb_spec ((n + 1) * y) ((n + 1) * y' + i)), (Nat.ltb_spec ((n + 1) * y' + i) ((n + 1) * y + q)); try reflexivity. cbn [andb]. exfalso. nia.
Qed.

(** * Marking over any content *)
(** Slot y after the inputs below X have been marked over a slot that held [old]. *)
Definition slot_over (g : nat -> nat) (n X y : nat) (old s : list bool) : Prop :=
  (exists x, x < X /\ g x = y /\ (forall x', x < x' < X -> g x' <> y) /\ s = int_bits n x ++ [true]) \/
  ((forall x, x < X -> g x <> y) /\ s = old).
Lemma slot_over_fun g n X y old s s' : slot_over g n X y old s -> slot_over g n X y old s' -> s = s'.
Proof.
  intros [(x & A & B & C & D)|(A & B)] [(x' & A' & B' & C' & D')|(A' & B')]; subst; auto.
  - destruct (Nat.lt_trichotomy x x') as [L|[->|L]]; [|reflexivity|].
    + now destruct (C x' ltac:(lia)).
    + destruct (C' x ltac:(lia)). congruence.
  - now destruct (A' x A).
  - now destruct (A x' A').
Qed.
Lemma mark_over pr n (g : nat -> nat) (step : file -> nat -> res file) :
  (Z.of_nat ((n + 1) * 2 ^ n) <= two64)%Z -> (forall x, g x < 2 ^ n) ->
  (forall f x, step f x = mark_slot pr n f (Z.of_nat (g x)) (int_bits n x ++ [true])) ->
  forall X f, (n + 1) * 2 ^ n <= 8 * length f ->
  exists f', foldM step (seq 0 X) f = Ok f' /\ length f' = length f /\ forall y, y < 2 ^ n -> slot_over g n X y (slot f n y) (slot f' n y).
Proof.
  intros U G ST X f LF. induction X as [|X IH].
  - exists f. split; [reflexivity|]. split; [reflexivity|]. intros y Y. right. split; [lia|auto].
  - destruct IH as (f1 & R & L1 & S1). rewrite seq_S, foldM_cat, R. cbn [Nat.add bind foldM]. rewrite ST. specialize (G X).
    assert (GB : (n + 1) * (g X + 1) <= (n + 1) * 2 ^ n) by (apply Nat.mul_le_mono_l; lia).
    destruct (mark_slot_slots pr n f1 (g X) (int_bits n X ++ [true])) as (f2 & E & L2 & SE & SO).
    { now rewrite app_length, int_bits_length. }
    { lia. }
    { rewrite L1. lia. }
    rewrite E. cbn [bind]. exists f2. split; [reflexivity|]. split; [lia|]. intros y Y. destruct (Nat.eq_dec y (g X)) as [->|N].
    + left. exists X. split; [lia|]. split; [reflexivity|]. split; [lia|exact SE].
    + rewrite SO by exact N. destruct (S1 y Y) as [(x & A & B & C & D)|(A & B)].
      * left. exists x. split; [lia|]. split; [exact B|]. split; [|exact D]. intros x' X'. destruct (Nat.eq_dec x' X) as [->|]; [congruence|]. apply C. lia.
      * right. split; [|exact B]. intros x X'. destruct (Nat.eq_dec x X) as [->|]; [congruence|]. apply A. lia.
Qed.

(** The slots determine a file of the right length. *)
Lemma bits_inj : forall f g, bytes_to_bits f = bytes_to_bits g -> f = g.
Proof. intros f g E. apply (f_equal pack) in E. now rewrite !pack_bits in E. Qed.
Lemma slots_ext n f g : 8 * length f = (n + 1) * 2 ^ n -> length g = length f -> (forall y, y < 2 ^ n -> slot f n y = slot g n y) -> f = g.
Proof.
  intros LF LG S. apply bits_inj, list_ext. intros i. destruct (Nat.lt_ge_cases i (8 * length f)) as [I|I].
  2:{ rewrite !(proj2 (nth_error_None _ _)); [reflexivity| |]; rewrite bytes_to_bits_length; lia. }
  pose proof (Nat.div_mod i (n + 1) ltac:(lia)) as D. pose proof (Nat.mod_upper_bound i (n + 1) ltac:(lia)) as M.
  assert (Y : i / (n + 1) < 2 ^ n) by (apply Nat.div_lt_upper_bound; lia). specialize (S _ Y). apply (f_equal (fun l => nth_error l (i mod (n + 1)))) in S.
  unfold slot in S. rewrite !nth_firstn_lt, !nth_skipn in S by exact M. now rewrite <- D in S.
Qed.

Section Crash.
Context {K : prime_ops} (pr : profile) (key m : K) (consts : list K) (n : nat) (df : nat -> K).
Hypothesis RP : forall z : K, (0 <= repr z)%Z.
Hypothesis N : 3 <= n <= 58.
Hypothesis DF : forall x, mimc5_df (fadd (of_Z (Z.of_nat x)) key) m consts = Ok (df x).
Notation dest := (fun x => low_bits n (df x)).

Lemma target x : mark_target pr key m consts n (Z.of_nat x) = Ok (Z.of_nat (dest x), int_bits n x ++ [true]).
Proof. apply mark_target_ok; auto; lia. Qed.
Lemma count_ok : pow2 pr n = Ok (2 ^ Z.of_nat n)%Z /\ Z.to_nat (2 ^ Z.of_nat n) = 2 ^ n.
Proof.
  split; [apply pow2_ok; lia|]. apply Nat2Z.inj. rewrite Z2Nat.id by (apply Z.pow_nonneg; lia). now rewrite Nat2Z.inj_pow.
Qed.
Lemma mark_upto_ok f X : 8 * length f = (n + 1) * 2 ^ n ->
  exists g, mark_upto pr f key m consts n X = Ok g /\ length g = length f /\ forall y, y < 2 ^ n -> slot_over dest n X y (slot f n y) (slot g n y).
Proof.
  intros L. unfold mark_upto. apply (mark_over pr n dest).
  - pose proof (space_fits n ltac:(lia)). lia.
  - intros x. apply low_bits_lt.
  - intros h x. rewrite target. reflexivity.
  - lia.
Qed.
Lemma mark_space_upto f : mark_space pr f key m consts n = mark_upto pr f key m consts n (2 ^ n).
Proof. unfold mark_space. destruct count_ok as [-> E]. cbn [bind]. rewrite E. reflexivity. Qed.
Lemma mark_upto_S f X g : mark_upto pr f key m consts n X = Ok g ->
  mark_upto pr f key m consts n (S X) = mark_slot pr n g (Z.of_nat (dest X)) (int_bits n X ++ [true]).
Proof.
  unfold mark_upto. intros E. rewrite seq_S, foldM_cat, E. cbn [Nat.add bind foldM]. rewrite target. cbn [bind]. now destruct (mark_slot _ _ _ _ _).
Qed.

Lemma fits x : (Z.of_nat ((n + 1) * dest x) < two64)%Z /\ (n + 1) * (dest x + 1) <= (n + 1) * 2 ^ n.
Proof.
  assert (B : (n + 1) * (dest x + 1) <= (n + 1) * 2 ^ n) by (apply Nat.mul_le_mono_l; pose proof (low_bits_lt n (df x)); lia).
  split; [|exact B]. pose proof (space_fits n ltac:(lia)). lia.
Qed.
(** The two kinds of states, over any content of the right length. *)
Lemma mark_crash_iff f g : 8 * length f = (n + 1) * 2 ^ n ->
  mark_crash pr f key m consts n g <->
  (exists X, X <= 2 ^ n /\ mark_upto pr f key m consts n X = Ok g) \/
  (exists x q f1, x < 2 ^ n /\ 0 < q <= n /\ ((n + 1) * dest x + q) mod 8 = 0 /\ mark_upto pr f key m consts n x = Ok f1 /\
     length g = length f1 /\ slot g n (dest x) = firstn q (int_bits n x ++ [true]) ++ skipn q (slot f1 n (dest x)) /\
     forall y, y < 2 ^ n -> y <> dest x -> slot g n y = slot f1 n y).
Proof.
  intros L. destruct count_ok as [PW CN]. destruct (space_fits n ltac:(lia)).
  assert (LI : forall x, length (int_bits n x ++ [true]) = n + 1) by (intros; now rewrite app_length, int_bits_length).
  split.
  - intros C. destruct C as [count X g C XL E|count x t f1 y xb g C XL E T U]; rewrite PW in C; injection C as <-; rewrite CN in XL; [left; eauto|].
    rewrite target in T. injection T as <- <-.
    destruct (mark_upto_ok f x L) as (f1' & E' & L1 & S1). rewrite E in E'. injection E' as <-. destruct (fits x) as [F1 F2].
    assert (T' : exists t', t' <= n + 1 /\ mark_slot_upto pr n f1 (Z.of_nat (dest x)) (int_bits n x ++ [true]) t' = Ok g).
    { exists (Nat.min t (n + 1)). split; [lia|]. rewrite <- U. unfold mark_slot_upto. destruct (Nat.le_gt_cases t (n + 1)); [now rewrite Nat.min_l by lia|].
      rewrite Nat.min_r by lia. rewrite (firstn_all2 _ (n := t)), (firstn_all2 _ (n := n + 1)) by (rewrite LI; lia). reflexivity. }
    clear t U. destruct T' as (t & TL & U).
    destruct (mark_slot_upto_slots pr n f1 (dest x) (int_bits n x ++ [true]) t (LI x) TL F1 ltac:(lia)) as (g' & U' & LG & SE & SO).
    rewrite U in U'. injection U' as <-. pose proof (reached_le ((n + 1) * dest x) t) as RL. pose proof (reached_cases ((n + 1) * dest x) t) as RC.
    set (q := reached ((n + 1) * dest x) t) in *. clearbody q. destruct (Nat.eq_dec q 0) as [->|Q0].
    + left. exists x. split; [lia|]. rewrite E. f_equal. apply (slots_ext n); [lia|exact LG|]. intros y Y. destruct (Nat.eq_dec y (dest x)) as [->|NE].
      * rewrite SE. reflexivity.
      * symmetry. now apply SO.
    + destruct RC as [[? _]|[RM _]]; [contradiction|]. destruct (Nat.eq_dec q (n + 1)) as [QN|QN].
      * left. exists (S x). split; [lia|]. rewrite (mark_upto_S f x f1 E).
        destruct (mark_slot_slots pr n f1 (dest x) (int_bits n x ++ [true]) (LI x) F1 ltac:(lia)) as (h & M & LH & SH & SHO). rewrite M. f_equal.
        apply (slots_ext n); [lia|lia|]. intros y Y. destruct (Nat.eq_dec y (dest x)) as [->|NE].
        -- rewrite SE, SH, QN, <- (LI x), firstn_all, skipn_all2; [now rewrite app_nil_r|]. rewrite slot_length by lia. rewrite LI. lia.
        -- rewrite SO, SHO by exact NE. reflexivity.
      * right. exists x, q, f1. split; [exact XL|]. split; [lia|]. split; [exact RM|]. split; [exact E|]. split; [exact LG|]. split; [exact SE|]. intros y _ NE. now apply SO.
  - intros [(X & XL & E)|(x & q & f1 & XL & Q & QM & E & LG & SE & SO)].
    + apply (MC_between pr f key m consts n (2 ^ Z.of_nat n) X g PW); [lia|exact E].
    + destruct (fits x) as [F1 F2]. destruct (mark_upto_ok f x L) as (f1' & E' & L1 & S1). rewrite E in E'. injection E' as <-.
      destruct (mark_slot_upto_slots pr n f1 (dest x) (int_bits n x ++ [true]) q (LI x) ltac:(lia) F1 ltac:(lia)) as (g' & U & LG' & SE' & SO').
      rewrite (reached_at _ _ QM) in SE'.
      assert (g = g') as ->.
      { apply (slots_ext n); [lia|lia|]. intros y Y. destruct (Nat.eq_dec y (dest x)) as [->|NE]; [now rewrite SE, SE'|]. now rewrite SO, SO' by assumption. }
      apply (MC_inside pr f key m consts n (2 ^ Z.of_nat n) x q f1 (Z.of_nat (dest x)) (int_bits n x ++ [true]) g' PW); [lia|exact E|apply target|exact U].
Qed.
(** Marking again from the start gives what the killed run would have given. *)
Lemma mark_again f g : 8 * length f = (n + 1) * 2 ^ n -> mark_crash pr f key m consts n g ->
  exists f2, mark_space pr f key m consts n = Ok f2 /\ mark_space pr g key m consts n = Ok f2.
Proof.
  intros L C. apply (mark_crash_iff f g L) in C. rewrite !mark_space_upto.
  assert (P : length g = length f /\ forall y, y < 2 ^ n -> (forall x, x < 2 ^ n -> dest x <> y) -> slot g n y = slot f n y).
  { destruct C as [(X & XL & E)|(x & q & f1 & XL & Q & QM & E & LG & SE & SO)].
    - destruct (mark_upto_ok f X L) as (g' & E' & L1 & S1). rewrite E in E'. injection E' as <-. split; [exact L1|].
      intros y Y NO. destruct (S1 y Y) as [(x & A & B & _)|(_ & B)]; [|exact B]. destruct (NO x ltac:(lia) B).
    - destruct (mark_upto_ok f x L) as (g' & E' & L1 & S1). rewrite E in E'. injection E' as <-. split; [lia|].
      intros y Y NO. rewrite SO; [|exact Y|intros ->; now apply (NO x XL)]. destruct (S1 y Y) as [(x' & A & B & _)|(_ & B)]; [|exact B]. destruct (NO x' ltac:(lia) B). }
  destruct P as [LG P]. destruct (mark_upto_ok f (2 ^ n) L) as (f2 & E & L2 & S2). destruct (mark_upto_ok g (2 ^ n) ltac:(lia)) as (f3 & E3 & L3 & S3).
  exists f2. split; [exact E|]. rewrite E3. f_equal. apply (slots_ext n); [lia|lia|]. intros y Y.
  specialize (S2 y Y). specialize (S3 y Y). destruct S2 as [A|[NO A]].
  - destruct S3 as [A'|[NO' _]]; [|destruct A as (x & X & D & _); now destruct (NO' x X)].
    eapply (slot_over_fun dest n (2 ^ n) y []); left; eassumption.
  - destruct S3 as [(x & X & D & _)|[_ A']]; [now destruct (NO x X)|]. rewrite A, A'. now apply P.
Qed.
End Crash.

Lemma prepare_crash_iff pr f n g : n <= 58 -> prepare_crash pr f n g <-> g = f \/ exists k, k <= (n + 1) * 2 ^ n / 8 /\ g = zeros k.
Proof.
  intros N. pose proof (space_fits n N) as F.
  assert (E : ((Z.of_nat n + 1) * 2 ^ Z.of_nat n)%Z = Z.of_nat ((n + 1) * 2 ^ n)) by (rewrite Nat2Z.inj_mul, Nat2Z.inj_pow; change (Z.of_nat 2) with 2%Z; lia).
  split.
  - intros C. destruct C as [| |count total k P U L]; [now left|right; exists 0; split; [lia|reflexivity]|].
    rewrite pow2_ok in P by lia. injection P as <-. rewrite E, usz_in in U by lia. injection U as <-. change 8%Z with (Z.of_nat 8) in L. rewrite <- Nat2Z.inj_div, Nat2Z.id in L.
    right. exists k. split; [exact L|]. exact (fold_writes k [] eq_refl).
  - intros [->|(k & L & ->)]; [constructor|]. rewrite <- (fold_writes k [] eq_refl : _ = zeros k).
    apply (PC_writing pr f n (2 ^ Z.of_nat n) (Z.of_nat ((n + 1) * 2 ^ n))); [apply pow2_ok; lia|rewrite E; apply usz_in; lia|].
    change 8%Z with (Z.of_nat 8). now rewrite <- Nat2Z.inj_div, Nat2Z.id.
Qed.
