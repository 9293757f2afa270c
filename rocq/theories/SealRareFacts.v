(** Counting the files whose sealing meets a zero (for PropSealRare): every single step of
    sealing is one-to-one where it meets none, and meets one for at most one value of its unit
    for each choice of the other units. *)
From Coq Require Import Znumtheory.
From Verif Require Import Base Legendre Sloth Common Depend Prover NumTheory SlothFacts BytesFacts DependSpec DependFacts DependDet VdeFacts SealSpec SealCore SealFile SealTop CommonFacts.
Local Open Scope nat_scope.

(** * Stages *)
(** A stage turns a state into another one and notes numbers.  It always returns, it is
    one-to-one on the states for which it notes no zero, and it notes a zero for at most B. *)
Record rare {X} (V : X -> Prop) (f : X * list Z -> res (X * list Z)) (B : Z) : Prop := {
  rare_total : forall x, V x -> exists y z, V y /\ forall log, f (x, log) = Ok (y, z ++ log);
  rare_inj : forall x x' y z z', V x -> V x' -> f (x, []) = Ok (y, z) -> f (x', []) = Ok (y, z') -> ~ In 0%Z z -> ~ In 0%Z z' -> x = x';
  rare_count : forall L, NoDup L -> (forall x, In x L -> V x /\ exists y z, f (x, []) = Ok (y, z) /\ In 0%Z z) -> (Z.of_nat (length L) <= B)%Z
}.
Lemma filter_split {A} (b : A -> bool) l : length l = length (filter b l) + length (filter (fun x => negb (b x)) l).
Proof. induction l as [|a l IH]; [reflexivity|]. cbn [filter length]. destruct (b a); cbn [negb length]; lia. Qed.
Lemma nodup_map {A B} (g : A -> B) l : NoDup l -> (forall x y, In x l -> In y l -> g x = g y -> x = y) -> NoDup (map g l).
Proof.
  intros N I. induction N as [|a l NI N IH]; cbn [map]; [constructor|]. constructor.
  - intros J. apply in_map_iff in J as (b & E & J). rewrite (I b a) in J; [contradiction|now right|now left|exact E].
  - apply IH. intros x y X Y. apply I; now right.
Qed.
Lemma rare_ext {X} (V : X -> Prop) f g B : (forall s, f s = g s) -> rare V f B -> rare V g B.
Proof.
  intros E [T I C]. split.
  - intros x VX. destruct (T x VX) as (y & z & VY & F). exists y, z. split; [exact VY|]. intros log. now rewrite <- E.
  - intros x x' y z z' VX VX' F F'. rewrite <- E in F, F'. now apply (I x x' y z z').
  - intros L N A. apply C; [exact N|]. intros x IX. destruct (A x IX) as (VX & y & z & F & IZ). split; [exact VX|]. exists y, z. now rewrite E.
Qed.
Lemma rare_next {X} (V : X -> Prop) f g A B : rare V f A -> rare V g B -> rare V (fun s => let* s' := f s in g s') (A + B).
Proof.
  intros RF RG. pose (bz := fun x => match f (x, []) with Ok (_, z) => existsb (Z.eqb 0) z | Panic => false end).
  assert (SPLIT : forall x, V x -> exists y z w zw, f (x, []) = Ok (y, z) /\ V y /\ g (y, []) = Ok (w, zw) /\ (let* s' := f (x, []) in g s') = Ok (w, zw ++ z)).
  { intros x VX. destruct (rare_total _ _ _ RF x VX) as (y & z & VY & F). destruct (rare_total _ _ _ RG y VY) as (w & zw & VW & G).
    exists y, z, w, zw. rewrite F, G. cbn [bind]. rewrite G, !app_nil_r. auto. }
  split.
  - intros x VX. destruct (rare_total _ _ _ RF x VX) as (y & z & VY & F). destruct (rare_total _ _ _ RG y VY) as (w & zw & VW & G).
    exists w, (zw ++ z). split; [exact VW|]. intros log. rewrite F. cbn [bind]. rewrite G. now rewrite app_assoc.
  - intros x x' y z z' VX VX' F F' NZ NZ'. destruct (SPLIT x VX) as (y1 & z1 & w1 & u1 & F1 & V1 & G1 & E1). destruct (SPLIT x' VX') as (y2 & z2 & w2 & u2 & F2 & V2 & G2 & E2).
    rewrite E1 in F. rewrite E2 in F'. injection F as -> <-. injection F' as -> <-.
    assert (y1 = y2) as -> by (apply (rare_inj _ _ _ RG y1 y2 y u1 u2); auto; intros Z0; [apply NZ|apply NZ']; apply in_or_app; now left).
    apply (rare_inj _ _ _ RF x x' y2 z1 z2); auto; intros Z0; [apply NZ|apply NZ']; apply in_or_app; now right.
  - intros L N AL. rewrite (filter_split bz L), Nat2Z.inj_add. apply Z.add_le_mono.
    + apply (rare_count _ _ _ RF); [now apply NoDup_filter|]. intros x IX. apply filter_In in IX as [IX BX]. split; [now apply AL|]. unfold bz in BX.
      destruct (f (x, [])) as [[y z]|]; [|discriminate]. exists y, z. split; [reflexivity|]. apply existsb_exists in BX as (q & IQ & EQ). apply Z.eqb_eq in EQ. now subst q.
    + pose (im := fun x => match f (x, []) with Ok (y, _) => y | Panic => x end).
      assert (NB : forall x, In x (filter (fun x => negb (bz x)) L) -> In x L /\ forall y z, f (x, []) = Ok (y, z) -> ~ In 0%Z z).
      { intros x IX. apply filter_In in IX as [IX BX]. split; [exact IX|]. intros y z F IZ. unfold bz in BX. rewrite F in BX. apply negb_true_iff in BX.
        assert (existsb (Z.eqb 0) z = true) by (apply existsb_exists; exists 0%Z; split; [exact IZ|reflexivity]). congruence. }
      rewrite <- (map_length im). apply (rare_count _ _ _ RG).
      * apply nodup_map; [now apply NoDup_filter|]. intros x x' IX IX' E. destruct (NB x IX) as [JX NX], (NB x' IX') as [JX' NX'].
        destruct (SPLIT x (proj1 (AL x JX))) as (y1 & z1 & _ & _ & F1 & _). destruct (SPLIT x' (proj1 (AL x' JX'))) as (y2 & z2 & _ & _ & F2 & _). unfold im in E. rewrite F1, F2 in E. subst y2.
        apply (rare_inj _ _ _ RF x x' y1 z1 z2); eauto; now apply AL.
      * intros y IY. apply in_map_iff in IY as (x & <- & IX). destruct (NB x IX) as [JX NX]. destruct (AL x JX) as (VX & y' & z' & E & IZ).
        destruct (SPLIT x VX) as (y1 & z1 & w1 & u1 & F1 & V1 & G1 & E1). unfold im. rewrite F1. split; [exact V1|]. exists w1, u1. split; [exact G1|].
        rewrite E1 in E. injection E as -> <-. apply in_app_or in IZ as [IZ|IZ]; [exact IZ|]. elim (NX _ _ F1 IZ).
Qed.
Lemma rare_none {X} (V : X -> Prop) : rare V (fun s => Ok s) 0.
Proof.
  split.
  - intros x VX. exists x, []. auto.
  - intros x x' y z z' _ _ F F' _ _. congruence.
  - intros [|x L] _ A; [reflexivity|]. destruct (A x ltac:(now left)) as (_ & y & z & E & I). injection E as <- <-. destruct I.
Qed.
Lemma rare_fold {X A} (V : X -> Prop) (f : X * list Z -> A -> res (X * list Z)) B : forall l, (forall i, In i l -> rare V (fun s => f s i) B) -> rare V (foldM f l) (Z.of_nat (length l) * B).
Proof.
  induction l as [|i l IH]; intros R; [exact (rare_none V)|]. replace (Z.of_nat (length (i :: l)) * B)%Z with (B + Z.of_nat (length l) * B)%Z by (cbn [length]; rewrite Nat2Z.inj_succ; ring).
  apply (rare_ext _ (fun s => let* s' := f s i in foldM f l s')); [reflexivity|]. apply (rare_next V (fun s => f s i)); [apply R; now left|]. apply IH. intros; apply R; now right.
Qed.

Lemma nth_error_ext' {A} : forall (l r : list A), (forall q, nth_error l q = nth_error r q) -> l = r.
Proof.
  induction l as [|a l IH]; intros [|b r] E; [reflexivity|discriminate (E 0)..|]. pose proof (E 0) as E0. injection E0 as ->. f_equal. apply IH. intros q. exact (E (S q)).
Qed.
Lemma NoDup_app' {A} (l r : list A) : NoDup l -> NoDup r -> (forall x, In x l -> ~ In x r) -> NoDup (l ++ r).
Proof.
  intros N M D. induction N as [|a l NI N IH]; [exact M|]. cbn [app]. constructor.
  - intros I. apply in_app_or in I as [I|I]; [contradiction|]. exact (D a ltac:(now left) I).
  - apply IH. intros x IX. apply D. now right.
Qed.
(** * Counting vectors *)
Lemma count_below (L : list Z) B : NoDup L -> (forall x, In x L -> (0 <= x < B)%Z) -> (Z.of_nat (length L) <= Z.max 0 B)%Z.
Proof.
  intros N I. destruct (Z.le_gt_cases B 0) as [C|C].
  - destruct L as [|x L]; [cbn; lia|]. specialize (I x ltac:(now left)). lia.
  - assert (LE : length L <= length (map Z.of_nat (seq 0 (Z.to_nat B)))).
    { apply NoDup_incl_length; [exact N|]. intros x IX. specialize (I x IX). apply in_map_iff. exists (Z.to_nat x). split; [lia|]. apply in_seq. lia. }
    rewrite map_length, seq_length in LE. lia.
Qed.
Fixpoint horner (b : Z) (v : list Z) : Z := match v with [] => 0 | x :: v' => x + b * horner b v' end.
Lemma horner_bound b : (0 < b)%Z -> forall v, Forall (fun x => 0 <= x < b)%Z v -> (0 <= horner b v < b ^ Z.of_nat (length v))%Z.
Proof.
  intros B v F. induction F as [|x v X F IH]; [cbn; lia|]. cbn [horner length]. rewrite Nat2Z.inj_succ, Z.pow_succ_r by lia. nia.
Qed.
Lemma horner_inj b : (0 < b)%Z -> forall v, Forall (fun x => 0 <= x < b)%Z v -> forall w, Forall (fun x => 0 <= x < b)%Z w -> length v = length w -> horner b v = horner b w -> v = w.
Proof.
  intros B v F. induction F as [|x v X F IH]; intros w G L E; destruct w as [|y w]; try discriminate; [reflexivity|]. inversion G as [|y' w' Y G']; subst. cbn [horner] in E.
  assert (x = y).
  { rewrite <- (Z.mod_small x b), <- (Z.mod_small y b) by lia. rewrite <- (Z_mod_plus_full x (horner b v) b), <- (Z_mod_plus_full y (horner b w) b). f_equal. lia. }
  subst y. f_equal. apply IH; [exact G'|now injection L|]. nia.
Qed.
Lemma count_vectors b N (L : list (list Z)) : (0 < b)%Z -> NoDup L -> (forall v, In v L -> length v = N /\ Forall (fun x => 0 <= x < b)%Z v) -> (Z.of_nat (length L) <= b ^ Z.of_nat N)%Z.
Proof.
  intros B ND A. rewrite <- (map_length (horner b)). rewrite <- (Z.max_r 0 (b ^ Z.of_nat N)) by (apply Z.pow_nonneg; lia). apply count_below.
  - apply nodup_map; [exact ND|]. intros v w IV IW E. destruct (A v IV) as [LV FV], (A w IW) as [LW FW]. apply (horner_inj b B v FV w FW); [congruence|exact E].
  - intros x IX. apply in_map_iff in IX as (v & <- & IV). destruct (A v IV) as [LV FV]. rewrite <- LV. now apply horner_bound.
Qed.
Definition but {A} (p : nat) (v : list A) : list A := firstn p v ++ skipn (S p) v.
Lemma but_length {A} p (v : list A) : p < length v -> length (but p v) = length v - 1.
Proof. intros P. unfold but. rewrite app_length, firstn_length, skipn_length. lia. Qed.
Lemma but_nth {A} p (v w : list A) : length v = length w -> but p v = but p w -> forall j, j <> p -> nth_error v j = nth_error w j.
Proof.
  unfold but. revert v w. induction p as [|p IH]; intros v w L E j J.
  - destruct v as [|x v], w as [|y w]; try discriminate; [reflexivity|]. cbn in E. subst w. destruct j as [|j]; [congruence|reflexivity].
  - destruct v as [|x v], w as [|y w]; try discriminate; [reflexivity|]. cbn [firstn skipn app] in E. injection E as -> E. destruct j as [|j]; [reflexivity|]. cbn [nth_error]. apply IH; [now injection L|exact E|lia].
Qed.
Lemma but_Forall {A} (P : A -> Prop) p v : Forall P v -> Forall P (but p v).
Proof. intros F. unfold but. rewrite <- (firstn_skipn p v) in F. apply Forall_app in F as [F1 F2]. apply Forall_app. split; [exact F1|]. replace (skipn (S p) v) with (skipn 1 (skipn p v)) by (rewrite skipn_skipn'; f_equal; lia). destruct (skipn p v); [constructor|]. now inversion F2. Qed.

(** * Single steps on the file *)
Section Steps.
Context (H : list byte -> list byte) (pr : profile) (params : PosPara) (key : Z) (iv : list byte) (n m : nat).
Hypothesis SET : setting H pr params key n m.
Hypothesis SK : good_key H key.
Context (t : list (list nat) * list (list nat)) (T : tabl pr params n m t).
Notation upl := (unit_pl params).
Notation bpl := (block_pl params).
Let HH := hh _ _ _ _ _ _ SET.
Let K1 := k1 _ _ _ _ _ _ SET.
Let K2 := k2 _ _ _ _ _ _ SET.
Let U0 := upl_pos _ _ _ _ _ _ SET.
Let BPL := bpl_eq _ _ _ _ _ _ SET.
Let LOK : long_ok params (fst t) n := proj1 (proj2 T).
Let SOK : short_ok params (snd t) m := proj2 (proj2 (proj2 T)).
Definition valid (F : file) : Prop := length F = n * bpl /\ forall k, k < n -> block_ok params key m (chunks upl m (blk params F k)).
Definition gstep (k : nat) (s : file * list Z) (i : nat) : res (file * list Z) :=
  let* deps := Dfun H params (fst t) n (fst s) k in
  let* (us, log) := fstep H params key (snd t) deps (sfx H params iv (fst s) k) m (chunks upl m (blk params (fst s) k), snd s) i in
  Ok (write_at (fst s) (k * bpl) (com_units us), log).

Lemma valid_sealable F : length F = n * bpl -> sealable params key n m F -> valid F.
Proof using SET. intros L S. split; [exact L|]. now apply (sealable_file_ok _ _ _ _ _ _ SET). Qed.
Lemma blocks_ext F G : length F = n * bpl -> length G = n * bpl -> (forall k, k < n -> blk params F k = blk params G k) -> F = G.
Proof using SET.
  intros LF LG E. apply file_ext; [congruence|]. intros x X. assert (B0 : bpl <> 0) by lia. pose proof (Nat.div_mod x bpl B0) as D. pose proof (Nat.mod_upper_bound x bpl B0) as R.
  assert (K : x / bpl < n) by (apply Nat.div_lt_upper_bound; lia). pose proof (mul_lt_block params (x / bpl) n K) as LK. specialize (E (x / bpl) K).
  apply (f_equal (fun l => nth_error l (x mod bpl))) in E. unfold blk in E. rewrite !read_file_nth in E by exact R.
  replace (x / bpl * bpl + x mod bpl) with x in E by lia. now injection E.
Qed.
Lemma put_block F k us : valid F -> k < n -> block_ok params key m us ->
  valid (write_at F (k * bpl) (com_units us)) /\ chunks upl m (blk params (write_at F (k * bpl) (com_units us)) k) = us /\
  forall j, j <> k -> blk params (write_at F (k * bpl) (com_units us)) j = blk params F j.
Proof using SET.
  intros [L B] K BU. pose proof (com_len params key m BPL us BU) as CL. pose proof (mul_lt_block params k n K) as LK.
  assert (S1 : chunks upl m (blk params (write_at F (k * bpl) (com_units us)) k) = us).
  { rewrite write_blk_same by lia. apply (chunks_com params m). now apply (block_ok_shaped params key). }
  assert (S2 : forall j, j <> k -> blk params (write_at F (k * bpl) (com_units us)) j = blk params F j) by (intros; apply write_blk_other; auto; lia).
  split; [|auto]. split; [rewrite write_at_length by lia; exact L|]. intros j J. destruct (Nat.eq_dec j k) as [->|NE]; [now rewrite S1|]. rewrite S2 by exact NE. now apply B.
Qed.
Lemma gstep_ok k i F : k < n -> i < m -> valid F -> exists deps us z, Dfun H params (fst t) n F k = Ok deps /\ deps_ok m deps /\ block_ok params key m us /\
  (forall log, fstep H params key (snd t) deps (sfx H params iv F k) m (chunks upl m (blk params F k), log) i = Ok (us, z ++ log)) /\
  (~ In 0%Z z -> bstep H params key (snd t) deps (sfx H params iv F k) m us i = Ok (chunks upl m (blk params F k))) /\
  forall log, gstep k (F, log) i = Ok (write_at F (k * bpl) (com_units us), z ++ log).
Proof using SET SK T.
  intros K I [L B]. destruct (Dfun_ok H params n m (fst t) HH U0 BPL LOK F k K) as (deps & ED & DO).
  destruct (fstep_ok H params key HH K1 K2 (snd t) deps (sfx H params iv F k) m i _ SOK DO I (B k K)) as (us & z & BU & FS & BS).
  exists deps, us, z. split; [exact ED|]. split; [exact DO|]. split; [exact BU|]. split; [exact FS|]. split; [intros NZ; now apply BS|].
  intros log. unfold gstep. cbn [fst snd]. rewrite ED. cbn [bind]. rewrite FS. reflexivity.
Qed.

(** The numbers of all units. *)
Definition nums (F : file) : list Z := concat (map (fun k => map le2z (chunks upl m (blk params F k))) (seq 0 n)).
Lemma nums_length F : length (nums F) = n * m.
Proof using SET.
  assert (G : forall l, length (concat (map (fun k => map le2z (chunks upl m (blk params F k))) l)) = length l * m).
  { induction l as [|k l IH]; [reflexivity|]. cbn [map concat length]. rewrite app_length, map_length, chunks_length, IH. reflexivity. }
  unfold nums. now rewrite G, seq_length.
Qed.
Lemma nums_nth F k i : k < n -> i < m -> nth_error (nums F) (k * m + i) = option_map le2z (nth_error (chunks upl m (blk params F k)) i).
Proof using SET.
  intros K I. unfold nums. rewrite <- nth_error_map.
  assert (G : forall (g : nat -> list Z) b d k, (forall j, length (g j) = m) -> k < d -> nth_error (concat (map g (seq b d))) (k * m + i) = nth_error (g (b + k)) i).
  { clear - I. intros g b d k L. revert b k. induction d as [|d IH]; intros b k K; [lia|]. cbn [seq map concat]. destruct k as [|k].
    - rewrite nth_error_app1 by (rewrite L; lia). now rewrite Nat.add_0_r.
    - rewrite nth_error_app2 by (rewrite L; nia). rewrite L. replace (S k * m + i - m) with (k * m + i) by nia. rewrite IH by lia. f_equal. f_equal. lia. }
  rewrite G by (auto; intros; now rewrite map_length, chunks_length). reflexivity.
Qed.
Lemma nums_range F : valid F -> Forall (fun x => 0 <= x < key)%Z (nums F).
Proof using SET.
  intros [_ B]. apply Forall_forall. intros x I. unfold nums in I. apply in_concat in I as (l & IL & IX). apply in_map_iff in IL as (k & <- & IK). apply in_seq in IK. destruct (B k ltac:(lia)) as [_ F'].
  apply in_map_iff in IX as (u & <- & IU). rewrite Forall_forall in F'. destruct (F' u IU). pose proof (le2z_nonneg u). lia.
Qed.
(** Files that agree in all units but one. *)
Lemma agree_but F G k i : valid F -> valid G -> k < n -> i < m -> but (k * m + i) (nums F) = but (k * m + i) (nums G) ->
  (forall j, j < n -> j <> k -> blk params F j = blk params G j) /\ forall u, nth_error (chunks upl m (blk params G k)) i = Some u -> chunks upl m (blk params G k) = upd (chunks upl m (blk params F k)) i u.
Proof using SET.
  intros VF VG K I E. pose proof (but_nth _ _ _ ltac:(now rewrite !nums_length) E) as N.
  assert (U : forall j q, j < n -> q < m -> (j, q) <> (k, i) -> nth_error (chunks upl m (blk params F j)) q = nth_error (chunks upl m (blk params G j)) q).
  { intros j q J Q NE. specialize (N (j * m + q)). rewrite !nums_nth in N by assumption.
    assert (D : j * m + q <> k * m + i) by (intros X; apply NE; assert (j = k) by nia; subst j; f_equal; lia). specialize (N D).
    destruct VF as [_ BF], VG as [_ BG]. destruct (BF j J) as [LF FF], (BG j J) as [LG FG].
    destruct (nth_error (chunks upl m (blk params F j)) q) as [a|] eqn:EA; [|apply nth_error_None in EA; lia]. destruct (nth_error (chunks upl m (blk params G j)) q) as [b|] eqn:EB; [|apply nth_error_None in EB; lia].
    cbn [option_map] in N. injection N as N. f_equal. rewrite Forall_forall in FF, FG. apply le2z_inj; [|exact N]. destruct (FF a (nth_error_In _ _ EA)), (FG b (nth_error_In _ _ EB)). congruence. }
  split.
  - intros j J NE. rewrite <- (com_chunks params m BPL F j), <- (com_chunks params m BPL G j). f_equal. apply nth_error_ext'. intros q. destruct (Nat.lt_ge_cases q m) as [Q|Q]; [apply U; auto; congruence|].
    rewrite !(proj2 (nth_error_None _ _)) by (rewrite chunks_length; exact Q). reflexivity.
  - intros u EU. apply nth_error_ext'. intros q. destruct (Nat.lt_ge_cases q m) as [Q|Q].
    + destruct (Nat.eq_dec q i) as [->|NE].
      * rewrite EU. symmetry. assert (X : index (upd (chunks upl m (blk params F k)) i u) i = Ok u) by (apply index_upd_eq; rewrite chunks_length; exact I). unfold index in X. destruct (nth_error (upd _ i u) i); congruence.
      * rewrite <- U by (auto; congruence). symmetry. pose proof (index_upd_neq (chunks upl m (blk params F k)) i q u) as X. unfold index in X. specialize (X ltac:(lia)).
        destruct (nth_error (upd _ i u) q), (nth_error (chunks upl m (blk params F k)) q); congruence.
    + rewrite !(proj2 (nth_error_None _ _)) by (rewrite ?upd_length, chunks_length; exact Q). reflexivity.
Qed.

Lemma fstep_zero deps x us us' z i : fstep H params key (snd t) deps x m (us, []) i = Ok (us', z) -> In 0%Z z -> i < m -> block_ok params key m us ->
  exists d u, md H params (snd t) deps x m us i = Ok d /\ nth_error us i = Some u /\ ((le2z u + le2z (H d)) mod key = 0)%Z /\ (0 <= le2z u < key)%Z.
Proof using SET.
  intros E IZ I [L F]. unfold fstep in E. destruct (md H params (snd t) deps x m us i) as [d|]; [|discriminate]. cbn [bind] in E. unfold index in E. destruct (nth_error us i) as [u|] eqn:EU; [|discriminate]. cbn [bind] in E.
  rewrite Forall_forall in F. destruct (F u (nth_error_In _ _ EU)) as [LU BU].
  destruct (modadd_ok u (H d) key K1 ltac:(rewrite LU; exact K2)) as (a & EA & LA & VA). rewrite EA in E. cbn [bind] in E. rewrite set_index_ok in E by lia. cbn [bind] in E.
  assert (z = [le2z a]) by congruence. subst z. destruct IZ as [IZ|[]]. exists d, u. split; [reflexivity|]. split; [reflexivity|]. split; [congruence|]. pose proof (le2z_nonneg u). lia.
Qed.
Lemma gstep_rare k i : k < n -> i < m -> rare valid (fun s => gstep k s i) (key ^ Z.of_nat (n * m - 1)).
Proof using SET SK T.
  intros K I. split.
  - intros F VF. destruct (gstep_ok k i F K I VF) as (deps & us & z & _ & _ & BU & _ & _ & G). exists (write_at F (k * bpl) (com_units us)), z. split; [now apply put_block|exact G].
  - intros F F' y z z' VF VF' E E' NZ NZ'. destruct (gstep_ok k i F K I VF) as (deps & us & w & ED & DO & BU & _ & BS & G). destruct (gstep_ok k i F' K I VF') as (deps' & us' & w' & ED' & DO' & BU' & _ & BS' & G').
    rewrite G in E. rewrite G' in E'. rewrite app_nil_r in E, E'. assert (y = write_at F (k * bpl) (com_units us)) by congruence. assert (EY : y = write_at F' (k * bpl) (com_units us')) by congruence.
    assert (w = z) by congruence. assert (w' = z') by congruence. subst y z z'. destruct (put_block F k us VF K BU) as (_ & C1 & O1). destruct (put_block F' k us' VF' K BU') as (_ & C2 & O2). rewrite EY in C1, O1.
    assert (us = us') by congruence. subst us'. assert (OT : forall j, j <> k -> blk params F j = blk params F' j) by (intros j J; rewrite <- O1, <- O2 by exact J; reflexivity).
    rewrite (Dfun_ext H params n m (fst t) HH U0 BPL LOK F F' k K) in ED by (intros; apply OT; lia). rewrite (sfx_ext H params iv F F' k) in BS by (intros; apply OT; lia).
    assert (deps = deps') by congruence. subst deps'. specialize (BS NZ). specialize (BS' NZ').
    apply blocks_ext; [apply VF|apply VF'|]. intros j J. destruct (Nat.eq_dec j k) as [->|NE]; [|now apply OT].
    rewrite <- (com_chunks params m BPL F k), <- (com_chunks params m BPL F' k). f_equal. congruence.
  - intros L ND AL. rewrite <- (map_length (fun F => but (k * m + i) (nums F))). apply count_vectors; [lia| |].
    + apply nodup_map; [exact ND|]. intros F F' IF IF' E. destruct (AL F IF) as (VF & y & z & E1 & Z1). destruct (AL F' IF') as (VF' & y' & z' & E2 & Z2).
      destruct (gstep_ok k i F K I VF) as (deps & us & w & ED & DO & BU & FS & _ & G). destruct (gstep_ok k i F' K I VF') as (deps' & us' & w' & ED' & DO' & BU' & FS' & _ & G').
      rewrite G in E1. rewrite G' in E2. rewrite app_nil_r in E1, E2. assert (w = z) by congruence. assert (w' = z') by congruence. subst z z'.
      specialize (FS []). specialize (FS' []). rewrite app_nil_r in FS, FS'.
      destruct (fstep_zero _ _ _ _ _ _ FS Z1 I (proj2 VF k K)) as (d & u & MD & EU & ZU & RU). destruct (fstep_zero _ _ _ _ _ _ FS' Z2 I (proj2 VF' k K)) as (d' & u' & MD' & EU' & ZU' & RU').
      destruct (agree_but F F' k i VF VF' K I E) as [OT CH]. specialize (CH u' EU').
      rewrite (Dfun_ext H params n m (fst t) HH U0 BPL LOK F F' k K) in ED by (intros; apply OT; lia). rewrite (sfx_ext H params iv F F' k) in MD by (intros; apply OT; lia).
      assert (deps = deps') by congruence. subst deps'. rewrite CH, (md_upd H params) in MD' by assumption. assert (d = d') by congruence. subst d'.
      assert (EV : le2z u = le2z u').
      { apply Z.mod_divide in ZU; [|lia]. apply Z.mod_divide in ZU'; [|lia]. assert (DV : (key | le2z u - le2z u')%Z) by (replace (le2z u - le2z u')%Z with (le2z u + le2z (H d) - (le2z u' + le2z (H d)))%Z by ring; now apply Z.divide_sub_r).
        destruct DV as [q DV]. assert (q = 0%Z) by (clear - DV RU RU'; destruct (Z.lt_trichotomy q 0) as [C|[C|C]]; [nia|exact C|nia]). subst q. lia. }
      assert (u = u').
      { apply le2z_inj; [|exact EV]. destruct (proj2 VF k K) as [_ A1], (proj2 VF' k K) as [_ A2]. rewrite Forall_forall in A1, A2. destruct (A1 u (nth_error_In _ _ EU)), (A2 u' (nth_error_In _ _ EU')). congruence. }
      subst u'. apply blocks_ext; [apply VF|apply VF'|]. intros j J. destruct (Nat.eq_dec j k) as [->|NE]; [|now apply OT].
      rewrite <- (com_chunks params m BPL F k), <- (com_chunks params m BPL F' k), CH. f_equal. symmetry. apply upd_same. unfold index. now rewrite EU.
    + intros v IV. apply in_map_iff in IV as (F & <- & IF). destruct (AL F IF) as (VF & _). split; [|now apply but_Forall, nums_range]. rewrite but_length; rewrite nums_length; [reflexivity|nia].
Qed.

(** * A block, and the whole file *)
Definition gblock (s : file * list Z) (k : nat) : res (file * list Z) :=
  foldM (fun s (_ : nat) => foldM (gstep k) (seq 0 m) s) (seq 0 (seal_rounds params)) s.
Definition all_steps : Z := Z.of_nat n * (Z.of_nat (seal_rounds params) * (Z.of_nat m * key ^ Z.of_nat (n * m - 1))).
Lemma gblocks_rare : rare valid (foldM gblock (seq 0 n)) all_steps.
Proof using SET SK T.
  unfold all_steps.
  assert (R1 : forall k, k < n -> rare valid (foldM (gstep k) (seq 0 m)) (Z.of_nat m * key ^ Z.of_nat (n * m - 1))).
  { intros k K. pose proof (rare_fold valid (gstep k) (key ^ Z.of_nat (n * m - 1)) (seq 0 m)) as R. rewrite seq_length in R. apply R. intros i II. apply in_seq in II. apply gstep_rare; lia. }
  assert (R2 : forall k, k < n -> rare valid (fun s => gblock s k) (Z.of_nat (seal_rounds params) * (Z.of_nat m * key ^ Z.of_nat (n * m - 1)))).
  { intros k K. pose proof (rare_fold valid (fun s (_ : nat) => foldM (gstep k) (seq 0 m) s) (Z.of_nat m * key ^ Z.of_nat (n * m - 1)) (seq 0 (seal_rounds params))) as R. rewrite seq_length in R. apply R. intros r _. exact (R1 k K). }
  pose proof (rare_fold valid gblock (Z.of_nat (seal_rounds params) * (Z.of_nat m * key ^ Z.of_nat (n * m - 1))) (seq 0 n)) as R. rewrite seq_length in R. apply R. intros k IK. apply in_seq in IK. apply R2. lia.
Qed.
(** The steps of a block one by one on the file are the steps on the block read once. *)
Lemma write_twice_same F k us us' : valid F -> k < n -> block_ok params key m us -> block_ok params key m us' ->
  write_at (write_at F (k * bpl) (com_units us)) (k * bpl) (com_units us') = write_at F (k * bpl) (com_units us').
Proof using SET.
  intros V K B B'. destruct (put_block F k us V K B) as (V1 & _ & O1). destruct (put_block _ k us' V1 K B') as (V2 & C2 & O2). destruct (put_block F k us' V K B') as (V3 & C3 & O3).
  apply blocks_ext; [apply V2|apply V3|]. intros j J. destruct (Nat.eq_dec j k) as [->|NE].
  - rewrite <- (com_chunks params m BPL (write_at (write_at F (k * bpl) (com_units us)) (k * bpl) (com_units us')) k), <- (com_chunks params m BPL (write_at F (k * bpl) (com_units us')) k). congruence.
  - now rewrite O2, O1, O3 by exact NE.
Qed.
Lemma gsteps_lift F k deps : valid F -> k < n -> Dfun H params (fst t) n F k = Ok deps -> forall l us log, (forall i, In i l -> i < m) -> block_ok params key m us ->
  exists us' z, block_ok params key m us' /\ foldM (fstep H params key (snd t) deps (sfx H params iv F k) m) l (us, log) = Ok (us', z ++ log) /\
  foldM (gstep k) l (write_at F (k * bpl) (com_units us), log) = Ok (write_at F (k * bpl) (com_units us'), z ++ log).
Proof using SET SK T.
  intros V K ED. induction l as [|i l IH]; intros us log IL B; [exists us, []; auto|]. cbn [foldM].
  destruct (put_block F k us V K B) as (V1 & C1 & O1). destruct (gstep_ok k i _ K (IL i ltac:(now left)) V1) as (deps1 & us1 & z1 & ED1 & _ & B1 & FS & _ & G).
  rewrite (Dfun_ext H params n m (fst t) HH U0 BPL LOK _ F k K) in ED1 by (intros; apply O1; lia). assert (deps1 = deps) by congruence. subst deps1.
  rewrite (sfx_ext H params iv _ F k) in FS by (intros; apply O1; lia). rewrite C1 in FS. rewrite FS, G. cbn [bind]. rewrite (write_twice_same F k us us1 V K B B1).
  destruct (IH us1 (z1 ++ log) ltac:(intros; apply IL; now right) B1) as (us2 & z2 & B2 & E2 & G2). exists us2, (z2 ++ z1). rewrite <- app_assoc. auto.
Qed.
Lemma gblock_lift F k deps log : valid F -> k < n -> Dfun H params (fst t) n F k = Ok deps ->
  exists us z, block_ok params key m us /\ frounds H params key (snd t) deps (sfx H params iv F k) m (chunks upl m (blk params F k), log) = Ok (us, z ++ log) /\
  gblock (F, log) k = Ok (write_at F (k * bpl) (com_units us), z ++ log).
Proof using SET SK T.
  intros V K ED. unfold frounds, gblock.
  assert (S0 : F = write_at F (k * bpl) (com_units (chunks upl m (blk params F k)))).
  { pose proof (proj2 V k K) as B. destruct (put_block F k _ V K B) as (V1 & C1 & O1). apply blocks_ext; [apply V|apply V1|]. intros j J. destruct (Nat.eq_dec j k) as [->|NE]; [|now rewrite O1].
    rewrite <- (com_chunks params m BPL F k) at 1. rewrite <- C1 at 1. apply (com_chunks params m BPL). }
  pose proof (proj2 V k K) as B0.
  assert (G : forall l log us, block_ok params key m us -> exists us' z, block_ok params key m us' /\
    foldM (fun st (_ : nat) => foldM (fstep H params key (snd t) deps (sfx H params iv F k) m) (seq 0 m) st) l (us, log) = Ok (us', z ++ log) /\
    foldM (fun s (_ : nat) => foldM (gstep k) (seq 0 m) s) l (write_at F (k * bpl) (com_units us), log) = Ok (write_at F (k * bpl) (com_units us'), z ++ log)).
  { clear S0 B0 log. induction l as [|r l IH]; intros log us B; [exists us, []; auto|]. cbn [foldM].
    destruct (gsteps_lift F k deps V K ED (seq 0 m) us log ltac:(intros i II; apply in_seq in II; lia) B) as (us1 & z1 & B1 & E1 & G1). rewrite E1, G1. cbn [bind].
    destruct (IH (z1 ++ log) us1 B1) as (us2 & z2 & B2 & E2 & G2). exists us2, (z2 ++ z1). rewrite <- app_assoc. auto. }
  destruct (G (seq 0 (seal_rounds params)) log _ B0) as (us & z & B & E1 & E2). rewrite <- S0 in E2. exists us, z. auto.
Qed.
Lemma seal_steps F st : valid F -> seal H pr params key iv F = Ok st -> foldM gblock (seq 0 n) (F, []) = Ok (s_file st, s_log st).
Proof using SET SK T.
  intros V E. rewrite (seal_unfold H pr params key iv n m SET t F T) in E.
  assert (G : forall d j s, j + d = n -> valid (s_file s) -> length (s_ids s) = n -> (forall k, k < j -> index (s_ids s) k = Ok (H (blk params (s_file s) k))) ->
    forall st, foldM (seal_block H params key iv (fst t) (snd t) n) (seq j d) s = Ok st -> foldM gblock (seq j d) (s_file s, s_log s) = Ok (s_file st, s_log st)).
  { clear E st V F. induction d as [|d IH]; intros j s J V LI IDS st E; cbn [seq foldM] in *; [injection E as <-; reflexivity|].
    destruct (Dfun_ok H params n m (fst t) HH U0 BPL LOK (s_file s) j ltac:(lia)) as (deps & ED & DO). destruct (gblock_lift (s_file s) j deps (s_log s) V ltac:(lia) ED) as (us & z & BU & FR & GB). rewrite GB. cbn [bind].
    unfold seal_block in E at 1. rewrite (read_block_ok params m U0 BPL) in E. cbn [bind] in E.
    assert (ID : j <> 0 -> index (s_ids s) (j - 1) = Ok (H (blk params (s_file s) (j - 1)))) by (intros; apply IDS; lia).
    rewrite seal_depend_blocks_D in E by exact ID. rewrite ED in E. cbn [bind] in E.
    rewrite (seal_block_rounds_frounds H params key iv (snd t) deps (s_ids s) j m _ _ (H (blk params (s_file s) (j - 1)))) in E; [|apply chunks_length|exact ID].
    fold (sfx H params iv (s_file s) j) in E. rewrite FR in E. cbn [bind] in E. rewrite set_index_ok in E by lia. cbn [bind] in E.
    destruct (put_block (s_file s) j us V ltac:(lia) BU) as (V1 & C1 & O1).
    apply (IH (S j)) in E; [exact E|lia|exact V1|cbn [s_ids]; now rewrite upd_length|]. cbn [s_ids s_file]. intros k K. destruct (Nat.eq_dec k j) as [->|NE].
    - rewrite index_upd_eq by lia. do 2 f_equal. rewrite <- C1 at 1. apply (com_chunks params m BPL).
    - rewrite index_upd_neq by lia. rewrite O1 by exact NE. apply IDS. lia. }
  refine (G n 0 (mkSeal F (repeat [] n) []) eq_refl V _ _ st E); [apply repeat_length|]. intros; lia.
Qed.
Theorem zero_count L : NoDup L -> (forall F, In F L -> valid F /\ exists st, seal H pr params key iv F = Ok st /\ In 0%Z (s_log st)) -> (Z.of_nat (length L) <= all_steps)%Z.
Proof using SET SK T.
  intros ND AL. apply (rare_count _ _ _ gblocks_rare L ND). intros F IF. destruct (AL F IF) as (V & st & E & IZ). split; [exact V|]. exists (s_file st), (s_log st). split; [now apply seal_steps|exact IZ].
Qed.

(** * All files, and the files that do meet a zero *)
Lemma ghead (f : file * list Z -> nat -> res (file * list Z)) c B x : 0 < c -> (forall i, In i (seq 1 (c - 1)) -> rare valid (fun s => f s i) B) ->
  (exists y z, valid y /\ f (x, []) 0 = Ok (y, z) /\ In 0%Z z) -> exists y z, valid y /\ foldM f (seq 0 c) (x, []) = Ok (y, z) /\ In 0%Z z.
Proof using SET.
  intros C R (y & z & VY & E & IZ). replace c with (S (c - 1)) by lia. cbn [seq foldM]. rewrite E. cbn [bind].
  destruct (rare_total _ _ _ (rare_fold valid f B _ R) y VY) as (w & zw & VW & G). exists w, (zw ++ z). split; [exact VW|]. split; [apply G|]. apply in_or_app. now right.
Qed.
Lemma fstep_zero_at deps x us i d u : md H params (snd t) deps x m us i = Ok d -> nth_error us i = Some u -> block_ok params key m us -> i < m -> ((le2z u + le2z (H d)) mod key = 0)%Z ->
  exists us', fstep H params key (snd t) deps x m (us, []) i = Ok (us', [0%Z]).
Proof using SET.
  intros MD EU [L F] I Z0. unfold fstep. rewrite MD. cbn [bind]. unfold index. rewrite EU. cbn [bind]. rewrite Forall_forall in F. destruct (F u (nth_error_In _ _ EU)) as [LU BU].
  destruct (modadd_ok u (H d) key K1 ltac:(rewrite LU; exact K2)) as (a & EA & LA & VA). rewrite EA. cbn [bind]. rewrite set_index_ok by lia. cbn [bind]. rewrite VA, Z0. eauto.
Qed.
Lemma zero_somewhere F : valid F -> 0 < n -> 0 < m -> 0 < seal_rounds params ->
  exists G st, valid G /\ skipn upl G = skipn upl F /\ seal H pr params key iv G = Ok st /\ In 0%Z (s_log st).
Proof using SET SK T.
  intros V N M R. set (us := chunks upl m (blk params F 0)). pose proof (proj2 V 0 N) as B. fold us in B. destruct (Dfun_ok H params n m (fst t) HH U0 BPL LOK F 0 N) as (deps & ED & DO).
  destruct (md_returns H params (snd t) deps (sfx H params iv F 0) m us 0 HH SOK DO (proj1 B) M) as (d & MD).
  pose (x := ((- le2z (H d)) mod key)%Z). assert (XB : (0 <= x < key)%Z) by (apply Z.mod_pos_bound; lia). pose (v := pad_to upl (z2le x)).
  assert (LV : length v = upl) by (apply pad_to_len; pose proof K2; lia).
  assert (VV : le2z v = x) by (unfold v; rewrite le2z_pad_to, le2z_z2le; lia).
  assert (B' : block_ok params key m (upd us 0 v)).
  { destruct B as [L F']. split; [now rewrite upd_length|]. rewrite Forall_forall in F' |- *. intros w IW. apply In_nth_error in IW as (q & EQ). destruct (Nat.eq_dec q 0) as [->|NE].
    - rewrite nth_error_upd_eq in EQ by lia. injection EQ as <-. split; [exact LV|lia].
    - rewrite nth_error_upd_neq in EQ by lia. apply F'. eapply nth_error_In; exact EQ. }
  destruct (put_block F 0 _ V N B') as (VG & CG & OG). set (G := write_at F (0 * bpl) (com_units (upd us 0 v))) in *.
  destruct (gstep_ok 0 0 G N M VG) as (deps1 & us1 & z1 & ED1 & _ & B1 & FS & _ & GS).
  rewrite (Dfun_ext H params n m (fst t) HH U0 BPL LOK G F 0 N) in ED1 by (intros; apply OG; lia). assert (deps1 = deps) by congruence. subst deps1. specialize (FS []). rewrite app_nil_r, CG in FS.
  rewrite (sfx_ext H params iv G F 0) in FS by (intros; lia).
  destruct (fstep_zero_at deps (sfx H params iv F 0) (upd us 0 v) 0 d v) as (us2 & FS2); [rewrite (md_upd H params) by assumption; exact MD|apply nth_error_upd_eq; destruct B; lia|exact B'|exact M| |].
  { rewrite VV. unfold x. rewrite Zplus_mod_idemp_l. replace (- le2z (H d) + le2z (H d))%Z with 0%Z by ring. apply Z.mod_0_l. lia. }
  rewrite FS2 in FS. injection FS as <- <-. destruct (put_block G 0 us2 VG N B1) as (V1 & _ & _).
  assert (S1 : exists y z, valid y /\ gstep 0 (G, []) 0 = Ok (y, z) /\ In 0%Z z) by (exists (write_at G (0 * bpl) (com_units us2)), [0%Z]; split; [exact V1|]; split; [apply GS|now left]).
  assert (R1 : forall k i, k < n -> In i (seq 1 (m - 1)) -> rare valid (fun s => gstep k s i) (key ^ Z.of_nat (n * m - 1))) by (intros k i K I; apply in_seq in I; apply gstep_rare; lia).
  assert (S2 : exists y z, valid y /\ foldM (gstep 0) (seq 0 m) (G, []) = Ok (y, z) /\ In 0%Z z) by (exact (ghead (gstep 0) m _ G M (fun i => R1 0 i N) S1)).
  assert (R2 : forall k, k < n -> rare valid (foldM (gstep k) (seq 0 m)) (Z.of_nat m * key ^ Z.of_nat (n * m - 1))).
  { intros k K. pose proof (rare_fold valid (gstep k) (key ^ Z.of_nat (n * m - 1)) (seq 0 m)) as R'. rewrite seq_length in R'. apply R'. intros i II. apply in_seq in II. apply gstep_rare; lia. }
  assert (S3 : exists y z, valid y /\ gblock (G, []) 0 = Ok (y, z) /\ In 0%Z z) by (exact (ghead (fun s (_ : nat) => foldM (gstep 0) (seq 0 m) s) (seal_rounds params) _ G R (fun _ _ => R2 0 N) S2)).
  assert (R3 : forall k, In k (seq 1 (n - 1)) -> rare valid (fun s => gblock s k) (Z.of_nat (seal_rounds params) * (Z.of_nat m * key ^ Z.of_nat (n * m - 1)))).
  { intros k K. apply in_seq in K. pose proof (rare_fold valid (fun s (_ : nat) => foldM (gstep k) (seq 0 m) s) (Z.of_nat m * key ^ Z.of_nat (n * m - 1)) (seq 0 (seal_rounds params))) as R'. rewrite seq_length in R'. apply R'. intros r _. apply R2. lia. }
  destruct (ghead gblock n _ G N R3 S3) as (y & z & _ & EY & IZ).
  assert (SG : sealable params key n m G) by (apply (file_ok_sealable _ _ _ _ _ _ SET); destruct VG as [LG BG]; split; [lia|exact BG]).
  destruct (seal_total H pr params key iv n m SET G SG) as (st & ES & _). exists G, st. split; [exact VG|]. split; [|split; [exact ES|]].
  - pose proof (com_len params key m BPL _ B) as CL. pose proof (com_len params key m BPL _ B') as CL'. pose proof (mul_lt_block params 0 n N) as LK. destruct V as [LF _].
    assert (EF : F = com_units us ++ skipn bpl F).
    { unfold us. rewrite (com_chunks params m BPL F 0). unfold blk. rewrite <- (firstn_skipn bpl F) at 1. f_equal. cbn [Nat.mul]. symmetry. rewrite read_file_full by lia. reflexivity. }
    assert (EG : G = com_units (upd us 0 v) ++ skipn bpl F).
    { unfold G, write_at. destruct (com_units (upd us 0 v)) as [|c cs] eqn:EC; [cbn in CL'; lia|]. rewrite <- EC in *. rewrite CL'. cbn [Nat.mul firstn Nat.sub Nat.add app zeros repeat]. reflexivity. }
    rewrite EG. rewrite EF at 2. destruct B as [LB FB]. destruct us as [|u us']; [cbn in LB; lia|]. inversion FB as [|? ? [LU _] _]; subst. cbn [upd]. rewrite !com_units_concat. cbn [concat].
    assert (SK' : forall a b : list byte, length a = upl -> skipn upl (a ++ b) = b) by (intros a b <-; clear; induction a; [reflexivity|exact IHa]).
    rewrite <- !app_assoc, !SK' by assumption. reflexivity.
  - pose proof (seal_steps G st VG ES) as E. rewrite EY in E. injection E as _ <-. exact IZ.
Qed.
(** Every vector of numbers below the key is a file. *)
Definition unit_of (x : Z) : list byte := pad_to upl (z2le x).
Lemma vec_file v : length v = n * m -> Forall (fun x => 0 <= x < key)%Z v -> valid (concat (map unit_of v)) /\ nums (concat (map unit_of v)) = v.
Proof using SET.
  intros L F. assert (UV : forall x, In x v -> length (unit_of x) = upl /\ le2z (unit_of x) = x).
  { intros x IX. rewrite Forall_forall in F. specialize (F x IX). split; [apply pad_to_len; pose proof K2; lia|]. unfold unit_of. rewrite le2z_pad_to, le2z_z2le. lia. }
  assert (LC : forall w, (forall x, In x w -> In x v) -> length (concat (map unit_of w)) = length w * upl).
  { induction w as [|x w IH]; intros IW; [reflexivity|]. cbn [map concat length]. rewrite app_length, IH by (intros; apply IW; now right). rewrite (proj1 (UV x (IW x ltac:(now left)))). reflexivity. }
  assert (LF : length (concat (map unit_of v)) = n * bpl) by (rewrite LC by auto; rewrite L, BPL; lia).
  assert (UN : forall w, (forall x, In x w -> In x v) -> forall q x, nth_error w q = Some x -> firstn upl (skipn (q * upl) (concat (map unit_of w))) = unit_of x).
  { induction w as [|y w IH]; intros IW [|q] x EQ; try discriminate; cbn [map concat nth_error] in *.
    - injection EQ as ->. cbn [Nat.mul skipn]. destruct (UV x (IW x ltac:(now left))) as [LU _]. rewrite firstn_app, LU, Nat.sub_diag. cbn [firstn]. rewrite app_nil_r. apply firstn_all2. lia.
    - destruct (UV y (IW y ltac:(now left))) as [LU _]. rewrite skipn_app, LU. rewrite skipn_all2 by lia. cbn [app]. replace (S q * upl - upl) with (q * upl) by lia. apply IH; [intros; apply IW; now right|exact EQ]. }
  assert (NE : forall k i, k < n -> i < m -> exists x, nth_error v (k * m + i) = Some x /\ nth_error (chunks upl m (blk params (concat (map unit_of v)) k)) i = Some (unit_of x)).
  { intros k i K I. destruct (nth_error v (k * m + i)) as [x|] eqn:EX; [|apply nth_error_None in EX; nia]. exists x. split; [reflexivity|]. pose proof (mul_lt_block params k n K) as LK.
    rewrite (unit_of_block _ _ _ _ _ _ SET) by (try assumption; lia). unfold unit_bytes. f_equal. now apply UN. }
  assert (VF : valid (concat (map unit_of v))).
  { split; [exact LF|]. intros k K. split; [apply chunks_length|]. apply Forall_forall. intros w IW. apply In_nth_error in IW as (i & EI). assert (I : i < m) by (rewrite <- (chunks_length upl m (blk params (concat (map unit_of v)) k)); apply nth_error_Some; congruence).
    destruct (NE k i K I) as (x & EX & EW). assert (w = unit_of x) by congruence. subst w. apply nth_error_In in EX. destruct (UV x EX) as [LU VU]. rewrite Forall_forall in F. specialize (F x EX). split; [exact LU|lia]. }
  split; [exact VF|]. apply nth_error_ext'. intros q. destruct (Nat.lt_ge_cases q (n * m)) as [Q|Q].
  - assert (M0 : m <> 0) by lia. pose proof (Nat.div_mod q m M0) as DM. pose proof (Nat.mod_upper_bound q m M0) as RM. assert (KQ : q / m < n) by (apply Nat.div_lt_upper_bound; lia).
    destruct (NE (q / m) (q mod m) KQ RM) as (x & EX & EW). replace (q / m * m + q mod m) with q in EX by lia. replace q with (q / m * m + q mod m) at 1 by lia. rewrite nums_nth by assumption. rewrite EW, EX. cbn [option_map]. f_equal. apply UV. eapply nth_error_In; exact EX.
  - rewrite !(proj2 (nth_error_None _ _)) by (rewrite ?nums_length; lia). reflexivity.
Qed.
Lemma nums_inj F G : valid F -> valid G -> nums F = nums G -> F = G.
Proof using SET.
  intros VF VG E. apply blocks_ext; [apply VF|apply VG|]. intros k K. rewrite <- (com_chunks params m BPL F k), <- (com_chunks params m BPL G k). f_equal. apply nth_error_ext'. intros q. destruct (Nat.lt_ge_cases q m) as [Q|Q].
  - pose proof (nums_nth F k q K Q) as A. pose proof (nums_nth G k q K Q) as B. rewrite E in A. rewrite A in B. destruct (proj2 VF k K) as [LF FF], (proj2 VG k K) as [LG FG].
    destruct (nth_error (chunks upl m (blk params F k)) q) as [a|] eqn:EA; [|apply nth_error_None in EA; lia]. destruct (nth_error (chunks upl m (blk params G k)) q) as [b|] eqn:EB; [|apply nth_error_None in EB; lia].
    cbn [option_map] in B. injection B as B. f_equal. rewrite Forall_forall in FF, FG. apply le2z_inj; [|exact B]. destruct (FF a (nth_error_In _ _ EA)), (FG b (nth_error_In _ _ EB)). congruence.
  - rewrite !(proj2 (nth_error_None _ _)) by (rewrite chunks_length; exact Q). reflexivity.
Qed.
Lemma all_vectors N : exists L : list (list Z), NoDup L /\ Z.of_nat (length L) = (key ^ Z.of_nat N)%Z /\ forall v, In v L <-> length v = N /\ Forall (fun x => 0 <= x < key)%Z v.
Proof using SET.
  induction N as [|N (L & ND & LL & AL)].
  - exists [[]]. split; [repeat constructor; intros []|]. split; [reflexivity|]. intros v. split; [intros [<-|[]]; split; [reflexivity|constructor]|]. intros [LV _]. destruct v; [now left|discriminate].
  - pose (ds := map Z.of_nat (seq 0 (Z.to_nat key))). exists (map (fun p : Z * list Z => fst p :: snd p) (list_prod ds L)). split; [|split].
    + apply nodup_map; [|intros [a b] [c d] _ _ E; cbn [fst snd] in E; congruence]. assert (ND' : NoDup ds) by (apply nodup_map; [apply seq_NoDup|intros; lia]).
      clear - ND ND'. induction ND' as [|a l NI N' IH]; [constructor|]. cbn [list_prod]. apply NoDup_app'; [|exact IH|].
      * apply nodup_map; [exact ND|]. intros; congruence.
      * intros [c d] I1 I2. apply in_map_iff in I1 as (d' & E & _). injection E as -> _. apply in_prod_iff in I2 as [I2 _]. contradiction.
    + rewrite map_length, prod_length. unfold ds. rewrite map_length, seq_length, Nat2Z.inj_mul, LL, Z2Nat.id by (pose proof K1; lia). rewrite Nat2Z.inj_succ, Z.pow_succ_r by lia. reflexivity.
    + intros v. split.
      * intros IV. apply in_map_iff in IV as ([x w] & <- & IP). cbn [fst snd]. apply in_prod_iff in IP as [IX IW]. apply AL in IW as [LW FW]. apply in_map_iff in IX as (q & <- & IQ). apply in_seq in IQ. split; [cbn; lia|]. constructor; [pose proof K1; lia|exact FW].
      * intros [LV FV]. destruct v as [|x w]; [discriminate|]. inversion FV as [|? ? X FW]; subst. apply in_map_iff. exists (x, w). split; [reflexivity|]. apply in_prod_iff. split; [|apply AL; split; [now injection LV|exact FW]].
        apply in_map_iff. exists (Z.to_nat x). split; [lia|]. apply in_seq. lia.
Qed.
Theorem all_files : exists L, NoDup L /\ Z.of_nat (length L) = (key ^ Z.of_nat (n * m))%Z /\ forall F, In F L <-> valid F.
Proof using SET.
  destruct (all_vectors (n * m)) as (L & ND & LL & AL). exists (map (fun v => concat (map unit_of v)) L). split; [|split].
  - apply nodup_map; [exact ND|]. intros v w IV IW E. apply AL in IV as [LV FV]. apply AL in IW as [LW FW]. destruct (vec_file v LV FV) as [_ <-]. destruct (vec_file w LW FW) as [_ <-]. now rewrite E.
  - now rewrite map_length.
  - intros F. split.
    + intros IF. apply in_map_iff in IF as (v & <- & IV). apply AL in IV as [LV FV]. now apply vec_file.
    + intros VF. apply in_map_iff. exists (nums F). destruct (vec_file (nums F) (nums_length F) (nums_range F VF)) as [V' E']. split; [now apply nums_inj|]. apply AL. split; [apply nums_length|now apply nums_range].
Qed.
End Steps.
