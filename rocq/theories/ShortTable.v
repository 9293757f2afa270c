(** The short-dependency table is built for the number of blocks: when sealing
    panics, and when the verifier's own table agrees. *)
From Verif Require Import Base Legendre Sloth Common Depend Prover Verifier NumTheory SlothFacts BytesFacts
  DependSpec DependFacts DependDet VdeFacts SealSpec SealCore SealFile SealTop.
Local Open Scope nat_scope.

Lemma foldM_panic_inv {A S} (I : S -> Prop) (f : S -> A -> res S) l a :
  (forall s b s', I s -> f s b = Ok s' -> I s') -> (forall s, I s -> f s a = Panic) -> In a l ->
  forall s, I s -> foldM f l s = Panic.
Proof.
  intros K P. induction l as [|b l IH]; intros A0 s Is; [destruct A0|]. cbn [foldM]. destruct (f s b) as [s'|] eqn:E; [|reflexivity].
  cbn [bind]. destruct A0 as [->|A0]; [rewrite P in E by exact Is; discriminate|]. apply IH; eauto.
Qed.

Section ST.
Context (H : list byte -> list byte) (pr : profile) (params : PosPara) (key : Z) (iv : list byte) (n m : nat).
Hypothesis G : geometry params n m.
Notation upl := (unit_pl params).
Notation bpl := (block_pl params).

Lemma geom_nblocks : nblocks params = Ok n.
Proof. destruct G as [B0 BN _ _]. unfold nblocks. apply Nat.eqb_neq in B0. rewrite B0. now rewrite BN. Qed.

Lemma seal_unit_length t deps ids idx2 uc c l i c' l' :
  seal_unit H params key iv t deps ids idx2 uc (c, l) i = Ok (c', l') -> length c' = length c.
Proof.
  cbn [seal_unit]. destruct (seal_depend_data _ _ _ _ _ _ _ _ _ _); [|discriminate]. cbn [bind].
  destruct (index c i); [|discriminate]. cbn [bind]. destruct (modadd _ _ _); [|discriminate]. cbn [bind].
  destruct (set_index c i _) as [c2|] eqn:E; [|discriminate]. cbn [bind]. intros [= <- _].
  unfold set_index in E. destruct (i <? length c); [|discriminate]. injection E as <-. apply upd_length.
Qed.

(** If some unit of a full block panics whatever the block holds, sealing panics. *)
Lemma seal_panics f bad : 0 < n -> bad < m -> 0 < seal_rounds params ->
  (forall t deps ids cur log, seal_idxs_s pr params n = Ok t -> length cur = m ->
     seal_unit H params key iv t deps ids 0 m (cur, log) bad = Panic) ->
  seal H pr params key iv f = Panic.
Proof.
  intros N B R P. unfold seal. rewrite geom_nblocks. cbn [bind]. destruct (seal_idxs_l pr params n) as [tl|]; [|reflexivity]. cbn [bind].
  destruct (seal_idxs_s pr params n) as [t|] eqn:ET; [|reflexivity]. cbn [bind]. destruct n as [|n']; [lia|].
  cbn [seq foldM]. match goal with |- bind ?x _ = _ => assert (X : x = Panic) end; [|rewrite X; reflexivity].
  unfold seal_block. cbn [s_file s_ids s_log].
  destruct (read_block params f 0) as [cur|] eqn:RB; [|reflexivity]. cbn [bind].
  assert (LC : length cur = m).
  { unfold read_block in RB. rewrite (to_units_ok upl m) in RB.
    - injection RB as <-. apply chunks_length.
    - apply G.
    - rewrite read_file_length. apply G. }
  destruct (seal_depend_blocks H params tl (S n') f (repeat [] (S n')) 0) as [deps|]; [|reflexivity]. cbn [bind].
  match goal with |- bind ?x _ = _ => assert (Y : x = Panic) end; [|rewrite Y; reflexivity].
  unfold seal_block_rounds. cbn [fst]. rewrite LC. destruct (seal_rounds params) as [|r]; [lia|]. cbn [seq foldM].
  match goal with |- bind ?x _ = _ => assert (W : x = Panic) end; [|rewrite W; reflexivity].
  apply (foldM_panic_inv (fun s : list (list byte) * list Z => length (fst s) = m)) with (a := bad); auto.
  - intros [c l] i [c' l'] Lc E. cbn [fst] in *. apply seal_unit_length in E. congruence.
  - intros [c l] Lc. cbn [fst] in Lc. now apply P.
  - apply in_seq. lia.
Qed.

Lemma seal_table_rows t : mode_s params <> 0 -> seal_idxs_s pr params n = Ok t ->
  length t = n /\ forall k, k < n -> index t k = short_depend pr n k (cnt_s params) (mode_s params).
Proof.
  intros NZ E. unfold seal_idxs_s in E. apply Nat.eqb_neq in NZ. rewrite NZ in E. cbn [negb] in E. unfold create_short_depend in E.
  split; [apply mapM_length in E; now rewrite seq_length in E|]. intros k K.
  assert (N : nth_error (seq 0 n) k = Some k).
  { rewrite nth_error_nth' with (d := 0) by (rewrite seq_length; exact K). now rewrite seq_nth. }
  destruct (mapM_index _ _ _ _ _ E N) as (b & Eb & I). congruence.
Qed.

(** Fewer blocks than units: there is no row for unit n. *)
Theorem too_few_blocks f : mode_s params <> 0 -> 0 < n -> n < m -> 0 < seal_rounds params -> seal H pr params key iv f = Panic.
Proof.
  intros NZ N L R. apply (seal_panics f n); auto. intros t deps ids cur log ET LC.
  cbn [seal_unit]. unfold seal_depend_data. destruct (foldM _ deps []); [|reflexivity]. cbn [bind].
  destruct (seal_table_rows t NZ ET) as [LT _]. apply Nat.eqb_neq in NZ. rewrite NZ. cbn [negb]. rewrite index_panic by lia. reflexivity.
Qed.
Lemma gather_panic (cur : list (list byte)) idxs x : In x idxs -> length cur <= x -> forall acc,
  foldM (fun acc i => let* u := index cur i in Ok (acc ++ u)) idxs acc = Panic.
Proof. intros I L acc. apply foldM_panic with (a := x); [exact I|]. intros s. rewrite index_panic by exact L. reflexivity. Qed.

(** More blocks than units, mode 1: some row names a unit that does not exist. *)
Lemma odd_two n' k : S k < n' -> In (S k) (firstn 2 (odd_neighbours n' k)).
Proof.
  clear. intros L. unfold odd_neighbours. replace (n' + k) with (S (n' + k - 1)) by lia. cbn [seq flat_map]. unfold nb_at at 1.
  cbn [Nat.mul Nat.add]. destruct (Nat.ltb_spec (k + 1) n'); [|lia]. destruct k as [|k]; cbn [Nat.leb app firstn]; cbn [In].
  - left. lia.
  - right. left. lia.
Qed.
Lemma In_firstn_mono {A} (l : list A) a b x : a <= b -> In x (firstn a l) -> In x (firstn b l).
Proof.
  clear. intros L I. rewrite <- (firstn_skipn a (firstn b l)). apply in_or_app. left. rewrite firstn_firstn. now rewrite Nat.min_l by exact L.
Qed.
Lemma mode_1_panics f bad x : mode_s params = 1 -> 0 < n -> bad < m -> m <= n -> 0 < seal_rounds params ->
  In x (firstn (cnt_s params) (odd_neighbours n bad)) -> m <= x -> seal H pr params key iv f = Panic.
Proof.
  intros M N B L R I X. apply (seal_panics f bad); auto. intros t deps ids cur log ET LC.
  cbn [seal_unit]. unfold seal_depend_data. destruct (foldM _ deps []); [|reflexivity]. cbn [bind].
  destruct (seal_table_rows t ltac:(lia) ET) as [LT RT]. rewrite RT by lia. rewrite M. cbn [Nat.eqb negb].
  unfold short_depend. cbn [Nat.eqb]. rewrite (proj2 (short_mode_1_spec n bad (cnt_s params))). cbn [bind].
  rewrite (gather_panic cur _ x) by (auto; lia). reflexivity.
Qed.
Theorem mode_1_too_many f : mode_s params = 1 -> 0 < m -> m < n -> 0 < seal_rounds params ->
  ~ (cnt_s params = 0 \/ (cnt_s params = 1 /\ 2 <= m)) -> seal H pr params key iv f = Panic.
Proof.
  intros M M0 L R C. destruct (Nat.le_gt_cases 2 (cnt_s params)) as [C2|C2].
  - apply (mode_1_panics f (m - 1) m); auto; try lia. apply (In_firstn_mono _ 2); [exact C2|].
    replace m with (S (m - 1)) at 1 by lia. apply odd_two. lia.
  - assert (C1 : cnt_s params = 1) by lia. assert (m = 1) by lia. apply (mode_1_panics f 0 1); auto; try lia.
    rewrite C1, odd_first by lia. now left.
Qed.
End ST.

(** Exact condition for mode 1. *)
Theorem mode_1_iff H pr params key iv n m f : hash32 H -> geometry params n m -> (1 < key <= 256 ^ Z.of_nat (unit_pl params))%Z ->
  long_modes_fine params n -> mode_s params = 1 -> 0 < n -> 0 < m -> 0 < seal_rounds params -> sealable params key n m f ->
  (exists st, seal H pr params key iv f = Ok st) <->
  n = m \/ (m < n /\ (cnt_s params = 0 \/ (cnt_s params = 1 /\ 2 <= m))).
Proof.
  intros HH G K LF M N M0 R S. split.
  - intros (st & E). destruct (Nat.lt_trichotomy n m) as [L|[L|L]]; [|now left|].
    + rewrite (too_few_blocks H pr params key iv n m G f) in E by (auto; lia). discriminate.
    + right. split; [exact L|]. destruct (Nat.eq_dec (cnt_s params) 0); [now left|]. right.
      destruct (Nat.eq_dec (cnt_s params) 1) as [C|C]; [destruct (Nat.le_gt_cases 2 m); [auto|]|];
        rewrite (mode_1_too_many H pr params key iv n m G f) in E by (auto; lia); discriminate.
  - intros C. assert (SET : setting H pr params key n m).
    { split; auto. unfold short_modes_fine. rewrite M. destruct C as [C|[L C]]; [now left|right; split; [lia|exact C]]. }
    destruct (seal_total H pr params key iv n m SET f S) as (st & E & _). eauto.
Qed.

(** * The verifier's table *)
(** Whenever the settings allow sealing, a table built for the m units of a block has
    the same first m rows as the one built for n. *)
Lemma short_rows_agree pr params n m k : short_modes_fine pr params n m -> mode_s params <> 0 -> k < m ->
  short_depend pr m k (cnt_s params) (mode_s params) = short_depend pr n k (cnt_s params) (mode_s params).
Proof.
  unfold short_modes_fine, short_depend. intros S NZ K. destruct (mode_s params) as [|[|[|q]]]; [contradiction| | |]; cbn [Nat.eqb].
  - destruct S as [->|(L & [C|[C M2]])]; [reflexivity| |].
    + rewrite !(proj2 (short_mode_1_spec _ _ _)), C. reflexivity.
    + rewrite !(proj2 (short_mode_1_spec _ _ _)), C, !odd_first by lia. reflexivity.
  - destruct S as [[C L]|(_ & -> & _)]; [|reflexivity]. rewrite C. reflexivity.
  - reflexivity.
Qed.
Lemma fine_self pr params n m : short_modes_fine pr params n m -> short_modes_fine pr params m m.
Proof.
  unfold short_modes_fine. destruct (mode_s params) as [|[|[|q]]]; auto; try lia.
  intros [[C L]|(P & E & X)]; [left; lia|]. right. subst. auto.
Qed.
Lemma verifier_table pr params n m t : short_modes_fine pr params n m -> seal_idxs_s pr params n = Ok t ->
  (mode_s params = 0 \/ (unit_l params <> 0 /\ block_l params / unit_l params = m)) ->
  exists t', bu_idxs_s pr params = Ok t' /\ short_ok params t' m /\ (mode_s params = 0 \/ forall k, k < m -> index t' k = index t k).
Proof.
  intros S ET [Z|(U & E)].
  - exists []. unfold bu_idxs_s. rewrite Z. cbn [Nat.eqb negb]. split; [reflexivity|]. split; [|now left].
    unfold short_ok, short_modes_fine in *. now rewrite Z in *.
  - destruct (Nat.eq_dec (mode_s params) 0) as [Z|NZ].
    + exists []. unfold bu_idxs_s. rewrite Z. cbn [Nat.eqb negb]. split; [reflexivity|]. split; [|now left].
      unfold short_ok, short_modes_fine in *. now rewrite Z in *.
    + destruct (short_table' pr params m m (fine_self pr params n m S)) as (t' & ET' & SO). exists t'.
      assert (B : bu_idxs_s pr params = seal_idxs_s pr params m).
      { unfold bu_idxs_s, seal_idxs_s. apply Nat.eqb_neq in U. rewrite U, E. reflexivity. }
      rewrite B. split; [exact ET'|]. split; [exact SO|]. right. intros k K.
      rewrite (proj2 (seal_table_rows pr params m t' NZ ET') k K).
      destruct (short_depend_ok pr params n m k S K NZ) as (MN & _).
      rewrite (proj2 (seal_table_rows pr params n t NZ ET) k ltac:(lia)). now apply short_rows_agree with (m := m).
Qed.
Lemma md_rows H params t t' deps sfx m cur i : mode_s params = 0 \/ index t' i = index t i ->
  md H params t' deps sfx m cur i = md H params t deps sfx m cur i.
Proof. intros [Z|E]; unfold md; [rewrite Z; reflexivity|]. now rewrite E. Qed.
Lemma brounds_rows H params key t t' deps sfx m cur : (mode_s params = 0 \/ forall k, k < m -> index t' k = index t k) ->
  brounds H params key t' deps sfx m cur = brounds H params key t deps sfx m cur.
Proof.
  intros E. unfold brounds. apply foldM_ext. intros _ s _. apply foldM_ext. intros i c I. unfold bstep.
  rewrite (md_rows H params t t'); [reflexivity|]. destruct E as [Z|E]; [now left|]. right. apply E. apply in_rev in I. apply in_seq in I. lia.
Qed.
