(** Sealing lost blocks again: the invariant of the loop. *)
From Coq Require Import Sorted.
From Verif Require Import Base Sloth Common Depend Prover Verifier NumTheory BytesFacts SealSpec SealCore SealFile SealTop SealMeaning WorkFacts Reseal.
Local Open Scope nat_scope.

Section R.
Context (H : list byte -> list byte) (pr : profile) (params : PosPara) (key : Z) (iv : list byte) (n m : nat).
Hypothesis SET : setting H pr params key n m.
Notation upl := (unit_pl params).
Notation bpl := (block_pl params).
Context (g : file) (st : seal_state).
Hypothesis SE : sealable params key n m g.
Hypothesis E : seal H pr params key iv g = Ok st.

Lemma logs t : tabl pr params n m t ->
  forall k, k < n -> block_sealed H params key iv n m (fst t) (snd t) g (s_file st) k (block_log params n m (s_log st) k) /\ length (block_log params n m (s_log st) k) = seal_rounds params * m.
Proof.
  intros T. pose proof T as (TL & LO & TS & SO). pose proof (seal_inv H pr params key iv n m SET t g st T SE E) as SU.
  destruct (sealed_zsf H params key iv n m (fst t) (snd t) g st SU) as (zsf & Z).
  assert (LG : s_log st = concat (map zsf (rev (seq 0 n)))).
  { pose proof E as E'. rewrite (seal_unfold H pr params key iv n m SET t g T) in E'.
    rewrite (seal_log_from H params key iv (hh H pr params key n m SET) (k1 H pr params key n m SET) (k2 H pr params key n m SET) n m (fst t) (snd t)
      (upl_pos H pr params key n m SET) (bpl_eq H pr params key n m SET) SO LO g 0 _ n st zsf (sealable_file_ok H pr params key n m SET g SE) eq_refl
      (sealed_upto_0 H params key iv n m (fst t) (snd t) g) E' SU Z). cbn [s_log]. now rewrite app_nil_r. }
  intros k K. assert (EQ : block_log params n m (s_log st) k = zsf k).
  { unfold block_log. rewrite LG. apply concat_piece; [|exact K]. intros j J. exact (block_sealed_len H params key iv n m (fst t) (snd t) g (s_file st) j (zsf j) (Z j J)). }
  rewrite EQ. split; [now apply Z|]. exact (block_sealed_len H params key iv n m (fst t) (snd t) g (s_file st) k (zsf k) (Z k K)).
Qed.

(** One block. *)
Lemma reseal_step t G log k : tabl pr params n m t -> k < n -> n * bpl <= length G ->
  (forall is b, pick_l H params (fst t) n (H (blk params (s_file st) (k - 1))) k = Ok is -> In b is -> blk params G b = blk params (s_file st) b) ->
  exists G', reseal_block H params key iv g (fst t) (snd t) n (mkSeal G (s_ids st) log) k = Ok (mkSeal G' (s_ids st) (block_log params n m (s_log st) k ++ log)) /\
  length G' = length G /\ blk params G' k = blk params (s_file st) k /\ (forall x, x < k * bpl \/ S k * bpl <= x -> nth x G' x00 = nth x G x00).
Proof.
  intros T K LG AG. pose proof T as (TL & LO & TS & SO). pose proof (seal_inv H pr params key iv n m SET t g st T SE E) as [SL IL SB SR SI _].
  destruct (logs t T k K) as ((deps & ED & _ & _ & FR) & _).
  pose proof (upl_pos H pr params key n m SET) as U0. pose proof (bpl_eq H pr params key n m SET) as BP.
  assert (LJ : S k * bpl <= n * bpl) by (apply Nat.mul_le_mono_r; lia).
  unfold reseal_block. cbn [s_file s_ids s_log]. fold (blk params g k). set (G1 := write_at G (k * bpl) (blk params g k)).
  assert (BL : length (blk params g k) = bpl) by (apply read_file_length).
  assert (B1 : blk params G1 k = blk params g k). { unfold G1, blk at 1. rewrite <- BL at 3. apply read_write_same. lia. }
  assert (B2 : forall j, j <> k -> blk params G1 j = blk params G j).
  { intros j J. apply read_write_other; [lia|]. rewrite BL. destruct (Nat.lt_ge_cases j k) as [C|C]; [left; pose proof (mul_lt_block params j k C)|right; pose proof (mul_lt_block params k j ltac:(lia))]; lia. }
  assert (L1 : length G1 = length G) by (apply write_at_length; lia).
  unfold seal_block. cbn [s_file s_ids s_log]. rewrite (read_block_ok params m U0 BP). cbn [bind]. rewrite B1.
  assert (ID : k <> 0 -> index (s_ids st) (k - 1) = Ok (H (blk params (s_file st) (k - 1)))) by (intros; apply SI; lia).
  assert (DD : seal_depend_blocks H params (fst t) n G1 (s_ids st) k = Ok deps).
  { rewrite <- ED. unfold Dfun. destruct (pick_l_ok H params n m (fst t) (hh H pr params key n m SET) U0 BP LO (H (blk params (s_file st) (k - 1))) k K) as (is & EI & LT).
    assert (X : seal_depend_blocks H params (fst t) n G1 (s_ids st) k = let* is := pick_l H params (fst t) n (H (blk params (s_file st) (k - 1))) k in mapM (fun i => read_block params G1 i) is).
    { unfold seal_depend_blocks, pick_l. destruct (mode_l params =? 0); [|reflexivity]. destruct (Nat.eqb_spec k 0); [reflexivity|]. destruct (cnt_l params =? 0); rewrite ID by assumption; reflexivity. }
    rewrite X, EI. cbn [bind]. apply mapM_ext. intros i I. rewrite !(read_block_ok params m U0 BP). rewrite Forall_forall in LT. specialize (LT i I). rewrite B2 by lia. now rewrite (AG is i EI I). }
  rewrite DD. cbn [bind]. rewrite (seal_block_rounds_frounds H params key iv (snd t) deps (s_ids st) k m _ _ (H (blk params (s_file st) (k - 1)))); [|apply chunks_length|exact ID].
  fold (sfx H params iv (s_file st) k). rewrite FR. cbn [bind]. rewrite (com_chunks params m BP).
  rewrite set_index_ok by lia. cbn [bind]. rewrite upd_same by (now apply SI).
  set (G' := write_at G1 (k * bpl) (blk params (s_file st) k)). assert (BS : length (blk params (s_file st) k) = bpl) by (apply read_file_length).
  exists G'. split; [reflexivity|]. split; [unfold G'; rewrite write_at_length; lia|]. split.
  - unfold G', blk at 1. rewrite <- BS at 3. apply read_write_same. lia.
  - intros x X. unfold G', G1. rewrite !write_at_nth; rewrite ?write_at_length; rewrite ?BS, ?BL; try lia.
    destruct (Nat.leb_spec (k * bpl) x), (Nat.ltb_spec x (k * bpl + bpl)); cbn [andb]; try reflexivity. lia.
Qed.

(** In increasing order. *)
Lemma reseal_loop t : tabl pr params n m t -> forall ks G log, StronglySorted lt ks -> Forall (fun k => k < n) ks -> n * bpl <= length G ->
  (forall k is b, In k ks -> pick_l H params (fst t) n (H (blk params (s_file st) (k - 1))) k = Ok is -> In b is -> In b ks \/ blk params G b = blk params (s_file st) b) ->
  exists G', foldM (reseal_block H params key iv g (fst t) (snd t) n) ks (mkSeal G (s_ids st) log) = Ok (mkSeal G' (s_ids st) (concat (map (block_log params n m (s_log st)) (rev ks)) ++ log)) /\
  length G' = length G /\ (forall k, In k ks -> blk params G' k = blk params (s_file st) k) /\
  (forall x, (forall k, In k ks -> x < k * bpl \/ S k * bpl <= x) -> nth x G' x00 = nth x G x00).
Proof.
  intros T. induction ks as [|k ks IH]; intros G log SS FK LG AG.
  - exists G. cbn [foldM rev map concat app]. split; [reflexivity|]. split; [reflexivity|]. split; [intros k []|auto].
  - inversion SS as [|? ? SS' LT]; subst. inversion FK as [|? ? K FK']; subst. pose proof T as (TL & LO & TS & SO).
    assert (PK : forall j is b, j < n -> pick_l H params (fst t) n (H (blk params (s_file st) (j - 1))) j = Ok is -> In b is -> b < j).
    { intros j is b J EI I. destruct (pick_l_ok H params n m (fst t) (hh H pr params key n m SET) (upl_pos _ _ _ _ _ _ SET) (bpl_eq _ _ _ _ _ _ SET) LO (H (blk params (s_file st) (j - 1))) j J) as (is' & EI' & F).
      rewrite EI in EI'. injection EI' as <-. rewrite Forall_forall in F. auto. }
    destruct (reseal_step t G log k T K LG) as (G1 & E1 & L1 & B1 & N1).
    { intros is b EI I. pose proof (PK k is b K EI I). destruct (AG k is b (or_introl eq_refl) EI I) as [[EQ|IB]|X]; [lia|rewrite Forall_forall in LT; specialize (LT b IB); lia|exact X]. }
    assert (OT : forall j, j <> k -> blk params G1 j = blk params G j).
    { intros j J. apply blk_ext. intros x X. apply N1. destruct (Nat.lt_ge_cases j k) as [C|C]; [left; pose proof (mul_lt_block params j k C)|right; pose proof (mul_lt_block params k j ltac:(lia))]; lia. }
    destruct (IH G1 (block_log params n m (s_log st) k ++ log) SS' FK' ltac:(lia)) as (G2 & E2 & L2 & B2 & N2).
    { intros j is b J EI I. destruct (Nat.eq_dec b k) as [->|NB]; [right; exact B1|]. rewrite OT by exact NB. destruct (AG j is b (or_intror J) EI I) as [[EQ|IB]|X]; [congruence|now left|now right]. }
    exists G2. split.
    + cbn [foldM]. rewrite E1. cbn [bind]. rewrite E2. cbn [rev]. rewrite map_app, concat_app. cbn [map concat]. now rewrite app_nil_r, <- app_assoc.
    + split; [lia|]. split.
      * intros j [<-|J]; [|now apply B2]. rewrite <- B1. apply blk_ext. intros x X. apply N2. intros j J. rewrite Forall_forall in LT. specialize (LT j J). pose proof (mul_lt_block params k j LT). lia.
      * intros x X. rewrite N2 by (intros j J; apply X; now right). apply N1. apply X. now left.
Qed.

(** The rule as in [long_choice]. *)
Lemma pick_choice t id k is : tabl pr params n m t -> k < n -> pick_l H params (fst t) n id k = Ok is -> long_choice H pr params n id k is.
Proof.
  clear SE E. intros (TL & _) KN EI. unfold long_choice. unfold pick_l in EI. destruct (mode_l params) as [|ml] eqn:ML; cbn [Nat.eqb] in EI.
  - destruct (Nat.eqb_spec k 0); [now injection EI|]. destruct (cnt_l params =? 0); exact EI.
  - unfold seal_idxs_l in TL. rewrite ML in TL. cbn [Nat.eqb negb] in TL. unfold create_long_depend in TL.
    destruct (mapM_nth _ _ _ TL k k) as (b & NB & FB). { rewrite nth_error_nth' with (d := 0) by (rewrite seq_length; lia). now rewrite seq_nth. }
    unfold index in EI. rewrite NB in EI. injection EI as <-. exact FB.
Qed.
(** An answer from a file that has the block and the blocks it depends on. *)
Lemma answer_same t G k : tabl pr params n m t -> k < n -> blk params G k = blk params (s_file st) k ->
  (forall is b, pick_l H params (fst t) n (H (blk params (s_file st) (k - 1))) k = Ok is -> In b is -> blk params G b = blk params (s_file st) b) ->
  answer_kept H pr params (s_ids st) G k = single_unseal_prepare H pr params (s_file st) k.
Proof.
  intros T K BK AG. pose proof T as (TL & LO & _). pose proof (seal_inv H pr params key iv n m SET t g st T SE E) as [_ IL _ _ SI _].
  unfold answer_kept, single_unseal_prepare. fold (blk params G k). fold (blk params (s_file st) k). rewrite BK.
  destruct (to_units (blk params (s_file st) k) upl) as [u|]; [|reflexivity]. cbn [bind]. rewrite (set_nblocks H pr params key n m SET). cbn [bind].
  change (verifier_idxs_l pr params n) with (seal_idxs_l pr params n). rewrite TL. cbn [bind].
  assert (ID : (if k =? 0 then Ok [] else index (s_ids st) (k - 1)) = Ok (prepare_before_id H params (s_file st) k)).
  { unfold prepare_before_id. destruct (Nat.eqb_spec k 0) as [|N]; cbn [negb]; [reflexivity|]. fold (blk params (s_file st) (k - 1)). apply SI. lia. }
  rewrite ID. cbn [bind].
  assert (DD : prepare_depend_blocks H params (fst t) n G (prepare_before_id H params (s_file st) k) k = prepare_depend_blocks H params (fst t) n (s_file st) (prepare_before_id H params (s_file st) k) k); [|now rewrite DD].
  destruct (pick_l_ok H params n m (fst t) (hh H pr params key n m SET) (upl_pos _ _ _ _ _ _ SET) (bpl_eq _ _ _ _ _ _ SET) LO (H (blk params (s_file st) (k - 1))) k K) as (is & EI & _).
  assert (X : forall F0, prepare_depend_blocks H params (fst t) n F0 (prepare_before_id H params (s_file st) k) k = mapM (fun idx => to_units (blk params F0 idx) upl) is).
  { intros F0. unfold prepare_depend_blocks. unfold pick_l in EI. destruct (mode_l params =? 0); [|rewrite EI; reflexivity]. unfold prepare_before_id.
    destruct (Nat.eqb_spec k 0); cbn [negb]; [injection EI as <-; reflexivity|]. fold (blk params (s_file st) (k - 1)). destruct (cnt_l params =? 0); rewrite EI; reflexivity. }
  rewrite !X. apply mapM_ext. intros b I. now rewrite (AG is b EI I).
Qed.
End R.
