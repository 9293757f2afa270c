(** Sealing on from a block: the log, the hashes not yet made, and blocks sealed under two
    numbers of blocks. *)
From Verif Require Import Base Sloth Common Depend Prover Verifier NumTheory BytesFacts SealSpec SealCore SealFile SealTop SealMeaning WorkFacts Grow.
Local Open Scope nat_scope.

(** * The log of evaluations is only added to *)
Definition addlog {C} (l : list Z) (r : res (C * list Z)) : res (C * list Z) := let* cl := r in Ok (fst cl, snd cl ++ l).
Lemma foldM_addlog {A C} (g : C * list Z -> A -> res (C * list Z)) :
  (forall c l a, g (c, l) a = addlog l (g (c, []) a)) -> forall xs c l, foldM g xs (c, l) = addlog l (foldM g xs (c, [])).
Proof.
  intros G. induction xs as [|a xs IH]; intros c l; cbn [foldM]; [reflexivity|]. rewrite G. destruct (g (c, []) a) as [[c1 z]|]; [|reflexivity].
  unfold addlog at 1. cbn [bind fst snd]. rewrite (IH c1 (z ++ l)), (IH c1 z). destruct (foldM g xs (c1, [])) as [[c2 z2]|]; [|reflexivity].
  unfold addlog. cbn [bind fst snd]. now rewrite app_assoc.
Qed.
Lemma rounds_addlog H params key iv t deps ids idx2 cur l :
  seal_block_rounds H params key iv t deps ids idx2 (cur, l) = addlog l (seal_block_rounds H params key iv t deps ids idx2 (cur, [])).
Proof.
  unfold seal_block_rounds. cbn [fst]. apply (foldM_addlog (fun st (_ : nat) => foldM (seal_unit H params key iv t deps ids idx2 (length cur)) (seq 0 (length cur)) st)).
  intros c l1 _. apply foldM_addlog. clear. intros c l j. cbn [seal_unit]. destruct (seal_depend_data _ _ _ _ _ _ _ _ _ _); [|reflexivity]. cbn [bind].
  destruct (index c j); [|reflexivity]. cbn [bind]. destruct (modadd _ _ _); [|reflexivity]. cbn [bind]. destruct (set_index c j _); reflexivity.
Qed.
Lemma block_addlog H params key iv tl ts n f ids l k :
  seal_block H params key iv tl ts n (mkSeal f ids l) k =
  let* s := seal_block H params key iv tl ts n (mkSeal f ids []) k in Ok (mkSeal (s_file s) (s_ids s) (s_log s ++ l)).
Proof.
  unfold seal_block. cbn [s_file s_ids s_log]. destruct (read_block params f k) as [cur|]; [|reflexivity]. cbn [bind].
  destruct (seal_depend_blocks _ _ _ _ _ _ _) as [deps|]; [|reflexivity]. cbn [bind]. rewrite rounds_addlog.
  destruct (seal_block_rounds _ _ _ _ _ _ _ _ (cur, [])) as [[c z]|]; [|reflexivity]. unfold addlog. cbn [bind fst snd].
  destruct (set_index ids k _); reflexivity.
Qed.
Lemma loop_addlog H params key iv tl ts n ks : forall f ids l,
  foldM (seal_block H params key iv tl ts n) ks (mkSeal f ids l) =
  let* s := foldM (seal_block H params key iv tl ts n) ks (mkSeal f ids []) in Ok (mkSeal (s_file s) (s_ids s) (s_log s ++ l)).
Proof.
  induction ks as [|k ks IH]; intros f ids l; cbn [foldM]; [reflexivity|]. rewrite block_addlog.
  destruct (seal_block H params key iv tl ts n (mkSeal f ids []) k) as [[f1 i1 z]|]; [|reflexivity]. cbn [bind s_file s_ids s_log].
  rewrite (IH f1 i1 (z ++ l)), (IH f1 i1 z). destruct (foldM _ ks (mkSeal f1 i1 [])) as [s|]; [|reflexivity]. cbn [bind s_file s_ids s_log]. now rewrite app_assoc.
Qed.

(** * Hashes not yet made *)
Lemma foldM_two {A B} (f : A -> B -> res A) l1 : forall l2 a, foldM f (l1 ++ l2) a = let* b := foldM f l1 a in foldM f l2 b.
Proof. induction l1 as [|x l1 IH]; intros l2 a; cbn [app foldM]; [reflexivity|]. destruct (f a x); cbn [bind]; [apply IH|reflexivity]. Qed.
Lemma nth_error_head {A} (l : list A) k i : i < k -> nth_error (firstn k l) i = nth_error l i.
Proof. revert l i. induction k as [|k IH]; intros [|a l] [|i] L; cbn; try lia; auto. apply IH. lia. Qed.
Lemma skipn_upd {A} (l : list A) k x j : k < j -> skipn j (upd l k x) = skipn j l.
Proof. revert l j. induction k as [|k IH]; intros [|a l] [|j] L; cbn; try lia; auto. apply IH. lia. Qed.
Lemma skipn_S_tl {A} (l : list A) j : skipn (S j) l = tl (skipn j l).
Proof. revert l. induction j as [|j IH]; intros [|a l]; try reflexivity. cbn [skipn] in *. apply IH. Qed.
Lemma block_ids H params key iv tl ts n s k s' : seal_block H params key iv tl ts n s k = Ok s' -> exists x, s_ids s' = upd (s_ids s) k x.
Proof.
  unfold seal_block. destruct (read_block _ _ _) as [cur|]; [|discriminate]. cbn [bind]. destruct (seal_depend_blocks _ _ _ _ _ _ _); [|discriminate]. cbn [bind].
  destruct (seal_block_rounds _ _ _ _ _ _ _ _ _) as [[c z]|]; [|discriminate]. cbn [bind]. unfold set_index. destruct (k <? length (s_ids s)); [|discriminate]. cbn [bind].
  intros E. injection E as <-. eexists. reflexivity.
Qed.
Lemma loop_ids H params key iv tl ts n d : forall a s s', foldM (seal_block H params key iv tl ts n) (seq a d) s = Ok s' -> skipn (a + d) (s_ids s') = skipn (a + d) (s_ids s).
Proof.
  induction d as [|d IH]; intros a s s'; cbn [seq foldM]; [intros E; now injection E as <-|].
  destruct (seal_block H params key iv tl ts n s a) as [s1|] eqn:E1; [|discriminate]. cbn [bind]. intros E.
  replace (a + S d) with (S a + d) by lia. rewrite (IH _ _ _ E). destruct (block_ids _ _ _ _ _ _ _ _ _ _ E1) as (x & ->). apply skipn_upd. lia.
Qed.

Lemma loop_count H params key iv n m (G : geometry params n m) tl ts b l : forall s0 s1, foldM (seal_block H params key iv tl ts b) l s0 = Ok s1 -> length (s_log s1) = length l * (seal_rounds params * m) + length (s_log s0).
Proof.
  induction l as [|a l IH]; intros s0 s1 E; cbn [foldM] in E; [now injection E as <-|].
  destruct (seal_block H params key iv tl ts b s0 a) as [s|] eqn:B; [|discriminate]. cbn [bind] in E. rewrite (IH _ _ E). cbn [length].
  unfold seal_block in B. destruct (read_block _ _ _) as [cur|] eqn:RB; [|discriminate]. cbn [bind] in B.
  destruct (seal_depend_blocks _ _ _ _ _ _ _) as [deps|]; [|discriminate]. cbn [bind] in B.
  destruct (seal_block_rounds _ _ _ _ _ _ _ _ _) as [[c' l']|] eqn:R; [|discriminate]. cbn [bind] in B.
  destruct (set_index _ _ _); [|discriminate]. injection B as <-. cbn [s_log]. apply seal_rounds_count in R. cbn [snd] in R. rewrite R, (geo_read params n m G _ _ _ RB). lia.
Qed.

(** * One rule for two numbers of blocks *)
Lemma step_same n n' : (n <= 256 <-> n' <= 256) -> (Z.of_nat n <= 65536 <-> Z.of_nat n' <= 65536)%Z -> step_of n = step_of n'.
Proof.
  intros A B. unfold step_of. change (2 ^ 8)%Z with 256%Z. change (2 ^ 16)%Z with 65536%Z.
  destruct (Z.leb_spec (Z.of_nat n) 256), (Z.leb_spec (Z.of_nat n') 256); try lia; try reflexivity.
  destruct (Z.leb_spec (Z.of_nat n) 65536), (Z.leb_spec (Z.of_nat n') 65536); try lia; reflexivity.
Qed.

Section G.
Context (H : list byte -> list byte) (pr : profile) (params : PosPara) (key : Z) (iv : list byte) (n m d' n' : nat).
Notation params' := (with_data params d').
Hypothesis SET : setting H pr params key n m.
Hypothesis SET' : setting H pr params' key n' m.
Hypothesis SR : same_rules params n n'.
Notation bpl := (block_pl params).

Lemma pick_same t t' id k : tabl pr params n m t -> tabl pr params' n' m t' -> k < n -> k < n' ->
  pick_l H params (fst t) n id k = pick_l H params (fst t') n' id k.
Proof.
  intros (TL & _) (TL' & _) K K'. unfold pick_l, seal_idxs_l in *. cbn [mode_l cnt_l with_data] in TL'. destruct (mode_l params =? 0) eqn:ML; cbn [negb] in *.
  - apply Nat.eqb_eq in ML. assert (ST : step_of n = step_of n') by (destruct SR as [->|[_ X]]; [reflexivity|]; destruct (X ML); now apply step_same).
    unfold long_mode_random. now rewrite ST.
  - unfold create_long_depend in *. assert (N : forall x, k < x -> nth_error (seq 0 x) k = Some k) by (intros x X; rewrite nth_error_nth' with (d := 0) by (rewrite seq_length; lia); now rewrite seq_nth).
    destruct (mapM_nth _ _ _ TL k k (N n K)) as (b & NB & FB). destruct (mapM_nth _ _ _ TL' k k (N n' K')) as (b' & NB' & FB').
    unfold index. rewrite NB, NB'. rewrite FB in FB'. now injection FB' as ->.
Qed.
Lemma short_same t t' : tabl pr params n m t -> tabl pr params' n' m t' -> snd t = snd t'.
Proof.
  intros (_ & _ & TS & _) (_ & _ & TS' & _). unfold seal_idxs_s in *. cbn [mode_s cnt_s with_data] in TS'. destruct SR as [<-|[M _]]; [congruence|].
  rewrite M in TS, TS'. cbn in TS, TS'. congruence.
Qed.
Lemma sealed_same t t' f F k zs : tabl pr params n m t -> tabl pr params' n' m t' -> k < n -> k < n' ->
  block_sealed H params' key iv n' m (fst t') (snd t') f F k zs -> block_sealed H params key iv n m (fst t) (snd t) f F k zs.
Proof.
  intros T T' K K' (deps & ED & B1 & B2 & FR). exists deps. split.
  - unfold Dfun in *. rewrite (pick_same t t' _ k T T' K K'). exact ED.
  - split; [exact B1|]. split; [exact B2|]. rewrite (short_same t t' T T'). exact FR.
Qed.

Context (k : nat) (g g' : file) (st st' : seal_state).
Hypothesis K : k <= n.
Hypothesis K' : k <= n'.
Hypothesis SE : sealable params key n m g.
Hypothesis SE' : sealable params' key n' m g'.
Hypothesis EG : firstn (k * bpl) g = firstn (k * bpl) g'.
Hypothesis E : seal H pr params key iv g = Ok st.
Hypothesis E' : seal H pr params' key iv g' = Ok st'.

Lemma grow_len : k * bpl <= length g /\ k * bpl <= length g' /\ k * bpl <= length (s_file st) /\ k * bpl <= length (s_file st').
Proof.
  destruct (tabl_ex H pr params key n m SET) as (t & T). destruct (tabl_ex H pr params' key n' m SET') as (t' & T').
  pose proof (seal_inv H pr params key iv n m SET t g st T SE E) as [SL _ _ _ _ _]. pose proof (seal_inv H pr params' key iv n' m SET' t' g' st' T' SE' E') as [SL' _ _ _ _ _].
  destruct SE as [L _], SE' as [L' _]. cbn [block_pl with_data] in L'. assert (k * bpl <= n * bpl) by (apply Nat.mul_le_mono_r; exact K). assert (k * bpl <= n' * bpl) by (apply Nat.mul_le_mono_r; exact K'). lia.
Qed.
Lemma grow_blocks j : j < k -> blk params (s_file st) j = blk params (s_file st') j.
Proof.
  destruct (tabl_ex H pr params key n m SET) as (t & T). destruct (tabl_ex H pr params' key n' m SET') as (t' & T').
  pose proof (seal_inv H pr params key iv n m SET t g st T SE E) as [_ _ SB _ _ _]. pose proof (seal_inv H pr params' key iv n' m SET' t' g' st' T' SE' E') as [_ _ SB' _ _ _].
  destruct grow_len as (L1 & L2 & _). pose proof T as (_ & LO & _ & SO).
  apply (sealed_blk_unique H params key iv n m (fst t) (snd t) (hh _ _ _ _ _ _ SET) (upl_pos _ _ _ _ _ _ SET) (bpl_eq _ _ _ _ _ _ SET) LO g g'); [exact K| | |].
  - intros q Q. destruct (SB q ltac:(lia)) as (z & B & _). eauto.
  - intros q Q. destruct (SB' q ltac:(lia)) as (z & B & _). exists z. apply (sealed_same t t'); auto; lia.
  - exact (proj1 (blk_firstn params g g' k L1 L2) EG).
Qed.
Lemma grow_file : firstn (k * bpl) (s_file st) = firstn (k * bpl) (s_file st').
Proof. destruct grow_len as (_ & _ & L1 & L2). apply (proj2 (blk_firstn params _ _ k L1 L2)). exact grow_blocks. Qed.
Lemma grow_ids j : j < k -> index (s_ids st) j = index (s_ids st') j.
Proof.
  intros J. destruct (tabl_ex H pr params key n m SET) as (t & T). destruct (tabl_ex H pr params' key n' m SET') as (t' & T').
  pose proof (seal_inv H pr params key iv n m SET t g st T SE E) as [_ _ _ _ SI _]. pose proof (seal_inv H pr params' key iv n' m SET' t' g' st' T' SE' E') as [_ _ _ _ SI' _].
  rewrite SI, SI' by lia. rewrite grow_blocks by exact J. reflexivity.
Qed.

Lemma grow_from : exists s l, seal_from H pr params' key iv k (firstn (k * bpl) (s_file st) ++ skipn (k * bpl) g') (firstn k (s_ids st)) = Ok s /\
  s_file s = s_file st' /\ s_ids s = s_ids st' /\ s_log st' = s_log s ++ l /\ length l = k * (seal_rounds params * m).
Proof.
  destruct (tabl_ex H pr params' key n' m SET') as (t' & T'). pose proof (tabl_ex H pr params key n m SET) as (t & T).
  pose proof (seal_inv H pr params key iv n m SET t g st T SE E) as [_ IL _ _ _ _].
  pose proof (seal_inv H pr params' key iv n' m SET' t' g' st' T' SE' E') as [_ _ _ _ SI' _].
  destruct (seal_interrupted H pr params' key iv n' m SET' g' st' k SE' E' K') as (sj & Ej & Fj).
  pose proof (seal_upto_ok H pr params' key iv n' m SET' t' g' k T' SE' K') as (sj' & Ej' & [_ ILj _ _ SIj _]). rewrite Ej in Ej'. injection Ej' as <-.
  assert (IDS : s_ids sj = firstn k (s_ids st) ++ repeat [] (n' - k)).
  { rewrite <- (firstn_skipn k (s_ids sj)). f_equal.
    - apply list_ext. intros i. destruct (Nat.lt_ge_cases i k) as [I|I].
      + rewrite !nth_error_head by exact I.
        pose proof (SIj i I) as A. pose proof (grow_ids i I) as B. rewrite SI' in B by lia.
        assert (C : blk params' (s_file sj) i = blk params' (s_file st') i).
        { destruct grow_len as (_ & L2 & _ & L4). apply blk_ext. intros x X. cbn [block_pl with_data] in X. pose proof (mul_lt_block params i k I). rewrite Fj. unfold splice. cbn [block_pl with_data].
          rewrite app_nth1 by (rewrite firstn_length; lia). apply nth_firstn. lia. }
        rewrite C in A. rewrite <- B in A. unfold index in A. destruct (nth_error (s_ids sj) i), (nth_error (s_ids st) i); congruence.
      + rewrite !(proj2 (nth_error_None _ _)); [reflexivity| |]; rewrite firstn_length; lia.
    - pose proof Ej as X. rewrite (seal_upto_unfold H pr params' key iv n' m SET' t' k g' T' K') in X. apply loop_ids in X. cbn [Nat.add s_ids] in X. rewrite X.
      clear. revert k. induction n' as [|x IH]; intros [|k]; try reflexivity. cbn [repeat skipn]. rewrite IH. reflexivity. }
  pose proof E' as R. rewrite (seal_unfold H pr params' key iv n' m SET' t' g' T') in R.
  rewrite (seal_upto_unfold H pr params' key iv n' m SET' t' k g' T' K') in Ej.
  assert (SQ : seq 0 n' = seq 0 k ++ seq k (n' - k)) by (rewrite <- seq_app; f_equal; lia). rewrite SQ, foldM_two, Ej in R. cbn [bind] in R.
  destruct sj as [fj ij lj]. cbn [s_file s_ids] in *. rewrite loop_addlog in R.
  unfold seal_from. rewrite (set_nblocks H pr params' key n' m SET'). cbn [bind]. destruct T' as (TL' & _ & TS' & _). rewrite TL'. cbn [bind]. rewrite TS'. cbn [bind].
  rewrite grow_file. unfold splice in Fj. cbn [block_pl with_data] in Fj. rewrite <- Fj, <- IDS.
  destruct (foldM _ (seq k (n' - k)) (mkSeal fj ij [])) as [s|] eqn:ES; [|discriminate R]. cbn [bind] in R. injection R as R. exists s, lj. rewrite <- R. cbn [s_file s_ids s_log].
  repeat split; try reflexivity.
  apply (loop_count H params' key iv n' m (set_geom _ _ _ _ _ _ SET')) in Ej. cbn [s_log length] in Ej. rewrite Ej, seq_length. cbn [seal_rounds with_data]. lia.
Qed.

Lemma grow_answer j : j < k -> single_unseal_prepare H pr params' (s_file st') j = single_unseal_prepare H pr params (s_file st) j.
Proof.
  intros J. destruct (tabl_ex H pr params' key n' m SET') as (t' & T'). destruct (tabl_ex H pr params key n m SET) as (t & T). pose proof T as (TL & LO & _). pose proof T' as (TL' & _).
  unfold single_unseal_prepare. cbn [block_pl unit_pl with_data].
  fold (blk params (s_file st) j). fold (blk params (s_file st') j). rewrite <- (grow_blocks j J).
  destruct (to_units (blk params (s_file st) j) (unit_pl params)) as [u|]; [|reflexivity]. cbn [bind].
  rewrite (set_nblocks H pr params key n m SET), (set_nblocks H pr params' key n' m SET'). cbn [bind].
  change (verifier_idxs_l pr params n) with (seal_idxs_l pr params n). change (verifier_idxs_l pr params' n') with (seal_idxs_l pr params' n'). rewrite TL, TL'. cbn [bind].
  assert (ID : prepare_before_id H params' (s_file st') j = prepare_before_id H params (s_file st) j).
  { unfold prepare_before_id. destruct (Nat.eqb_spec j 0) as [|N]; cbn [negb]; [reflexivity|]. cbn [block_pl with_data].
    fold (blk params (s_file st) (j - 1)). fold (blk params (s_file st') (j - 1)). now rewrite grow_blocks by lia. }
  rewrite ID.
  destruct (pick_l_ok H params n m (fst t) (hh H pr params key n m SET) (upl_pos _ _ _ _ _ _ SET) (bpl_eq _ _ _ _ _ _ SET) LO (H (blk params (s_file st) (j - 1))) j ltac:(lia)) as (is & EI & LT).
  assert (EI' : pick_l H params (fst t') n' (H (blk params (s_file st) (j - 1))) j = Ok is) by (rewrite <- (pick_same t t' _ j T T'); [exact EI|lia|lia]).
  assert (X : forall idx cnt F0, pick_l H params idx cnt (H (blk params (s_file st) (j - 1))) j = Ok is -> prepare_depend_blocks H params idx cnt F0 (prepare_before_id H params (s_file st) j) j = mapM (fun i => to_units (blk params F0 i) (unit_pl params)) is).
  { clear - j. intros idx cnt F0 EI. unfold prepare_depend_blocks. unfold pick_l in EI. destruct (mode_l params =? 0); [|rewrite EI; reflexivity]. unfold prepare_before_id.
    destruct (Nat.eqb_spec j 0); cbn [negb]; [injection EI as <-; reflexivity|]. fold (blk params (s_file st) (j - 1)). destruct (cnt_l params =? 0); rewrite EI; reflexivity. }
  change (prepare_depend_blocks H params') with (prepare_depend_blocks H params).
  rewrite (X _ _ (s_file st) EI), (X _ _ (s_file st') EI').
  assert (Y : mapM (fun i => to_units (blk params (s_file st') i) (unit_pl params)) is = mapM (fun i => to_units (blk params (s_file st) i) (unit_pl params)) is); [|now rewrite Y].
  apply mapM_ext. intros b B. rewrite Forall_forall in LT. specialize (LT b B). cbn in LT. now rewrite grow_blocks by lia.
Qed.
End G.
