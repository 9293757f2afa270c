(** What a sealed block depends on, and what can be read off from a prefix of the sealed
    file. *)
From Verif Require Import Base Sloth Common Depend Prover Verifier BytesFacts SealSpec SealCore SealFile SealTop ShortTable VerifierFacts ParallelFacts SealVerify SealMeaning.
Local Open Scope nat_scope.

(** * Number of delay-function evaluations *)
Lemma foldM_log {A C} (g : C * list Z -> A -> res (C * list Z)) (I : C -> Prop) (w : nat) l :
  (forall a c lg c' lg', In a l -> I c -> g (c, lg) a = Ok (c', lg') -> I c' /\ length lg' = w + length lg) ->
  forall c lg c' lg', I c -> foldM g l (c, lg) = Ok (c', lg') -> I c' /\ length lg' = length l * w + length lg.
Proof.
  induction l as [|a l IH]; intros ST c lg c' lg' Ic E; cbn [foldM] in E; [injection E as <- <-; auto|].
  destruct (g (c, lg) a) as [[c1 lg1]|] eqn:G; [|discriminate]. cbn [bind] in E.
  destruct (ST a c lg c1 lg1 (or_introl eq_refl) Ic G) as (I1 & L1).
  destruct (IH ltac:(intros; eapply ST; eauto; now right) c1 lg1 c' lg' I1 E) as (I' & L'). split; [exact I'|]. rewrite L', L1. cbn [length]. lia.
Qed.
Lemma rounds_log H params key iv t deps ids idx2 m cur lg cur' lg' : length cur = m ->
  seal_block_rounds H params key iv t deps ids idx2 (cur, lg) = Ok (cur', lg') -> length lg' = seal_rounds params * m + length lg.
Proof.
  intros LC E. unfold seal_block_rounds in E. cbn [fst] in E. rewrite LC in E.
  pose proof (foldM_log (fun st (_ : nat) => foldM (seal_unit H params key iv t deps ids idx2 m) (seq 0 m) st) (fun c => length c = m) m (seq 0 (seal_rounds params))) as X.
  rewrite seq_length in X. apply (X) with (c := cur) (c' := cur'); [|exact LC|exact E].
  intros _ c l1 c' l1' _ C1 E1. destruct (foldM_log (seal_unit H params key iv t deps ids idx2 m) (fun c => length c = m) 1 (seq 0 m)) with (c := c) (lg := l1) (c' := c') (lg' := l1') as (A & B); auto.
  - intros i c2 l2 c3 l3 _ C2 E2. split; [apply seal_unit_length in E2; congruence|].
    cbn [seal_unit] in E2. destruct (seal_depend_data _ _ _ _ _ _ _ _ _ _); [|discriminate]. cbn [bind] in E2.
    destruct (index c2 i); [|discriminate]. cbn [bind] in E2. destruct (modadd _ _ _); [|discriminate]. cbn [bind] in E2.
    destruct (set_index c2 i _); [|discriminate]. cbn [bind] in E2. now injection E2 as _ <-.
  - split; [exact A|]. rewrite B, seq_length. lia.
Qed.

Section L.
Context (H : list byte -> list byte) (pr : profile) (params : PosPara) (key : Z) (n m : nat).
Hypothesis SET : setting H pr params key n m.
Notation upl := (unit_pl params).
Notation bpl := (block_pl params).

Theorem seal_count iv f st : seal H pr params key iv f = Ok st -> length (s_log st) = n * m * seal_rounds params.
Proof.
  unfold seal. rewrite (geom_nblocks params n m (set_geom _ _ _ _ _ _ SET)). cbn [bind].
  destruct (seal_idxs_l pr params n) as [tl|]; [|discriminate]. cbn [bind]. destruct (seal_idxs_s pr params n) as [t|]; [|discriminate]. cbn [bind].
  assert (X : forall l s0 st0, foldM (seal_block H params key iv tl t n) l s0 = Ok st0 -> length (s_log st0) = length l * (m * seal_rounds params) + length (s_log s0)).
  { induction l as [|b l IH]; intros s0 st0 E; cbn [foldM] in E; [now injection E as <-|].
    destruct (seal_block H params key iv tl t n s0 b) as [s1|] eqn:B; [|discriminate]. cbn [bind] in E. rewrite (IH _ _ E). cbn [length].
    unfold seal_block in B. rewrite (read_block_ok params m (upl_pos _ _ _ _ _ _ SET) (bpl_eq _ _ _ _ _ _ SET)) in B. cbn [bind] in B.
    destruct (seal_depend_blocks _ _ _ _ _ _ _) as [deps|]; [|discriminate]. cbn [bind] in B.
    destruct (seal_block_rounds _ _ _ _ _ _ _ _ _) as [[c' l']|] eqn:R; [|discriminate]. cbn [bind] in B.
    destruct (set_index _ _ _); [|discriminate]. injection B as <-. cbn [s_log].
    rewrite (rounds_log H params key iv t deps (s_ids s0) b m _ _ _ _ (chunks_length _ _ _) R). nia. }
  intros E. rewrite (X _ _ _ E), seq_length. cbn [s_log length]. lia.
Qed.

(** * One block *)
(** The sealed block is determined by the original block, the chain value and the sealed
    blocks the rule selects. *)
Lemma seals_block_det iv iv' f g F G k U V : k < n -> n * bpl <= length f -> n * bpl <= length g -> n * bpl <= length F -> n * bpl <= length G ->
  block_bytes params f k = block_bytes params g k ->
  (k = 0 -> iv = iv') -> (k <> 0 -> H (block_bytes params F (k - 1)) = H (block_bytes params G (k - 1))) ->
  (forall bs b, long_choice H pr params n (H (block_bytes params F (k - 1))) k bs -> In b bs -> block_bytes params F b = block_bytes params G b) ->
  seals_block H pr params key iv n m f F k U -> seals_block H pr params key iv' n m g G k V ->
  block_bytes params F k = block_bytes params G k.
Proof.
  intros KN Lf Lg LF LG EP EI ID EB (U0 & UE & US) (V0 & VE & VS).
  assert (X : forall t, t <= seal_rounds params * m -> forall i, i < m -> U t i = V t i).
  { induction t as [|t IH]; intros L i IM; [rewrite U0, V0 by exact IM; now apply (units_of_block H pr params key n m SET)|]. specialize (IH ltac:(lia)).
    assert (M0 : m <> 0) by lia. pose proof (Nat.mod_upper_bound t m M0) as TM. destruct (US t ltac:(lia)) as (bs & us & LC & SC & LU & EU & NU). destruct (VS t ltac:(lia)) as (bs' & us' & LC' & SC' & LV & EV & NV).
    set (j := t mod m) in *. destruct (Nat.eq_dec i j) as [->|NE]; [|rewrite NU, NV by assumption; now apply IH].
    assert (LCF : long_choice H pr params n (H (block_bytes params F (k - 1))) k bs').
    { destruct (Nat.eq_dec k 0) as [->|NZ]; [|rewrite ID by exact NZ; exact LC']. unfold long_choice in *. destruct (mode_l params); exact LC'. }
    destruct (long_choice_fun H pr params key n m SET _ _ _ _ KN LC LCF) as [<- BK].
    rewrite (IH (j - 1)) in SC by lia.
    destruct (short_choice_fun H pr params key n m SET _ _ _ _ TM SC SC') as [<- UM].
    apply le2z_inj; [congruence|]. rewrite EU, EV. rewrite (IH j) by exact TM.
    assert (D1 : map (fun b => unit_bytes params F (b * m + j)) bs = map (fun b => unit_bytes params G (b * m + j)) bs).
    { apply map_ext_in. intros b I. rewrite Forall_forall in BK. specialize (BK b I). cbn in BK.
      apply (units_of_block H pr params key n m SET); try assumption; [lia|]. eapply EB; eauto. }
    assert (D2 : map (U t) us = map (V t) us) by (apply map_ext_in; intros u I; rewrite Forall_forall in UM; apply IH, UM, I).
    assert (D3 : chained H params iv F k j = chained H params iv' G k j).
    { unfold chained. destruct (j =? 0); [|reflexivity]. destruct (Nat.eqb_spec k 0); auto. }
    now rewrite D1, D2, D3. }
  apply (block_of_units H pr params key n m SET); try assumption. intros i IM. rewrite <- UE, <- VE by exact IM. apply X; [lia|exact IM].
Qed.
Theorem sealed_block_det iv iv' f g sf sg k : sealable params key n m f -> sealable params key n m g ->
  seal H pr params key iv f = Ok sf -> seal H pr params key iv' g = Ok sg -> k < n ->
  block_bytes params f k = block_bytes params g k ->
  (k = 0 -> iv = iv') -> (k <> 0 -> H (block_bytes params (s_file sf) (k - 1)) = H (block_bytes params (s_file sg) (k - 1))) ->
  (forall bs b, long_choice H pr params n (H (block_bytes params (s_file sf) (k - 1))) k bs -> In b bs ->
     block_bytes params (s_file sf) b = block_bytes params (s_file sg) b) ->
  block_bytes params (s_file sf) k = block_bytes params (s_file sg) k.
Proof.
  intros SF SG EF EG K EP EI ID EB.
  destruct (seals_block_ok H pr params key iv n m SET f sf SF EF) as (U & SU). destruct (seals_block_ok H pr params key iv' n m SET g sg SG EG) as (V & SV).
  destruct (seal_total H pr params key iv n m SET f SF) as (s1 & E1 & L1 & _). rewrite EF in E1. injection E1 as <-.
  destruct (seal_total H pr params key iv' n m SET g SG) as (s2 & E2 & L2 & _). rewrite EG in E2. injection E2 as <-.
  destruct SF as [LF _]. destruct SG as [LG _].
  apply (seals_block_det iv iv' f g (s_file sf) (s_file sg) k (U k) (V k)); auto; lia.
Qed.

(** * A prefix of the sealed file *)
Lemma same_response F G k : n * bpl <= length F -> n * bpl <= length G -> k < n -> (forall b, b <= k -> block_bytes params F b = block_bytes params G b) ->
  single_unseal_prepare H pr params F k = single_unseal_prepare H pr params G k.
Proof.
  intros LF LG K E. destruct (response_ok H pr params key n m SET F k LF K) as (bs & LC & ->). destruct (response_ok H pr params key n m SET G k LG K) as (bs' & LC' & ->).
  assert (EI : k <> 0 -> block_bytes params F (k - 1) = block_bytes params G (k - 1)) by (intros; apply E; lia).
  assert (LCF : long_choice H pr params n (H (block_bytes params F (k - 1))) k bs').
  { destruct (Nat.eq_dec k 0) as [->|NZ]; [|rewrite EI by exact NZ; exact LC']. unfold long_choice in *. destruct (mode_l params); exact LC'. }
  destruct (long_choice_fun H pr params key n m SET _ _ _ _ K LC LCF) as [<- BK].
  assert (UB : forall b, b <= k -> block_units params m F b = block_units params m G b).
  { intros b B. unfold block_units. apply map_ext_in. intros i I. apply in_seq in I. apply (units_of_block H pr params key n m SET); auto; lia. }
  unfold honest_response. rewrite (UB k) by lia. f_equal. f_equal; [f_equal|].
  - destruct (Nat.eqb_spec k 0); [reflexivity|]. now rewrite EI.
  - apply map_ext_in. intros b I. rewrite Forall_forall in BK. specialize (BK b I). apply UB. lia.
Qed.
Theorem prefix_injective iv f g sf sg j : sound_key H key -> sealable params key n m f -> sealable params key n m g ->
  seal H pr params key iv f = Ok sf -> seal H pr params key iv g = Ok sg -> ~ In 0%Z (s_log sf) -> ~ In 0%Z (s_log sg) -> j <= n ->
  firstn (j * bpl) (s_file sf) = firstn (j * bpl) (s_file sg) -> firstn (j * bpl) f = firstn (j * bpl) g.
Proof.
  intros SK SF SG EF EG ZF ZG J E.
  destruct (seal_total H pr params key iv n m SET f SF) as (s1 & E1 & L1 & _). rewrite EF in E1. injection E1 as <-.
  destruct (seal_total H pr params key iv n m SET g SG) as (s2 & E2 & L2 & _). rewrite EG in E2. injection E2 as <-.
  pose proof (proj1 SF) as LF. pose proof (proj1 SG) as LG. pose proof (Nat.mul_le_mono_r j n bpl J) as LJ.
  pose proof (proj1 (blk_firstn params (s_file sf) (s_file sg) j ltac:(lia) ltac:(lia)) E) as EB.
  apply (blk_firstn params f g j); [lia|lia|]. intros k K. pose proof (Nat.mul_le_mono_r (S k) n bpl ltac:(lia)) as LK.
  rewrite <- !block_bytes_blk by lia.
  assert (RE : single_unseal_prepare H pr params (s_file sf) k = single_unseal_prepare H pr params (s_file sg) k).
  { apply same_response; try lia. intros b B. pose proof (Nat.mul_le_mono_r (S b) n bpl ltac:(lia)). rewrite !block_bytes_blk by lia. apply EB. lia. }
  assert (FK : Forall (fun k => k < n) [k]) by (constructor; [lia|constructor]).
  destruct (parallel_sealed H pr params key iv n m SET f sf SK SF EF ZF [k] 1 ltac:(lia) FK) as (r1 & R1 & P1).
  destruct (parallel_sealed H pr params key iv n m SET g sg SK SG EG ZG [k] 1 ltac:(lia) FK) as (r2 & R2 & P2).
  assert (r1 = r2) as <- by (cbn [mapM] in R1, R2; rewrite RE in R1; congruence).
  specialize (P1 (Ok (map (block_units params m f) [k]))). specialize (P2 (Ok (map (block_units params m f) [k]))).
  assert (Q : Ok (map (block_units params m f) [k]) = Ok (map (block_units params m g) [k])) by (apply P2, P1; reflexivity).
  injection Q as Q. apply (block_of_units H pr params key n m SET); auto; [lia|]. intros i I. rewrite <- !block_units_nth by exact I. unfold block_units in *. now rewrite Q.
Qed.
End L.
