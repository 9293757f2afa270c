(** The verifier's random access to a sealed file agrees with sealing. *)
From Verif Require Import Base Legendre Sloth Common Depend Prover Verifier NumTheory SlothFacts BytesFacts
  DependSpec DependFacts DependDet VdeFacts SealSpec SealCore SealFile SealTop CommonFacts ShortTable ChallengeFacts VerifierFacts ParallelFacts.
From Coq Require Import Znumtheory Sorted.
Local Open Scope nat_scope.

(** The plaintext units of block k. *)
Definition block_units (params : PosPara) (m : nat) (f : file) (k : nat) : list (list byte) :=
  map (fun i => unit_bytes params f (k * m + i)) (seq 0 m).

Section SV.
Context (H : list byte -> list byte) (pr : profile) (params : PosPara) (key : Z) (iv : list byte) (n m : nat).
Hypothesis SET : setting H pr params key n m.
Notation upl := (unit_pl params).
Notation bpl := (block_pl params).

Lemma block_units_chunks f k : n * bpl <= length f -> k < n -> chunks upl m (blk params f k) = block_units params m f k.
Proof.
  intros L K. apply list_ext. intros i. pose proof (mul_lt_block params k n K). destruct (Nat.lt_ge_cases i m) as [C|C].
  - rewrite (unit_of_block H pr params key n m SET) by lia. unfold block_units. rewrite nth_error_map.
    rewrite (proj2 (nth_seq m i i)) by auto. reflexivity.
  - transitivity (@None (list byte)); [|symmetry]; apply nth_error_None.
    + rewrite chunks_length. exact C.
    + unfold block_units. rewrite map_length, seq_length. exact C.
Qed.

Lemma prepare_D idxs_l f k : prepare_depend_blocks H params idxs_l n f (prepare_before_id H params f k) k = Dfun H params idxs_l n f k.
Proof.
  unfold prepare_depend_blocks, prepare_before_id, Dfun, pick_l. destruct (Nat.eqb_spec (mode_l params) 0) as [M|M]; [|reflexivity].
  destruct (Nat.eqb_spec k 0) as [->|NZ]; cbn [negb]; reflexivity.
Qed.

(** The verifier can build its table: random short dependencies, or the original
    block has m units as well. *)
Definition unit_table : Prop := mode_s params = 0 \/ (unit_l params <> 0 /\ block_l params / unit_l params = m).

Section Sealed.
Context (f : file) (st : seal_state).
Hypothesis SK : sound_key H key.
Hypothesis SE : sealable params key n m f.
Hypothesis E : seal H pr params key iv f = Ok st.
Hypothesis NZ : ~ In 0%Z (s_log st).

Lemma prepare_ok k : k < n -> exists t deps, tabl pr params n m t /\
  single_unseal_prepare H pr params (s_file st) k = Ok (chunks upl m (blk params (s_file st) k), prepare_before_id H params (s_file st) k, deps)
  /\ Dfun H params (fst t) n (s_file st) k = Ok deps /\ deps_ok m deps
  /\ brounds H params key (snd t) deps (sfx H params iv (s_file st) k) m (chunks upl m (blk params (s_file st) k)) = Ok (block_units params m f k).
Proof.
  intros K. destruct (tabl_ex H pr params key n m SET) as (t & T). pose proof T as (TL & LO & TS & SO).
  pose proof (seal_inv H pr params key iv n m SET t f st T SE E) as SU.
  destruct (no_zero_blocks H params key iv n m t f st SU NZ k K) as (zs & BS & NZ').
  destruct (block_unseal H params key iv n m (fst t) (snd t) (hh H pr params key n m SET) (k1 H pr params key n m SET)
     (k2 H pr params key n m SET) (upl_pos H pr params key n m SET) (bpl_eq H pr params key n m SET) SO LO f (s_file st) k zs (sound_good H key SK) BS NZ' K)
    as (deps & D & B).
  exists t, deps. split; [exact T|]. split.
  - unfold single_unseal_prepare.
    pose proof (read_block_ok params m (upl_pos H pr params key n m SET) (bpl_eq H pr params key n m SET) (s_file st) k) as RB. unfold read_block in RB.
    rewrite RB. cbn [bind]. rewrite (set_nblocks H pr params key n m SET). cbn [bind].
    change (verifier_idxs_l pr params n) with (seal_idxs_l pr params n). rewrite TL. cbn [bind]. rewrite prepare_D, D. reflexivity.
  - split; [exact D|].
    destruct (Dfun_ok H params n m (fst t) (hh H pr params key n m SET) (upl_pos H pr params key n m SET)
       (bpl_eq H pr params key n m SET) LO (s_file st) k K) as (d' & D' & DO). rewrite D in D'. injection D' as <-. split; [exact DO|].
    rewrite B. f_equal. apply block_units_chunks; [|exact K]. apply SE.
Qed.

(** The inputs prepared for the blocks ks. *)
Definition prepared ks rs : Prop := mapM (single_unseal_prepare H pr params (s_file st)) ks = Ok rs.

Lemma jobs_sealed ks : Forall (fun k => k < n) ks ->
  exists rs, prepared ks rs /\
  forall t', (forall t, seal_idxs_s pr params n = Ok t -> mode_s params = 0 \/ forall k, k < m -> index t' k = index t k) ->
  mapM (bjob H params key iv ks (map (fun r => snd (fst r)) rs) (map snd rs) t' (map (fun r => fst (fst r)) rs)) (seq 0 (length rs))
  = Ok (map (block_units params m f) ks).
Proof.
  intros F. destruct (tabl_ex H pr params key n m SET) as (t & T).
  assert (UT : forall t', tabl pr params n m t' -> t' = t).
  { intros [a b] (A & _ & B & _). destruct t as [a' b']. destruct T as (A' & _ & B' & _). cbn [fst snd] in *. congruence. }
  destruct (proj1 (mapM_forall (single_unseal_prepare H pr params (s_file st))
     (fun k r => k < n /\ fst (fst r) = chunks upl m (blk params (s_file st) k) /\ snd (fst r) = prepare_before_id H params (s_file st) k /\
        brounds H params key (snd t) (snd r) (sfx H params iv (s_file st) k) m (chunks upl m (blk params (s_file st) k)) = Ok (block_units params m f k)) ks))
    as (rs & ER & R).
  { intros k K. rewrite Forall_forall in F. destruct (prepare_ok k (F k K)) as (t' & deps & T' & P & D & DO & B).
    rewrite (UT t' T') in *. eexists. split; [exact P|]. cbn [fst snd]. auto. }
  exists rs. split; [exact ER|]. intros t' ROWS. destruct T as (TL & LO & TS & SO). specialize (ROWS _ TS).
  apply mapM_length in ER as RL.
  rewrite (mapM_ok _ (fun i => block_units params m f (nth i ks 0))).
  - f_equal. rewrite RL. apply list_ext. intros i. rewrite !nth_error_map. destruct (Nat.lt_ge_cases i (length ks)) as [C|C].
    + rewrite (proj2 (nth_seq (length ks) i i)) by auto. rewrite nth_error_nth' with (d := 0) by exact C. reflexivity.
    + rewrite (proj2 (nth_error_None (seq 0 (length ks)) i)) by (rewrite seq_length; exact C).
      now rewrite (proj2 (nth_error_None ks i)) by exact C.
  - intros i I. apply in_seq in I. assert (NK : nth_error ks i = Some (nth i ks 0)) by (apply nth_error_nth'; lia).
    destruct (R i _ NK) as ([[bl bi] ds] & NR & K & E1 & E2 & B). cbn [fst snd] in *. subst bl bi.
    rewrite (bjob_brounds H params key iv ks _ _ t' _ i (nth i ks 0) (chunks upl m (blk params (s_file st) (nth i ks 0))) ds
       (prepare_before_id H params (s_file st) (nth i ks 0))).
    + rewrite chunks_length. rewrite (brounds_rows H params key (snd t) t') by exact ROWS.
      assert (X : (if nth i ks 0 =? 0 then iv else prepare_before_id H params (s_file st) (nth i ks 0)) = sfx H params iv (s_file st) (nth i ks 0)).
      { unfold sfx, prepare_before_id, blk. destruct (nth i ks 0 =? 0); reflexivity. }
      rewrite X. exact B.
    + now apply index_nth.
    + apply index_nth. rewrite nth_error_map, NR. reflexivity.
    + apply index_nth. rewrite nth_error_map, NR. reflexivity.
    + intros _. apply index_nth. rewrite nth_error_map, NR. reflexivity.
Qed.

Theorem batch_unseal_sealed ks : unit_table -> Forall (fun k => k < n) ks ->
  exists rs, mapM (single_unseal_prepare H pr params (s_file st)) ks = Ok rs /\
  batch_unseal H pr params key iv ks (map (fun r => snd (fst r)) rs) (map snd rs) (map (fun r => fst (fst r)) rs)
  = Ok (map (block_units params m f) ks).
Proof.
  intros UT F. destruct (jobs_sealed ks F) as (rs & P & J). exists rs. split; [exact P|]. rewrite batch_unseal_map, map_length.
  destruct (tabl_ex H pr params key n m SET) as (t & (_ & _ & TS & _)).
  destruct (verifier_table pr params n m (snd t) (set_short _ _ _ _ _ _ SET) TS UT) as (t' & -> & _ & RW). cbn [bind].
  apply J. intros t0 E0. rewrite TS in E0. injection E0 as <-. exact RW.
Qed.
(** The other two versions build the table of the sealing code. *)
Theorem parallel_sealed ks threads : threads <> 0 -> Forall (fun k => k < n) ks ->
  exists rs, mapM (single_unseal_prepare H pr params (s_file st)) ks = Ok rs /\
  forall r, batch_unseal_parallel H pr params key iv ks (map (fun r => snd (fst r)) rs) (map snd rs) threads (map (fun r => fst (fst r)) rs) r
  <-> r = Ok (map (block_units params m f) ks).
Proof.
  intros TH F. destruct (jobs_sealed ks F) as (rs & P & J). exists rs. split; [exact P|]. intros r.
  destruct (tabl_ex H pr params key n m SET) as (t & (_ & _ & TS & _)).
  assert (ET : bp_idxs_s pr params = Ok (snd t)).
  { unfold bp_idxs_s. rewrite (set_nblocks H pr params key n m SET). exact TS. }
  rewrite (par_result H pr params key iv ks _ _ threads _ (snd t) r TH ET). rewrite map_length.
  specialize (J (snd t)). rewrite <- (map_length fst rs) in J at 1.
  match goal with |- r = Ok ?x <-> _ => assert (X : x = map (block_units params m f) ks); [|now rewrite X] end.
  rewrite map_length in J. specialize (J ltac:(intros t0 E0; rewrite TS in E0; injection E0 as <-; right; reflexivity)).
  apply list_ext. intros i. rewrite nth_error_map. apply mapM_length in J as JL. rewrite seq_length in JL.
  destruct (Nat.lt_ge_cases i (length rs)) as [C|C].
  - assert (N : nth_error (seq 0 (length rs)) i = Some i) by (now apply nth_seq). rewrite N. cbn [option_map].
    destruct (mapM_index _ _ _ _ _ J N) as (c & Ec & I). apply index_nth in I. rewrite I. unfold result. now rewrite Ec.
  - rewrite (proj2 (nth_error_None (seq 0 (length rs)) i)) by (rewrite seq_length; exact C). symmetry. apply nth_error_None. lia.
Qed.

(** The range version of the preparation gives the same inputs. *)
Lemma prepare_range_eq ks rs : Forall (fun k => k < n) ks -> mapM (single_unseal_prepare H pr params (s_file st)) ks = Ok rs ->
  forall b e, blocks_in_range b e bpl = Ok ks ->
  batch_unseal_prepare H pr params (s_file st) b e = Ok (ks, map (fun r => fst (fst r)) rs, map (fun r => snd (fst r)) rs, map snd rs).
Proof.
  intros F M b e BR. unfold batch_unseal_prepare. rewrite BR. cbn [bind].
  destruct (tabl_ex H pr params key n m SET) as (t & (TL & _)).
  assert (X : forall k, single_unseal_prepare H pr params (s_file st) k =
     (let* bl := to_units (read_file (s_file st) (k * bpl) bpl) upl in
      let* p := (let bid := prepare_before_id H params (s_file st) k in
                 let* ds := prepare_depend_blocks H params (fst t) n (s_file st) bid k in Ok (bid, ds)) in
      Ok (bl, fst p, snd p))).
  { intros k. unfold single_unseal_prepare. destruct (to_units _ _); [|reflexivity]. cbn [bind].
    rewrite (set_nblocks H pr params key n m SET). cbn [bind].
    change (verifier_idxs_l pr params n) with (seal_idxs_l pr params n). rewrite TL. cbn [bind].
    destruct (prepare_depend_blocks _ _ _ _ _ _ _); reflexivity. }
  rewrite (mapM_ext _ _ ks (fun k _ => X k)) in M.
  rewrite (set_nblocks H pr params key n m SET). cbn [bind].
  change (verifier_idxs_l pr params n) with (seal_idxs_l pr params n). rewrite TL. cbn [bind]. clear X F BR.
  revert rs M. induction ks as [|k ks IH]; intros rs M.
  - injection M as <-. reflexivity.
  - cbn [mapM] in M |- *. destruct (to_units (read_file (s_file st) (k * bpl) bpl) upl) as [bl|]; [|discriminate]. cbn [bind] in M |- *.
    destruct (prepare_depend_blocks H params (fst t) n (s_file st) (prepare_before_id H params (s_file st) k) k) as [ds|]; [|discriminate].
    cbn [bind fst snd] in M |- *.
    match type of M with bind (mapM ?f ks) _ = _ => destruct (mapM f ks) as [rs'|] eqn:MM; [|discriminate] end.
    cbn [bind] in M. injection M as <-. specialize (IH rs' eq_refl).
    destruct (mapM (fun idx2 => to_units (read_file (s_file st) (idx2 * bpl) bpl) upl) ks) as [bls|]; [|discriminate].
    cbn [bind] in IH |- *.
    match type of IH with bind (mapM ?f ks) _ = _ => destruct (mapM f ks) as [both|]; [|discriminate] end.
    cbn [bind] in IH |- *. injection IH as I1 I2 I3. cbn [map fst snd]. repeat f_equal; assumption.
Qed.
Theorem batch_unseal_range q e : unit_table -> e <= n * bpl ->
  exists ks bls bids ds, batch_unseal_prepare H pr params (s_file st) (q * bpl) e = Ok (ks, bls, bids, ds) /\
  (forall k, In k ks <-> exists x, q * bpl <= x < e /\ k * bpl <= x < (k + 1) * bpl) /\ StronglySorted lt ks /\
  batch_unseal H pr params key iv ks bids ds bls = Ok (map (block_units params m f) ks).
Proof.
  intros UT L. destruct (Nat.eq_dec bpl 0) as [Z|NZ'].
  - exists [], [], [], []. unfold batch_unseal_prepare. rewrite Z, !Nat.mul_0_r. 
    assert (e = 0) by (rewrite Z, Nat.mul_0_r in L; lia). subst e. cbn [blocks_in_range blocks_idx_loop Nat.sub plus Nat.ltb Nat.leb bind mapM].
    rewrite (set_nblocks H pr params key n m SET). cbn [bind].
    destruct (tabl_ex H pr params key n m SET) as (t & (TL & _ & TS & _)).
    change (verifier_idxs_l pr params n) with (seal_idxs_l pr params n). rewrite TL. cbn [bind].
    split; [reflexivity|]. split; [|split; [constructor|]].
    + intros k. split; [intros []|intros (x & X & _); lia].
    + rewrite batch_unseal_map.
      destruct (verifier_table pr params n m (snd t) (set_short _ _ _ _ _ _ SET) TS UT) as (t' & -> & _). reflexivity.
  - destruct (blocks_aligned q e bpl ltac:(lia)) as (ks & BR & SO & I).
    assert (F : Forall (fun k => k < n) ks).
    { apply Forall_forall. intros k K. apply I in K as (x & X1 & X2). apply (Nat.mul_lt_mono_pos_r bpl); lia. }
    destruct (batch_unseal_sealed ks UT F) as (rs & ER & B).
    exists ks, (map (fun r => fst (fst r)) rs), (map (fun r => snd (fst r)) rs), (map snd rs).
    split; [now apply prepare_range_eq|]. auto.
Qed.
End Sealed.
End SV.
