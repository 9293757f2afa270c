(** Sealing with a deterministic rule for the block dependencies and unsealing with the
    blocks 0, 1, 2, ... instead of the listed ones (C93). *)
From Coq Require Import Znumtheory.
From Verif Require Import Base Legendre Sloth Common Depend Prover Verifier NumTheory SlothFacts BytesFacts
  DependSpec DependFacts DependDet VdeFacts SealSpec SealCore SealFile SealTop SealZero VerifierFacts SealVerify SealMeaning.
Local Open Scope nat_scope.

Lemma modsub_val y h p a : (0 < p)%Z -> (le2z h <= p)%Z -> modsub y h p = Ok a -> le2z a = ((le2z y - le2z h) mod p)%Z.
Proof.
  intros P Q E. unfold modsub in E. destruct (Z.eqb_spec p 0); [lia|]. unfold pad_exact in E.
  destruct (_ <=? length y); [|discriminate]. injection E as <-. pose proof (le2z_nonneg y). pose proof (le2z_nonneg h).
  rewrite le2z_app_zeros, le2z_z2le, Z.rem_mod_nonneg by lia.
  pose proof (Z.mod_pos_bound (le2z y + p - le2z h) p ltac:(lia)). rewrite Z.abs_eq by lia.
  replace (le2z y + p - le2z h)%Z with (le2z y - le2z h + 1 * p)%Z by ring. apply Z_mod_plus_full.
Qed.

Section Pass.
Context (H : list byte -> list byte) (params : PosPara) (key : Z).
Notation upl := (unit_pl params).
Hypothesis HH : hash_ok H.
Hypothesis K1 : (1 < key)%Z.
Hypothesis K2 : (key <= 256 ^ Z.of_nat upl)%Z.
Context (ts : list (list nat)) (deps deps' : list (list (list byte))) (sf : list byte) (m : nat).
Hypothesis SOK : short_ok params ts m.
Hypothesis DOK : deps_ok m deps.
Hypothesis GK : good_key H key.

(** One pass forwards with [deps] and back with [deps']. *)
Lemma pass_det j : j <= m -> forall cur cur' zs, block_ok params key m cur ->
  foldM (fstep H params key ts deps sf m) (seq 0 j) (cur, []) = Ok (cur', zs) -> ~ In 0%Z zs ->
  forall r, foldM (bstep H params key ts deps' sf m) (rev (seq 0 j)) cur' = Ok r ->
  (r = cur <-> forall i, i < j -> forall c lg d d', foldM (fstep H params key ts deps sf m) (seq 0 i) (cur, []) = Ok (c, lg) ->
     md H params ts deps sf m c i = Ok d -> md H params ts deps' sf m c i = Ok d' -> H d = H d').
Proof.
  induction j as [|j IH]; intros J cur cur' zs B E Z r R.
  - injection E as <- <-. injection R as <-. split; [intros _ i I; lia|reflexivity].
  - rewrite seq_S in E. rewrite foldM_app in E. cbn [plus] in E.
    destruct (loop_undo (block_ok params key m) (good_key H key) (fstep H params key ts deps sf m) (bstep H params key ts deps sf m) (seq 0 j))
      with (b := cur) as (c1 & z1 & B1 & F1 & G1).
    { intros i b I Bb. apply in_seq in I. apply fstep_ok; auto; lia. }
    { exact B. }
    rewrite F1 in E. cbn [bind foldM] in E. apply bind_ok in E as ([c2 l2] & E2 & E). injection E as -> ->.
    rewrite app_nil_r in E2. destruct (fstep_ok H params key HH K1 K2 ts deps sf m j c1 SOK DOK ltac:(lia) B1) as (c2 & z2 & B2 & F2 & G2).
    pose proof (F2 z1) as F2'. rewrite E2 in F2'. injection F2' as -> ->.
    assert (Z2 : ~ In 0%Z z2) by (intros I; apply Z, in_or_app; now left). assert (Z1 : ~ In 0%Z z1) by (intros I; apply Z, in_or_app; now right).
    specialize (G2 GK Z2). specialize (F1 []). rewrite app_nil_r in F1.
    rewrite seq_S, rev_app_distr in R. cbn [plus rev app foldM] in R. apply bind_ok in R as (c3 & E3 & R).
    (* the step at j *)
    pose proof G2 as G2'. unfold bstep in G2', E3. apply bind_ok in G2' as (d & Ed & G2'). apply bind_ok in E3 as (d' & Ed' & E3).
    apply bind_ok in G2' as (y & Ey & G2'). apply bind_ok in E3 as (y' & Ey' & E3). rewrite Ey in Ey'. injection Ey' as <-.
    apply bind_ok in G2' as (a & Ea & G2'). apply bind_ok in E3 as (a' & Ea' & E3).
    assert (C2 : exists v, c2 = upd c1 j v).
    { unfold fstep in E2. apply bind_ok in E2 as (? & _ & E2). apply bind_ok in E2 as (? & _ & E2). apply bind_ok in E2 as (? & _ & E2). apply bind_ok in E2 as (q & Eq & E2).
      injection E2 as -> _. unfold set_index in Eq. destruct (j <? length c1); [|discriminate]. injection Eq as <-. eauto. }
    destruct C2 as (v & ->). rewrite md_upd in Ed, Ed' by (auto; lia). destruct B1 as [L1 U1]. assert (L2 : length (upd c1 j v) = m) by now rewrite upd_length.
    rewrite set_index_ok in G2', E3 by lia. injection G2' as G2'. injection E3 as <-.
    pose proof (hash_lt H key d GK) as Hd. pose proof (hash_lt H key d' GK) as Hd'.
    assert (HE : a = a' <-> H d = H d').
    { split; [|intros Q; rewrite Q in Ea; congruence]. intros Q. apply modsub_val in Ea; [|lia|lia]. apply modsub_val in Ea'; [|lia|lia]. rewrite Q in Ea. rewrite Ea in Ea'.
      apply le2z_inj; [now rewrite !HH|]. pose proof (le2z_nonneg (H d)) as N1. pose proof (le2z_nonneg (H d')) as N2. set (x := le2z (vde_inv _ _ _ _ _)) in Ea'. clear - Ea' Hd Hd' N1 N2.
      assert (Z0 : ((le2z (H d') - le2z (H d)) mod key = 0)%Z).
      { replace (le2z (H d') - le2z (H d))%Z with ((x - le2z (H d)) - (x - le2z (H d')))%Z by ring. rewrite Zminus_mod, Ea', Z.sub_diag. apply Z.mod_0_l. lia. }
      apply Z.mod_divide in Z0 as (q & Z0); [|lia]. assert (q = 0)%Z by nia. lia. }
    rewrite upd_upd in *.
    destruct (list_eq_dec Byte.byte_eq_dec a a') as [Q|Q].
    + subst a'. rewrite G2' in R. rewrite (IH ltac:(lia) cur c1 z1 B F1 Z1 r R). split; intros X i I c lg e e' Ec Ee Ee'; [|exact (X i ltac:(lia) c lg e e' Ec Ee Ee')].
      destruct (Nat.eq_dec i j) as [->|N]; [|exact (X i ltac:(lia) c lg e e' Ec Ee Ee')]. rewrite F1 in Ec. injection Ec as <- <-. rewrite Ed in Ee. rewrite Ed' in Ee'. injection Ee as <-. injection Ee' as <-. now apply HE.
    + split.
      * intros ->. exfalso. apply Q.
        assert (N1 : nth_error c1 j = nth_error cur j) by (apply (foldF_other H params key ts deps sf m (seq 0 j) cur [] c1 z1); [exact F1|rewrite in_seq; lia]).
        assert (N3 : nth_error cur j = nth_error (upd c1 j a') j) by (apply (foldB_other H params key ts deps' sf m (rev (seq 0 j))); [exact R|rewrite <- in_rev, in_seq; lia]).
        rewrite nth_error_upd_eq in N3 by lia. rewrite <- G2', nth_error_upd_eq in N1 by lia. congruence.
      * intros X. exfalso. apply Q, HE. eapply (X j); eauto.
Qed.
End Pass.

Section Det.
Context (H : list byte -> list byte) (pr : profile) (params : PosPara) (key : Z) (iv : list byte) (n m : nat).
Hypothesis SET : setting H pr params key n m.
Notation upl := (unit_pl params).
Notation bpl := (block_pl params).

(** A block whose listed blocks are the ones unsealing reads is restored. *)
Theorem det_block_restored f st G k : sound_key H key -> sealable params key n m f -> seal H pr params key iv f = Ok st -> ~ In 0%Z (s_log st) ->
  unseal H pr params key iv (s_file st) = Ok G -> k < n ->
  (forall bs, long_choice H pr params n (H (block_bytes params (s_file st) (k - 1))) k bs -> unseal_choice H pr params n (H (block_bytes params (s_file st) (k - 1))) k bs) ->
  block_bytes params G k = block_bytes params f k.
Proof.
  intros SK SE ES NZ EU KN CH. destruct (tabl_ex H pr params key n m SET) as (t & T). pose proof T as (TL & LOK & TS & SOK).
  pose proof (seal_inv H pr params key iv n m SET t f st T SE ES) as SU.
  destruct (no_zero_blocks H params key iv n m t f st SU NZ k KN) as (zs & BS & NZk).
  assert (LF : n * bpl <= length (s_file st)) by (rewrite (su_len _ _ _ _ _ _ _ _ _ _ _ SU); apply SE). assert (Lf : n * bpl <= length f) by apply SE.
  destruct (block_unseal H params key iv n m (fst t) (snd t) (hh _ _ _ _ _ _ SET) (k1 _ _ _ _ _ _ SET) (k2 _ _ _ _ _ _ SET) (upl_pos _ _ _ _ _ _ SET) (bpl_eq _ _ _ _ _ _ SET) SOK LOK f (s_file st) k zs (sound_good H key SK) BS NZk KN) as (deps & ED & EB).
  destruct (unseal_used H pr params key iv n m SET t (s_file st) (sound_lt H pr params key n m SET SK) T LF) as (G' & EG & LG & _ & C). rewrite EU in EG. injection EG as <-.
  destruct (C k KN) as (deps2 & us & ED2 & SH & EB2 & EQ).
  destruct (Dfun_choice H pr params key n m SET t (s_file st) k deps T KN LF ED) as (bs & LC & _ & DE).
  destruct (Dfun_used H pr params key n m SET t (s_file st) k deps2 T KN LF ED2) as (bs2 & UC & _ & DE2).
  destruct (unseal_choice_fun H pr params key n m SET _ _ _ _ KN (CH bs LC) UC) as [<- _]. rewrite <- DE in DE2. subst deps2.
  rewrite EB in EB2. injection EB2 as <-. pose proof (mul_lt_block params k n KN). rewrite !block_bytes_blk by lia. rewrite EQ. apply (com_chunks params m (bpl_eq _ _ _ _ _ _ SET)).
Qed.

(** With one sealing round the steps of the trace are those of the loop. *)
Lemma pass_trace t f F k deps bs U : tabl pr params n m t -> seal_rounds params = 1 -> k < n -> n * bpl <= length f -> n * bpl <= length F ->
  long_choice H pr params n (H (block_bytes params F (k - 1))) k bs -> deps = map (fun b => block_units params m F b) bs ->
  block_ok params key m (chunks upl m (blk params f k)) -> seals_block H pr params key iv n m f F k U ->
  forall i c lg, i <= m -> foldM (fstep H params key (snd t) deps (sfx H params iv F k) m) (seq 0 i) (chunks upl m (blk params f k), []) = Ok (c, lg) ->
  block_ok params key m c /\ forall j, j < m -> nth j c [] = U i j.
Proof.
  intros T R1 KN Lf LF LC DE B (U0 & _ & US). pose proof T as (TL & LOK & TS & SOK). rewrite R1 in US. rewrite Nat.mul_1_l in US.
  assert (DOK : deps_ok m deps) by (rewrite DE; apply Forall_forall; intros b I; apply in_map_iff in I as (x & <- & _); unfold block_units; now rewrite map_length, seq_length).
  induction i as [|i IH]; intros c lg IM E.
  - injection E as <- <-. split; [exact B|]. intros j J. rewrite (block_units_chunks H pr params key n m SET) by assumption. rewrite block_units_nth by exact J. symmetry. now apply U0.
  - rewrite seq_S, foldM_app in E. apply bind_ok in E as ([c1 l1] & E1 & E). cbn [plus foldM] in E. apply bind_ok in E as ([c2 l2] & E2 & E). injection E as -> ->.
    destruct (IH c1 l1 ltac:(lia) E1) as [B1 N1]. clear IH.
    destruct (fstep_ok H params key (hh _ _ _ _ _ _ SET) (k1 _ _ _ _ _ _ SET) (k2 _ _ _ _ _ _ SET) (snd t) deps (sfx H params iv F k) m i c1 SOK DOK ltac:(lia) B1) as (c' & z & B' & FE & _).
    rewrite FE in E2. injection E2 as -> _. split; [exact B'|]. specialize (FE []).
    unfold fstep in FE. apply bind_ok in FE as (d & Ed & FE). apply bind_ok in FE as (u & Eu & FE). apply bind_ok in FE as (a & Ea & FE). apply bind_ok in FE as (q & Eq & FE). injection FE as -> _.
    destruct B1 as [L1 F1]. rewrite set_index_ok in Eq by lia. injection Eq as <-.
    destruct (US i ltac:(lia)) as (bs' & us & LC' & SC & LU & VU & NU). rewrite Nat.mod_small in * by lia.
    destruct (long_choice_fun H pr params key n m SET _ _ _ _ KN LC' LC) as [-> _].
    destruct (md_data H pr params iv n m t F k deps bs c1 i d T KN LF DE ltac:(lia) Ed) as (us' & SC' & DD).
    assert (SCE : short_choice H pr params n m (U i (i - 1)) i us') by (rewrite <- N1 by lia; exact SC').
    destruct (short_choice_fun H pr params key n m SET _ _ _ _ IM SC SCE) as [<- UM].
    intros j J. rewrite upd_nth by lia. destruct (Nat.eqb_spec j i) as [->|NE]; [|rewrite NU by assumption; now apply N1].
    set (v := vde a key (vde_rounds params) (vde_mode params) upl). apply modadd_val in Ea as [Va La]; [|pose proof (k1 _ _ _ _ _ _ SET); lia].
    assert (Lu : length u = upl) by (apply index_In in Eu; rewrite Forall_forall in F1; now apply F1).
    apply le2z_inj.
    + rewrite LU. destruct B' as [_ B']. rewrite Forall_forall in B'. apply B'. apply nth_error_In with (n := i). apply nth_error_upd_eq. lia.
    + rewrite VU. unfold v. rewrite vde_val, Va. rewrite <- (index_nth_eq _ _ _ [] Eu), N1 by lia. rewrite DD.
      rewrite (map_ext_in (fun i => nth i c1 []) (U i) us); [reflexivity|]. intros x I. apply N1. rewrite Forall_forall in UM. now apply UM.
Qed.

(** One sealing round: a block is restored exactly if, unit by unit, the data hashed when
    sealing and the data hashed when unsealing have the same hash. *)
Theorem det_one_round f st G k U : sound_key H key -> seal_rounds params = 1 -> sealable params key n m f -> seal H pr params key iv f = Ok st -> ~ In 0%Z (s_log st) ->
  unseal H pr params key iv (s_file st) = Ok G -> k < n -> seals_block H pr params key iv n m f (s_file st) k U ->
  let F := s_file st in
  (block_bytes params G k = block_bytes params f k <->
   forall i bs bs' us, i < m -> long_choice H pr params n (H (block_bytes params F (k - 1))) k bs ->
     unseal_choice H pr params n (H (block_bytes params F (k - 1))) k bs' -> short_choice H pr params n m (U i (i - 1)) i us ->
     let rest := concat (map (U i) us) ++ chained H params iv F k i in
     H (concat (map (fun b => unit_bytes params F (b * m + i)) bs) ++ rest) = H (concat (map (fun b => unit_bytes params F (b * m + i)) bs') ++ rest)).
Proof.
  intros SK R1 SE ES NZ EU KN SB F. destruct (tabl_ex H pr params key n m SET) as (t & T). pose proof T as (TL & LOK & TS & SOK).
  pose proof (seal_inv H pr params key iv n m SET t f st T SE ES) as SU.
  destruct (no_zero_blocks H params key iv n m t f st SU NZ k KN) as (zs & BS & NZk).
  assert (LF : n * bpl <= length (s_file st)) by (rewrite (su_len _ _ _ _ _ _ _ _ _ _ _ SU); apply SE). assert (Lf : n * bpl <= length f) by apply SE. fold F in BS, LF, SB.
  destruct BS as (deps & ED & B1 & B2 & FR). specialize (FR []). unfold frounds in FR. rewrite R1 in FR. cbn [seq foldM] in FR. apply bind_ok in FR as (x & FR & Ex). injection Ex as ->. rewrite app_nil_r in FR.
  destruct (unseal_used H pr params key iv n m SET t (s_file st) (sound_lt H pr params key n m SET SK) T LF) as (G' & EG & LG & _ & C). rewrite EU in EG. injection EG as <-. fold F in C.
  destruct (C k KN) as (deps2 & us2 & ED2 & SH & EB2 & EQ). unfold brounds in EB2. rewrite R1 in EB2. cbn [seq foldM] in EB2. apply bind_ok in EB2 as (y & EB2 & Ey). injection Ey as ->.
  destruct (Dfun_choice H pr params key n m SET t F k deps T KN LF ED) as (bs & LC & _ & DE).
  destruct (Dfun_used H pr params key n m SET t F k deps2 T KN LF ED2) as (bs2 & UC & _ & DE2).
  assert (DOK : deps_ok m deps) by (rewrite DE; apply Forall_forall; intros b I; apply in_map_iff in I as (x & <- & _); unfold block_units; now rewrite map_length, seq_length).
  assert (DOK2 : deps_ok m deps2) by (rewrite DE2; apply Forall_forall; intros b I; apply in_map_iff in I as (x & <- & _); unfold block_units; now rewrite map_length, seq_length).
  pose proof (pass_det H params key (hh _ _ _ _ _ _ SET) (k1 _ _ _ _ _ _ SET) (k2 _ _ _ _ _ _ SET) (snd t) deps deps2 (sfx H params iv F k) m SOK DOK (sound_good H key SK) m (le_n m) _ _ _ B1 FR NZk _ EB2) as PD.
  pose proof (mul_lt_block params k n KN) as MK. assert (BE : block_bytes params G k = block_bytes params f k <-> us2 = chunks upl m (blk params f k)).
  { rewrite !block_bytes_blk by (unfold F in LF; lia). rewrite EQ. split; [|intros ->; apply (com_chunks params m (bpl_eq _ _ _ _ _ _ SET))].
    intros Q. apply (f_equal (chunks upl m)) in Q. now rewrite chunks_com in Q by exact SH. }
  rewrite BE, PD. clear BE PD.
  assert (ST : forall i, i < m -> exists c lg, foldM (fstep H params key (snd t) deps (sfx H params iv F k) m) (seq 0 i) (chunks upl m (blk params f k), []) = Ok (c, lg)).
  { intros i I. destruct (loop_undo (block_ok params key m) (good_key H key) (fstep H params key (snd t) deps (sfx H params iv F k) m) (bstep H params key (snd t) deps (sfx H params iv F k) m) (seq 0 i)) with (b := chunks upl m (blk params f k)) as (c1 & z1 & _ & F1 & _); [|exact B1|eauto].
    intros j b J Bb. apply in_seq in J. apply fstep_ok; auto; [exact (hh _ _ _ _ _ _ SET)|exact (k1 _ _ _ _ _ _ SET)|exact (k2 _ _ _ _ _ _ SET)|lia]. }
  assert (DAT : forall i c lg dd b0 d, i < m -> foldM (fstep H params key (snd t) deps (sfx H params iv F k) m) (seq 0 i) (chunks upl m (blk params f k), []) = Ok (c, lg) ->
     dd = map (fun b => block_units params m F b) b0 -> md H params (snd t) dd (sfx H params iv F k) m c i = Ok d ->
     exists us, short_choice H pr params n m (U i (i - 1)) i us /\ d = concat (map (fun b => unit_bytes params F (b * m + i)) b0) ++ concat (map (U i) us) ++ chained H params iv F k i).
  { intros i c lg dd b0 d I Ec Edd Ed. destruct (pass_trace t f F k deps bs U T R1 KN Lf LF LC DE B1 SB i c lg ltac:(lia) Ec) as [Bc Nc].
    destruct (md_data H pr params iv n m t F k dd b0 c i d T KN LF Edd I Ed) as (us & SC & DD). exists us.
    assert (SC' : short_choice H pr params n m (U i (i - 1)) i us) by (rewrite <- Nc by lia; exact SC). split; [exact SC'|].
    destruct (short_choice_fun H pr params key n m SET _ _ _ _ I SC' SC') as [_ UM].
    rewrite DD. rewrite (map_ext_in (fun i => nth i c []) (U i) us); [reflexivity|]. intros x X. apply Nc. rewrite Forall_forall in UM. now apply UM. }
  split.
  - intros X i b0 b0' us I LC0 UC0 SC rest. destruct (ST i I) as (c & lg & Ec). destruct (pass_trace t f F k deps bs U T R1 KN Lf LF LC DE B1 SB i c lg ltac:(lia) Ec) as [[Lc _] Nc].
    destruct (md_returns H params (snd t) deps (sfx H params iv F k) m c i (hh _ _ _ _ _ _ SET) SOK DOK Lc I) as (d & Ed).
    destruct (md_returns H params (snd t) deps2 (sfx H params iv F k) m c i (hh _ _ _ _ _ _ SET) SOK DOK2 Lc I) as (d' & Ed').
    destruct (DAT i c lg deps bs d I Ec DE Ed) as (u1 & S1 & D1). destruct (DAT i c lg deps2 bs2 d' I Ec DE2 Ed') as (u2 & S2 & D2).
    destruct (short_choice_fun H pr params key n m SET _ _ _ _ I SC S1) as [<- _]. destruct (short_choice_fun H pr params key n m SET _ _ _ _ I SC S2) as [<- _].
    destruct (long_choice_fun H pr params key n m SET _ _ _ _ KN LC0 LC) as [-> _]. destruct (unseal_choice_fun H pr params key n m SET _ _ _ _ KN UC0 UC) as [-> _].
    unfold rest. rewrite <- D1, <- D2. exact (X i I c lg d d' Ec Ed Ed').
  - intros X i I c lg d d' Ec Ed Ed'.
    destruct (DAT i c lg deps bs d I Ec DE Ed) as (u1 & S1 & D1). destruct (DAT i c lg deps2 bs2 d' I Ec DE2 Ed') as (u2 & S2 & D2).
    destruct (short_choice_fun H pr params key n m SET _ _ _ _ I S1 S2) as [<- _]. rewrite D1, D2. exact (X i bs bs2 u1 I LC UC S1).
Qed.
End Det.
