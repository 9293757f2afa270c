(** Unsealing any file and sealing the result: the equations of SealMeaning, read
    backwards.  The definitions up to the section say which numbers the delay function is
    given, in either direction. *)
From Coq Require Import Znumtheory Strings.Byte Lia.
From Verif Require Import Base Legendre Sloth Common Depend Prover Verifier NumTheory SlothFacts BytesFacts
  DependSpec DependFacts DependDet VdeFacts SealSpec SealCore SealFile SealTop SealZero ShortTable VerifierFacts SealVerify SealMeaning ReplyMeaning.
Local Open Scope nat_scope.

(** [M t] is the masked number handed to the delay function in step t of sealing block k. *)
Definition seals_masked (H : list byte -> list byte) (pr : profile) (params : PosPara) (key : Z) (iv : list byte) (n m : nat)
           (f F : file) (k : nat) (U : nat -> nat -> list byte) (M : nat -> Z) : Prop :=
  seals_block H pr params key iv n m f F k U /\
  forall t, t < seal_rounds params * m ->
    let i := t mod m in
    exists blocks units,
      long_choice H pr params n (H (block_bytes params F (k - 1))) k blocks /\
      short_choice H pr params n m (U t (i - 1)) i units /\
      let data := concat (map (fun b => unit_bytes params F (b * m + i)) blocks)
                    ++ concat (map (U t) units) ++ chained H params iv F k i in
      M t = ((le2z (U t i) + le2z (H data)) mod key)%Z.
(** In unsealing F the inverse delay function is only handed numbers from 1 .. key - 1. *)
Definition canonical_file (H : list byte -> list byte) (pr : profile) (params : PosPara) (key : Z) (iv : list byte) (n m : nat) (F : file) : Prop :=
  exists G U, forall k, k < n -> unseals_block H pr params key iv n m F G k (U k) /\
  forall t, t < seal_rounds params * m -> (1 <= le2z (U k t (m - 1 - t mod m)%nat) <= key - 1)%Z.

Section Onto.
Context (H : list byte -> list byte) (pr : profile) (params : PosPara) (key : Z) (iv : list byte) (n m : nat).
Hypothesis SET : setting H pr params key n m.
Notation upl := (unit_pl params).
Notation bpl := (block_pl params).
Notation T := (seal_rounds params * m).

Lemma block_masks t f F k zs : tabl pr params n m t -> k < n -> n * bpl <= length F -> n * bpl <= length f ->
  block_sealed H params key iv n m (fst t) (snd t) f F k zs ->
  exists U M, seals_masked H pr params key iv n m f F k U M /\ forall z, In z zs <-> exists q, q < T /\ z = M q.
Proof.
  intros TB KN LF LF0 (deps & ED & B1 & B2 & FR). pose proof TB as (TL & LOK & TS & SOK).
  rewrite !(block_units_chunks H pr params key n m SET) in * by assumption.
  set (g := fstep H params key (snd t) deps (sfx H params iv F k) m) in *. set (l := concat (repeat (seq 0 m) (seal_rounds params))).
  specialize (FR []). unfold frounds in FR. rewrite foldM_nested in FR. fold g l in FR. rewrite app_nil_r in FR.
  assert (LL : length l = T) by (unfold l; rewrite concat_repeat_length, seq_length; reflexivity).
  destruct (Dfun_choice H pr params key n m SET t F k deps TB KN LF ED) as (bs & LC & BLT & DE).
  assert (DOK : deps_ok m deps) by (rewrite DE; apply Forall_forall; intros b I; apply in_map_iff in I as (x & <- & _); unfold block_units; now rewrite map_length, seq_length).
  assert (NI : forall ti, ti < length l -> nth ti l 0 = ti mod m /\ m <> 0).
  { intros ti L. assert (M0 : m <> 0) by (intros M0; rewrite M0, Nat.mul_0_r in LL; lia). split; [|exact M0].
    unfold l. rewrite nth_concat_repeat by (rewrite seq_length; lia). rewrite seq_length, seq_nth; [reflexivity|]. now apply Nat.mod_upper_bound. }
  pose (stg := stage g l (block_units params m f k, [])).
  assert (SB : forall ti, ti <= length l -> block_ok params key m (fst (stg ti))).
  { intros ti L. induction ti as [|ti IH]; [exact B1|]. specialize (IH ltac:(lia)). pose proof (stage_step g l _ _ 0 ti FR ltac:(lia)) as ST. fold stg in ST.
    destruct (NI ti ltac:(lia)) as [NN M0]. rewrite NN in ST. pose proof (Nat.mod_upper_bound ti m M0) as IM.
    destruct (stg ti) as [cur log] eqn:EC. cbn [fst] in IH.
    destruct (fstep_ok H params key (hh _ _ _ _ _ _ SET) (k1 _ _ _ _ _ _ SET) (k2 _ _ _ _ _ _ SET) (snd t) deps (sfx H params iv F k) m (ti mod m) cur SOK DOK IM IH) as (c' & z & B' & FE & _).
    unfold g at 1 in ST. rewrite FE in ST. injection ST as <-. exact B'. }
  (* one step, with its masked number *)
  assert (STEP : forall ti, ti < length l -> let i := ti mod m in let U := fun ti i => nth i (fst (stg ti)) [] in exists us,
    short_choice H pr params n m (U ti (i - 1)) i us /\
    let data := concat (map (fun b => unit_bytes params F (b * m + i)) bs) ++ concat (map (U ti) us) ++ chained H params iv F k i in
    let z := ((le2z (U ti i) + le2z (H data)) mod key)%Z in
    snd (stg (S ti)) = z :: snd (stg ti) /\ length (U (S ti) i) = upl /\ le2z (U (S ti) i) = Z.abs (sloth z key (vde_rounds params)) /\ forall j, j < m -> j <> i -> U (S ti) j = U ti j).
  { intros ti TLt. cbv zeta. destruct (NI ti TLt) as [NN M0]. pose proof (stage_step g l _ _ 0 ti FR TLt) as ST. fold stg in ST.
    rewrite NN in ST. pose proof (SB ti ltac:(lia)) as BO. set (i := ti mod m) in *. assert (IM : i < m) by now apply Nat.mod_upper_bound.
    destruct (stg ti) as [cur log] eqn:EC. cbn [fst snd] in BO |- *. destruct BO as [LC' FC].
    unfold g at 1 in ST. unfold fstep in ST. destruct (md H params (snd t) deps (sfx H params iv F k) m cur i) as [d|] eqn:ED'; [|discriminate]. cbn [bind] in ST.
    destruct (index cur i) as [u|] eqn:EU; [|discriminate]. cbn [bind] in ST.
    assert (UO : unit_ok params key u) by (rewrite Forall_forall in FC; apply FC; eapply index_In; exact EU). destruct UO as [LU BU].
    destruct (modadd_ok u (H d) key (k1 _ _ _ _ _ _ SET) ltac:(rewrite LU; exact (k2 _ _ _ _ _ _ SET))) as (a & EA & LA & VA). rewrite EA in ST. cbn [bind] in ST.
    rewrite set_index_ok in ST by lia. cbn [bind] in ST. injection ST as ST. rewrite <- ST. cbn [fst snd].
    destruct (md_data H pr params iv n m t F k deps bs cur i d TB KN LF DE IM ED') as (us & SC & DD).
    exists us. split; [exact SC|]. rewrite <- DD. rewrite (index_nth_eq _ _ _ _ EU). rewrite upd_nth by lia. rewrite Nat.eqb_refl.
    pose proof (le2z_nonneg u). pose proof (le2z_nonneg (H d)). pose proof (k1 _ _ _ _ _ _ SET).
    split; [now rewrite VA|]. split; [|split].
    - apply vde_len; [lia| |exact (k2 _ _ _ _ _ _ SET)]. rewrite VA. apply Z.mod_pos_bound. lia.
    - rewrite vde_val, VA. reflexivity.
    - intros j JM JI. rewrite upd_nth by lia. now destruct (Nat.eqb_spec j i). }
  exists (fun ti i => nth i (fst (stg ti)) []), (fun ti => hd 0%Z (snd (stg (S ti)))). split; [split; [split; [|split]|]|].
  - intros i IM. unfold stg. rewrite stage_0. cbn [fst]. now apply block_units_nth.
  - intros i IM. unfold stg. rewrite <- LL, (stage_end _ _ _ _ FR). cbn [fst]. now apply block_units_nth.
  - intros ti TLt. rewrite <- LL in TLt. destruct (STEP ti TLt) as (us & SC & SZ & LU & EU & NU). cbv zeta in *. exists bs, us. auto 6.
  - intros ti TLt. rewrite <- LL in TLt. destruct (STEP ti TLt) as (us & SC & SZ & LU & EU & NU). cbv zeta in *. exists bs, us. split; [exact LC|]. split; [exact SC|]. now rewrite SZ.
  - assert (LOG : forall ti, ti <= length l -> forall z, In z (snd (stg ti)) <-> exists q, q < ti /\ z = hd 0%Z (snd (stg (S q)))).
    { induction ti as [|ti IH]; intros L z.
      - unfold stg. rewrite stage_0. cbn [snd]. split; [intros []|intros (q & Q & _); lia].
      - destruct (STEP ti ltac:(lia)) as (us & _ & SZ & _). cbv zeta in SZ. rewrite SZ. cbn [In]. rewrite (IH ltac:(lia)). split.
        + intros [<-|(q & Q & E)]; [exists ti; split; [lia|]; now rewrite SZ|exists q; split; [lia|exact E]].
        + intros (q & Q & E). destruct (Nat.eq_dec q ti) as [->|NE]; [left; now rewrite SZ in E|right; exists q; split; [lia|exact E]]. }
    intros z. specialize (LOG (length l) (Nat.le_refl _) z). unfold stg at 1 in LOG. rewrite (stage_end _ _ _ _ FR) in LOG. cbn [snd] in LOG. rewrite LL in LOG. exact LOG.
Qed.

Theorem log_masks f st : sealable params key n m f -> seal H pr params key iv f = Ok st ->
  exists U M, (forall k, k < n -> seals_masked H pr params key iv n m f (s_file st) k (U k) (M k)) /\
  forall z, In z (s_log st) <-> exists k q, k < n /\ q < T /\ z = M k q.
Proof.
  intros SE E. destruct (tabl_ex H pr params key n m SET) as (t & TB). pose proof (seal_inv H pr params key iv n m SET t f st TB SE E) as SU.
  assert (LF0 : n * bpl <= length f) by apply SE.
  assert (LF : n * bpl <= length (s_file st)) by (rewrite (su_len _ _ _ _ _ _ _ _ _ _ _ SU); exact LF0).
  destruct (finite_choice n (fun k (v : (nat -> nat -> list byte) * (nat -> Z)) => seals_masked H pr params key iv n m f (s_file st) k (fst v) (snd v) /\
    (forall zs, block_sealed H params key iv n m (fst t) (snd t) f (s_file st) k zs -> forall z, In z zs <-> exists q, q < T /\ z = snd v q) /\
    (forall q, q < T -> In (snd v q) (s_log st))) ((fun _ _ => []), fun _ => 0%Z)) as (v & V).
  { intros k KN. destruct (su_blocks _ _ _ _ _ _ _ _ _ _ _ SU k KN) as (zs & BS & IC). destruct (block_masks t f (s_file st) k zs TB KN LF LF0 BS) as (U & M & SM & IZ).
    exists (U, M). cbn [fst snd]. split; [exact SM|]. split.
    - intros zs' BS' z. assert (zs' = zs) as ->; [|apply IZ].
      destruct BS as (d & D1 & _ & _ & F1), BS' as (d' & D2 & _ & _ & F2). rewrite D1 in D2. injection D2 as <-. specialize (F1 []). specialize (F2 []).
      rewrite F1 in F2. apply (f_equal (fun r => match r with Ok x => snd x | Panic => [] end)) in F2. cbn [snd] in F2. now rewrite !app_nil_r in F2.
    - intros q Q. apply IC, IZ. eauto. }
  exists (fun k => fst (v k)), (fun k => snd (v k)). split; [intros k KN; apply (V k KN)|]. intros z. split.
  - intros I. destruct (su_log _ _ _ _ _ _ _ _ _ _ _ SU z I) as (k & zs & KN & BS & IZ). destruct (V k KN) as (_ & X & _). apply (X zs BS) in IZ as (q & Q & ->). eauto.
  - intros (k & q & KN & Q & ->). destruct (V k KN) as (_ & _ & X). now apply X.
Qed.

Lemma back_index t : t < T -> m - 1 - (T - S t) mod m = t mod m /\ m <> 0.
Proof.
  clear. intros TL. assert (M0 : m <> 0) by (intros Q; rewrite Q, Nat.mul_0_r in TL; lia). split; [|exact M0].
  set (s := T - S t). pose proof (Nat.div_mod t m M0) as DT. pose proof (Nat.mod_upper_bound t m M0).
  assert (t / m < seal_rounds params) by (apply Nat.div_lt_upper_bound; [exact M0|lia]).
  assert (E : s mod m = m - 1 - t mod m).
  { symmetry. apply (Nat.mod_unique s m (seal_rounds params - 1 - t / m)); [lia|]. unfold s.
    rewrite Nat.mul_sub_distr_l, Nat.mul_sub_distr_l. assert (m * 1 + m * (t / m) <= m * seal_rounds params) by nia. lia. }
  rewrite E. lia.
Qed.
Lemma short_not_self prev i us : i < m -> short_choice H pr params n m prev i us -> Forall (fun x => x < m /\ x <> i) us.
Proof.
  intros IM A. unfold short_choice in A. destruct (mode_s params) as [|ms] eqn:MS.
  - apply short_depend_random_props in A as (_ & FA & _). eapply Forall_impl; [|exact FA]. cbn. tauto.
  - destruct (short_depend_ok pr params n m i (set_short _ _ _ _ _ _ SET) IM ltac:(lia)) as (_ & row & R & FR). rewrite MS in R. rewrite R in A. injection A as <-. exact FR.
Qed.
Lemma unit_bytes_length F k i : n * bpl <= length F -> k < n -> i < m -> length (unit_bytes params F (k * m + i)) = upl.
Proof.
  intros LF KN IM. unfold unit_bytes. rewrite firstn_length, skipn_length. rewrite (bpl_eq _ _ _ _ _ _ SET) in LF.
  assert (k * m + i + 1 <= n * m) by nia. pose proof (Nat.mul_le_mono_r _ _ upl H0). rewrite Nat.mul_assoc in LF. lia.
Qed.
Hypothesis SK : sound_key H key.
Hypothesis ML : mode_l params = 0.

(** Unsealing equations backwards. *)
Lemma block_forth F G k U : k < n -> n * bpl <= length F -> unseals_block H pr params key iv n m F G k U ->
  (forall t, t < T -> (1 <= le2z (U t (m - 1 - t mod m)%nat) <= key - 1)%Z) ->
  seals_masked H pr params key iv n m G F k (fun t => U (T - t)) (fun s => sloth_inv (le2z (U (T - S s) (s mod m))) key (vde_rounds params)).
Proof.
  intros KN LF (U0 & UE & US) NZ. destruct SK as [PK P4 _].
  assert (LEN : forall t, t <= T -> forall i, i < m -> length (U t i) = upl).
  { induction t as [|t IH]; intros L i IM; [rewrite U0 by exact IM; now apply unit_bytes_length|].
    destruct (US t ltac:(lia)) as (bs & us & LC & SC & LU & EU & NU). destruct (Nat.eq_dec i (m - 1 - t mod m)) as [->|NE]; [exact LU|].
    rewrite NU by assumption. apply IH; [lia|exact IM]. }
  assert (STEP : forall s, s < T -> let i := s mod m in exists bs us, long_choice H pr params n (H (block_bytes params F (k - 1))) k bs /\
    short_choice H pr params n m (U (T - s) (i - 1)) i us /\
    let data := concat (map (fun b => unit_bytes params F (b * m + i)) bs) ++ concat (map (U (T - s)) us) ++ chained H params iv F k i in
    let z := sloth_inv (le2z (U (T - S s) i)) key (vde_rounds params) in
    z = ((le2z (U (T - s)%nat i) + le2z (H data)) mod key)%Z /\ length (U (T - S s) i) = upl /\ le2z (U (T - S s) i) = Z.abs (sloth z key (vde_rounds params)) /\
    forall j, j < m -> j <> i -> U (T - S s) j = U (T - s) j).
  { intros s SL. cbv zeta. destruct (back_index s SL) as [IX M0]. set (t := T - S s) in *. assert (TL : t < T) by (unfold t; lia).
    replace (T - s) with (S t) by (unfold t; lia). destruct (US t TL) as (bs & us & LC & SC & LU & EU & NU). specialize (NZ t TL). rewrite IX in SC, LU, EU, NU, NZ.
    pose proof (Nat.mod_upper_bound s m M0) as IM. set (i := s mod m) in *. exists bs, us.
    split; [now apply (unseal_random H pr params n) in LC|]. split.
    { unfold short_choice in *. destruct (mode_s params); [|exact SC]. destruct (Nat.eqb_spec i 0); [exact SC|]. now rewrite NU by lia. }
    assert (D2 : map (U (S t)) us = map (U t) us).
    { apply map_ext_in. intros x I. pose proof (short_not_self _ _ _ IM SC) as FF. rewrite Forall_forall in FF. destruct (FF x I). now apply NU. }
    rewrite D2. pose proof (sloth_inv_range key PK P4 (vde_rounds params) _ NZ) as SR. split; [|split; [|split]].
    + rewrite EU. rewrite (Z.abs_eq (sloth_inv _ _ _)) by lia. rewrite Zplus_mod_idemp_l.
      replace (_ - _ + _)%Z with (sloth_inv (le2z (U t i)) key (vde_rounds params)) by ring. symmetry. apply Z.mod_small. lia.
    + apply LEN; [lia|exact IM].
    + rewrite sloth_round_trip' by auto. symmetry. apply Z.abs_eq. lia.
    + intros j JM JI. symmetry. now apply NU. }
  split; [split; [|split]|].
  - intros i IM. rewrite Nat.sub_0_r. now apply UE.
  - intros i IM. rewrite Nat.sub_diag. now apply U0.
  - intros s SL. destruct (STEP s SL) as (bs & us & LC & SC & EM & LU & EU & NU). cbv zeta in *. exists bs, us. split; [exact LC|]. split; [exact SC|]. split; [exact LU|].
    rewrite <- EM. auto.
  - intros s SL. destruct (STEP s SL) as (bs & us & LC & SC & EM & LU & EU & NU). cbv zeta in *. exists bs, us. auto.
Qed.
(** Sealing equations backwards. *)
Lemma block_back f F k U M : k < n -> sealable params key n m f -> seals_masked H pr params key iv n m f F k U M -> (forall t, t < T -> M t <> 0%Z) ->
  unseals_block H pr params key iv n m F f k (fun t => U (T - t)) /\
  forall t, t < T -> (1 <= le2z (U (T - t)%nat (m - 1 - t mod m)%nat) <= key - 1)%Z.
Proof.
  intros KN (LF & LK) ((U0 & UE & US) & MS) NZ. destruct SK as [PK P4 _]. pose proof (k1 _ _ _ _ _ _ SET) as K1.
  assert (GOOD : forall t, t <= T -> forall i, i < m -> length (U t i) = upl /\ (le2z (U t i) < key)%Z).
  { induction t as [|t IH]; intros L i IM.
    - rewrite U0 by exact IM. split; [now apply unit_bytes_length|]. apply LK. nia.
    - destruct (US t ltac:(lia)) as (bs & us & LC & SC & LU & EU & NU). destruct (Nat.eq_dec i (t mod m)) as [->|NE]; [|rewrite NU by assumption; apply IH; [lia|exact IM]].
      split; [exact LU|]. rewrite EU. apply sloth_abs; [exact K1|]. apply Z.mod_pos_bound. lia. }
  assert (STEP : forall s, s < T -> let i := s mod m in exists bs us, long_choice H pr params n (H (block_bytes params F (k - 1))) k bs /\
    short_choice H pr params n m (U (S s) (i - 1)) i us /\
    let data := concat (map (fun b => unit_bytes params F (b * m + i)) bs) ++ concat (map (U (S s)) us) ++ chained H params iv F k i in
    (1 <= le2z (U (S s) i) <= key - 1)%Z /\
    le2z (U s i) = ((Z.abs (sloth_inv (le2z (U (S s) i)) key (vde_rounds params)) - le2z (H data)) mod key)%Z /\
    forall j, j < m -> j <> i -> U s j = U (S s) j).
  { intros s SL. cbv zeta. destruct (US s SL) as (bs & us & LC & SC & LU & EU & NU). destruct (MS s SL) as (bs' & us' & LC' & SC' & EM). cbv zeta in *.
    destruct (back_index s SL) as [_ M0]. pose proof (Nat.mod_upper_bound s m M0) as IM. set (i := s mod m) in *.
    destruct (long_choice_fun H pr params key n m SET _ _ _ _ KN LC LC') as [<- _]. destruct (short_choice_fun H pr params key n m SET _ _ _ _ IM SC SC') as [<- _].
    exists bs, us. split; [exact LC|].
    split. { unfold short_choice in *. destruct (mode_s params); [|exact SC]. destruct (Nat.eqb_spec i 0); [exact SC|]. now rewrite NU by lia. }
    assert (D2 : map (U (S s)) us = map (U s) us).
    { apply map_ext_in. intros x I. pose proof (short_not_self _ _ _ IM SC) as FF. rewrite Forall_forall in FF. destruct (FF x I). now apply NU. }
    rewrite D2. rewrite <- EM in EU. specialize (NZ s SL). assert (MR : (0 <= M s < key)%Z) by (rewrite EM; apply Z.mod_pos_bound; lia).
    pose proof (sloth_range key PK P4 (vde_rounds params) (M s) ltac:(lia)) as SR. rewrite Z.abs_eq in EU by lia. rewrite EU. split; [lia|]. split.
    - rewrite sloth_round_trip by (auto; lia). rewrite Z.abs_eq by lia. rewrite EM, Zminus_mod_idemp_l. replace (_ + _ - _)%Z with (le2z (U s i)) by ring. symmetry. apply Z.mod_small.
      destruct (GOOD s ltac:(lia) i IM). pose proof (le2z_nonneg (U s i)). lia.
    - intros j JM JI. symmetry. now apply NU. }
  split; [split; [|split]|].
  - intros i IM. rewrite Nat.sub_0_r. now apply UE.
  - intros i IM. rewrite Nat.sub_diag. now apply U0.
  - intros t TL. cbv zeta. set (s := T - S t). assert (SL : s < T) by (unfold s; lia). destruct (back_index s SL) as [IX M0]. replace (T - S s) with t in IX by (unfold s; lia). rewrite IX.
    replace (T - t) with (S s) by (unfold s; lia). destruct (STEP s SL) as (bs & us & LC & SC & R & E & NU). cbv zeta in *. exists bs, us.
    split; [now apply (unseal_random H pr params n)|]. split; [exact SC|]. split; [apply GOOD; [lia|now apply Nat.mod_upper_bound]|]. split; [exact E|exact NU].
  - intros t TL. set (s := T - S t). assert (SL : s < T) by (unfold s; lia). destruct (back_index s SL) as [IX M0]. replace (T - S s) with t in IX by (unfold s; lia). rewrite IX.
    replace (T - t) with (S s) by (unfold s; lia). destruct (STEP s SL) as (bs & us & LC & SC & R & E & NU). exact R.
Qed.
End Onto.
