(** What the verifier computes from a response, for any response of the right shape. *)
From Coq Require Import Znumtheory Zpow_facts.
From Verif Require Import Base Legendre Sloth Common Depend Prover Verifier NumTheory SlothFacts BytesFacts
  DependSpec DependFacts DependDet VdeFacts SealSpec SealCore SealFile SealTop SealZero ShortTable VerifierFacts SealVerify SealMeaning.
Local Open Scope nat_scope.

(** [U t i] is unit i of the block after t unit steps: it starts as the block received,
    ends as the block returned, and step t rewrites unit m - 1 - (t mod m) only.  The
    response supplies the units of the blocks depended on and the chain value. *)
Definition unseals_reply (H : list byte -> list byte) (pr : profile) (params : PosPara) (key : Z) (iv : list byte) (m : nat)
           (k : nat) (before : list byte) (deps : list (list (list byte))) (B R : list (list byte)) (U : nat -> nat -> list byte) : Prop :=
  (forall i, i < m -> U 0 i = nth i B []) /\
  (forall i, i < m -> U (seal_rounds params * m) i = nth i R []) /\
  forall t, t < seal_rounds params * m ->
    let i := m - 1 - t mod m in
    exists units,
      short_choice H pr params (block_l params / unit_l params) m (U t (i - 1)) i units /\
      let data := concat (map (fun b => nth i b []) deps) ++ concat (map (U t) units)
                    ++ (if i =? 0 then if k =? 0 then iv else before else []) in
      length (U (S t) i) = unit_pl params /\
      le2z (U (S t) i) = ((Z.abs (sloth_inv (le2z (U t i)) key (vde_rounds params)) - le2z (H data)) mod key)%Z /\
      forall j, j < m -> j <> i -> U (S t) j = U t j.

(** The same equations in the sealing direction, for one block whose chain value and
    dependency blocks are whatever somebody chooses.  [M t] is the masked number handed
    to the delay function in step t. *)
Definition seals_reply (H : list byte -> list byte) (pr : profile) (params : PosPara) (key : Z) (iv : list byte) (m : nat)
           (k : nat) (before : list byte) (deps : list (list (list byte))) (B R : list (list byte))
           (U : nat -> nat -> list byte) (M : nat -> Z) : Prop :=
  (forall i, i < m -> U 0 i = nth i B []) /\
  (forall i, i < m -> U (seal_rounds params * m) i = nth i R []) /\
  forall t, t < seal_rounds params * m ->
    let i := t mod m in
    exists units,
      short_choice H pr params (block_l params / unit_l params) m (U t (i - 1)) i units /\
      let data := concat (map (fun b => nth i b []) deps) ++ concat (map (U t) units)
                    ++ (if i =? 0 then if k =? 0 then iv else before else []) in
      M t = ((le2z (U t i) + le2z (H data)) mod key)%Z /\
      length (U (S t) i) = unit_pl params /\
      le2z (U (S t) i) = Z.abs (sloth (M t) key (vde_rounds params)) /\
      forall j, j < m -> j <> i -> U (S t) j = U t j.

(** Every number the verifier hands to the inverse delay function for this block is one
    of 1 .. key - 1. *)
Definition canonical_reply (H : list byte -> list byte) (pr : profile) (params : PosPara) (key : Z) (iv : list byte) (m : nat)
           (k : nat) (before : list byte) (deps : list (list (list byte))) (B : list (list byte)) : Prop :=
  exists R U, unseals_reply H pr params key iv m k before deps B R U /\
  forall t, t < seal_rounds params * m -> (1 <= le2z (U t (m - 1 - t mod m)%nat) <= key - 1)%Z.

Lemma finite_choice {A} q (P : nat -> A -> Prop) (d : A) : (forall j, j < q -> exists a, P j a) -> exists f, forall j, j < q -> P j (f j).
Proof.
  intros X. induction q as [|q IH]; [exists (fun _ => d); lia|]. destruct IH as (f & F); [auto|]. destruct (X q ltac:(lia)) as (v & V).
  exists (fun j => if j =? q then v else f j). intros j J. destruct (Nat.eqb_spec j q) as [->|N]; [auto|apply F; lia].
Qed.

Section R.
Context (H : list byte -> list byte) (pr : profile) (params : PosPara) (key : Z) (iv : list byte) (m : nat).
Notation upl := (unit_pl params).
Notation nt := (block_l params / unit_l params).
Hypothesis HH : hash_ok H.
Hypothesis K1 : (1 < key)%Z.
Hypothesis KB : forall d, (le2z (H d) < key < 256 ^ Z.of_nat upl)%Z.
Hypothesis SM : short_modes_fine pr params nt m.

Lemma K2 : (key <= 256 ^ Z.of_nat upl)%Z. Proof. specialize (KB []). lia. Qed.

Lemma md_reply ts deps sf cur i d : seal_idxs_s pr params nt = Ok ts -> i < m ->
  md H params ts deps sf m cur i = Ok d ->
  exists us, short_choice H pr params nt m (nth (i - 1) cur []) i us /\
  d = concat (map (fun b => nth i b []) deps) ++ concat (map (fun i => nth i cur []) us) ++ (if i =? 0 then sf else []).
Proof.
  intros TS IM ED'.
  unfold md in ED'. destruct (foldM (fun acc b => let* u := index b i in Ok (acc ++ u)) deps []) as [long|] eqn:EL; [|discriminate]. cbn [bind] in ED'. apply gather_value in EL.
  destruct (if negb (mode_s params =? 0) then index ts i else if i =? 0 then short_depend_random H m [] i (cnt_s params) else let* d := index cur (i - 1) in short_depend_random H m d i (cnt_s params)) as [us|] eqn:EUS; [|discriminate]. cbn [bind] in ED'.
  destruct (foldM (fun acc i => let* u := index cur i in Ok (acc ++ u)) us long) as [both|] eqn:EB; [|discriminate]. cbn [bind] in ED'. apply gather_short_value in EB.
  exists us. split.
  - unfold short_choice. destruct (mode_s params) as [|ms] eqn:MS; cbn [Nat.eqb negb] in EUS.
    + destruct (Nat.eqb_spec i 0); [exact EUS|]. destruct (index cur (i - 1)) as [d1|] eqn:E1; [|discriminate]. cbn [bind] in EUS. now rewrite (index_nth_eq _ _ _ _ E1).
    + unfold seal_idxs_s in TS. rewrite MS in TS. cbn [Nat.eqb negb] in TS. unfold create_short_depend in TS.
      assert (LT : length ts = nt) by (rewrite (mapM_len _ _ _ TS); apply seq_length).
      unfold index in EUS. destruct (nth_error ts i) as [row|] eqn:NR; [|discriminate]. injection EUS as <-.
      assert (IN : i < nt) by (rewrite <- LT; apply nth_error_Some; congruence).
      destruct (mapM_nth _ _ _ TS i i) as (b & NB & FB); [|rewrite NR in NB; injection NB as <-; exact FB]. rewrite nth_error_nth' with (d := 0) by (rewrite seq_length; lia). now rewrite seq_nth.
  - rewrite EL in EB. cbn [app] in EB.
    destruct (i =? 0); injection ED' as <-; [|rewrite EB, !app_nil_r; reflexivity]. now rewrite EB, <- app_assoc.
Qed.

Lemma brounds_reply ts deps k w B R : seal_idxs_s pr params nt = Ok ts -> short_ok params ts m -> deps_ok m deps -> shaped params m B ->
  brounds H params key ts deps (if k =? 0 then iv else w) m B = Ok R -> exists U, unseals_reply H pr params key iv m k w deps B R U.
Proof.
  intros TS SOK DOK SHB EB. set (sf := if k =? 0 then iv else w) in *.
  set (g := bstep H params key ts deps sf m). set (l := concat (repeat (rev (seq 0 m)) (seal_rounds params))).
  unfold brounds in EB. rewrite foldM_nested in EB. fold g l in EB.
  exists (fun ti i => nth i (stage g l B ti) []).
  assert (LL : length l = seal_rounds params * m) by (unfold l; rewrite concat_repeat_length, rev_length, seq_length; reflexivity).
  assert (NI : forall ti, ti < length l -> nth ti l 0 = m - 1 - ti mod m /\ m <> 0).
  { intros ti L. assert (M0 : m <> 0) by (intros M0; rewrite M0, Nat.mul_0_r in LL; lia). split; [|exact M0].
    unfold l. rewrite nth_concat_repeat by (rewrite rev_length, seq_length; lia). rewrite rev_length, seq_length. apply rev_seq_nth. now apply Nat.mod_upper_bound. }
  assert (SB : forall ti, ti <= length l -> shaped params m (stage g l B ti)).
  { intros ti L. induction ti as [|ti IH]; [exact SHB|].
    specialize (IH ltac:(lia)). pose proof (stage_step g l _ _ 0 ti EB ltac:(lia)) as ST. destruct (NI ti ltac:(lia)) as [NN M0]. rewrite NN in ST.
    destruct (bstep_ok H params key HH K1 K2 ts deps sf m (m - 1 - ti mod m) _ SOK DOK KB ltac:(lia) IH) as (c' & EC & SC).
    unfold g at 1 in ST. rewrite EC in ST. injection ST as <-. exact SC. }
  split; [|split].
  - intros i IM. now rewrite stage_0.
  - intros i IM. now rewrite <- LL, (stage_end _ _ _ _ EB).
  - intros ti TLt. rewrite <- LL in TLt. cbv zeta. destruct (NI ti TLt) as [NN M0].
    pose proof (stage_step g l _ _ 0 ti EB TLt) as ST. rewrite NN in ST. pose proof (SB ti ltac:(lia)) as BO. assert (IM : m - 1 - ti mod m < m) by lia. set (i := m - 1 - ti mod m) in *.
    set (cur := stage g l B ti) in *. destruct BO as [LC' FC].
    unfold g at 1 in ST. unfold bstep in ST. destruct (md H params ts deps sf m cur i) as [d|] eqn:ED'; [|discriminate]. cbn [bind] in ST.
    destruct (index cur i) as [u|] eqn:EU; [|discriminate]. cbn [bind] in ST.
    assert (LU : length u = upl) by (rewrite Forall_forall in FC; apply FC; eapply index_In; exact EU).
    set (w' := vde_inv u key (vde_rounds params) (vde_mode params) upl) in *.
    assert (Lw : length w' = upl) by (apply vde_inv_len_any; auto; apply (KB d)).
    assert (Hd : (le2z (H d) < key)%Z) by apply KB.
    destruct (modsub_ok w' (H d) key K1 ltac:(rewrite Lw; exact K2) ltac:(pose proof (le2z_nonneg w'); lia)) as (a & Ea & La & Va).
    rewrite Ea in ST. cbn [bind] in ST. rewrite set_index_ok in ST by lia. injection ST as ST. rewrite <- ST.
    destruct (md_reply ts deps sf cur i d TS IM ED') as (us & SC & DD).
    exists us. split; [exact SC|].
    rewrite upd_nth by lia. rewrite Nat.eqb_refl. rewrite (index_nth_eq _ _ _ _ EU). fold sf. rewrite <- DD.
    split; [congruence|]. split; [rewrite Va; unfold w'; now rewrite vde_inv_val|].
    intros j JM JI. rewrite upd_nth by lia. now destruct (Nat.eqb_spec j i).
Qed.

Lemma reply_unique k w deps B R R' U V : unseals_reply H pr params key iv m k w deps B R U -> unseals_reply H pr params key iv m k w deps B R' V ->
  forall i, i < m -> nth i R [] = nth i R' [].
Proof.
  intros (U0 & UE & US) (V0 & VE & VS).
  assert (X : forall t, t <= seal_rounds params * m -> forall i, i < m -> U t i = V t i).
  { induction t as [|t IH]; intros L i IM; [rewrite U0, V0 by exact IM; reflexivity|]. specialize (IH ltac:(lia)).
    destruct (US t ltac:(lia)) as (us & SC & LU & EU & NU). destruct (VS t ltac:(lia)) as (us' & SC' & LV & EV & NV).
    assert (TM : m - 1 - t mod m < m) by lia. set (j := m - 1 - t mod m) in *.
    destruct (Nat.eq_dec i j) as [->|NE]; [|rewrite NU, NV by assumption; now apply IH].
    rewrite (IH (j - 1)) in SC by lia.
    assert (Y : us = us' /\ Forall (fun x => x < m) us).
    { clear -SC SC' SM TM. unfold short_choice in *. destruct (mode_s params) as [|ms] eqn:MS.
      - split; [congruence|]. apply short_depend_random_props in SC as (_ & FA & _). eapply Forall_impl; [|exact FA]. cbn. tauto.
      - split; [congruence|]. destruct (short_depend_ok pr params nt m j SM TM ltac:(lia)) as (_ & row & R & FR). rewrite MS in R. rewrite R in SC. injection SC as <-. eapply Forall_impl; [|exact FR]. cbn. tauto. }
    destruct Y as [<- UM].
    apply le2z_inj; [congruence|]. rewrite EU, EV. rewrite (IH j) by exact TM.
    assert (D2 : map (U t) us = map (V t) us) by (apply map_ext_in; intros u I; rewrite Forall_forall in UM; apply IH, UM, I).
    now rewrite D2. }
  intros i IM. rewrite <- UE, <- VE by exact IM. now apply X.
Qed.

(** * Sealing one block with chosen dependencies *)
Lemma frounds_reply ts deps k w B R zs : seal_idxs_s pr params nt = Ok ts -> short_ok params ts m -> deps_ok m deps -> block_ok params key m B ->
  frounds H params key ts deps (if k =? 0 then iv else w) m (B, []) = Ok (R, zs) ->
  exists U M, seals_reply H pr params key iv m k w deps B R U M /\ forall t, t < seal_rounds params * m -> In (M t) zs.
Proof.
  intros TS SOK DOK SHB EB. set (sf := if k =? 0 then iv else w) in *.
  set (g := fstep H params key ts deps sf m). set (l := concat (repeat (seq 0 m) (seal_rounds params))).
  unfold frounds in EB. rewrite foldM_nested in EB. fold g l in EB.
  exists (fun ti i => nth i (fst (stage g l (B, []) ti)) []).
  exists (fun ti => hd 0%Z (snd (stage g l (B, []) (S ti)))).
  assert (LL : length l = seal_rounds params * m) by (unfold l; rewrite concat_repeat_length, seq_length; reflexivity).
  assert (NI : forall ti, ti < length l -> nth ti l 0 = ti mod m /\ m <> 0).
  { intros ti L. assert (M0 : m <> 0) by (intros M0; rewrite M0, Nat.mul_0_r in LL; lia). split; [|exact M0].
    unfold l. rewrite nth_concat_repeat by (rewrite seq_length; lia). rewrite seq_length, seq_nth; [reflexivity|]. now apply Nat.mod_upper_bound. }
  assert (SB : forall ti, ti <= length l -> block_ok params key m (fst (stage g l (B, []) ti))).
  { intros ti L. induction ti as [|ti IH]; [exact SHB|].
    specialize (IH ltac:(lia)). pose proof (stage_step g l _ _ 0 ti EB ltac:(lia)) as ST. destruct (NI ti ltac:(lia)) as [NN M0]. rewrite NN in ST.
    pose proof (Nat.mod_upper_bound ti m M0) as IM. destruct (stage g l (B, []) ti) as [cur log] eqn:EC. cbn [fst] in IH.
    destruct (fstep_ok H params key HH K1 K2 ts deps sf m (ti mod m) cur SOK DOK IM IH) as (c' & z & B' & FE & _).
    unfold g at 1 in ST. rewrite FE in ST. injection ST as <-. exact B'. }
  split; [split; [|split]|].
  - intros i IM. now rewrite stage_0.
  - intros i IM. now rewrite <- LL, (stage_end _ _ _ _ EB).
  - intros ti TLt. rewrite <- LL in TLt. cbv zeta. destruct (NI ti TLt) as [NN M0].
    pose proof (stage_step g l _ _ 0 ti EB TLt) as ST. rewrite NN in ST. pose proof (SB ti ltac:(lia)) as BO. assert (IM : ti mod m < m) by now apply Nat.mod_upper_bound. set (i := ti mod m) in *.
    destruct (stage g l (B, []) ti) as [cur log] eqn:EC. cbn [fst snd] in BO |- *. destruct BO as [LC' FC].
    unfold g at 1 in ST. unfold fstep in ST. destruct (md H params ts deps sf m cur i) as [d|] eqn:ED'; [|discriminate]. cbn [bind] in ST.
    destruct (index cur i) as [u|] eqn:EU; [|discriminate]. cbn [bind] in ST.
    assert (UO : unit_ok params key u) by (rewrite Forall_forall in FC; apply FC; eapply index_In; exact EU). destruct UO as [LU BU].
    destruct (modadd_ok u (H d) key K1 ltac:(rewrite LU; exact K2)) as (a & EA & LA & VA). rewrite EA in ST. cbn [bind] in ST.
    rewrite set_index_ok in ST by lia. cbn [bind] in ST. injection ST as ST. rewrite <- ST. cbn [fst snd hd].
    destruct (md_reply ts deps sf cur i d TS IM ED') as (us & SC & DD).
    exists us. split; [exact SC|].
    rewrite upd_nth by lia. rewrite Nat.eqb_refl. rewrite (index_nth_eq _ _ _ _ EU). fold sf. rewrite <- DD.
    split; [exact VA|]. pose proof (le2z_nonneg u). pose proof (le2z_nonneg (H d)).
    split; [|split].
    + apply vde_len; [lia| |exact K2]. rewrite VA. apply Z.mod_pos_bound. lia.
    + apply vde_val.
    + intros j JM JI. rewrite upd_nth by lia. now destruct (Nat.eqb_spec j i).
  - assert (GR : forall ti, ti < length l -> exists z, snd (stage g l (B, []) (S ti)) = z :: snd (stage g l (B, []) ti)).
    { intros ti L. pose proof (stage_step g l _ _ 0 ti EB L) as ST. destruct (stage g l (B, []) ti) as [cur log].
      unfold g at 1 in ST. unfold fstep in ST. destruct (md _ _ _ _ _ _ _ _) as [d0|]; [|discriminate]. cbn [bind] in ST. destruct (index _ _) as [u0|]; [|discriminate]. cbn [bind] in ST.
      destruct (modadd _ _ _) as [a|]; [|discriminate]. cbn [bind] in ST. destruct (set_index _ _ _); [|discriminate]. injection ST as ST. rewrite <- ST. cbn [snd]. now exists (le2z a). }
    assert (MO : forall d ti, ti + d <= length l -> incl (snd (stage g l (B, []) ti)) (snd (stage g l (B, []) (ti + d)))).
    { induction d as [|d IH]; intros ti L; [rewrite Nat.add_0_r; apply incl_refl|]. rewrite Nat.add_succ_r. destruct (GR (ti + d) ltac:(lia)) as [z ->].
      apply incl_tl, IH. lia. }
    intros t TL. rewrite <- LL in TL. destruct (GR t TL) as [z EZ]. specialize (MO (length l - S t) (S t) ltac:(lia)).
    replace (S t + (length l - S t)) with (length l) in MO by lia. rewrite (stage_end _ _ _ _ EB) in MO. cbn [snd] in MO. apply MO. rewrite EZ. now left.
Qed.

(** Run backwards, the sealing equations are the verifier's equations, unless a masked
    number was 0. *)
Lemma short_choice_not_self prev i us : i < m -> short_choice H pr params nt m prev i us -> Forall (fun x => x < m /\ x <> i) us.
Proof.
  intros IM A. unfold short_choice in A. destruct (mode_s params) as [|ms] eqn:MS.
  - apply short_depend_random_props in A as (_ & FA & _). eapply Forall_impl; [|exact FA]. cbn. tauto.
  - destruct (short_depend_ok pr params nt m i SM IM ltac:(lia)) as (_ & row & R & FR). rewrite MS in R. rewrite R in A. injection A as <-. exact FR.
Qed.
Lemma reply_back k w deps B R U M : (prime key /\ key mod 4 = 3)%Z -> block_ok params key m B ->
  seals_reply H pr params key iv m k w deps B R U M -> (forall t, t < seal_rounds params * m -> M t <> 0%Z) ->
  unseals_reply H pr params key iv m k w deps R B (fun t => U (seal_rounds params * m - t)).
Proof.
  intros [PK P4] BB (U0 & UE & US) NZ. set (T := seal_rounds params * m) in *.
  assert (GOOD : forall t, t <= T -> forall i, i < m -> length (U t i) = upl /\ (le2z (U t i) < key)%Z).
  { induction t as [|t IH]; intros L i IM.
    - rewrite U0 by exact IM. destruct BB as [LB FB]. rewrite Forall_forall in FB. apply FB, nth_In. lia.
    - destruct (US t ltac:(lia)) as (us & SC & EM & LU & EU & NU). destruct (Nat.eq_dec i (t mod m)) as [->|NE]; [|rewrite NU by assumption; apply IH; [lia|exact IM]].
      split; [exact LU|]. rewrite EU. assert (0 <= M t < key)%Z by (rewrite EM; apply Z.mod_pos_bound; lia).
      pose proof (sloth_abs key (vde_rounds params) K1 (M t) ltac:(lia)). lia. }
  split; [|split].
  - intros i IM. rewrite Nat.sub_0_r. now apply UE.
  - intros i IM. fold T. rewrite Nat.sub_diag. now apply U0.
  - intros t TL. fold T in TL. cbv zeta. set (s := T - S t).
    assert (M0 : m <> 0) by (intros Q; unfold T in TL; rewrite Q, Nat.mul_0_r in TL; lia).
    assert (IX : m - 1 - t mod m = s mod m).
    { assert (E : s + t + 1 = T) by (unfold s; lia). pose proof (Nat.div_mod t m M0) as DT. pose proof (Nat.mod_upper_bound t m M0).
      apply (Nat.mod_unique s m (seal_rounds params - 1 - t / m)); [lia|]. unfold T in E.
      assert (t / m < seal_rounds params) by (apply Nat.div_lt_upper_bound; [exact M0|unfold T in TL; lia]).
      rewrite Nat.mul_sub_distr_l, Nat.mul_sub_distr_l. assert (m * 1 + m * (t / m) <= m * seal_rounds params) by nia. lia. }
    rewrite IX. replace (T - t) with (S s) by (unfold s; lia). assert (SL : s < T) by (unfold s; lia).
    destruct (US s SL) as (us & SC & EM & LU & EU & NU). pose proof (Nat.mod_upper_bound s m M0) as IM. set (i := s mod m) in *.
    exists us.
    assert (SCB : short_choice H pr params nt m (U (S s) (i - 1)) i us).
    { unfold short_choice in *. destruct (mode_s params); [|exact SC]. destruct (Nat.eqb_spec i 0); [exact SC|]. now rewrite NU by lia. }
    split; [exact SCB|].
    assert (D2 : map (U (S s)) us = map (U s) us).
    { apply map_ext_in. intros x I. pose proof (short_choice_not_self _ _ _ IM SC) as F. rewrite Forall_forall in F. destruct (F x I). now apply NU. }
    rewrite D2. destruct (GOOD s ltac:(lia) i IM) as [LG VG]. split; [exact LG|]. split.
    + rewrite EU. assert (MR : (0 < M s < key)%Z) by (specialize (NZ s SL); pose proof (Z.mod_pos_bound (le2z (U s i) + le2z (H (concat (map (fun b => nth i b []) deps) ++ concat (map (U s) us) ++ (if i =? 0 then if k =? 0 then iv else w else [])))) key ltac:(lia)); lia).
      pose proof (sloth_range key PK P4 (vde_rounds params) (M s) ltac:(lia)) as SR.
      rewrite (Z.abs_eq (sloth _ _ _)) by lia. rewrite sloth_round_trip by (auto; lia). rewrite Z.abs_eq by lia. rewrite EM, Zminus_mod_idemp_l.
      replace (_ + _ - _)%Z with (le2z (U s i)) by ring. symmetry. apply Z.mod_small. pose proof (le2z_nonneg (U s i)). lia.
    + intros j JM JI. symmetry. now apply NU.
Qed.

Theorem reply_iff ks before deps bs out : unit_l params <> 0 ->
  Forall (fun b => length b = m /\ Forall (fun u => length u = upl) b) bs ->
  length bs <= length ks -> length bs <= length before -> length bs <= length deps -> Forall (Forall (fun b => length b = m)) deps ->
  batch_unseal H pr params key iv ks before deps bs = Ok out <->
  (length out = length bs /\ forall j, j < length bs -> length (nth j out []) = m /\
    exists U, unseals_reply H pr params key iv m (nth j ks 0) (nth j before []) (nth j deps []) (nth j bs []) (nth j out []) U).
Proof.
  intros U0 SH L1 L2 L3 D. destruct (short_table' pr params nt m SM) as (t & T & SO).
  assert (B : bu_idxs_s pr params = Ok t).
  { rewrite <- T. unfold bu_idxs_s, seal_idxs_s. apply Nat.eqb_neq in U0. rewrite U0. reflexivity. }
  destruct (batch_unseal_total H pr params key iv ks before deps bs m) as (o & E & LO & FO); auto;
    [intros t' E'; rewrite B in E'; injection E' as <-; exact SO|congruence|].
  assert (X : forall j, j < length bs -> exists U, unseals_reply H pr params key iv m (nth j ks 0) (nth j before []) (nth j deps []) (nth j bs []) (nth j o []) U).
  { intros j J. rewrite batch_unseal_map, B in E. cbn [bind] in E.
    destruct (mapM_nth _ _ _ E j j) as (c & NC & JC); [rewrite nth_error_nth' with (d := 0) by (rewrite seq_length; lia); now rewrite seq_nth|].
    assert (N1 : index ks j = Ok (nth j ks 0)) by (apply index_nth, nth_error_nth'; lia).
    assert (N2 : index bs j = Ok (nth j bs [])) by (apply index_nth, nth_error_nth'; lia).
    assert (N3 : index deps j = Ok (nth j deps [])) by (apply index_nth, nth_error_nth'; lia).
    assert (N4 : index before j = Ok (nth j before [])) by (apply index_nth, nth_error_nth'; lia).
    assert (S1 : shaped params m (nth j bs [])) by (rewrite Forall_forall in SH; apply SH, nth_In; lia).
    assert (D1 : deps_ok m (nth j deps [])) by (rewrite Forall_forall in D; apply D, nth_In; lia).
    rewrite (bjob_brounds H params key iv ks before deps t bs j _ _ _ _ N1 N2 N3 (fun _ => N4)) in JC.
    rewrite (proj1 S1) in JC. rewrite (nth_error_nth _ _ _ NC).
    apply (brounds_reply t); auto. }
  split.
  - intros E'. rewrite E in E'. injection E' as <-. split; [exact LO|]. intros j J. split; [|now apply X].
    rewrite Forall_forall in FO. apply FO, nth_In. lia.
  - intros [LQ Q]. rewrite E. f_equal. apply nth_ext with (d := []) (d' := []); [congruence|]. intros j J. rewrite LO in J.
    destruct (Q j J) as (LJ & V & QV). destruct (X j J) as (U & QU).
    assert (LJ' : length (nth j o []) = m) by (rewrite Forall_forall in FO; apply FO, nth_In; lia).
    apply nth_ext with (d := []) (d' := []); [congruence|]. intros i I. rewrite LJ' in I. eapply reply_unique; eauto.
Qed.

(** Whatever dependency blocks and chain values go with them, there are blocks that the
    verifier unseals to the wanted plaintext. *)
Theorem forged_reply ks before deps Bs : (prime key /\ key mod 4 = 3)%Z -> unit_l params <> 0 ->
  Forall (block_ok params key m) Bs ->
  length Bs <= length ks -> length Bs <= length before -> length Bs <= length deps -> Forall (Forall (fun b => length b = m)) deps ->
  exists Rs U M, length Rs = length Bs /\ Forall (block_ok params key m) Rs /\
  (forall j, j < length Bs ->
     seals_reply H pr params key iv m (nth j ks 0) (nth j before []) (nth j deps []) (nth j Bs []) (nth j Rs []) (U j) (M j)) /\
  ((forall j t, j < length Bs -> t < seal_rounds params * m -> M j t <> 0%Z) ->
   batch_unseal H pr params key iv ks before deps Rs = Ok Bs).
Proof.
  intros PK U0 FB L1 L2 L3 D. destruct (short_table' pr params nt m SM) as (t & T & SO).
  destruct (finite_choice (length Bs) (fun j (v : list (list byte) * (nat -> nat -> list byte) * (nat -> Z)) => block_ok params key m (fst (fst v)) /\
     seals_reply H pr params key iv m (nth j ks 0) (nth j before []) (nth j deps []) (nth j Bs []) (fst (fst v)) (snd (fst v)) (snd v))
     (([], fun _ _ => []), fun _ => 0%Z)) as (f & FF).
  { intros j J.
    assert (BJ : block_ok params key m (nth j Bs [])) by (rewrite Forall_forall in FB; apply FB, nth_In; lia).
    assert (D1 : deps_ok m (nth j deps [])) by (rewrite Forall_forall in D; apply D, nth_In; lia).
    destruct (frounds_ok H params key HH K1 K2 t (nth j deps []) (if nth j ks 0 =? 0 then iv else nth j before []) m (nth j Bs []) SO D1 BJ) as (R & z & BR & FR & _).
    destruct (frounds_reply t _ _ _ _ _ _ T SO D1 BJ (FR [])) as (U & M & S & _). exists ((R, U), M). auto. }
  set (Rs := map (fun j => fst (fst (f j))) (seq 0 (length Bs))).
  assert (NR : forall j, j < length Bs -> nth j Rs [] = fst (fst (f j))).
  { intros j J. unfold Rs. rewrite nth_indep with (d' := fst (fst (f 0))) by (rewrite map_length, seq_length; exact J).
    rewrite (map_nth (fun j => fst (fst (f j)))). now rewrite seq_nth. }
  assert (LR : length Rs = length Bs) by (unfold Rs; now rewrite map_length, seq_length).
  assert (FR : Forall (block_ok params key m) Rs).
  { apply Forall_forall. intros r I. apply in_map_iff in I as (j & <- & I). apply in_seq in I. apply FF. lia. }
  exists Rs, (fun j => snd (fst (f j))), (fun j => snd (f j)). split; [exact LR|]. split; [exact FR|]. split.
  { intros j J. rewrite (NR j J). apply (FF j J). }
  intros NZ. apply reply_iff; try (rewrite ?LR; assumption).
  - eapply Forall_impl; [|exact FR]. intros b BO. exact (block_ok_shaped params key m b BO).
  - split; [auto|]. intros j J. rewrite LR in J. split; [rewrite Forall_forall in FB; apply FB, nth_In; exact J|].
    rewrite (NR j J). eexists. apply (reply_back _ _ _ _ _ (snd (fst (f j))) (snd (f j)) PK); [|apply (FF j J)|intros; now apply NZ].
    rewrite Forall_forall in FB. apply FB, nth_In. exact J.
Qed.
(** * A reply is determined by what it unseals to *)

Lemma seal_reply_unique k w deps B R R' U V M M' : seals_reply H pr params key iv m k w deps B R U M -> seals_reply H pr params key iv m k w deps B R' V M' ->
  forall i, i < m -> nth i R [] = nth i R' [].
Proof.
  intros (U0 & UE & US) (V0 & VE & VS).
  assert (X : forall t, t <= seal_rounds params * m -> forall i, i < m -> U t i = V t i).
  { induction t as [|t IH]; intros L i IM; [rewrite U0, V0 by exact IM; reflexivity|]. specialize (IH ltac:(lia)).
    destruct (US t ltac:(lia)) as (us & SC & EM & LU & EU & NU). destruct (VS t ltac:(lia)) as (us' & SC' & EM' & LV & EV & NV).
    assert (M0 : m <> 0) by lia. pose proof (Nat.mod_upper_bound t m M0) as TM. set (j := t mod m) in *.
    destruct (Nat.eq_dec i j) as [->|NE]; [|rewrite NU, NV by assumption; now apply IH].
    rewrite (IH (j - 1)) in SC by lia.
    assert (us = us') as <- by (clear -SC SC'; unfold short_choice in *; destruct (mode_s params); congruence).
    pose proof (short_choice_not_self _ _ _ TM SC) as UM.
    apply le2z_inj; [congruence|]. rewrite EU, EV, EM, EM'. rewrite (IH j) by exact TM.
    assert (D2 : map (U t) us = map (V t) us) by (apply map_ext_in; intros u I; rewrite Forall_forall in UM; apply IH, UM, I).
    now rewrite D2. }
  intros i IM. rewrite <- UE, <- VE by exact IM. now apply X.
Qed.
(** Run backwards, the verifier's equations are the sealing equations, if every number
    handed to the inverse delay function is one of 1 .. key - 1. *)
Lemma reply_forth k w deps B R U : (prime key /\ key mod 4 = 3)%Z -> (forall i, i < m -> length (nth i B []) = upl) ->
  unseals_reply H pr params key iv m k w deps B R U ->
  (forall t, t < seal_rounds params * m -> (1 <= le2z (U t (m - 1 - t mod m)%nat) <= key - 1)%Z) ->
  exists M, seals_reply H pr params key iv m k w deps R B (fun t => U (seal_rounds params * m - t)) M.
Proof.
  intros [PK P4] LB (U0 & UE & US) NZ. set (T := seal_rounds params * m) in *.
  assert (LEN : forall t, t <= T -> forall i, i < m -> length (U t i) = upl).
  { induction t as [|t IH]; intros L i IM; [rewrite U0 by exact IM; now apply LB|].
    destruct (US t ltac:(lia)) as (us & SC & LU & EU & NU). destruct (Nat.eq_dec i (m - 1 - t mod m)) as [->|NE]; [exact LU|].
    rewrite NU by assumption. apply IH; [lia|exact IM]. }
  exists (fun s => sloth_inv (le2z (U (T - S s) (s mod m))) key (vde_rounds params)).
  split; [|split].
  - intros i IM. rewrite Nat.sub_0_r. now apply UE.
  - intros i IM. fold T. rewrite Nat.sub_diag. now apply U0.
  - intros s SL. fold T in SL. cbv zeta. set (t := T - S s).
    assert (M0 : m <> 0) by (intros Q; unfold T in SL; rewrite Q, Nat.mul_0_r in SL; lia).
    assert (IX : m - 1 - t mod m = s mod m).
    { assert (E : s + t + 1 = T) by (unfold t; lia). pose proof (Nat.div_mod t m M0) as DT. pose proof (Nat.mod_upper_bound t m M0).
      apply (Nat.mod_unique s m (seal_rounds params - 1 - t / m)); [lia|]. unfold T in E.
      assert (t / m < seal_rounds params) by (apply Nat.div_lt_upper_bound; [exact M0|unfold T in SL; lia]).
      rewrite Nat.mul_sub_distr_l, Nat.mul_sub_distr_l. assert (m * 1 + m * (t / m) <= m * seal_rounds params) by nia. lia. }
    replace (T - s) with (S t) by (unfold t; lia). assert (TL : t < T) by (unfold t; lia).
    destruct (US t TL) as (us & SC & LU & EU & NU). specialize (NZ t TL). rewrite IX in SC, LU, EU, NU, NZ.
    pose proof (Nat.mod_upper_bound s m M0) as IM. set (i := s mod m) in *.
    exists us.
    assert (SCB : short_choice H pr params nt m (U (S t) (i - 1)) i us).
    { unfold short_choice in *. destruct (mode_s params); [|exact SC]. destruct (Nat.eqb_spec i 0); [exact SC|]. now rewrite NU by lia. }
    split; [exact SCB|].
    assert (D2 : map (U (S t)) us = map (U t) us).
    { apply map_ext_in. intros x I. pose proof (short_choice_not_self _ _ _ IM SC) as F. rewrite Forall_forall in F. destruct (F x I). now apply NU. }
    rewrite D2. pose proof (sloth_inv_range key PK P4 (vde_rounds params) _ NZ) as SR.
    split; [|split; [|split]].
    + rewrite EU. rewrite (Z.abs_eq (sloth_inv _ _ _)) by lia. rewrite Zplus_mod_idemp_l.
      replace (_ - _ + _)%Z with (sloth_inv (le2z (U t i)) key (vde_rounds params)) by ring. symmetry. apply Z.mod_small. lia.
    + apply LEN; [lia|exact IM].
    + rewrite sloth_round_trip' by auto. symmetry. apply Z.abs_eq. lia.
    + intros j JM JI. symmetry. now apply NU.
Qed.
Theorem reply_determined k w deps B B' R U V : (prime key /\ key mod 4 = 3)%Z ->
  (forall i, i < m -> length (nth i B []) = upl) -> (forall i, i < m -> length (nth i B' []) = upl) ->
  unseals_reply H pr params key iv m k w deps B R U -> unseals_reply H pr params key iv m k w deps B' R V ->
  (forall t, t < seal_rounds params * m -> (1 <= le2z (U t (m - 1 - t mod m)%nat) <= key - 1)%Z) ->
  (forall t, t < seal_rounds params * m -> (1 <= le2z (V t (m - 1 - t mod m)%nat) <= key - 1)%Z) ->
  forall i, i < m -> nth i B [] = nth i B' [].
Proof.
  intros PK LB LB' SU SV NU NV.
  destruct (reply_forth _ _ _ _ _ _ PK LB SU NU) as (M & XU). destruct (reply_forth _ _ _ _ _ _ PK LB' SV NV) as (M' & XV).
  eapply seal_reply_unique; eauto.
Qed.
Lemma unseals_reply_ext k w deps B R R' U : (forall i, i < m -> nth i R [] = nth i R' []) ->
  unseals_reply H pr params key iv m k w deps B R U -> unseals_reply H pr params key iv m k w deps B R' U.
Proof. intros X (A & E & S). split; [exact A|]. split; [|exact S]. intros i IM. now rewrite E, X. Qed.
Lemma reply_determined_c k w deps B B' R U V : (prime key /\ key mod 4 = 3)%Z ->
  length B = m -> length B' = m -> Forall (fun u => length u = upl) B -> Forall (fun u => length u = upl) B' ->
  unseals_reply H pr params key iv m k w deps B R U -> unseals_reply H pr params key iv m k w deps B' R V ->
  canonical_reply H pr params key iv m k w deps B -> canonical_reply H pr params key iv m k w deps B' -> B = B'.
Proof.
  intros PK LB LB' FB FB' SU SV (R1 & U1 & S1 & N1) (R2 & U2 & S2 & N2).
  rewrite Forall_forall in FB, FB'. apply (nth_ext _ _ [] []); [congruence|]. intros i IM. rewrite LB in IM. revert i IM.
  eapply (reply_determined k w deps B B' R U1 U2); auto.
  - intros i IM. apply FB, nth_In. lia.
  - intros i IM. apply FB', nth_In. lia.
  - eapply unseals_reply_ext; [|exact S1]. eapply reply_unique; eauto.
  - eapply unseals_reply_ext; [|exact S2]. eapply reply_unique; eauto.
Qed.
(** The zero unit and the unit key - 2 have the same inverse; the last unit of a block is
    the first to be rewritten and nothing else sees it before that. *)
Lemma alias_value : (2 < key)%Z -> Z.odd key = true -> forall t, sloth_inv 0 key (S t) = sloth_inv (key - 2) key (S t).
Proof.
  intros K2 OD t. cbn [sloth_inv]. f_equal. unfold single_sloth_inv.
  change (Z.rem 0 2 =? 1)%Z with false. cbv iota.
  assert (E1 : Z.rem (0 - 1) key = (-1)%Z) by (change (0 - 1)%Z with (- (1))%Z; rewrite Z.rem_opp_l by lia; rewrite Z.rem_small by lia; reflexivity).
  rewrite E1. change (Z.rem (-1) 2 =? 1)%Z with false. cbv iota.
  assert (O2 : Z.rem (key - 2) 2 = 1%Z).
  { rewrite Z.rem_mod_nonneg by lia. rewrite Zmod_odd. rewrite Z.odd_sub, OD. reflexivity. }
  rewrite O2. change (1 =? 1)%Z with true. cbv iota.
  replace (key - 2 + 1)%Z with (key - 1)%Z by ring. rewrite (Z.rem_small (key - 1)) by lia.
  assert (O1 : Z.rem (key - 1) 2 = 0%Z).
  { rewrite Z.rem_mod_nonneg by lia. rewrite Zmod_odd. rewrite Z.odd_sub, OD. reflexivity. }
  rewrite O1. change (0 =? 1)%Z with false. cbv iota. rewrite !Zpow_mod_correct by lia.
  change ((-1) ^ 2)%Z with 1%Z. replace ((key - 1) ^ 2)%Z with (1 + (key - 2) * key)%Z by ring. now rewrite Z.mod_add by lia.
Qed.
Lemma alias_reply k w deps B R U : (2 < key)%Z -> Z.odd key = true -> 0 < m -> length B = m -> 1 <= seal_rounds params -> 1 <= vde_rounds params ->
  le2z (nth (m - 1) B []) = (key - 2)%Z ->
  unseals_reply H pr params key iv m k w deps B R U ->
  exists V, unseals_reply H pr params key iv m k w deps (upd B (m - 1) (zeros upl)) R V.
Proof.
  intros K2' OD MP LB SR VR VB (U0 & UE & US).
  exists (fun t i => if (t =? 0) && (i =? m - 1) then zeros upl else U t i).
  split; [|split].
  - intros i IM. cbn [Nat.eqb andb]. rewrite upd_nth by lia. destruct (Nat.eqb_spec i (m - 1)); [reflexivity|now apply U0].
  - intros i IM. destruct (Nat.eqb_spec (seal_rounds params * m) 0) as [Q|Q]; [nia|]. cbn [andb]. now apply UE.
  - intros t TL. cbv zeta. destruct (US t TL) as (us & SC & LU & EU & NU). cbn [Nat.eqb andb].
    destruct (Nat.eqb_spec t 0) as [->|NT]; cbn [andb]; [|exists us; auto].
    rewrite Nat.mod_0_l in * by lia. rewrite Nat.sub_0_r in *. set (i := m - 1) in *.
    assert (IM : i < m) by lia. pose proof (short_choice_not_self _ _ _ IM SC) as F.
    exists us. split; [|split; [exact LU|split]].
    + unfold short_choice in *. destruct (mode_s params); [|exact SC]. destruct (Nat.eqb_spec i 0); [exact SC|].
      destruct (Nat.eqb_spec (i - 1) i); [lia|]. exact SC.
    + assert (D2 : map (fun j => if j =? i then zeros upl else U 0 j) us = map (U 0) us).
      { apply map_ext_in. intros x I. rewrite Forall_forall in F. destruct (F x I). now destruct (Nat.eqb_spec x i). }
      rewrite D2, EU. rewrite Nat.eqb_refl. rewrite U0 by exact IM. rewrite VB. rewrite le2z_zeros.
      destruct (vde_rounds params) as [|q] eqn:Q; [lia|]. now rewrite alias_value.
    + intros j JM JI. destruct (Nat.eqb_spec j i); [lia|]. now apply NU.
Qed.
End R.

Lemma frounds_rows H params key t t' deps sfx m st : (mode_s params = 0 \/ forall k, k < m -> index t' k = index t k) ->
  frounds H params key t' deps sfx m st = frounds H params key t deps sfx m st.
Proof.
  intros E. unfold frounds. apply foldM_ext. intros _ s _. apply foldM_ext. intros i [c l] I. unfold fstep.
  rewrite (md_rows H params t t'); [reflexivity|]. destruct E as [Z|E]; [now left|]. right. apply E. apply in_seq in I. lia.
Qed.

(** A block sealed without a zero masked number is a canonical reply. *)
Section Stored.
Context (H : list byte -> list byte) (pr : profile) (params : PosPara) (key : Z) (iv : list byte) (n m : nat).
Hypothesis SET : setting H pr params key n m.
Hypothesis SK : sound_key H key.
Hypothesis MS : unit_table params m.

Lemma stored_short : short_modes_fine pr params (block_l params / unit_l params) m.
Proof.
  pose proof (set_short _ _ _ _ _ _ SET) as SH. destruct MS as [Z|(_ & ->)]; [|eapply fine_self; exact SH].
  unfold short_modes_fine in *. now rewrite Z in *.
Qed.

Lemma stored_canonical f st k b w deps : sealable params key n m f -> seal H pr params key iv f = Ok st -> ~ In 0%Z (s_log st) -> k < n ->
  single_unseal_prepare H pr params (s_file st) k = Ok (b, w, deps) ->
  deps_ok m deps /\ shaped params m b /\ canonical_reply H pr params key iv m k w deps b /\
  exists U, unseals_reply H pr params key iv m k w deps b (block_units params m f k) U.
Proof.
  intros SE E NZ K PR. destruct (prepare_ok H pr params key iv n m SET f st SK SE E NZ k K) as (t & ds & T & PR' & DF & DO & BR).
  rewrite PR in PR'. injection PR' as -> -> ->. split; [exact DO|].
  pose proof T as (TL & LO & TS & SO).
  pose proof (seal_inv H pr params key iv n m SET t f st T SE E) as SU.
  destruct (no_zero_blocks H params key iv n m t f st SU NZ k K) as (zs & (ds' & D' & B1 & B2 & FR) & NZ').
  rewrite DF in D'. injection D' as <-. split; [eapply block_ok_shaped, B2|].
  destruct (verifier_table pr params n m (snd t) (set_short _ _ _ _ _ _ SET) TS MS) as (t' & BT & SO' & RA).
  assert (TS' : seal_idxs_s pr params (block_l params / unit_l params) = Ok t').
  { rewrite <- BT. unfold seal_idxs_s, bu_idxs_s. destruct (Nat.eqb_spec (mode_s params) 0) as [Z|Z]; [reflexivity|]. cbn [negb].
    destruct MS as [Z'|(UN & _)]; [contradiction|]. apply Nat.eqb_neq in UN. now rewrite UN. }
  assert (SF : sfx H params iv (s_file st) k = if k =? 0 then iv else prepare_before_id H params (s_file st) k).
  { unfold sfx, prepare_before_id, blk, read_file. destruct (k =? 0); reflexivity. }
  specialize (FR []). rewrite app_nil_r, SF in FR. rewrite <- (frounds_rows H params key (snd t) t') in FR by exact RA. rewrite (block_units_chunks H pr params key n m SET) in FR, B1 by (try exact K; apply SE).
  pose proof (sound_lt H pr params key n m SET SK) as KB.
  destruct (frounds_reply H pr params key iv m (hh _ _ _ _ _ _ SET) (k1 _ _ _ _ _ _ SET) KB t' ds k _ _ _ _ TS' SO' DO B1 FR) as (U & M & SR & IM).
  assert (MN : forall q, q < seal_rounds params * m -> M q <> 0%Z) by (intros q L Q; apply NZ'; rewrite <- Q; now apply IM).
  assert (PK : (prime key /\ key mod 4 = 3)%Z) by (destruct SK; auto).
  pose proof (reply_back H pr params key iv m (k1 _ _ _ _ _ _ SET) KB stored_short k _ _ _ _ _ _ PK B1 SR MN) as UB.
  split; [|eexists; exact UB]. exists (block_units params m f k), (fun q => U (seal_rounds params * m - q)). split; [exact UB|].
  intros q L. set (T0 := seal_rounds params * m) in *.
  assert (M0 : m <> 0) by (intros M0; unfold T0 in L; rewrite M0, Nat.mul_0_r in L; lia).
  assert (Q : (T0 - 1 - q) mod m = m - 1 - q mod m).
  { symmetry. pose proof (Nat.div_mod_eq q m) as DQ. pose proof (Nat.mod_upper_bound q m M0).
    assert (q / m < seal_rounds params) by (apply Nat.div_lt_upper_bound; lia).
    apply (Nat.mod_unique _ _ (seal_rounds params - 1 - q / m)); unfold T0; nia. }
  destruct SR as (_ & _ & ST). destruct (ST (T0 - 1 - q) ltac:(lia)) as (us & _ & EM & _ & EV & _).
  rewrite Q in *. replace (T0 - q) with (S (T0 - 1 - q)) by lia. rewrite EV.
  pose proof (MN (T0 - 1 - q) ltac:(lia)) as NZM.
  assert (RM : (0 <= M (T0 - 1 - q)%nat < key)%Z) by (rewrite EM; apply Z.mod_pos_bound; pose proof (k1 _ _ _ _ _ _ SET); lia).
  pose proof (sloth_range key (proj1 PK) (proj2 PK) (vde_rounds params) (M (T0 - 1 - q))). lia.
Qed.
End Stored.
