(** Histories of driver runs: what is on disk depends on the last sealing run only. *)
From Coq Require Import Strings.String Strings.Byte Sorted.
From Verif Require Import Base Sloth Common Depend Prover Verifier Merkle Postorage Driver CommonFacts SealSpec SealTop SealPad ChallengeFacts MerkleFacts
  ParamFacts PostorageFacts.
Local Open Scope nat_scope.

(** No masked number is 0 when run c seals. *)
Definition no_zero (H : list byte -> list byte) (pr : profile) (params : PosPara) (c : run_cfg) : Prop :=
  forall key iv g st, prepare_params pr (unit_pl params) (r_rnd_iv c) = Ok (key, iv) ->
  copy_and_pad (create_random_file (r_rnd_file c) (data_l params)) (data_l params) (unit_l params) = Ok g ->
  seal H pr params key iv g = Ok st -> ~ In 0%Z (s_log st).
(** What the driver needs of the parameters; the key is the one prepare_params picks. *)
Record driver_ok (H : list byte -> list byte) (pr : profile) (params : PosPara) (n m : nat) : Prop := {
  do_layout : layout params n m;
  do_blocks : 10 <= n;
  do_mode : mode_l params = 0;
  do_size : (Z.of_nat (unit_pl params) * 8 < 2 ^ 64)%Z;
  do_key : forall rnd key iv, prepare_params pr (unit_pl params) rnd = Ok (key, iv) ->
    setting H pr params key n m /\ sound_key H key /\ (256 ^ Z.of_nat (unit_l params) <= key)%Z
}.
(** The last run of the list that seals is c. *)
Definition last_seal (runs : list run_cfg) (c : run_cfg) : Prop :=
  exists before after, runs = before ++ c :: after /\ r_seal c = true /\ Forall (fun c => r_seal c = false) after.
(** What is on disk when c was the last run to seal. *)
Definition sealed_by (H : list byte -> list byte) (pr : profile) (params : PosPara) (c : run_cfg) (d : disk) : Prop :=
  let origin := create_random_file (r_rnd_file c) (data_l params) in
  d_origin d = Some origin /\
  exists key iv g st pub, prepare_params pr (unit_pl params) (r_rnd_iv c) = Ok (key, iv) /\
  copy_and_pad origin (data_l params) (unit_l params) = Ok g /\
  seal H pr params key iv g = Ok st /\ d_pub d = Some pub /\ load_data pub = Ok (key, iv) /\
  if r_unseal c then d_sealed d = Some g /\ d_unsealed d = Some origin else d_sealed d = Some (s_file st).

Section Facts.
Context (H H2 : list byte -> list byte) (pr : profile) (params : PosPara) (n m : nat).
Hypothesis DO : driver_ok H pr params n m.
Hypothesis H2_32 : hash32 H2.

Lemma seal_step_ok c d : r_seal c = true -> no_zero H pr params c ->
  exists d1, seal_step H pr params c d = Ok d1 /\ sealed_by H pr params c d1.
Proof.
  intros RS NZ. unfold seal_step, sealed_by. rewrite RS. pose proof (do_layout _ _ _ _ _ DO) as LAY.
  destruct (random_file (r_rnd_file c) (data_l params)) as [LO _]. 
  assert (PP := prepare_params_ok pr (unit_pl params) (r_rnd_iv c) (do_size _ _ _ _ _ DO)).
  set (origin := create_random_file (r_rnd_file c) (data_l params)) in *. set (key := if _ =? _ then _ else _) in PP. set (iv := map _ _) in PP. clearbody key iv.
  destruct (do_key _ _ _ _ _ DO _ _ _ PP) as (SET & SK & KB).
  assert (U0 : unit_l params <> 0) by (pose proof (l_unit _ _ _ LAY); lia).
  destruct (padded_units origin (data_l params) (unit_l params) U0) as (g & EP & _).
  assert (SE : sealable params key n m g) by (eapply g_sealable; eauto).
  destruct (seal_total H pr params key iv n m SET g SE) as (st & ES & _).
  pose proof (NZ key iv g st PP EP ES) as NZ'.
  unfold seal_and_unseal. rewrite EP. cbn [bind]. rewrite PP. cbn [bind]. rewrite ES. cbn [bind].
  destruct (r_unseal c).
  - destruct (unseal_compress H pr params n m LAY key iv origin g st SET SK KB EP ES NZ' _ eq_refl LO (do_mode _ _ _ _ _ DO)) as (E1 & E2).
    rewrite E1. cbn [bind]. rewrite E2. cbn [bind]. eexists. split; [reflexivity|]. split; [reflexivity|]. exists key, iv, g, st, (save_data (or_empty (d_pub d)) key iv).
    cbn [d_pub d_sealed d_unsealed d_origin]. repeat split; auto. eapply saved; eauto.
  - cbn [bind]. eexists. split; [reflexivity|]. split; [reflexivity|]. exists key, iv, g, st, (save_data (or_empty (d_pub d)) key iv).
    cbn [d_pub d_sealed d_unsealed d_origin]. repeat split; auto. eapply saved; eauto.
Qed.
Lemma run_disk c d d1 : test_postorage H H2 pr params c d (Ok d1) -> seal_step H pr params c d = Ok d1.
Proof.
  intros T. inversion T as [| |d2 o E2 S L E]. destruct o as [[]|]; cbn [bind] in *; congruence.
Qed.
Lemma unsealed_kept c d d1 : r_unseal c = false -> seal_step H pr params c d = Ok d1 -> d_unsealed d1 = d_unsealed d.
Proof.
  intros RU E. unfold seal_step in E. rewrite RU in E. destruct (r_seal c); [|congruence]. destruct (seal_and_unseal _ _ _ _ _ _ _ _) as [[[? ?] ?]|]; [|discriminate].
  cbn [bind] in E. injection E as <-. reflexivity.
Qed.
Lemma history_app d hist hist' d' : history H H2 pr params d (hist ++ hist') d' -> exists d1, history H H2 pr params d hist d1 /\ history H H2 pr params d1 hist' d'.
Proof.
  revert d. induction hist as [|c hist IH]; intros d R; [exists d; split; [constructor|exact R]|]. cbn [app] in R. inversion R; subst.
  edestruct IH as (d3 & A & B); [eassumption|]. exists d3. split; [econstructor; eauto|exact B].
Qed.
Lemma history_idle d hist d' : history H H2 pr params d hist d' -> Forall (fun c => r_seal c = false) hist -> d' = d.
Proof.
  induction 1 as [|d c d1 cs d2 T R IH]; intros F; [reflexivity|]. inversion F as [|? ? RS F']; subst. rewrite IH by exact F'.
  apply run_disk in T. unfold seal_step in T. rewrite RS in T. congruence.
Qed.
Lemma history_sealed d0 hist d c : history H H2 pr params d0 hist d -> last_seal hist c -> no_zero H pr params c -> sealed_by H pr params c d.
Proof.
  intros R (before & after & -> & RS & F) NZ. apply history_app in R as (d1 & _ & R). inversion R as [|? ? d2 ? ? T R']; subst.
  apply history_idle in R'; [subst d|exact F]. apply run_disk in T. destruct (seal_step_ok c d1 RS NZ) as (d3 & E & S). congruence.
Qed.
(** The disk the challenges of run c see. *)
Lemma next_sealed d0 hist d c sealing : history H H2 pr params d0 hist d -> last_seal (hist ++ [c]) sealing -> no_zero H pr params sealing ->
  exists d1, seal_step H pr params c d = Ok d1 /\ sealed_by H pr params sealing d1 /\ (r_seal c = false -> d1 = d).
Proof.
  intros R (before & after & E & RS & F) NZ. destruct after as [|x after] using rev_ind.
  - apply app_inj_tail in E as (<- & <-). destruct (seal_step_ok c d RS NZ) as (d1 & E1 & S1). exists d1. split; [exact E1|]. split; [exact S1|]. congruence.
  - clear IHafter. rewrite app_comm_cons, app_assoc in E. apply app_inj_tail in E as (-> & <-). apply Forall_app in F as (F & G). inversion G as [|? ? RC _]; subst.
    exists d. unfold seal_step. rewrite RC. split; [reflexivity|]. split; [|reflexivity]. eapply history_sealed; eauto. exists before, after. auto.
Qed.
Lemma run_iff c d d1 : seal_step H pr params c d = Ok d1 -> r_leaves c = false -> (forall o, single_step H pr params c d1 o <-> o = Ok tt) ->
  forall o, test_postorage H H2 pr params c d o <-> o = Ok d1.
Proof.
  intros E L S o. split.
  - intros T. inversion T as [P|d2 E2 S2|d2 o2 E2 S2 L2]; subst; try congruence; assert (d2 = d1) by congruence; subst d2.
    + apply S in S2. discriminate.
    + unfold leaves_step in L2. rewrite L in L2. subst. reflexivity.
  - intros ->. change (Ok d1) with (let* _ := Ok tt in Ok d1). apply (TP_end _ _ _ _ _ _ d1 (Ok tt) E); [now apply S|]. unfold leaves_step. now rewrite L.
Qed.
Lemma single_ok c sealing d : sealed_by H pr params sealing d -> no_zero H pr params sealing -> r_unseal sealing = false ->
  forall o, single_step H pr params c d o <-> o = Ok tt.
Proof.
  intros (EO & key & iv & g & st & pub & PP & EP & ES & EPub & LD & SD) NZ RU o. rewrite RU in SD. unfold single_step. destruct (r_single c); [|tauto].
  rewrite EPub, EO, SD. destruct (do_key _ _ _ _ _ DO _ _ _ PP) as (SET & SK & KB).
  eapply (unseal_single_ok H pr params n m (do_layout _ _ _ _ _ DO)); eauto. exact (do_blocks _ _ _ _ _ DO).
Qed.
Lemma leaves_ok c sealing d : sealed_by H pr params sealing d -> r_unseal sealing = true -> 0 < leaves_to_prove_count params ->
  (forall o, leaves_step H2 params c d o -> o = Ok tt) /\
  ((exists fuel idx, create_challenges fuel (leaves_to_prove_count params) (0, n) (r_draw c) = Some idx) -> leaves_step H2 params c d (Ok tt)).
Proof.
  intros (EO & key & iv & g & st & pub & PP & EP & ES & EPub & LD & SD) RU C0. rewrite RU in SD. destruct SD as (_ & EU).
  pose proof (do_layout _ _ _ _ _ DO) as LAY.
  assert (X : forall fuel idx, create_challenges fuel (leaves_to_prove_count params) (0, n) (r_draw c) = Some idx ->
    (let* idx := idx in merkle_tree_proof H2 params (create_random_file (r_rnd_file sealing) (data_l params)) (create_random_file (r_rnd_file sealing) (data_l params)) idx) = Ok tt).
  { intros fuel [idx|] E.
    - cbn [bind]. apply challenges_sound in E as (S & L & F). apply (merkle_tree_proof_ok H H2 params n m LAY H2_32); [exact S| |].
      + eapply Forall_impl; [|exact F]. cbn. intros; lia.
      + intros ->. cbn in L. lia.
    - exfalso. destruct fuel as [|fuel]; [discriminate|]. pose proof (l_n _ _ _ LAY) as N0. clear -E N0. unfold create_challenges in E.
      revert E. cbn [fst snd]. generalize (@nil nat). generalize 0 at 2. generalize (S fuel). clear -N0.
      intros f. induction f as [|f IH]; intros i s P; [discriminate|]. cbn [challenge_loop] in P. destruct (_ <? _); [|discriminate].
      destruct (Nat.leb_spec n 0); [lia|]. now apply IH in P. }
  unfold leaves_step. rewrite EO, EU, (data_block params n m LAY). destruct (r_leaves c); [|tauto]. split.
  - intros o (fuel & idx & E & ->). eapply X; eauto.
  - intros (fuel & idx & E). exists fuel, idx. split; [exact E|]. symmetry. eapply X; eauto.
Qed.
End Facts.
