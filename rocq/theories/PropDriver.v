(** Property C80: runs of the driver one after the other, sharing the data files.
    Vocabulary: [driver_ok] (what the parameters need), [last_seal] and [no_zero] from
    DriverFacts. *)
From Coq Require Import Strings.String Strings.Byte Sorted.
From Verif Require Import Base Sloth Common Depend Prover Verifier Merkle Postorage Driver SealSpec SealTop ChallengeFacts MerkleFacts
  ParamFacts PostorageFacts DriverFacts PropPostorage.
Local Open Scope nat_scope.

(** Take any files to start with, any successful runs after that, and one more run c.
    If the last run that sealed (c itself, if it does) kept the sealed file, the
    single-block check of c passes for every schedule, and c ends normally; the files
    are as before unless c sealed. *)
Theorem C80_single : forall H H2 pr params n m, driver_ok H pr params n m ->
  forall d0 hist d c sealing, history H H2 pr params d0 hist d -> last_seal (hist ++ [c]) sealing ->
  r_unseal sealing = false -> no_zero H pr params sealing -> r_leaves c = false ->
  exists d', (r_seal c = false -> d' = d) /\ forall o, test_postorage H H2 pr params c d o <-> o = Ok d'.
Proof.
  intros H H2 pr params n m DO d0 hist d c sealing R LS RU NZ RL. destruct (next_sealed H H2 pr params n m DO d0 hist d c sealing R LS NZ) as (d1 & E & S & I).
  exists d1. split; [exact I|]. apply run_iff; auto. eapply single_ok; eauto.
Qed.
Print Assumptions C80_single.
(** If it unsealed again, the proof of the leaves passes for all drawn leaves. *)
Theorem C80_leaves : forall H H2 pr params n m, driver_ok H pr params n m -> hash32 H2 -> 0 < leaves_to_prove_count params ->
  forall d0 hist d c sealing, history H H2 pr params d0 hist d -> last_seal (hist ++ [c]) sealing ->
  r_unseal sealing = true -> no_zero H pr params sealing -> r_single c = false ->
  exists d', (r_seal c = false -> d' = d) /\ (forall o, test_postorage H H2 pr params c d o -> o = Ok d') /\
  ((exists fuel idx, create_challenges fuel (leaves_to_prove_count params) (0, n) (r_draw c) = Some idx) -> test_postorage H H2 pr params c d (Ok d')).
Proof.
  intros H H2 pr params n m DO HH2 C0 d0 hist d c sealing R LS RU NZ RSi. destruct (next_sealed H H2 pr params n m DO d0 hist d c sealing R LS NZ) as (d1 & E & S & I).
  exists d1. split; [exact I|]. destruct (leaves_ok H H2 pr params n m DO HH2 c sealing d1 S RU C0) as (L1 & L2). split.
  - intros o T. inversion T as [P|d2 E2 S2|d2 o2 E2 S2 L]; subst; try congruence; assert (d2 = d1) by congruence; subst d2.
    + unfold single_step in S2. rewrite RSi in S2. discriminate.
    + apply L1 in L. now subst.
  - intros X. change (Ok d1) with (let* _ := Ok tt in Ok d1). apply (TP_end _ _ _ _ _ _ d1 (Ok tt) E); [unfold single_step; now rewrite RSi|]. now apply L2.
Qed.
Print Assumptions C80_leaves.
(** Earlier runs leave no trace in the original, the sealed file and the stored key. *)
Theorem C80_forgets : forall H H2 pr params n m, driver_ok H pr params n m ->
  forall d0 d0' hist hist' d d' sealing, history H H2 pr params d0 hist d -> history H H2 pr params d0' hist' d' ->
  last_seal hist sealing -> last_seal hist' sealing -> no_zero H pr params sealing ->
  d_origin d = d_origin d' /\ d_sealed d = d_sealed d' /\
  exists pub pub', d_pub d = Some pub /\ d_pub d' = Some pub' /\ load_data pub = load_data pub' /\
  load_data pub = prepare_params pr (unit_pl params) (r_rnd_iv sealing).
Proof.
  intros H H2 pr params n m DO d0 d0' hist hist' d d' c R R' LS LS' NZ.
  destruct (history_sealed H H2 pr params n m DO _ _ _ _ R LS NZ) as (EO & key & iv & g & st & pub & PP & EP & ES & EPub & LD & SD).
  destruct (history_sealed H H2 pr params n m DO _ _ _ _ R' LS' NZ) as (EO' & key' & iv' & g' & st' & pub' & PP' & EP' & ES' & EPub' & LD' & SD').
  rewrite PP in PP'. injection PP' as <- <-. rewrite EP in EP'. injection EP' as <-. rewrite ES in ES'. injection ES' as <-.
  split; [congruence|]. split; [destruct (r_unseal c); [destruct SD, SD'|]; congruence|]. exists pub, pub'. repeat split; congruence.
Qed.
Print Assumptions C80_forgets.
(** A run that needs a file nobody has written panics, whatever the schedule. *)
Theorem C80_missing : forall H H2 pr params c d, r_seal c = false ->
  r_single c = true /\ (d_pub d = None \/ d_origin d = None \/ d_sealed d = None) \/
  r_single c = false /\ r_leaves c = true /\ (d_origin d = None \/ d_unsealed d = None) ->
  forall o, test_postorage H H2 pr params c d o <-> o = Panic.
Proof.
  intros H H2 pr params c d SE M o. assert (SS : seal_step H pr params c d = Ok d) by (unfold seal_step; now rewrite SE).
  assert (X : (single_step H pr params c d Panic /\ ~ single_step H pr params c d (Ok tt)) \/
              (single_step H pr params c d (Ok tt) /\ ~ single_step H pr params c d Panic /\ forall o, leaves_step H2 params c d o <-> o = Panic)).
  { unfold single_step, leaves_step. destruct M as [(S & M)|(S & L & M)]; rewrite S.
    - left. destruct (d_pub d), (d_origin d), (d_sealed d); try (split; [reflexivity|discriminate]). destruct M as [|[|]]; discriminate.
    - right. rewrite L. split; [reflexivity|]. split; [discriminate|]. destruct (d_origin d), (d_unsealed d); try (intros; reflexivity). destruct M; discriminate. }
  split.
  - intros T. inversion T as [|d1 E S|d1 o' E S L]; subst; auto. rewrite SS in E. injection E as <-. destruct X as [(_ & X)|(_ & _ & X)]; [contradiction|]. apply X in L. now subst.
  - intros ->. destruct X as [(X & _)|(X & _ & Y)]; [now apply (TP_single_panic _ _ _ _ _ _ d)|]. apply (TP_end _ _ _ _ _ _ d Panic SS X). now apply Y.
Qed.
Print Assumptions C80_missing.
(** The shipped parameters qualify. *)
Theorem C80_shipped : forall H pr l, hash32 H -> driver_ok H pr (gen_posdata l) 256 (units_per_block l).
Proof.
  intros H pr l HH. destruct (gen_posdata_geometry l) as (U & UP & _ & _ & _ & _ & ML & _). constructor.
  - apply gen_posdata_layout.
  - lia.
  - exact ML.
  - rewrite UP. reflexivity.
  - intros rnd key iv E. rewrite gen_posdata_key in E. injection E as <- <-. split; [now apply gen_posdata_setting|]. split; [now apply shipped_sound|]. rewrite U. apply P_512_holds_unit.
Qed.
Print Assumptions C80_shipped.

(** A small case: ten blocks of one unit, one round, a hash that is never zero. *)
Definition ten_params : PosPara := mkPosPara 630 63 63 63 64 64 64 1 1 "sloth"%string 0 3 0 3 2.
Lemma ten_setting : setting hone Debug ten_params P_512 10 1.
Proof.
  constructor; [intros d; reflexivity|constructor; cbn; lia| |cbn; lia|cbn; lia]. pose proof P_512_fits. change (Z.of_nat (unit_pl ten_params)) with 64%Z. lia.
Qed.
Lemma ten_ok : driver_ok hone Debug ten_params 10 1.
Proof.
  constructor; [constructor; cbn; lia|lia|reflexivity|reflexivity|]. intros rnd key iv E. change (unit_pl ten_params) with 64 in E. rewrite (prepare_params_ok Debug 64 rnd eq_refl) in E. injection E as <- _.
  split; [apply ten_setting|]. split; [apply shipped_sound; intros d; reflexivity|]. apply P_512_holds_unit.
Qed.
Lemma ten_no_zero c : no_zero hone Debug ten_params c.
Proof.
  intros key iv g st E EP ES. change (unit_pl ten_params) with 64 in E. rewrite (prepare_params_ok Debug 64 _ eq_refl) in E. injection E as <- _.
  refine (one_round_no_zero hone Debug ten_params 10 1 iv _ g st _ _ _ ten_setting eq_refl eq_refl EP ES); [intros d; reflexivity|discriminate|constructor; cbn; lia].
Qed.
Definition ten_run (sl un lv si : bool) (b : byte) : run_cfg := mkRun sl un lv si 0 (fun _ => b) (fun _ => b) (fun i => i).
Definition bare : disk := mkDisk None None None None.
Example C80_ex : driver_ok hone Debug ten_params 10 1 /\ (forall c, no_zero hone Debug ten_params c) /\
  (exists d, history hone hone Debug ten_params bare [ten_run true true true false x02; ten_run true false false true x03; ten_run false false false true x04] d) /\
  last_seal ([ten_run true true true false x02; ten_run true false false true x03] ++ [ten_run false false false true x04]) (ten_run true false false true x03) /\
  exists fuel idx, create_challenges fuel 2 (0, 10) (fun i => i) = Some (Ok idx).
Proof.
  split; [exact ten_ok|]. split; [exact ten_no_zero|]. split; [|split].
  - destruct (C80_leaves hone hone Debug ten_params 10 1 ten_ok (fun d => eq_refl) ltac:(cbn; lia) bare [] bare (ten_run true true true false x02) (ten_run true true true false x02)) as (d1 & _ & _ & T1);
      [constructor|exists [], []; auto|reflexivity|apply ten_no_zero|reflexivity|].
    assert (T1' := T1 ltac:(exists 4, (Ok [0; 1]); reflexivity)). clear T1.
    destruct (C80_single hone hone Debug ten_params 10 1 ten_ok bare [ten_run true true true false x02] d1 (ten_run true false false true x03) (ten_run true false false true x03)) as (d2 & _ & T2);
      [econstructor; [exact T1'|constructor]|exists [ten_run true true true false x02], []; auto|reflexivity|apply ten_no_zero|reflexivity|].
    assert (T2' := proj2 (T2 _) eq_refl). clear T2.
    destruct (C80_single hone hone Debug ten_params 10 1 ten_ok bare [ten_run true true true false x02; ten_run true false false true x03] d2 (ten_run false false false true x04) (ten_run true false false true x03)) as (d3 & _ & T3);
      [econstructor; [exact T1'|econstructor; [exact T2'|constructor]]|exists [ten_run true true true false x02], [ten_run false false false true x04]; auto|reflexivity|apply ten_no_zero|reflexivity|].
    exists d3. econstructor; [exact T1'|]. econstructor; [exact T2'|]. econstructor; [now apply T3|constructor].
  - exists [ten_run true true true false x02], [ten_run false false false true x04]. auto.
  - exists 4, [0; 1]. reflexivity.
Qed.
(** The sequential single-block check as a function of the files. *)
Lemma single_sequential H pr params pub origin sealed key iv idx blocks before deps : load_data pub = Ok (key, iv) ->
  batch_unseal_prepare H pr params sealed (0 * block_pl params) (10 * block_pl params) = Ok (idx, blocks, before, deps) ->
  (let* unsealed := batch_unseal H pr params key iv idx before deps blocks in
   foldM (fun _ i => let* k := index idx i in let* b := index unsealed i in batch_verify origin k b (block_l params) (unit_l params)) (seq 0 (length idx)) tt) = Panic ->
  forall o, unseal_single_and_verify H pr params pub origin sealed 0 o <-> o = Panic.
Proof.
  intros LD BP P o. split.
  - intros U. inversion U as [Q|key' iv' idx' bl bf dp out L' B' O]; subst; [reflexivity|]. rewrite LD in L'. injection L' as <- <-. rewrite BP in B'. injection B' as <- <- <- <-.
    cbn [Nat.eqb] in O. subst out. exact P.
  - intros ->. rewrite <- P. eapply USV_go; [exact LD|exact BP|reflexivity].
Qed.
Definition ten_plain (b : byte) : file := concat (repeat (repeat b 63 ++ [x00]) 10).
(** Without "kept the sealed file" it fails: unsealing happens in place, so after a run
    with both flags the single-block check panics on the unsealed blocks. *)
Theorem C80_unseal_single_refuted : exists H H2 pr params n m d0 sealing d c, driver_ok H pr params n m /\ no_zero H pr params sealing /\
  history H H2 pr params d0 [sealing] d /\ r_seal sealing = true /\ r_unseal sealing = true /\
  r_seal c = false /\ r_leaves c = false /\ r_single c = true /\ forall o, test_postorage H H2 pr params c d o <-> o = Panic.
Proof.
  set (run := ten_run true true false false x02). set (c := ten_run false false false true x00).
  destruct (C80_leaves hone hone Debug ten_params 10 1 ten_ok (fun d => eq_refl) ltac:(cbn; lia) bare [] bare run run) as (d & _ & _ & T);
    [constructor|exists [], []; auto|reflexivity|apply ten_no_zero|reflexivity|].
  assert (T' := T ltac:(exists 4, (Ok [0; 1]); reflexivity)). clear T. assert (R : history hone hone Debug ten_params bare [run] d) by (econstructor; [exact T'|constructor]).
  exists hone, hone, Debug, ten_params, 10, 1, bare, run, d, c.
  split; [exact ten_ok|]. split; [apply ten_no_zero|]. split; [exact R|]. repeat (split; [reflexivity|]).
  destruct (history_sealed hone hone Debug ten_params 10 1 ten_ok _ _ _ run R ltac:(exists [], []; auto) (ten_no_zero _)) as (EO & key & iv & g & st & pub & PP & EP & ES & EPub & LD & ESe & EU).
  change (unit_pl ten_params) with 64 in PP. rewrite (prepare_params_ok Debug 64 _ eq_refl) in PP. assert (key = P_512 /\ iv = repeat x02 128) as (-> & ->) by (injection PP as <- <-; split; reflexivity). clear PP.
  assert (EP' : copy_and_pad (create_random_file (r_rnd_file run) (data_l ten_params)) (data_l ten_params) (unit_l ten_params) = Ok (ten_plain x02)) by (vm_compute; reflexivity).
  assert (g = ten_plain x02) as -> by congruence. clear EP EP'.
  assert (S : forall o, single_step hone Debug ten_params c d o <-> o = Panic).
  { unfold single_step. rewrite EPub, EO, ESe. cbn [r_single r_parallel ten_run c].
    eapply single_sequential; [exact LD|vm_compute; reflexivity|]. vm_compute. reflexivity. }
  intros o. split.
  - intros X. inversion X as [P|d2 E2 S2|d2 o2 E2 S2 L]; subst; [reflexivity|reflexivity|]. injection E2 as <-. apply S in S2. discriminate.
  - intros ->. apply (TP_single_panic hone hone Debug ten_params c d d eq_refl). now apply S.
Qed.
Print Assumptions C80_unseal_single_refuted.
(** And a later run that seals other data without unsealing leaves the old unsealed file
    behind: the proof of leaves panics. *)
Definition h32 (d : list byte) : list byte := firstn 32 (d ++ zeros 32).
Theorem C80_stale_leaves_refuted : exists H H2 pr params n m d0 first sealing d c, driver_ok H pr params n m /\ hash32 H2 /\ no_zero H pr params sealing /\
  history H H2 pr params d0 [first; sealing] d /\ r_seal first = true /\ r_unseal first = true /\ r_seal sealing = true /\ r_unseal sealing = false /\
  r_seal c = false /\ r_leaves c = true /\ r_single c = false /\ forall o, test_postorage H H2 pr params c d o <-> o = Panic.
Proof.
  set (run1 := ten_run true true false false x02). set (run2 := ten_run true false false false x03). set (c := ten_run false false true false x00).
  assert (H32 : hash32 h32) by (intros d; unfold h32; rewrite firstn_length, app_length; unfold zeros; rewrite repeat_length; lia).
  destruct (C80_leaves hone h32 Debug ten_params 10 1 ten_ok H32 ltac:(cbn; lia) bare [] bare run1 run1) as (d1 & _ & _ & T1);
    [constructor|exists [], []; auto|reflexivity|apply ten_no_zero|reflexivity|].
  assert (T1' := T1 ltac:(exists 4, (Ok [0; 1]); reflexivity)). clear T1. assert (R1 : history hone h32 Debug ten_params bare [run1] d1) by (econstructor; [exact T1'|constructor]).
  destruct (C80_single hone h32 Debug ten_params 10 1 ten_ok bare [run1] d1 run2 run2 R1) as (d2 & _ & T2);
    [exists [run1], []; auto|reflexivity|apply ten_no_zero|reflexivity|]. assert (T2' := proj2 (T2 _) eq_refl). clear T2.
  assert (R : history hone h32 Debug ten_params bare [run1; run2] d2) by (econstructor; [exact T1'|econstructor; [exact T2'|constructor]]).
  exists hone, h32, Debug, ten_params, 10, 1, bare, run1, run2, d2, c.
  split; [exact ten_ok|]. split; [exact H32|]. split; [apply ten_no_zero|]. split; [exact R|]. repeat (split; [reflexivity|]).
  destruct (history_sealed hone h32 Debug ten_params 10 1 ten_ok _ _ _ run1 R1 ltac:(exists [], []; auto) (ten_no_zero _)) as (_ & _ & _ & _ & _ & _ & _ & _ & _ & _ & _ & _ & EU1).
  destruct (history_sealed hone h32 Debug ten_params 10 1 ten_ok _ _ _ run2 R ltac:(exists [run1], []; auto) (ten_no_zero _)) as (EO & _).
  assert (EU : d_unsealed d2 = d_unsealed d1).
  { apply run_disk in T2'. exact (unsealed_kept hone Debug ten_params run2 d1 d2 eq_refl T2'). }
  rewrite EU1 in EU. clear EU1 T1' T2' R1 R.
  assert (S : forall fuel idx, create_challenges fuel 2 (0, 10) (fun i => i) = Some idx -> idx = Ok [0; 1]).
  { intros [|[|[|fuel]]] idx E; cbn in E; congruence. }
  assert (L : forall o, leaves_step h32 ten_params c d2 o <-> o = Panic).
  { intros o. unfold leaves_step. rewrite EO, EU. cbn [r_leaves c ten_run r_draw].
    change (leaves_to_prove_count ten_params) with 2. change (data_l ten_params / block_l ten_params) with 10.
    assert (P : (let* idx := Ok [0; 1] in merkle_tree_proof h32 ten_params (create_random_file (r_rnd_file run2) (data_l ten_params)) (create_random_file (r_rnd_file run1) (data_l ten_params)) idx) = Panic) by (vm_compute; reflexivity).
    split.
    - intros (fuel & idx & E & ->). apply S in E. subst idx. exact P.
    - intros ->. exists 4, (Ok [0; 1]). split; [reflexivity|]. symmetry. exact P. }
  intros o. split.
  - intros X. inversion X as [P|d3 E2 S2|d3 o2 E2 S2 L2]; subst; [reflexivity|reflexivity|]. injection E2 as <-. apply L in L2. now subst.
  - intros ->. change Panic with (let* _ := @Panic unit in Ok d2). apply (TP_end hone h32 Debug ten_params c d2 d2 Panic eq_refl eq_refl). now apply L.
Qed.
Print Assumptions C80_stale_leaves_refuted.
