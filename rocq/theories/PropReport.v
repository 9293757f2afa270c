(** C104: what the result files of the proof of storage say about the runs.

    Reading guide.  [reports] = (contents of the run file, contents of the statistics
    file).  [test_postorage_saving save s u c d r r' o]: the driver run c on the disk d
    with should_save_run_data = save and the measured times s (seal) and u (unseal)
    turns the reports r into r' and ends with o; [test_postorage] (C80) is the same run
    without the reports.  [plain]: a text without comma and newline, like a number.
    For the pipeline, [stage] names the kinds of lines and [record] gives their text. *)
From Coq Require Import Strings.String Strings.Byte.
From Coq Require Import List.
From Verif Require Import Base Sloth Common Depend Prover Verifier Merkle Postorage PostorageFacts Primes ParamFacts SealSpec SealTop SealPad SealZero SealVerify Driver DriverFacts PropPostorage PropDriver Report ReportFacts.
Local Open Scope nat_scope.

(** * The driver *)

(** Without the flag the run is the one of C80 and no report changes. *)
Theorem C104_unsaved : forall H H2 pr params s u c d r r' o,
  test_postorage_saving params H H2 pr false s u c d r r' o <-> r' = r /\ test_postorage H H2 pr params c d o.
Proof.
  intros H H2 pr params s u c d r r' o. split.
  - assert (CS : costs_step params false c s u r = (r, Ok tt)) by (unfold costs_step; rewrite Bool.andb_false_r; reflexivity).
    intros T. destruct T as [r1 E|r1 E ES|r1 r2 d1 E ES EC|r1 r2 d1 E ES EC SP|r1 r2 d1 o E ES EC SP L]; cbn [header] in E; injection E as <-; try discriminate.
    + split; [reflexivity|now apply TP_seal_panic].
    + rewrite CS in EC. discriminate.
    + rewrite CS in EC. injection EC as <-. split; [reflexivity|now apply TP_single_panic with d1].
    + rewrite CS in EC. injection EC as <-. split; [reflexivity|now apply TP_end].
  - intros [-> T]. assert (CS : costs_step params false c s u r = (r, Ok tt)) by (unfold costs_step; rewrite Bool.andb_false_r; reflexivity).
    destruct T as [ES|d1 ES SP|d1 o ES SP L].
    + now apply TS_seal_panic.
    + eapply TS_single_panic; [reflexivity|exact ES|exact CS|exact SP].
    + eapply TS_end; [reflexivity|exact ES|exact CS|exact SP|exact L].
Qed.
Print Assumptions C104_unsaved.

(** With the flag, and lengths that can be divided by, the run is still the one of C80.
    The run file gets the parameters in any case; the times, and one line in the
    statistics file, are added if both flags are set and sealing and unsealing ended,
    whatever the checks that follow say.  A run that only seals reports no time at all. *)
Definition head_text (params : PosPara) : list byte :=
  txt "-- SAMPLES, 1" ++ [x0a; x0a] ++
  txt "(byte) data len, " ++ num (data_l params) ++ txt ", block len, " ++ num (block_l params) ++ txt ", block count, " ++ num (data_l params / block_l params)
  ++ txt ", unit len, " ++ num (unit_l params) ++ txt ", unit count, " ++ num (block_l params / unit_l params) ++ [x0a] ++ rounds_line params.
Lemma header_text params r : 0 < block_l params -> 0 < unit_l params -> header params true r = ((fst r ++ head_text params, snd r), Ok tt).
Proof.
  intros B U. unfold header, lengths_line, quot, head_text. destruct (Nat.eqb_spec (block_l params) 0) as [|_]; [lia|]. destruct (Nat.eqb_spec (unit_l params) 0) as [|_]; [lia|]. cbn [bind fst snd].
  rewrite <- !app_assoc. reflexivity.
Qed.
Lemma stat_total params s u : 0 < block_l params -> 0 < unit_l params -> exists l, stat_line params s u = Ok l.
Proof.
  intros B U. unfold stat_line, quot. destruct (Nat.eqb_spec (block_l params) 0) as [|_]; [lia|]. destruct (Nat.eqb_spec (unit_l params) 0) as [|_]; [lia|]. cbn [bind]. eauto.
Qed.
Theorem C104_saved : forall H H2 pr params, 0 < block_l params -> 0 < unit_l params -> forall s u c d r r' o,
  test_postorage_saving params H H2 pr true s u c d r r' o <->
  test_postorage H H2 pr params c d o /\ exists l, stat_line params s u = Ok l /\
  r' = if r_seal c && r_unseal c && (if seal_step H pr params c d then true else false)
       then (fst r ++ head_text params ++ cost_lines s u, snd r ++ l) else (fst r ++ head_text params, snd r).
Proof.
  intros H H2 pr params B U s u c d r r' o. destruct (stat_total params s u B U) as (sl & EL).
  set (r0 := (fst r ++ head_text params, snd r)). assert (HD : header params true r = (r0, Ok tt)) by now apply header_text.
  assert (CS : costs_step params true c s u r0 = ((if r_seal c && r_unseal c then (fst r ++ head_text params ++ cost_lines s u, snd r ++ sl) else r0), Ok tt)).
  { unfold costs_step. rewrite Bool.andb_true_r. destruct (r_seal c && r_unseal c); [|reflexivity]. rewrite EL. unfold r0. cbn [fst snd]. now rewrite <- app_assoc. }
  split.
  - intros T. assert (X : test_postorage H H2 pr params c d o /\ r' = if r_seal c && r_unseal c && (if seal_step H pr params c d then true else false)
       then (fst r ++ head_text params ++ cost_lines s u, snd r ++ sl) else r0); [|destruct X as [X ->]; split; [exact X|exists sl; auto]].
    destruct T as [r1 E|r1 E ES|r1 r2 d1 E ES EC|r1 r2 d1 E ES EC SP|r1 r2 d1 o E ES EC SP L]; rewrite HD in E; try discriminate; injection E as <-; rewrite ES, ?Bool.andb_true_r, ?Bool.andb_false_r.
    + split; [now apply TP_seal_panic|reflexivity].
    + rewrite CS in EC. discriminate.
    + rewrite CS in EC. injection EC as <-. split; [now apply TP_single_panic with d1|reflexivity].
    + rewrite CS in EC. injection EC as <-. split; [now apply TP_end|reflexivity].
  - intros (T & l & EL' & ->). rewrite EL in EL'. injection EL' as <-. fold r0.
    destruct T as [ES|d1 ES SP|d1 o ES SP L]; rewrite ES, ?Bool.andb_true_r, ?Bool.andb_false_r.
    + now apply TS_seal_panic.
    + eapply TS_single_panic; [exact HD|exact ES|exact CS|exact SP].
    + eapply TS_end; [exact HD|exact ES|exact CS|exact SP|exact L].
Qed.
Print Assumptions C104_saved.
(** If block_l or unit_l is 0, saving makes the run panic before it does anything but write
    the first line. *)
Theorem C104_zero_length : forall H H2 pr params, block_l params = 0 \/ unit_l params = 0 -> forall s u c d r r' o,
  test_postorage_saving params H H2 pr true s u c d r r' o <-> o = Panic /\ r' = (fst r ++ samples_line, snd r).
Proof.
  intros H H2 pr params Z s u c d r r' o.
  assert (HD : header params true r = ((fst r ++ samples_line, snd r), Panic)).
  { unfold header, lengths_line, quot. destruct (Nat.eqb_spec (block_l params) 0) as [|N]; [reflexivity|]. cbn [bind]. destruct (Nat.eqb_spec (unit_l params) 0) as [|N']; [reflexivity|]. lia. }
  split.
  - intros T. destruct T as [r1 E|r1 E ES|r1 r2 d1 E ES EC|r1 r2 d1 E ES EC SP|r1 r2 d1 o E ES EC SP L]; rewrite HD in E; try discriminate. injection E as <-. auto.
  - intros [-> ->]. now apply TS_header.
Qed.
Print Assumptions C104_zero_length.
(** So saving is not only an observation: a run of nothing ends well without it. *)
Theorem C104_saving_observes_refuted : exists params c d, (forall H H2 pr, test_postorage H H2 pr params c d (Ok d)) /\
  forall H H2 pr s u r r' o, test_postorage_saving params H H2 pr true s u c d r r' o -> o = Panic.
Proof.
  exists (mkPosPara 630 63 0 63 64 64 64 1 1 "sloth"%string 0 3 0 3 2), (ten_run false false false false x00), bare. split.
  - intros H H2 pr. change (Ok bare) with (let* _ := Ok tt in Ok bare). apply TP_end; reflexivity.
  - intros H H2 pr s u r r' o T. apply C104_zero_length in T; [tauto|now left].
Qed.
Print Assumptions C104_saving_observes_refuted.

(** Successful runs one after the other only append, and the statistics file gets one line
    (one newline) for each run that saved, sealed and unsealed. *)
Definition newlines (f : file) : nat := count_occ Byte.byte_eq_dec f x0a.
Definition costs_plain (s : costs) : Prop :=
  plain (t_all s) /\ plain (t_vde s) /\ plain (t_file s) /\ plain (t_depend s) /\ plain (t_hash s) /\ plain (t_block s) /\ plain (t_mod s).
Lemma newlines_app a b : newlines (a ++ b) = newlines a + newlines b.
Proof. apply count_occ_app. Qed.
Lemma newlines_plain t : plain t -> newlines t = 0.
Proof. intros [_ P]. now apply count_occ_not_In. Qed.
Lemma stat_newlines params s u l : plain (txt (vde_mode params)) -> costs_plain s -> costs_plain u -> stat_line params s u = Ok l -> newlines l = 1.
Proof.
  intros PV (S1 & S2 & S3 & S4 & S5 & S6 & S7) (U1 & U2 & U3 & U4 & U5 & U6 & U7) E. unfold stat_line, quot in E.
  destruct (block_l params =? 0); [discriminate|]. destruct (unit_l params =? 0); [discriminate|]. cbn [bind] in E. apply (f_equal (fun x => match x with Ok v => v | Panic => l end)) in E. cbv beta iota in E. subst l.
  assert (C0 : newlines comma = 0) by reflexivity. assert (C1 : newlines (txt ",") = 0) by reflexivity. assert (C2 : newlines newline = 1) by reflexivity.
  rewrite !newlines_app, C0, C1, C2. rewrite !newlines_plain by (assumption || apply num_plain). reflexivity.
Qed.
Theorem C104_history : forall params H H2 pr, plain (txt (vde_mode params)) -> forall d r l d' r', saving_history params H H2 pr (d, r) l (d', r') ->
  Forall (fun '(_, s, u, _) => costs_plain s /\ costs_plain u) l ->
  history H H2 pr params d (map snd l) d' /\ (exists run stat, r' = (fst r ++ run, snd r ++ stat)) /\
  newlines (snd r') = newlines (snd r) + length (filter (fun '(save, _, _, c) => save && r_seal c && r_unseal c) l).
Proof.
  intros params H H2 pr PV d r l d' r' SH. remember (d, r) as dr eqn:ED. remember (d', r') as dr' eqn:ED'. revert d r d' r' ED ED'.
  induction SH as [dr|d0 r0 save s u c d1 r1 l dr T SH IH]; intros d r d' r' ED ED' F.
  - subst dr. injection ED' as <- <-. split; [constructor|]. split; [exists [], []; now rewrite !app_nil_r; destruct r|cbn; lia].
  - injection ED as -> ->. inversion F as [|? ? PSU FT]; subst. cbv beta iota in PSU. destruct PSU as [PS PU]. destruct (IH d1 r1 d' r' eq_refl eq_refl FT) as (HI & (run & stat & ->) & NL). clear IH.
    assert (X : test_postorage H H2 pr params c d (Ok d1) /\ exists a b, r1 = (fst r ++ a, snd r ++ b) /\ newlines b = if save && r_seal c && r_unseal c then 1 else 0).
    { destruct save.
      - destruct (Nat.eq_dec (block_l params) 0) as [B|B]; [apply C104_zero_length in T; [destruct T; discriminate|now left]|].
        destruct (Nat.eq_dec (unit_l params) 0) as [U|U]; [apply C104_zero_length in T; [destruct T; discriminate|now right]|].
        apply C104_saved in T; [|lia|lia]. destruct T as (T & sl & EL & ->). split; [exact T|].
        assert (ES : exists d2, seal_step H pr params c d = Ok d2) by (destruct (seal_step H pr params c d) eqn:ES; [eauto|inversion T; congruence]). destruct ES as (d2 & ->).
        rewrite Bool.andb_true_r. cbn [andb]. destruct (r_seal c && r_unseal c); [exists (head_text params ++ cost_lines s u), sl|exists (head_text params), []]; split; try reflexivity.
        + now apply (stat_newlines params s u).
        + now rewrite app_nil_r.
      - apply C104_unsaved in T. destruct T as [-> T]. split; [exact T|]. exists [], []. rewrite !app_nil_r. split; [now destruct r|reflexivity]. }
    destruct X as (T' & a & b & -> & NB). split; [now apply Hist_cons with d1|]. split.
    + exists (a ++ run), (b ++ stat). cbn [fst snd]. now rewrite !app_assoc.
    + rewrite NL. cbn [fst snd filter]. rewrite newlines_app, NB. destruct (save && r_seal c && r_unseal c); cbn [length]; lia.
Qed.
Print Assumptions C104_history.

(** * What the lines tell *)

(** Two lines of the statistics file are equal exactly if these parameters and all times
    are; the rounds of the delay function are not among them. *)
Ltac fields E := repeat (apply field in E; [|assumption || apply num_plain|assumption || apply num_plain]; let Q := fresh "Q" in destruct E as [Q E]).
Lemma ok_inj {A} (a b : A) : Ok a = Ok b -> a = b.
Proof. congruence. Qed.
Theorem C104_stat_fields : forall P P' s u s' u' l l', plain (txt (vde_mode P)) -> plain (txt (vde_mode P')) -> costs_plain s -> costs_plain u -> costs_plain s' -> costs_plain u' ->
  stat_line P s u = Ok l -> stat_line P' s' u' = Ok l' ->
  (l = l' <->
   (data_l P = data_l P' /\ block_l P = block_l P' /\ unit_l P = unit_l P' /\ seal_rounds P = seal_rounds P' /\ vde_mode P = vde_mode P' /\
    mode_l P = mode_l P' /\ cnt_l P = cnt_l P' /\ mode_s P = mode_s P' /\ cnt_s P = cnt_s P') /\ s = s' /\ u = u').
Proof.
  intros P P' s u s' u' l l' PV PV' (S1 & S2 & S3 & S4 & S5 & S6 & S7) (U1 & U2 & U3 & U4 & U5 & U6 & U7) (S1' & S2' & S3' & S4' & S5' & S6' & S7') (U1' & U2' & U3' & U4' & U5' & U6' & U7') E E'. split.
  - intros <-. unfold stat_line, quot in E, E'. destruct (block_l P =? 0); [discriminate|]. destruct (unit_l P =? 0); [discriminate|]. destruct (block_l P' =? 0); [discriminate|]. destruct (unit_l P' =? 0); [discriminate|].
    cbn [bind] in E, E'. rewrite <- E' in E. apply ok_inj in E. clear E'. fields E. change (t_mod u ++ x2c :: newline = t_mod u' ++ x2c :: newline) in E. apply last_field in E; [|assumption|assumption]. destruct E as [E _].
    repeat match goal with Q : num _ = num _ |- _ => apply num_inj in Q end. repeat match goal with Q : txt _ = txt _ |- _ => apply txt_inj in Q end.
    split; [repeat (split; [assumption|]); assumption|]. destruct s, s', u, u'. cbn in *. subst. auto.
  - intros ((E1 & E2 & E3 & E4 & E5 & E6 & E7 & E8 & E9) & -> & ->). unfold stat_line in E, E'. rewrite E1, E2, E3, E4, E5, E6, E7, E8, E9 in E. rewrite E in E'. congruence.
Qed.
Print Assumptions C104_stat_fields.
(** The head in the run file gives the rounds, but not the delay function's name. *)
Theorem C104_head_fields : forall P P', 
  head_text P = head_text P' <->
  data_l P = data_l P' /\ block_l P = block_l P' /\ unit_l P = unit_l P' /\ seal_rounds P = seal_rounds P' /\ vde_rounds P = vde_rounds P' /\
  mode_l P = mode_l P' /\ cnt_l P = cnt_l P' /\ mode_s P = mode_s P' /\ cnt_s P = cnt_s P'.
Proof.
  intros P P'. split.
  - intros E. unfold head_text, rounds_line in E. apply app_inv_head, app_inv_head, app_inv_head in E.
    assert (CH : forall a b s t s0 t0, txt s = x2c :: s0 -> num a ++ txt s ++ t = num b ++ txt s ++ t0 -> a = b /\ t = t0).
    { intros a b s t s0 t0 EH EQ. rewrite EH in EQ. cbn [app] in EQ. apply number in EQ; [|vm_compute; reflexivity|vm_compute; reflexivity]. destruct EQ as [-> EQ]. split; [reflexivity|now apply app_inv_head in EQ]. }
    repeat (eapply CH in E; [|reflexivity]; let Q := fresh "Q" in destruct E as [Q E]).
    change (num (block_l P / unit_l P) ++ x0a :: txt "seal round, " ++ num (seal_rounds P) ++ txt ", vde rounds, " ++ num (vde_rounds P) ++ txt ", mode l, " ++ num (mode_l P) ++ txt ", cnt l, " ++ num (cnt_l P) ++ txt ", mode s, " ++ num (mode_s P) ++ txt ", cnt s, " ++ num (cnt_s P) ++ newline ++ newline =
            num (block_l P' / unit_l P') ++ x0a :: txt "seal round, " ++ num (seal_rounds P') ++ txt ", vde rounds, " ++ num (vde_rounds P') ++ txt ", mode l, " ++ num (mode_l P') ++ txt ", cnt l, " ++ num (cnt_l P') ++ txt ", mode s, " ++ num (mode_s P') ++ txt ", cnt s, " ++ num (cnt_s P') ++ newline ++ newline) in E.
    apply number in E; [|vm_compute; reflexivity|vm_compute; reflexivity]. destruct E as [_ E]. apply app_inv_head in E.
    repeat (eapply CH in E; [|reflexivity]; let Q := fresh "Q" in destruct E as [Q E]).
    change (num (cnt_s P) ++ x0a :: newline = num (cnt_s P') ++ x0a :: newline) in E. apply number in E; [|vm_compute; reflexivity|vm_compute; reflexivity]. destruct E as [E _].
    repeat (split; [assumption|]). assumption.
  - intros (E1 & E2 & E3 & E4 & E5 & E6 & E7 & E8 & E9). unfold head_text, rounds_line. now rewrite E1, E2, E3, E4, E5, E6, E7, E8, E9.
Qed.
Print Assumptions C104_head_fields.
(** So runs with different delays leave the same line behind. *)
Theorem C104_stat_identifies_refuted : exists P P' s u l, costs_plain s /\ costs_plain u /\ vde_rounds P <> vde_rounds P' /\
  stat_line P s u = Ok l /\ stat_line P' s u = Ok l.
Proof.
  exists ten_params, (mkPosPara 630 63 63 63 64 64 64 1 10 "sloth"%string 0 3 0 3 2).
  set (t := mkCosts [x31] [x31] [x31] [x31] [x31] [x31] [x31]).
  assert (T : costs_plain t) by (assert (O : plain [x31]) by (split; intros [E|[]]; discriminate); repeat (split; [exact O|]); exact O).
  exists t, t. destruct (stat_total ten_params t t) as (l & E); [cbn; lia|cbn; lia|]. exists l. split; [exact T|]. split; [exact T|]. split; [cbn; lia|]. split; [exact E|exact E].
Qed.
Print Assumptions C104_stat_identifies_refuted.

Lemma seal_step_flags H pr params c c' d : r_seal c = r_seal c' -> r_unseal c = r_unseal c' -> r_rnd_file c = r_rnd_file c' -> r_rnd_iv c = r_rnd_iv c' ->
  seal_step H pr params c d = seal_step H pr params c' d.
Proof. intros A B C D. unfold seal_step. now rewrite A, B, C, D. Qed.
(** A run that saves, seals, unseals and then checks single blocks: the sealed file has been
    unsealed in place, the check panics, and the line is in the statistics file. *)
Theorem C104_reported_refuted : exists params c d, forall s u r, exists l, stat_line params s u = Ok l /\
  forall r' o, test_postorage_saving params hone hone Debug true s u c d r r' o -> o = Panic /\ snd r' = snd r ++ l.
Proof.
  set (run := ten_run true true false false x02). set (c := ten_run true true false true x02).
  destruct (C80_leaves hone hone Debug ten_params 10 1 ten_ok (fun d => eq_refl) ltac:(cbn; lia) bare [] bare run run) as (d & _ & _ & T);
    [constructor|exists [], []; auto|reflexivity|apply ten_no_zero|reflexivity|].
  assert (T' := T ltac:(exists 4, (Ok [0; 1]); reflexivity)). clear T. assert (R : history hone hone Debug ten_params bare [run] d) by (econstructor; [exact T'|constructor]).
  assert (SS : seal_step hone Debug ten_params c bare = Ok d) by (apply run_disk in T'; rewrite (seal_step_flags hone Debug ten_params c run bare eq_refl eq_refl eq_refl eq_refl); exact T').
  exists ten_params, c, bare. intros s u r. destruct (stat_total ten_params s u) as (l & EL); [cbn; lia|cbn; lia|]. exists l. split; [exact EL|]. intros r' o X.
  apply C104_saved in X; [|cbn; lia|cbn; lia]. destruct X as (X & l' & EL' & ->). rewrite EL in EL'. apply ok_inj in EL'. subst l'. rewrite SS. cbn [r_seal r_unseal ten_run c andb snd]. split; [|reflexivity].
  destruct (history_sealed hone hone Debug ten_params 10 1 ten_ok _ _ _ run R ltac:(exists [], []; auto) (ten_no_zero _)) as (EO & key & iv & g & st & pub & PP & EP & ES & EPub & LD & ESe & EU).
  change (unit_pl ten_params) with 64 in PP. rewrite (prepare_params_ok Debug 64 _ eq_refl) in PP. assert (key = P_512 /\ iv = repeat x02 128) as (-> & ->) by (injection PP as <- <-; split; reflexivity). clear PP.
  assert (EP' : copy_and_pad (create_random_file (r_rnd_file run) (data_l ten_params)) (data_l ten_params) (unit_l ten_params) = Ok (ten_plain x02)) by (vm_compute; reflexivity).
  assert (g = ten_plain x02) as -> by congruence. clear EP EP'.
  assert (S : forall o, single_step hone Debug ten_params c d o <-> o = Panic).
  { unfold single_step. rewrite EPub, EO, ESe. cbn [r_single r_parallel ten_run c].
    eapply single_sequential; [exact LD|vm_compute; reflexivity|]. vm_compute. reflexivity. }
  inversion X as [P|d2 E2 S2|d2 o2 E2 S2 L]; subst; [reflexivity|reflexivity|]. rewrite SS in E2. injection E2 as <-. apply S in S2. discriminate.
Qed.
Print Assumptions C104_reported_refuted.

(** * The pipeline *)

(** [pipeline_logged ... cs l o]: a run with the challenges cs appends the lines l and ends
    with o.  These are the runs of C42. *)
Theorem C104_pipeline : forall H H2 pr params parallel_num count rnd_file rnd_iv pub cs o,
  pipeline H H2 pr params parallel_num count rnd_file rnd_iv pub cs o <-> exists l, pipeline_logged H H2 pr params parallel_num count rnd_file rnd_iv pub cs l o.
Proof. exact pipeline_both. Qed.
Print Assumptions C104_pipeline.
(** The lines say how far the run got: a run that ends well has written all of them; a
    panicking one a proper beginning, and the first missing line names the step that
    failed.  It is never the check of the response hash, which compares a value with
    itself. *)
Definition full_record (challenges : nat) : list stage :=
  [Origin_tree; Sealing; Sealed_tree] ++
  concat (map (fun i => [Challenge i; Create; Response_1; Response_2; Verify_hash; Verify_path; Batch_unseal; Batch_verify]) (seq 0 challenges)) ++
  [Complete_unseal; Verify_tree].
Theorem C104_progress : forall H H2 pr params parallel_num count rnd_file rnd_iv pub cs l o,
  pipeline_logged H H2 pr params parallel_num count rnd_file rnd_iv pub cs l o ->
  match o with
  | Ok _ => l = full_record (length cs)
  | Panic => exists missing rest, full_record (length cs) = l ++ missing :: rest /\ missing <> Verify_hash
  end.
Proof. intros H H2 pr params pn count rf ri pub cs l o P. apply pipeline_progress in P. destruct o; exact P. Qed.
Print Assumptions C104_progress.
(** As many challenges as the record has lines of the last check were answered and passed
    every check. *)
Definition stage_eq_dec (a b : stage) : {a = b} + {a <> b}.
Proof. decide equality. apply Nat.eq_dec. Defined.
Definition passed (l : list stage) : nat := count_occ stage_eq_dec l Batch_verify.
Lemma passed_app a b : passed (a ++ b) = passed a + passed b.
Proof. apply count_occ_app. Qed.
Lemma passed_setup H H2 pr params rf ri pub : passed (fst (setup_logged H H2 pr params rf ri pub)) = 0.
Proof.
  pose proof (setup_progress H H2 pr params rf ri pub) as P. destruct (setup_logged H H2 pr params rf ri pub) as [l [v|]]; unfold progress in P; cbn [fst snd] in *; [now subst|].
  destruct P as (s & rest & E & _). assert (X := f_equal passed E). rewrite passed_app in X. change (passed [Origin_tree; Sealing; Sealed_tree]) with 0 in X. lia.
Qed.
Lemma passed_finish H H2 pr params oroot key iv sealed : passed (fst (finish_logged H H2 pr params oroot key iv sealed)) = 0.
Proof.
  pose proof (finish_progress H H2 pr params oroot key iv sealed) as P. destruct (finish_logged _ _ _ _ _ _ _ _) as [l [v|]]; unfold progress in P; cbn [fst snd] in *; [now subst|].
  destruct P as (s & rest & E & _). assert (X := f_equal passed E). rewrite passed_app in X. change (passed [Complete_unseal; Verify_tree]) with 0 in X. lia.
Qed.
Lemma passed_challenge H H2 pr params pn origin sealed pub leaves tree root r idx l o : challenge_logged H H2 pr params pn origin sealed pub leaves tree root r idx l o ->
  passed l = if o then 1 else 0.
Proof.
  intros C. apply challenge_progress in C. unfold progress in C. cbn [fst snd] in C. destruct o; [now subst|]. destruct C as (s & rest & E & _).
  assert (L := f_equal (@length stage) E). rewrite app_length in L. cbn [length] in L.
  destruct l as [|? [|? [|? [|? [|? [|? [|? l]]]]]]]; cbn in E, L; try lia; injection E as; subst; try reflexivity; destruct rest; cbn in *; try lia; congruence.
Qed.
Lemma passed_challenges H H2 pr params pn count n origin sealed pub leaves tree root i cs l o : challenges_logged H H2 pr params pn count n origin sealed pub leaves tree root i cs l o ->
  forall j, j < passed l -> exists r draw fuel idx, nth_error cs j = Some (r, draw) /\ create_challenges fuel count (0, n) draw = Some (Ok idx) /\
  challenge H H2 pr params pn origin sealed pub leaves tree root r idx (Ok tt).
Proof.
  intros C. induction C as [i|i r draw cs fuel D|i r draw cs fuel idx l D C|i r draw cs fuel idx l ls o D C CS IH]; intros j J.
  - cbn in J. lia.
  - cbn in J. lia.
  - apply passed_challenge in C. change (passed (Challenge i :: Create :: l)) with (passed l) in J. lia.
  - change (Challenge i :: Create :: l ++ ls) with ([Challenge i; Create] ++ l ++ ls) in J. rewrite !passed_app in J. change (passed [Challenge i; Create]) with 0 in J. pose proof (passed_challenge _ _ _ _ _ _ _ _ _ _ _ _ _ _ _ C) as PC. cbn in PC. rewrite PC in J.
    destruct j as [|j]; [exists r, draw, fuel, idx; split; [reflexivity|]; split; [exact D|]; apply challenge_both; eauto|]. cbn [nth_error]. apply IH. lia.
Qed.
Theorem C104_passed : forall H H2 pr params parallel_num count rnd_file rnd_iv pub cs l o,
  pipeline_logged H H2 pr params parallel_num count rnd_file rnd_iv pub cs l o ->
  forall j, j < passed l -> exists origin origin_root key iv st pub' leaves tree root r draw fuel idx,
  pipeline_setup H H2 pr params rnd_file rnd_iv pub = Ok (origin, origin_root, key, iv, st, pub', (leaves, tree, root)) /\
  nth_error cs j = Some (r, draw) /\ create_challenges fuel count (0, data_l params / block_l params) draw = Some (Ok idx) /\
  challenge H H2 pr params parallel_num origin (s_file st) pub' leaves tree root r idx (Ok tt).
Proof.
  intros H H2 pr params pn count rf ri pub cs l o P j J. pose proof (passed_setup H H2 pr params rf ri pub) as PS. pose proof (setup_both H H2 pr params rf ri pub) as SB.
  destruct P as [l E|l origin oroot key iv st pub' leaves tree root lc E C|l origin oroot key iv st pub' leaves tree root lc lf o E C EF]; rewrite E in PS, SB; cbn [fst snd] in PS, SB.
  - lia.
  - rewrite passed_app, PS in J. destruct (passed_challenges _ _ _ _ _ _ _ _ _ _ _ _ _ _ _ _ _ C j J) as (r & draw & fuel & idx & A & B & D). exists origin, oroot, key, iv, st, pub', leaves, tree, root, r, draw, fuel, idx. auto.
  - pose proof (passed_finish H H2 pr params oroot key iv (s_file st)) as PF. rewrite EF in PF. cbn [fst] in PF. rewrite !passed_app, PS, PF in J.
    destruct (passed_challenges _ _ _ _ _ _ _ _ _ _ _ _ _ _ _ _ _ C j ltac:(lia)) as (r & draw & fuel & idx & A & B & D). exists origin, oroot, key, iv, st, pub', leaves, tree, root, r, draw, fuel, idx. auto.
Qed.
Print Assumptions C104_passed.
(** The text can be read back: two lists of lines with the same text have the same kinds of
    lines in the same order, and each line the same text. *)
Theorem C104_readable : forall l l', times_plain l -> times_plain l' -> record l = record l' -> stages l = stages l' /\ lines l = lines l'.
Proof. intros l l' A B E. now apply record_inj. Qed.
Print Assumptions C104_readable.

(** An honest run with two blocks and one challenge. *)
Example C104_ex : exists l, pipeline_logged hone hone Debug one_params 0 2 (fun _ => x02) (fun _ => x05) [] [(x07, fun i => i)] l (Ok tt) /\ passed l = 1.
Proof.
  destruct C42_ex as (L & S & H32 & NZ & fuel & idx & CC).
  assert (P : pipeline hone hone Debug one_params 0 2 (fun _ => x02) (fun _ => x05) [] [(x07, fun i => i)] (Ok tt)).
  { eapply C42_pipeline.
    - exact L.
    - exact H32.
    - change (unit_pl one_params) with 64. rewrite prepare_params_ok by reflexivity. rewrite Nat.eqb_refl. reflexivity.
    - exact S.
    - now apply shipped_sound.
    - apply P_512_holds_unit.
    - reflexivity.
    - intros g st EG ES. exact (one_round_no_zero hone Debug one_params 2 2 _ _ g st H32 NZ L S eq_refl eq_refl EG ES).
    - lia.
    - constructor; [|constructor]. exists fuel, idx. exact CC. }
  apply C104_pipeline in P. destruct P as (l & P). exists l. split; [exact P|]. apply C104_progress in P. rewrite P. reflexivity.
Qed.
Example C104_text_ex : times_plain [(Sealing, [x31], [x32]); (Challenge 12, [], []); (Verify_tree, [x31; x2e; x35], [])].
Proof. repeat (constructor; [split; split; cbn; intuition discriminate|]). constructor. Qed.
Example C104_history_ex : exists d r, saving_history ten_params hone hone Debug (bare, ([], [])) [(true, mkCosts [x31] [x31] [x31] [x31] [x31] [x31] [x31], mkCosts [x32] [x32] [x32] [x32] [x32] [x32] [x32], ten_run true true true false x02)] (d, r) /\
  newlines (snd r) = 1.
Proof.
  set (run := ten_run true true true false x02). set (s := mkCosts [x31] [x31] [x31] [x31] [x31] [x31] [x31]). set (u := mkCosts [x32] [x32] [x32] [x32] [x32] [x32] [x32]).
  destruct (C80_leaves hone hone Debug ten_params 10 1 ten_ok (fun d => eq_refl) ltac:(cbn; lia) bare [] bare run run) as (d & _ & _ & T);
    [constructor|exists [], []; auto|reflexivity|apply ten_no_zero|reflexivity|].
  assert (T' := T ltac:(exists 4, (Ok [0; 1]); reflexivity)). clear T.
  destruct (stat_total ten_params s u) as (l & EL); [cbn; lia|cbn; lia|].
  assert (SH : saving_history ten_params hone hone Debug (bare, ([], [])) [(true, s, u, run)] (d, (head_text ten_params ++ cost_lines s u, l))).
  { eapply SH_cons; [|constructor]. apply C104_saved; [cbn; lia|cbn; lia|]. split; [exact T'|]. exists l. split; [exact EL|]. apply run_disk in T'. rewrite T'. reflexivity. }
  exists d. eexists. split; [exact SH|]. apply C104_history in SH.
  - destruct SH as (_ & _ & E). rewrite E. reflexivity.
  - split; cbn; intuition discriminate.
  - assert (O1 : plain [x31]) by (split; intros [E|[]]; discriminate). assert (O2 : plain [x32]) by (split; intros [E|[]]; discriminate).
    constructor; [|constructor]. split; [repeat (split; [exact O1|]); exact O1|repeat (split; [exact O2|]); exact O2].
Qed.

(** * The tables *)

(** A text is read as a table: the rows end with newlines, and the cells of a row are
    separated by commas, each followed by a space. *)
Fixpoint split_at (sep : byte) (t : list byte) : list (list byte) :=
  match t with
  | [] => [[]]
  | b :: t' => if Byte.byte_eq_dec b sep then [] :: split_at sep t'
               else match split_at sep t' with [] => [[b]] | c :: cs => (b :: c) :: cs end
  end.
Definition no_space (c : list byte) : list byte := match c with x20 :: c' => c' | _ => c end.
Definition cells (row : list byte) : list (list byte) :=
  match split_at x2c row with [] => [] | c :: cs => c :: map no_space cs end.
Definition table (t : list byte) : list (list (list byte)) := map cells (split_at x0a t).

Lemma split_cut sep a t : ~ In sep a -> split_at sep (a ++ sep :: t) = a :: split_at sep t.
Proof.
  induction a as [|b a IH]; intros N; cbn [app split_at].
  - destruct (Byte.byte_eq_dec sep sep); congruence.
  - destruct (Byte.byte_eq_dec b sep) as [->|]; [destruct N; now left|]. rewrite IH by (intros I; apply N; now right). reflexivity.
Qed.
Lemma split_one sep a : ~ In sep a -> split_at sep a = [a].
Proof.
  induction a as [|b a IH]; intros N; cbn [split_at]; [reflexivity|].
  destruct (Byte.byte_eq_dec b sep) as [->|]; [destruct N; now left|]. rewrite IH by (intros I; apply N; now right). reflexivity.
Qed.
Fixpoint join (c : list byte) (cs : list (list byte)) : list byte := match cs with [] => c | d :: cs' => c ++ comma ++ join d cs' end.
Lemma join_newline cs : forall c, plain c -> Forall plain cs -> ~ In x0a (join c cs).
Proof.
  induction cs as [|d cs IH]; intros c [_ P] F; cbn [join]; [exact P|]. inversion F as [|? ? PD FT]; subst. intros I. apply in_app_or in I as [I|I]; [contradiction|].
  apply in_app_or in I as [I|I]; [cbn in I; intuition discriminate|]. now apply (IH d).
Qed.
Lemma join_split cs : forall c, plain c -> Forall plain cs -> split_at x2c (join c cs) = c :: map (fun d => x20 :: d) cs.
Proof.
  induction cs as [|d cs IH]; intros c [P _] F; cbn [join]; [now apply split_one|]. inversion F as [|? ? PD FT]; subst.
  change (c ++ comma ++ join d cs) with (c ++ x2c :: (x20 :: join d cs)). rewrite split_cut by exact P. cbn [split_at]. rewrite (IH d PD FT). reflexivity.
Qed.
Lemma join_cells c cs : plain c -> Forall plain cs -> cells (join c cs) = c :: cs.
Proof. intros P F. unfold cells. rewrite join_split by assumption. f_equal. rewrite map_map. cbn [no_space]. apply map_id. Qed.
Lemma table_row c cs t : plain c -> Forall plain cs -> table (join c cs ++ x0a :: t) = (c :: cs) :: table t.
Proof. intros P F. unfold table. rewrite split_cut by now apply join_newline. cbn [map]. now rewrite join_cells. Qed.
Lemma table_empty t : table (x0a :: t) = [[]] :: table t.
Proof. reflexivity. Qed.
Lemma table_open_row c cs t : plain c -> Forall plain cs -> table (join c cs ++ x2c :: x0a :: t) = (c :: cs ++ [[]]) :: table t.
Proof.
  intros P F. unfold table. change (x2c :: x0a :: t) with ([x2c] ++ x0a :: t). rewrite app_assoc, split_cut.
  - cbn [map]. f_equal. unfold cells.
    assert (X : forall cs c, plain c -> Forall plain cs -> split_at x2c (join c cs ++ [x2c]) = c :: map (fun d => x20 :: d) cs ++ [[]]).
    { clear. induction cs as [|d cs IH]; intros c [P _] F; cbn [join map app]; [now apply split_cut|]. inversion F as [|? ? PD FT]; subst.
      rewrite <- app_assoc. change (c ++ (comma ++ join d cs) ++ [x2c]) with (c ++ x2c :: (x20 :: join d cs ++ [x2c])). rewrite split_cut by exact P. cbn [split_at]. rewrite (IH d PD FT). reflexivity. }
    rewrite X by assumption. f_equal. rewrite map_app, map_map. cbn [no_space map]. now rewrite map_id.
  - intros I. apply in_app_or in I as [I|I]; [now apply (join_newline cs c P F)|cbn in I; intuition discriminate].
Qed.
Definition plain_b (t : list byte) : bool := forallb (fun b => negb (Byte.eqb b x2c) && negb (Byte.eqb b x0a)) t.
Lemma plain_b_ok t : plain_b t = true -> plain t.
Proof.
  unfold plain_b. rewrite forallb_forall. intros P. split; intros I; specialize (P _ I); discriminate.
Qed.

(** The table of the times in the run file. *)
Theorem C104_times_table : forall s u rest, costs_plain s -> costs_plain u ->
  table (cost_lines s u ++ rest) =
  [ [txt "[P] Seal"; t_all s];
    [txt "vde"; t_vde s; txt "file"; t_file s; txt "depend"; t_depend s; txt "hash"; t_hash s; txt "block"; t_block s; txt "modadd"; t_mod s];
    [txt "[P] Unseal"; t_all u];
    [txt "vde inv"; t_vde u; txt "file"; t_file u; txt "depend"; t_depend u; txt "hash"; t_hash u; txt "block"; t_block u; txt "modsub"; t_mod u];
    [[]] ] ++ table rest.
Proof.
  intros s u rest (S1 & S2 & S3 & S4 & S5 & S6 & S7) (U1 & U2 & U3 & U4 & U5 & U6 & U7).
  replace (cost_lines s u ++ rest) with
    (join (txt "[P] Seal") [t_all s] ++ x0a ::
     join (txt "vde") [t_vde s; txt "file"; t_file s; txt "depend"; t_depend s; txt "hash"; t_hash s; txt "block"; t_block s; txt "modadd"; t_mod s] ++ x0a ::
     join (txt "[P] Unseal") [t_all u] ++ x0a ::
     join (txt "vde inv") [t_vde u; txt "file"; t_file u; txt "depend"; t_depend u; txt "hash"; t_hash u; txt "block"; t_block u; txt "modsub"; t_mod u] ++ x0a ::
     x0a :: rest).
  - rewrite !table_row by (repeat first [apply Forall_nil|apply Forall_cons|assumption|apply plain_b_ok; reflexivity]). rewrite table_empty. reflexivity.
  - unfold cost_lines. cbn [join]. repeat (rewrite <- app_assoc; cbn [app]). reflexivity.
Qed.
Print Assumptions C104_times_table.
(** The row of the statistics file. *)
Theorem C104_stat_table : forall P s u l rest, plain (txt (vde_mode P)) -> costs_plain s -> costs_plain u -> stat_line P s u = Ok l ->
  table (l ++ rest) =
  [ [num (data_l P); num (block_l P); num (data_l P / block_l P); num (unit_l P); num (block_l P / unit_l P); num (seal_rounds P); txt (vde_mode P); num (mode_l P); num (cnt_l P); num (mode_s P); num (cnt_s P);
     t_all s; t_vde s; t_file s; t_depend s; t_hash s; t_block s; t_mod s;
     t_all u; t_vde u; t_file u; t_depend u; t_hash u; t_block u; t_mod u; []] ] ++ table rest.
Proof.
  intros P s u l rest PV (S1 & S2 & S3 & S4 & S5 & S6 & S7) (U1 & U2 & U3 & U4 & U5 & U6 & U7) E.
  unfold stat_line, quot in E. destruct (block_l P =? 0); [discriminate|]. destruct (unit_l P =? 0); [discriminate|]. cbn [bind] in E. apply ok_inj in E. subst l.
  replace ((_ ++ _) ++ rest) with
    (join (num (data_l P)) [num (block_l P); num (data_l P / block_l P); num (unit_l P); num (block_l P / unit_l P); num (seal_rounds P); txt (vde_mode P); num (mode_l P); num (cnt_l P); num (mode_s P); num (cnt_s P);
       t_all s; t_vde s; t_file s; t_depend s; t_hash s; t_block s; t_mod s; t_all u; t_vde u; t_file u; t_depend u; t_hash u; t_block u; t_mod u] ++ x2c :: x0a :: rest).
  - rewrite table_open_row by (repeat first [apply Forall_nil|apply Forall_cons|assumption|apply num_plain]). reflexivity.
  - cbn [join]. repeat (rewrite <- app_assoc; cbn [app]). reflexivity.
Qed.
Print Assumptions C104_stat_table.
(** The table at the head of a run in the run file. *)
Theorem C104_head_table : forall P rest,
  table (head_text P ++ rest) =
  [ [txt "-- SAMPLES"; txt "1"]; [[]];
    [txt "(byte) data len"; num (data_l P); txt "block len"; num (block_l P); txt "block count"; num (data_l P / block_l P); txt "unit len"; num (unit_l P); txt "unit count"; num (block_l P / unit_l P)];
    [txt "seal round"; num (seal_rounds P); txt "vde rounds"; num (vde_rounds P); txt "mode l"; num (mode_l P); txt "cnt l"; num (cnt_l P); txt "mode s"; num (mode_s P); txt "cnt s"; num (cnt_s P)];
    [[]] ] ++ table rest.
Proof.
  intros P rest.
  replace (head_text P ++ rest) with
    (join (txt "-- SAMPLES") [txt "1"] ++ x0a :: x0a ::
     join (txt "(byte) data len") [num (data_l P); txt "block len"; num (block_l P); txt "block count"; num (data_l P / block_l P); txt "unit len"; num (unit_l P); txt "unit count"; num (block_l P / unit_l P)] ++ x0a ::
     join (txt "seal round") [num (seal_rounds P); txt "vde rounds"; num (vde_rounds P); txt "mode l"; num (mode_l P); txt "cnt l"; num (cnt_l P); txt "mode s"; num (mode_s P); txt "cnt s"; num (cnt_s P)] ++ x0a ::
     x0a :: rest).
  - repeat first [rewrite table_row by (repeat first [apply Forall_nil|apply Forall_cons|apply num_plain|apply plain_b_ok; reflexivity])|rewrite table_empty]. reflexivity.
  - unfold head_text, rounds_line. cbn [join]. repeat (rewrite <- app_assoc; cbn [app]). reflexivity.
Qed.
Print Assumptions C104_head_table.
Example C104_table_ex : table (txt "a, 1, b, 22" ++ newline ++ newline ++ txt "c,") = [[txt "a"; txt "1"; txt "b"; txt "22"]; [[]]; [txt "c"; []]].
Proof. reflexivity. Qed.
