(** Property C119: a prover that stores the original only and never seals it passes every
    challenge by sealing each block asked for alone.  Vocabulary: [judge], [answer] from
    Gather; [answer_on_demand] from Demand (a program of the prover, not of the repository). *)
From Coq Require Import Strings.Byte Sorted Znumtheory.
From Verif Require Import Base Sloth Common Depend Prover Verifier Merkle Postorage BytesFacts DependDet DependSpec SealSpec SealCore SealFile SealTop SealZero ShortTable SealWitness VerifierFacts ParallelFacts ChallengeFacts
  PostorageFacts SealVerify SealMeaning ReplyMeaning PropMeaning SpotFacts PropSpot PropVerifier PropChance Work WorkFacts Gather PropGather PropPlain PropJudge PropUpdate Demand.
Local Open Scope nat_scope.

Section D.
Context (H : list byte -> list byte) (pr : profile) (params : PosPara) (key : Z) (iv : list byte) (n m : nat).
Hypothesis SET : setting H pr params key n m.
Hypothesis LAY : layout params n m.
Hypothesis SK : sound_key H key.
Context (origin g : file).
Hypothesis EP : copy_and_pad origin (data_l params) (unit_l params) = Ok g.
Hypothesis SE : sealable params key n m g.

Lemma units_ok k : k < n -> block_ok params key m (block_units params m g k).
Proof.
  intros K. unfold block_units. split; [now rewrite map_length, seq_length|]. apply Forall_forall. intros u Iu. apply in_map_iff in Iu as (i & <- & Ii). apply in_seq in Ii.
  assert (Q : k * m + i < n * m) by nia. destruct SE as [LG FG]. split; [|now apply FG].
  unfold unit_bytes. rewrite firstn_length, skipn_length. rewrite (l_block_pl _ _ _ LAY) in LG. nia.
Qed.

Lemma alone_ok k : k < n -> exists b log, seal_alone H pr params key iv g k = Ok (b, log) /\ length b = m /\ length log = m * seal_rounds params /\
  (~ In 0%Z log -> works H pr params key iv origin k (b, [], [])).
Proof.
  intros K. pose proof (units_block params n m LAY) as UB. pose proof (l_unit _ _ _ LAY) as UL.
  assert (SM : short_modes_fine pr params (block_l params / unit_l params) m) by (rewrite UB; eapply fine_self, (set_short _ _ _ _ _ _ SET)).
  pose proof (sound_lt H pr params key n m SET SK) as KB. pose proof (hh _ _ _ _ _ _ SET) as HH. pose proof (k1 _ _ _ _ _ _ SET) as K1.
  destruct (short_table' pr params _ m SM) as (t & T & SO).
  assert (B : bu_idxs_s pr params = Ok t). { rewrite <- T. unfold bu_idxs_s, seal_idxs_s. replace (unit_l params =? 0) with false by (symmetry; apply Nat.eqb_neq; lia). reflexivity. }
  assert (RB : read_block params g k = Ok (block_units params m g k)).
  { rewrite (read_block_ok params m (g_unit _ _ _ (set_geom _ _ _ _ _ _ SET)) (g_block_pl _ _ _ (set_geom _ _ _ _ _ _ SET))). f_equal. apply (block_units_chunks H pr params key n m SET); [destruct SE; lia|exact K]. }
  pose proof (units_ok k K) as BO. destruct BO as [LB FB].
  destruct (frounds_ok H params key HH K1 (K2 H params key KB) t [] (if k =? 0 then iv else []) m (block_units params m g k) SO (Forall_nil _) (units_ok k K)) as (R & z & BR & FR & _).
  assert (EA : seal_alone H pr params key iv g k = Ok (R, z)).
  { unfold seal_alone. rewrite RB. cbn [bind]. rewrite B. cbn [bind].
    rewrite (seal_block_rounds_frounds H params key iv t [] (repeat [] k) k m (block_units params m g k) [] []); [|exact LB|].
    - rewrite FR. now rewrite app_nil_r.
    - intros K0. apply index_nth. apply nth_error_repeat. lia. }
  exists R, z. split; [exact EA|]. split; [exact (proj1 BR)|]. split.
  - unfold seal_alone in EA. rewrite RB in EA. cbn [bind] in EA. rewrite B in EA. cbn [bind] in EA. apply seal_rounds_count in EA. cbn [snd length] in EA. rewrite LB in EA. lia.
  - intros NZ. destruct (frounds_reply H pr params key iv m HH K1 KB t [] k [] (block_units params m g k) R z T SO (Forall_nil _) (units_ok k K)) as (U & M & S & IM).
    { rewrite FR. now rewrite app_nil_r. }
    exists (block_units params m g k). cbn [fst snd]. split; [|exact (honest_block H params n m LAY origin g k EP K)].
    apply (reply_iff H pr params key iv m HH K1 KB SM); [lia| |cbn; lia|cbn; lia|cbn; lia|repeat constructor|].
    + constructor; [exact (block_ok_shaped params key m R BR)|constructor].
    + split; [reflexivity|]. intros j J. cbn [length] in J. assert (j = 0) as -> by lia. cbn [nth]. split; [exact LB|]. eexists.
      apply (reply_back H pr params key iv m K1 KB SM k [] [] (block_units params m g k) R U M); [destruct SK; auto|exact (units_ok k K)|exact S|].
      intros t' L E0. apply NZ. rewrite <- E0. now apply IM.
Qed.

Lemma all_alone idx : Forall (fun k => k < n) idx -> exists bs, mapM (seal_alone H pr params key iv g) idx = Ok bs /\
  length bs = length idx /\ Forall (fun b => length (fst b) = m) bs /\ length (concat (map snd bs)) = length idx * (m * seal_rounds params) /\
  (~ In 0%Z (concat (map snd bs)) -> Forall2 (works H pr params key iv origin) idx (map (fun b => (fst b, [], [])) bs)).
Proof.
  induction 1 as [|k idx K FK (bs & E & L & FB & C & W)].
  - exists []. split; [reflexivity|]. split; [reflexivity|]. split; [constructor|]. split; [reflexivity|]. intros _. constructor.
  - destruct (alone_ok k K) as (b & log & EA & LB & LA & WA). exists ((b, log) :: bs). cbn [mapM]. rewrite EA. cbn [bind]. rewrite E. cbn [bind]. split; [reflexivity|].
    split; [cbn; lia|]. split; [constructor; assumption|]. cbn [map concat snd fst length]. split; [rewrite app_length; lia|]. intros NZ. constructor; [apply WA|apply W]; intros I; apply NZ, in_or_app; auto.
Qed.
End D.

(** C119: from the original alone the answer to any challenge is computed with one block of
    evaluations for each block asked for, and is accepted, whatever tree was committed to,
    unless a masked number was zero. *)
Theorem C119_demand : forall H pr params key iv n m, setting H pr params key n m -> layout params n m -> sound_key H key -> same_tables params ->
  forall origin g, copy_and_pad origin (data_l params) (unit_l params) = Ok g -> sealable params key n m g ->
  forall idx, StronglySorted lt idx -> idx <> [] -> Forall (fun k => k < n) idx ->
  exists a log, answer_on_demand H pr params key iv origin idx = Ok (a, log) /\ length (a_blocks a) = length idx /\
  length log = length idx * (m * seal_rounds params) /\
  (forall out vlog, batch_unseal_w H pr params key iv idx (a_before a) (a_deps a) (a_blocks a) = Ok (out, vlog) -> length vlog = length log) /\
  (~ In 0%Z log -> forall H2 pub ids leaves tree root r parallel_num, hash32 H2 ->
   load_data pub = Ok (key, iv) -> length ids = n -> generate_merkle_tree_from_data H2 ids = Ok (leaves, tree, root) ->
   exists proof, judge H H2 pr params parallel_num origin pub leaves root r idx (H (response_data r (a_blocks a))) a proof (Ok tt)).
Proof.
  intros H pr params key iv n m SET LAY SK ST origin g EP SE idx SS NE FK. destruct (all_alone H pr params key iv n m SET LAY SK origin g EP SE idx FK) as (bs & E & L & FB & C & W).
  exists (bundle (map (fun b => (fst b, [], [])) bs)), (concat (map snd bs)). split; [|split; [unfold bundle; cbn [a_blocks]; now rewrite !map_length|split; [exact C|split]]].
  - unfold answer_on_demand. rewrite EP. cbn [bind]. rewrite E. cbn [bind]. unfold bundle. rewrite !map_map. reflexivity.
  - intros out vlog EV. apply batch_count in EV. rewrite EV, C, <- L. unfold bundle. cbn [a_blocks]. rewrite !map_map. cbn [fst]. clear - FB.
    induction FB as [|b bs B FB IH]; [cbn; lia|]. cbn [map length]. unfold total_units, list_sum in *. cbn [map fold_right]. rewrite B. nia.
  - intros NZ H2 pub ids leaves tree root r parallel_num HH LD LI GT.
    apply (works_judge H H2 pr params key iv origin ST HH) with (ids := ids) (tree := tree); auto. now rewrite LI.
Qed.
Print Assumptions C119_demand.
(** Each block is sealed by itself: what is sent about it, and what it costs, is the same
    whatever else is asked for. *)
Theorem C119_each : forall H pr params key iv origin idx a log, answer_on_demand H pr params key iv origin idx = Ok (a, log) ->
  forall i k, nth_error idx i = Some k -> exists b blog, answer_on_demand H pr params key iv origin [k] = Ok (mkAnswer [[]] [[]] [b], blog) /\
  nth_error (a_before a) i = Some [] /\ nth_error (a_deps a) i = Some [] /\ nth_error (a_blocks a) i = Some b.
Proof.
  intros H pr params key iv origin idx a log E i k K. unfold answer_on_demand in *. destruct (copy_and_pad _ _ _) as [g|]; [|discriminate E]. cbn [bind] in *.
  destruct (mapM (seal_alone H pr params key iv g) idx) as [bs|] eqn:M; [|discriminate E]. cbn [bind] in E. injection E as <- _.
  destruct (mapM_nth _ _ _ M i k K) as (b & NB & EB). exists (fst b), (snd b ++ []). cbn [mapM]. rewrite EB. cbn [bind map concat a_before a_deps a_blocks]. split; [reflexivity|].
  repeat split; rewrite nth_error_map, NB; reflexivity.
Qed.
Print Assumptions C119_each.

(** Three blocks.  To be asked for the last one costs as much as to be asked for the first
    one, a third of the sealing; what is sent is not in the sealed file, and is accepted. *)
Definition demand_trial : res (seal_state * (answer * list Z)) :=
  let* g := copy_and_pad spot_origin 12 2 in
  let* st := seal hsum Debug spot_params ex_key [] g in
  let* r := answer_on_demand hsum Debug spot_params ex_key [] spot_origin [2] in
  Ok (st, r).
Theorem C119_must_seal_refuted : exists g st b log, copy_and_pad spot_origin 12 2 = Ok g /\ seal hsum Debug spot_params ex_key [] g = Ok st /\
  answer_on_demand hsum Debug spot_params ex_key [] spot_origin [2] = Ok (mkAnswer [[]] [[]] [b], log) /\
  3 * length log = length (s_log st) /\ (forall k, k < 3 -> concat b <> read_file (s_file st) (k * 6) 6) /\
  forall H2 pub ids leaves tree root r parallel_num, hash32 H2 -> load_data pub = Ok (ex_key, []) -> length ids = 3 -> generate_merkle_tree_from_data H2 ids = Ok (leaves, tree, root) ->
  exists proof, judge hsum H2 Debug spot_params parallel_num spot_origin pub leaves root r [2] (hsum (response_data r [b])) (mkAnswer [[]] [[]] [b]) proof (Ok tt).
Proof.
  assert (T : match demand_trial with
    | Ok (st, (a, log)) => no_zero log && (3 * length log =? length (s_log st)) && match copy_and_pad spot_origin 12 2 with Ok g => sealable_b spot_params ex_key 3 2 g | Panic => false end &&
        match a_blocks a with [b] => forallb (fun k => negb (bytes_eqb (concat b) (read_file (s_file st) (k * 6) 6))) (seq 0 3) | _ => false end
    | Panic => false end = true) by (vm_compute; reflexivity).
  unfold demand_trial in T.
  destruct (copy_and_pad spot_origin 12 2) as [g|] eqn:E1; [|discriminate T]. cbn [bind] in T.
  destruct (seal hsum Debug spot_params ex_key [] g) as [st|] eqn:E2; [|discriminate T]. cbn [bind] in T.
  destruct (answer_on_demand hsum Debug spot_params ex_key [] spot_origin [2]) as [[a log]|] eqn:E3; [|discriminate T]. cbn [bind] in T.
  destruct (C119_each _ _ _ _ _ _ _ _ _ E3 0 2 eq_refl) as (b & blog & E4 & _). rewrite E3 in E4. injection E4 as -> ->. cbn [a_blocks] in T.
  apply andb_prop in T as (T & DB). apply andb_prop in T as (T & SB). apply andb_prop in T as (NZ & LL). apply Nat.eqb_eq in LL.
  exists g, st, b, blog. split; [reflexivity|]. split; [exact E2|]. split; [reflexivity|]. split; [exact LL|]. split.
  { intros k K. rewrite forallb_forall in DB. specialize (DB k ltac:(apply in_seq; lia)). now apply negb_true_iff, bytes_eqb_neq in DB. }
  destruct (C119_demand hsum Debug spot_params ex_key [] 3 2 spot_setting spot_layout ex_sound (or_introl eq_refl) spot_origin g E1 (sealable_b_ok _ _ _ _ _ SB) [2]) as (a' & log' & E5 & _ & _ & _ & J); [repeat constructor|discriminate|repeat constructor|].
  rewrite E3 in E5. injection E5 as <- <-. intros H2 pub ids leaves tree root r parallel_num HH LD LI GT. exact (J (no_zero_ok _ NZ) H2 pub ids leaves tree root r parallel_num HH LD LI GT).
Qed.
Print Assumptions C119_must_seal_refuted.

(** The shipped parameters: 256 blocks, a 512-bit key and two rounds.  Answering a challenge
    of c blocks takes c/256 of what sealing takes. *)
Theorem C119_shipped : forall H pr l iv, hash32 H -> let P := gen_posdata l in
  forall origin g, copy_and_pad origin (data_l P) (unit_l P) = Ok g ->
  forall idx, StronglySorted lt idx -> idx <> [] -> Forall (fun k => k < 256) idx ->
  exists a log, answer_on_demand H pr P P_512 iv origin idx = Ok (a, log) /\
  (forall st, seal H pr P P_512 iv g = Ok st -> Z.of_nat (length idx) * Z.of_nat (length (s_log st)) = 256 * Z.of_nat (length log))%Z /\
  (~ In 0%Z log -> forall H2 pub ids leaves tree root r parallel_num, hash32 H2 ->
   load_data pub = Ok (P_512, iv) -> length ids = 256 -> generate_merkle_tree_from_data H2 ids = Ok (leaves, tree, root) ->
   exists proof, judge H H2 pr P parallel_num origin pub leaves root r idx (H (response_data r (a_blocks a))) a proof (Ok tt)).
Proof.
  intros H pr l iv HH P origin g EP idx SS NE FK. destruct (ParamFacts.gen_posdata_geometry l) as (U & UP & _ & _ & _ & _ & ML & MS). pose proof (ParamFacts.gen_posdata_setting H pr l HH) as SET.
  destruct (C119_demand H pr P P_512 iv 256 (ParamFacts.units_per_block l) SET (PostorageFacts.gen_posdata_layout l) (ParamFacts.shipped_sound H HH) (or_introl MS) origin g EP (proj2 (SealPad.gen_posdata_sealable l origin g EP)) idx SS NE FK)
    as (a & log & E & _ & LL & _ & J).
  exists a, log. split; [exact E|]. split; [|exact J].
  intros st ES. rewrite (WorkFacts.seal_count H pr P P_512 iv 256 _ (set_geom _ _ _ _ _ _ SET) g st ES), LL. rewrite !Nat2Z.inj_mul. change (Z.of_nat 256) with 256%Z. ring.
Qed.
Print Assumptions C119_shipped.
