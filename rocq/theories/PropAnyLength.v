(** Property C101: files that are shorter than the parameters say.  H is blake3, H2 is
    SHA-256.  Vocabulary: [same_bytes], [fit] and [both] from AnyLength, [setting],
    [geometry], [sealable] from SealSpec, [layout] from PostorageFacts. *)
From Coq Require Import Strings.Byte Lia Sorted.
From Verif Require Import Base Sloth Common Depend Prover Verifier Merkle Postorage BytesFacts CommonFacts SealSpec SealCore SealFile SealTop SealPad SealZero SealWitness
  PostorageFacts SpotFacts PropSpot AnyLength.
Local Open Scope nat_scope.

(** Files with the same bytes (missing ones being zeros) are treated alike, whatever the
    parameters: both runs panic or neither, and the results have the same bytes again. *)
Theorem C101_seal : forall H pr params key iv F F', same_bytes F F' ->
  match seal H pr params key iv F, seal H pr params key iv F' with
  | Ok a, Ok b => same_bytes (s_file a) (s_file b) /\ s_ids a = s_ids b /\ s_log a = s_log b
  | Panic, Panic => True | _, _ => False end.
Proof. exact same_seal. Qed.
Print Assumptions C101_seal.
Theorem C101_unseal : forall H pr params key iv F F', same_bytes F F' ->
  match unseal H pr params key iv F, unseal H pr params key iv F' with
  | Ok a, Ok b => same_bytes a b | Panic, Panic => True | _, _ => False end.
Proof. exact same_unseal. Qed.
Print Assumptions C101_unseal.
(** The same for runs that are killed between two blocks. *)
Theorem C101_killed : forall H pr params key iv F F', same_bytes F F' ->
  (forall k, match seal_upto H pr params key iv k F, seal_upto H pr params key iv k F' with
     | Ok a, Ok b => same_bytes (s_file a) (s_file b) /\ s_ids a = s_ids b
     | Panic, Panic => True | _, _ => False end) /\
  (forall from k, match unseal_range H pr params key iv from k F, unseal_range H pr params key iv from k F' with
     | Ok a, Ok b => same_bytes a b | Panic, Panic => True | _, _ => False end).
Proof.
  intros H pr params key iv F F' E. split; [|intros; now apply same_unseal_range]. intros k.
  pose proof (same_seal_upto H pr params key iv k F F' E) as B. destruct (seal_upto _ _ _ _ _ _ F), (seal_upto _ _ _ _ _ _ F'); try exact B. destruct B as (A & B & _). now split.
Qed.
Print Assumptions C101_killed.
(** Copies, answers, checks and trees are the same for both. *)
Theorem C101_readers : forall H H2 pr params F F', same_bytes F F' ->
  (forall dl ul, copy_and_pad F dl ul = copy_and_pad F' dl ul) /\
  (forall dl ul upl, copy_and_compress F dl ul upl = copy_and_compress F' dl ul upl) /\
  (forall k, single_unseal_prepare H pr params F k = single_unseal_prepare H pr params F' k) /\
  (forall b e, batch_unseal_prepare H pr params F b e = batch_unseal_prepare H pr params F' b e) /\
  (forall k us bl ul, batch_verify F k us bl ul = batch_verify F' k us bl ul) /\
  (forall key iv ks before deps bs, batch_unseal_and_verify H pr params key iv ks before deps F bs = batch_unseal_and_verify H pr params key iv ks before deps F' bs) /\
  (forall dl ll, generate_merkle_tree_from_file H2 F dl ll = generate_merkle_tree_from_file H2 F' dl ll).
Proof.
  intros H H2 pr params F F' E. repeat split; intros; [now apply same_pad|now apply same_compress|now apply same_single|now apply same_batch|now apply same_verify|now apply same_fused|now apply same_tree].
Qed.
Print Assumptions C101_readers.
(** No challenge, no check of the first ten blocks and no tree proof tells the two apart. *)
Theorem C101_verifier : forall H H2 pr params origin origin' F F', same_bytes origin origin' -> same_bytes F F' ->
  (forall p pub leaves tree root r idx o, challenge H H2 pr params p origin F pub leaves tree root r idx o <-> challenge H H2 pr params p origin' F' pub leaves tree root r idx o) /\
  (forall pub p o, unseal_single_and_verify H pr params pub origin F p o <-> unseal_single_and_verify H pr params pub origin' F' p o) /\
  (forall idx, merkle_tree_proof H2 params origin F idx = merkle_tree_proof H2 params origin' F' idx).
Proof.
  intros H H2 pr params origin origin' F F' E E'. split; [|split]; intros; [now apply same_challenge|now apply same_first_ten|now apply same_tree_proof].
Qed.
Print Assumptions C101_verifier.

(** How long a file is afterwards: never shorter than before, and never shorter than its
    blocks. *)
Theorem C101_length : forall H pr params key iv n m, geometry params n m -> (1 < key < 256 ^ Z.of_nat (unit_pl params))%Z ->
  (forall F st, seal H pr params key iv F = Ok st -> length (s_file st) = Nat.max (length F) (n * block_pl params)) /\
  (forall k F st, k <= n -> seal_upto H pr params key iv k F = Ok st -> length (s_file st) = Nat.max (length F) (k * block_pl params)) /\
  (forall F G, unseal H pr params key iv F = Ok G -> length G = Nat.max (length F) (n * block_pl params)).
Proof.
  intros H pr params key iv n m GEO K. assert (K' : (1 < key <= 256 ^ Z.of_nat (unit_pl params))%Z) by lia. split; [|split]; intros.
  - now apply (seal_length H pr params key iv n m GEO K').
  - now apply (seal_upto_length H pr params key iv n m GEO K').
  - apply (unseal_length H pr params key iv n m GEO K'); [lia|assumption].
Qed.
Print Assumptions C101_length.
(** A file that is too short is sealed and unsealed as the file filled up with zeros. *)
Theorem C101_short : forall H pr params key iv n m, setting H pr params key n m -> (key < 256 ^ Z.of_nat (unit_pl params))%Z ->
  forall F, length F <= n * block_pl params ->
  seal H pr params key iv F = seal H pr params key iv (fit (n * block_pl params) F) /\
  unseal H pr params key iv F = unseal H pr params key iv (fit (n * block_pl params) F).
Proof. intros H pr params key iv n m SET K F L. split; [now apply (seal_fit H pr params key iv n m SET)|now apply (unseal_fit H pr params key iv n m SET)]. Qed.
Print Assumptions C101_short.
(** So unsealing never panics, whatever the file and however long it is. *)
Theorem C101_unseal_total : forall H pr params key iv n m, setting H pr params key n m ->
  (forall d, le2z (H d) < key < 256 ^ Z.of_nat (unit_pl params))%Z ->
  forall F, exists G, unseal H pr params key iv F = Ok G /\ length G = Nat.max (length F) (n * block_pl params).
Proof.
  intros H pr params key iv n m SET K F. destruct (Nat.le_gt_cases (n * block_pl params) (length F)) as [C|C].
  - destruct (unseal_total H pr params key iv n m SET F K C) as (G & E & L & _). exists G. split; [exact E|lia].
  - rewrite (unseal_fit H pr params key iv n m SET F ltac:(apply (K [])) ltac:(lia)).
    destruct (unseal_total H pr params key iv n m SET (fit (n * block_pl params) F) K ltac:(rewrite fit_length; lia)) as (G & E & L & _).
    exists G. split; [exact E|]. rewrite L, fit_length. lia.
Qed.
Print Assumptions C101_unseal_total.
(** Sealing and unsealing a file that is too short gives it back filled up with zeros. *)
Theorem C101_round_trip : forall H pr params key iv n m, setting H pr params key n m -> sound_key H key -> mode_l params = 0 ->
  forall F, length F <= n * block_pl params -> sealable params key n m (fit (n * block_pl params) F) ->
  exists st, seal H pr params key iv F = Ok st /\ (~ In 0%Z (s_log st) -> unseal H pr params key iv (s_file st) = Ok (fit (n * block_pl params) F)).
Proof.
  intros H pr params key iv n m SET SK ML F L S. rewrite (seal_fit H pr params key iv n m SET F L).
  destruct (seal_total H pr params key iv n m SET _ S) as (st & E & _). exists st. split; [exact E|]. intros NZ.
  apply (unseal_seal H pr params key iv n m SET _ st SK); auto; now left.
Qed.
Print Assumptions C101_round_trip.

(** The original: only its first data_l bytes, filled up with zeros if there are fewer, are
    ever sealed, and those are what the whole round trip writes back. *)
Theorem C101_origin : forall H pr params, forall rnd origin pub unsealed b,
  seal_and_unseal H pr params rnd origin pub unsealed b = seal_and_unseal H pr params rnd (fit (data_l params) origin) pub unsealed b.
Proof. exact full_fit. Qed.
Print Assumptions C101_origin.
Theorem C101_restored : forall H pr params n m, layout params n m ->
  forall rnd_iv pub key iv, prepare_params pr (unit_pl params) rnd_iv = Ok (key, iv) ->
  setting H pr params key n m -> sound_key H key -> (256 ^ Z.of_nat (unit_l params) <= key)%Z -> mode_l params = 0 ->
  forall origin unsealed,
  (forall g st, copy_and_pad origin (data_l params) (unit_l params) = Ok g -> seal H pr params key iv g = Ok st -> ~ In 0%Z (s_log st)) ->
  exists sealed pub', seal_and_unseal H pr params rnd_iv origin pub unsealed true = Ok (sealed, pub', fit (data_l params) origin) /\
  load_data pub' = Ok (key, iv).
Proof.
  intros H pr params n m LAY rnd_iv pub key iv EP SET SK KU ML origin unsealed NZ. rewrite full_fit.
  apply (seal_and_unseal_ok H pr params n m LAY rnd_iv pub key iv EP SET SK KU ML); [apply fit_length|].
  intros g st. rewrite <- pad_fit. apply NZ.
Qed.
Print Assumptions C101_restored.

(** Spot checks of a stored file of any length: it is restored to some file c, and a
    challenge passes exactly if c agrees with the original on the challenged blocks. *)
Theorem C101_spot : forall H H2 pr params key iv n m, setting H pr params key n m ->
  (forall d, (le2z (H d) < key < 256 ^ Z.of_nat (unit_pl params))%Z) -> mode_l params = 0 -> layout params n m -> hash32 H2 ->
  forall F, exists c, restores H pr params key iv F c /\ length c = data_l params /\
  forall origin pub ids leaves tree root, load_data pub = Ok (key, iv) -> length ids = n -> generate_merkle_tree_from_data H2 ids = Ok (leaves, tree, root) ->
  forall idx, StronglySorted lt idx -> Forall (fun i => i < n) idx -> idx <> [] ->
  forall parallel_num r o, challenge H H2 pr params parallel_num origin F pub leaves tree root r idx o <->
  (o = Ok tt /\ forall k, In k idx -> same_block params c origin k) \/
  (o = Panic /\ ~ forall k, In k idx -> same_block params c origin k).
Proof.
  intros H H2 pr params key iv n m SET KB ML LAY HH2 F. destruct (Nat.le_gt_cases (n * block_pl params) (length F)) as [C|C].
  - destruct (C81_restores H pr params key iv n m SET KB LAY F C) as (c & R & L). exists c. split; [exact R|]. split; [exact L|].
    now apply (C81_challenge H H2 pr params key iv n m SET KB ML LAY HH2 F c C R).
  - assert (L' : n * block_pl params <= length (fit (n * block_pl params) F)) by (rewrite fit_length; lia).
    destruct (C81_restores H pr params key iv n m SET KB LAY _ L') as (c & R & L). exists c.
    assert (SB : same_bytes F (fit (n * block_pl params) F)) by (apply same_fit; lia). split; [|split; [exact L|]].
    + destruct R as (G & EU & EC). exists G. split; [|exact EC]. rewrite <- EU. apply (unseal_fit H pr params key iv n m SET F); [apply (KB [])|lia].
    + intros origin pub ids leaves tree root LD LI GT idx S FI N p r o.
      rewrite (same_challenge H H2 pr params p origin origin F _ pub leaves tree root r idx o (same_refl origin) SB).
      now apply (C81_challenge H H2 pr params key iv n m SET KB ML LAY HH2 _ c L' R origin pub ids leaves tree root LD LI GT idx S FI N p r o).
Qed.
Print Assumptions C101_spot.

(** A concrete case: a stored file whose last block has been cut off. *)
Lemma spot_bound : forall d, (le2z (hsum d) < ex_key < 256 ^ Z.of_nat (unit_pl spot_params))%Z.
Proof. intros d. pose proof (hsum_small d). unfold ex_key. change (256 ^ Z.of_nat (unit_pl spot_params))%Z with 16777216%Z. lia. Qed.
Lemma cut_same F : length F = 18 -> fit 18 (firstn 12 F) = spot_lost F.
Proof. intros L. unfold fit, spot_lost. rewrite firstn_firstn, firstn_length, L. reflexivity. Qed.
(** Losing the end of the stored file is not noticed by unsealing: it succeeds, the result
    has the full length again, but is not the original. *)
Theorem C101_noticed_refuted : exists F c, length F = 12 /\ 12 < 3 * block_pl spot_params /\
  (exists g st, copy_and_pad spot_origin 12 2 = Ok g /\ seal hsum Debug spot_params ex_key [] g = Ok st /\ F = firstn 12 (s_file st)) /\
  restores hsum Debug spot_params ex_key [] F c /\ length c = length spot_origin /\ c <> spot_origin /\
  same_block spot_params c spot_origin 0 /\ same_block spot_params c spot_origin 1.
Proof.
  destruct spot_facts as (g & st & st' & G & c & EP & ES & _ & EU & EC & L & _ & _ & _ & B0 & B1 & B2).
  exists (firstn 12 (s_file st)), c. split; [rewrite firstn_length, L; reflexivity|]. split; [cbn; lia|]. split; [eauto|].
  assert (R : restores hsum Debug spot_params ex_key [] (firstn 12 (s_file st)) c).
  { exists G. split; [|exact EC]. rewrite <- EU, <- (cut_same _ L).
    apply (unseal_fit hsum Debug spot_params ex_key [] 3 2 spot_setting); [apply (spot_bound [])|]. rewrite firstn_length, L. cbn. lia. }
  split; [exact R|]. destruct R as (G' & _ & EC'). apply (restored_length spot_params 3 2 spot_layout) in EC'. split; [rewrite EC'; reflexivity|].
  split; [intros ->; congruence|]. split; [exact B0|exact B1].
Qed.
Print Assumptions C101_noticed_refuted.
(** And cutting zeros off is no change at all. *)
Example C101_ex : same_bytes [x01; x02; x00; x00] [x01; x02] /\ ~ same_bytes [x01; x02; x00; x03] [x01; x02] /\
  fit 5 [x01; x02; x03] = [x01; x02; x03; x00; x00] /\ fit 2 [x01; x02; x03] = [x01; x02] /\
  setting hsum Debug spot_params ex_key 3 2 /\ geometry spot_params 3 2 /\ layout spot_params 3 2 /\ mode_l spot_params = 0 /\
  length (firstn 13 ex_file) <= 3 * block_pl spot_params /\ sealable spot_params ex_key 3 2 (fit (3 * block_pl spot_params) (firstn 13 ex_file)) /\
  (exists st, seal hsum Debug spot_params ex_key [] (firstn 13 ex_file) = Ok st /\ ~ In 0%Z (s_log st)).
Proof.
  split; [apply same_sym, (same_zeros [x01; x02] 2)|]. split; [intros E; specialize (E 3); discriminate|]. split; [reflexivity|]. split; [reflexivity|].
  split; [exact spot_setting|]. split; [exact (set_geom _ _ _ _ _ _ spot_setting)|]. split; [exact spot_layout|]. split; [reflexivity|]. split; [cbn; lia|].
  split; [apply sealable_b_ok; vm_compute; reflexivity|].
  assert (T : (match seal hsum Debug spot_params ex_key [] (firstn 13 ex_file) with Ok st => no_zero (s_log st) | Panic => false end) = true) by (vm_compute; reflexivity).
  destruct (seal hsum Debug spot_params ex_key [] (firstn 13 ex_file)) as [st|]; [|discriminate]. exists st. split; [reflexivity|]. now apply no_zero_ok.
Qed.
