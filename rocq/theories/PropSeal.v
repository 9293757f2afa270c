(** Properties C22-C29: sealing and unsealing.  Vocabulary in SealSpec: [setting]
    (hash output size, geometry, key range, admissible dependency modes),
    [sealable], [sound_key], [splice].  The log [s_log] lists the integers that
    were handed to the delay function. *)
From Verif Require Import Base Sloth Common Depend Prover SealSpec SealTop SealZero SealPad Primes ParamFacts SealWitness.
Local Open Scope nat_scope.

(** C22 *)
Theorem C22_seal_total : forall H pr params key iv n m, setting H pr params key n m ->
  forall f, sealable params key n m f ->
  exists st, seal H pr params key iv f = Ok st
  /\ length (s_file st) = length f
  /\ skipn (n * block_pl params) (s_file st) = skipn (n * block_pl params) f
  /\ sealable params key n m (s_file st)
  /\ s_ids st = map (fun k => H (block_bytes params (s_file st) k)) (seq 0 n).
Proof. exact seal_total. Qed.
Print Assumptions C22_seal_total.
(** The shipped parameter sets and the modulus they use, for every hash and every
    padded original file. *)
Example C22_shipped : forall H pr l f g, hash32 H ->
  copy_and_pad f (data_l (gen_posdata l)) (unit_l (gen_posdata l)) = Ok g ->
  setting H pr (gen_posdata l) P_512 256 (units_per_block l) /\
  sealable (gen_posdata l) P_512 256 (units_per_block l) g.
Proof. intros H pr l f g HH E. split; [now apply gen_posdata_setting|]. now apply (gen_posdata_sealable l f g). Qed.

(** C23 *)
Theorem C23_unseal_seal : forall H pr params key iv n m, setting H pr params key n m ->
  forall f st, sound_key H key -> mode_l params = 0 -> sealable params key n m f ->
  seal H pr params key iv f = Ok st -> ~ In 0%Z (s_log st) ->
  unseal H pr params key iv (s_file st) = Ok f.
Proof. intros H pr params key iv n m SET f st SK M. apply (unseal_seal H pr params key iv n m SET f st SK). now left. Qed.
Print Assumptions C23_unseal_seal.
Example C23_ex : setting hsum Debug (ex_params 2 0 0 0 10) ex_key 3 2 /\ sound_key hsum ex_key /\
  sealable (ex_params 2 0 0 0 10) ex_key 3 2 ex_file /\
  exists st, seal hsum Debug (ex_params 2 0 0 0 10) ex_key [] ex_file = Ok st /\ ~ In 0%Z (s_log st).
Proof.
  split; [apply ex_setting; [apply hsum_32|cbn; lia|cbn; lia]|]. split; [apply ex_sound|].
  split; [apply ex_sealable|]. exact (trial_no_zero _ _ _ _ _ _ run_random).
Qed.

(** The same for the shipped parameter sets and any original file: padding, sealing
    and unsealing give back the padded file. *)
Theorem C23_shipped : forall H pr l iv f g st, hash32 H ->
  copy_and_pad f (data_l (gen_posdata l)) (unit_l (gen_posdata l)) = Ok g ->
  seal H pr (gen_posdata l) P_512 iv g = Ok st -> ~ In 0%Z (s_log st) ->
  unseal H pr (gen_posdata l) P_512 iv (s_file st) = Ok g.
Proof.
  intros H pr l iv f g st HH EP ES NZ.
  apply (unseal_seal H pr (gen_posdata l) P_512 iv 256 (units_per_block l) (gen_posdata_setting H pr l HH)); auto.
  - now apply shipped_sound.
  - left. now destruct (gen_posdata_geometry l) as (_ & _ & _ & _ & _ & _ & ML & _).
  - now apply (gen_posdata_sealable l f g).
Qed.
Print Assumptions C23_shipped.

(** C24: deterministic long dependencies are fine if every list is 0,1,...,k-1 ... *)
Theorem C24_unseal_seal_plain : forall H pr params key iv n m, setting H pr params key n m ->
  forall f st, sound_key H key ->
  (forall k row, k < n -> long_depend pr k (cnt_l params) (mode_l params) = Ok row -> row = seq 0 (length row)) ->
  sealable params key n m f -> seal H pr params key iv f = Ok st -> ~ In 0%Z (s_log st) ->
  unseal H pr params key iv (s_file st) = Ok f.
Proof. intros H pr params key iv n m SET f st SK M. apply (unseal_seal H pr params key iv n m SET f st SK). now right. Qed.
Print Assumptions C24_unseal_seal_plain.
Example C24_ex : forall k row, k < 3 -> long_depend Debug k 2 2 = Ok row -> row = seq 0 (length row).
Proof. intros [|[|[|k]]] row K; try (cbn; intros [= <-]; reflexivity). exfalso. lia. Qed.
(** ... and not in general. *)
Theorem C24_round_trip_refuted : exists H params key f st g,
  setting H Debug params key 3 2 /\ sound_key H key /\ mode_l params = 1 /\ sealable params key 3 2 f /\
  seal H Debug params key [] f = Ok st /\ ~ In 0%Z (s_log st) /\
  unseal H Debug params key [] (s_file st) = Ok g /\ g <> f.
Proof. exact mode_l_1_corrupts. Qed.
Print Assumptions C24_round_trip_refuted.

(** C25: with one sealing round the file is restored exactly when no zero residue
    was hit ... *)
Theorem C25_one_round_exact : forall H pr params key iv n m, setting H pr params key n m ->
  forall f st, sound_key H key -> (7 <= key)%Z -> mode_l params = 0 ->
  seal_rounds params = 1 -> vde_rounds params <> 0 -> sealable params key n m f ->
  seal H pr params key iv f = Ok st ->
  (unseal H pr params key iv (s_file st) = Ok f <-> ~ In 0%Z (s_log st)).
Proof. intros H pr params key iv n m SET f st SK K M. apply (one_round_exact H pr params key iv n m SET f st SK K). now left. Qed.
Print Assumptions C25_one_round_exact.
(** ... which cannot happen for padded data if the hash never returns zeros. *)
Theorem C25_padded_no_zero : forall H pr params key iv n m, setting H pr params key n m ->
  forall f st, seal_rounds params = 1 ->
  (forall d, 256 ^ Z.of_nat (unit_pl params - 1) + le2z (H d) <= key)%Z ->
  (forall d, le2z (H d) <> 0%Z) -> n * block_pl params <= length f ->
  (forall q, q < n * m -> (le2z (unit_bytes params f q) < 256 ^ Z.of_nat (unit_pl params - 1))%Z) ->
  seal H pr params key iv f = Ok st -> sealable params key n m f /\ ~ In 0%Z (s_log st).
Proof. exact padded_no_zero. Qed.
Print Assumptions C25_padded_no_zero.
Theorem C25_round_trip_refuted : exists H params key f st g,
  setting H Debug params key 3 2 /\ sound_key H key /\ mode_l params = 0 /\ sealable params key 3 2 f /\
  seal H Debug params key [] f = Ok st /\
  unseal H Debug params key [] (s_file st) = Ok g /\ g <> f.
Proof. exact zero_corrupts. Qed.
Print Assumptions C25_round_trip_refuted.
Example C25_ex : setting hsum Debug (ex_params 1 0 0 0 3) ex_key 3 2 /\ sound_key hsum ex_key /\ (7 <= ex_key)%Z /\
  sealable (ex_params 1 0 0 0 3) ex_key 3 2 ex_file /\
  (forall d, 256 ^ Z.of_nat 2 + le2z (hsum d) <= ex_key)%Z.
Proof.
  split; [apply ex_setting; [apply hsum_32|cbn; lia|cbn; lia]|]. split; [apply ex_sound|]. split; [unfold ex_key; lia|].
  split; [apply ex_sealable|]. intros d. pose proof (hsum_small d). unfold ex_key. change (256 ^ Z.of_nat 2)%Z with 65536%Z. lia.
Qed.

(** C26 *)
Theorem C26_seal_causal : forall H pr params key iv n m, setting H pr params key n m ->
  forall f g sf sg k, sealable params key n m f -> sealable params key n m g ->
  seal H pr params key iv f = Ok sf -> seal H pr params key iv g = Ok sg -> k <= n ->
  firstn (k * block_pl params) f = firstn (k * block_pl params) g ->
  firstn (k * block_pl params) (s_file sf) = firstn (k * block_pl params) (s_file sg).
Proof. exact seal_causal. Qed.
Print Assumptions C26_seal_causal.
Example C26_ex : let P := ex_params 2 0 0 0 10 in
  sealable P ex_key 3 2 ex_file /\ sealable P ex_key 3 2 (firstn 12 ex_file ++ zeros 6) /\
  firstn (2 * block_pl P) ex_file = firstn (2 * block_pl P) (firstn 12 ex_file ++ zeros 6) /\
  ex_file <> firstn 12 ex_file ++ zeros 6.
Proof. split; [apply ex_sealable|]. split; [apply sealable_b_ok; reflexivity|]. split; [reflexivity|discriminate]. Qed.

(** C27 *)
Theorem C27_seal_interrupted : forall H pr params key iv n m, setting H pr params key n m ->
  forall f st j, sealable params key n m f -> seal H pr params key iv f = Ok st -> j <= n ->
  exists sj, seal_upto H pr params key iv j f = Ok sj /\ s_file sj = splice params j (s_file st) f.
Proof. exact seal_interrupted. Qed.
Print Assumptions C27_seal_interrupted.
(** The example of C23, interrupted after one of its three blocks. *)
Example C27_ex : match seal hsum Debug (ex_params 2 0 0 0 10) ex_key [] ex_file, seal_upto hsum Debug (ex_params 2 0 0 0 10) ex_key [] 1 ex_file with
  | Ok st, Ok sj => s_file sj = firstn 6 (s_file st) ++ skipn 6 ex_file /\ firstn 6 (s_file st) <> firstn 6 ex_file /\ s_file sj <> s_file st
  | _, _ => False end.
Proof. vm_compute. repeat split; discriminate. Qed.

(** C28: iterations i .. i+d-1 of the unsealing loop, started on the file left by
    the first i iterations. *)
Theorem C28_unseal_interrupted : forall H pr params key iv n m, setting H pr params key n m ->
  forall f st i d, sound_key H key -> mode_l params = 0 -> sealable params key n m f ->
  seal H pr params key iv f = Ok st -> ~ In 0%Z (s_log st) -> i + d <= n ->
  unseal_range H pr params key iv i d (splice params (n - i) (s_file st) f)
  = Ok (splice params (n - (i + d)) (s_file st) f).
Proof. intros H pr params key iv n m SET f st i d SK M. apply (unseal_partial_run H pr params key iv n m SET f st i d SK). now left. Qed.
Print Assumptions C28_unseal_interrupted.
Theorem C28_splice_ends : forall H pr params key iv n m, setting H pr params key n m ->
  forall f st, sealable params key n m f -> seal H pr params key iv f = Ok st ->
  splice params n (s_file st) f = s_file st /\ splice params 0 (s_file st) f = f.
Proof. intros H pr params key iv n m SET f st S E. split; [now apply (splice_n H pr params key iv n m SET)|reflexivity]. Qed.
Print Assumptions C28_splice_ends.
Example C28_ex : match seal hsum Debug (ex_params 2 0 0 0 10) ex_key [] ex_file with
  | Ok st => unseal_range hsum Debug (ex_params 2 0 0 0 10) ex_key [] 1 1 (firstn 12 (s_file st) ++ skipn 12 ex_file) = Ok (firstn 6 (s_file st) ++ skipn 6 ex_file)
  | Panic => False end.
Proof. vm_compute. reflexivity. Qed.
Theorem C28_rerun_refuted : exists H params key f st g g',
  setting H Debug params key 3 2 /\ sound_key H key /\ mode_l params = 0 /\ sealable params key 3 2 f /\
  seal H Debug params key [] f = Ok st /\ ~ In 0%Z (s_log st) /\
  unseal_range H Debug params key [] 0 1 (s_file st) = Ok g /\ unseal H Debug params key [] g = Ok g' /\ g' <> f.
Proof. exact rerun_corrupts. Qed.
Print Assumptions C28_rerun_refuted.

(** C29 *)
Theorem C29_seal_injective : forall H pr params key iv n m, setting H pr params key n m ->
  forall f g sf sg, sound_key H key -> sealable params key n m f -> sealable params key n m g ->
  seal H pr params key iv f = Ok sf -> seal H pr params key iv g = Ok sg ->
  ~ In 0%Z (s_log sf) -> ~ In 0%Z (s_log sg) -> s_file sf = s_file sg -> f = g.
Proof. exact seal_injective. Qed.
Print Assumptions C29_seal_injective.
Example C29_ex : let P := ex_params 2 0 0 0 10 in let g := firstn 12 ex_file ++ zeros 6 in
  sealable P ex_key 3 2 g /\ g <> ex_file /\ exists st, seal hsum Debug P ex_key [] g = Ok st /\ ~ In 0%Z (s_log st).
Proof.
  split; [apply sealable_b_ok; reflexivity|]. split; [discriminate|].
  apply (trial_no_zero hsum Debug _ ex_key _ true). vm_compute. reflexivity.
Qed.

(** C67: unsealing an arbitrary file of the right size never panics. *)
Theorem C67_unseal_total : forall H pr params key iv n m, setting H pr params key n m ->
  forall F, (forall d, le2z (H d) < key < 256 ^ Z.of_nat (unit_pl params))%Z ->
  n * block_pl params <= length F ->
  exists G, unseal H pr params key iv F = Ok G /\ length G = length F /\
  skipn (n * block_pl params) G = skipn (n * block_pl params) F.
Proof. intros H pr params key iv n m SET F K. exact (unseal_total H pr params key iv n m SET F K). Qed.
Print Assumptions C67_unseal_total.
Example C67_ex : forall d, (le2z (hsum d) < ex_key < 256 ^ Z.of_nat 3)%Z.
Proof. intros d. pose proof (hsum_small d). unfold ex_key. change (256 ^ Z.of_nat 3)%Z with 16777216%Z. lia. Qed.
