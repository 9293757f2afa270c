(** Properties C87 and C88: which stored blocks a restored block comes from, and what a
    crash while the public data is saved leaves behind.  H is blake3, H2 is SHA-256.
    Vocabulary: [setting], [sealable], [sound_key], [block_bytes], [unit_bytes] from
    SealSpec, [layout] from PostorageFacts, [reads], [saved_length] from LocalFacts,
    [same_block], [restores] from PropSpot. *)
From Coq Require Import Znumtheory Strings.Byte Sorted.
From Verif Require Import Base Sloth Common Depend Prover Verifier Merkle Postorage BytesFacts CommonFacts SealSpec SealTop SealPad SealZero SealWitness
  ChallengeFacts MerkleFacts SealMeaning ParamFacts PostorageFacts SpotFacts PropSpot LocalFacts.
Local Open Scope nat_scope.

(** * C87 *)

(** F and F' are any stored files, iv and iv' any initial values.  If the files agree on
    the blocks that restoring block k reads, block k is restored to the same bytes; the
    iv matters for block 0 only. *)
Theorem C87_local : forall H pr params key n m, setting H pr params key n m ->
  (forall d, (le2z (H d) < key < 256 ^ Z.of_nat (unit_pl params))%Z) ->
  forall iv iv' F F' G G' k, k < n -> n * block_pl params <= length F -> n * block_pl params <= length F' ->
  unseal H pr params key iv F = Ok G -> unseal H pr params key iv' F' = Ok G' ->
  (forall b, reads H pr params n F k b -> block_bytes params F b = block_bytes params F' b) -> (k = 0 -> iv = iv') ->
  block_bytes params G k = block_bytes params G' k.
Proof. intros H pr params key n m SET KB iv iv' F F' G G' k K LF LF' E E' RD IV. exact (unseal_local H pr params key n m SET KB iv iv' F F' G G' k K LF LF' E E' IV RD). Qed.
Print Assumptions C87_local.
(** It reads no later block, and few in all. *)
Theorem C87_few : forall H pr params key n m, setting H pr params key n m -> mode_l params = 0 ->
  forall F k, n * block_pl params <= length F -> k < n ->
  exists l, length l <= (if cnt_l params =? 0 then k / 10 + 1 else cnt_l params) + 2 /\ Forall (fun b => b <= k) l /\
  forall b, reads H pr params n F k b <-> In b l.
Proof.
  intros H pr params key n m SET ML F k LF K. destruct (reads_few H pr params key n m SET F k ML LF K) as (l & L & R).
  exists l. split; [exact L|]. split; [|exact R]. apply Forall_forall. intros b I. apply R in I. now apply (reads_le H pr params key n m SET F k b K).
Qed.
Print Assumptions C87_few.
Lemma restored_same H pr params key iv iv' n m F F' c c' k : setting H pr params key n m ->
  (forall d, (le2z (H d) < key < 256 ^ Z.of_nat (unit_pl params))%Z) -> layout params n m ->
  n * block_pl params <= length F -> n * block_pl params <= length F' -> k < n ->
  (forall G G', unseal H pr params key iv F = Ok G -> unseal H pr params key iv' F' = Ok G' -> block_bytes params G k = block_bytes params G' k) ->
  restores H pr params key iv F c -> restores H pr params key iv' F' c' -> same_block params c c' k.
Proof.
  intros SET KB LAY LF LF' K B (G & E & EC) (G' & E' & EC').
  destruct (unseal_total H pr params key iv n m SET F KB LF) as (G1 & E1 & LG & _). rewrite E in E1. injection E1 as <-.
  destruct (unseal_total H pr params key iv' n m SET F' KB LF') as (G1 & E1 & LG' & _). rewrite E' in E1. injection E1 as <-.
  specialize (B G G' E E'). unfold same_block. rewrite (l_block _ _ _ LAY), !read_units. f_equal. apply map_ext_in. intros j J. apply in_seq in J.
  replace (k * (m * unit_l params) + j * unit_l params) with ((k * m + j) * unit_l params) by lia.
  rewrite !(restored_unit params n m LAY G c), !(restored_unit params n m LAY G' c') by (auto; try lia; nia).
  f_equal. apply (units_of_block H pr params key n m SET); auto; lia.
Qed.
(** The same for the data after removing the padding. *)
Theorem C87_restored : forall H pr params key n m, setting H pr params key n m ->
  (forall d, (le2z (H d) < key < 256 ^ Z.of_nat (unit_pl params))%Z) -> layout params n m ->
  forall iv iv' F F' c c' k, k < n -> n * block_pl params <= length F -> n * block_pl params <= length F' ->
  restores H pr params key iv F c -> restores H pr params key iv' F' c' ->
  (forall b, reads H pr params n F k b -> block_bytes params F b = block_bytes params F' b) -> (k = 0 -> iv = iv') ->
  same_block params c c' k.
Proof.
  intros H pr params key n m SET KB LAY iv iv' F F' c c' k K LF LF' R R' RD IV.
  apply (restored_same H pr params key iv iv' n m F F' c c' k SET KB LAY LF LF' K); auto. intros G G' E E'.
  exact (C87_local H pr params key n m SET KB iv iv' F F' G G' k K LF LF' E E' RD IV).
Qed.
Print Assumptions C87_restored.
(** So damage to the set D of stored blocks spares every block that reads none of them,
    in particular all blocks before the first damaged one. *)
Theorem C87_damage : forall H pr params key iv n m, setting H pr params key n m ->
  (forall d, (le2z (H d) < key < 256 ^ Z.of_nat (unit_pl params))%Z) -> layout params n m ->
  forall (D : nat -> Prop) F F' c c', n * block_pl params <= length F -> n * block_pl params <= length F' ->
  (forall b, b < n -> ~ D b -> block_bytes params F b = block_bytes params F' b) ->
  restores H pr params key iv F c -> restores H pr params key iv F' c' ->
  forall k, k < n -> (forall b, D b -> ~ reads H pr params n F k b) -> same_block params c c' k.
Proof.
  intros H pr params key iv n m SET KB LAY D F F' c c' LF LF' AG R R' k K ND. apply (C87_restored H pr params key n m SET KB LAY iv iv F F' c c' k); auto.
  intros b RB. apply AG; [apply (reads_le H pr params key n m SET F k b K) in RB; lia|]. intros DB. now apply (ND b DB).
Qed.
Print Assumptions C87_damage.
Theorem C87_earlier : forall H pr params key iv n m, setting H pr params key n m ->
  (forall d, (le2z (H d) < key < 256 ^ Z.of_nat (unit_pl params))%Z) -> layout params n m ->
  forall F F' c c' first, n * block_pl params <= length F -> n * block_pl params <= length F' ->
  (forall b, b < first -> b < n -> block_bytes params F b = block_bytes params F' b) ->
  restores H pr params key iv F c -> restores H pr params key iv F' c' ->
  forall k, k < n -> k < first -> same_block params c c' k.
Proof.
  intros H pr params key iv n m SET KB LAY F F' c c' first LF LF' AG R R' k K KF. apply (C87_restored H pr params key n m SET KB LAY iv iv F F' c c' k); auto.
  intros b RB. apply (reads_le H pr params key n m SET F k b K) in RB. apply AG; lia.
Qed.
Print Assumptions C87_earlier.
(** A prover that keeps only the blocks read by the challenged ones passes the challenge:
    F0 is the honest sealed file, F agrees with it on those blocks and is arbitrary
    elsewhere. *)
Theorem C87_challenge : forall H H2 pr params key iv n m, setting H pr params key n m -> sound_key H key ->
  mode_l params = 0 -> layout params n m -> hash32 H2 -> (256 ^ Z.of_nat (unit_l params) <= key)%Z ->
  forall origin g st, length origin = data_l params -> copy_and_pad origin (data_l params) (unit_l params) = Ok g ->
  seal H pr params key iv g = Ok st -> ~ In 0%Z (s_log st) ->
  forall F pub leaves tree root, n * block_pl params <= length F -> load_data pub = Ok (key, iv) ->
  generate_merkle_tree_from_data H2 (s_ids st) = Ok (leaves, tree, root) ->
  forall idx, StronglySorted lt idx -> Forall (fun i => i < n) idx -> idx <> [] ->
  (forall k b, In k idx -> reads H pr params n (s_file st) k b -> block_bytes params F b = block_bytes params (s_file st) b) ->
  forall parallel_num r o, challenge H H2 pr params parallel_num origin F pub leaves tree root r idx o <-> o = Ok tt.
Proof.
  intros H H2 pr params key iv n m SET SK ML LAY HH2 KU origin g st LO EP ES NZ F pub leaves tree root LF LD GT idx S FI N AG parallel_num r o.
  pose proof (sound_lt H pr params key n m SET SK) as KB.
  destruct (pad_sealable params key n m origin g) as (Lg & GS & PU); auto; try apply LAY.
  { rewrite (l_data _ _ _ LAY), (l_block _ _ _ LAY). reflexivity. }
  destruct (seal_total H pr params key iv n m SET g GS) as (st' & ES' & LS & _ & _ & LI). rewrite ES in ES'. injection ES' as <-. apply (f_equal (@length _)) in LI. rewrite map_length, seq_length in LI.
  assert (R0 : restores H pr params key iv (s_file st) origin).
  { eapply C82_pad_bytes_unchecked; eauto. intros q Q. rewrite PU by exact Q. rewrite firstn_app, read_file_length, Nat.sub_diag. cbn [firstn]. rewrite app_nil_r. apply firstn_all2. now rewrite read_file_length. }
  assert (LS' : n * block_pl params <= length (s_file st)) by (destruct GS; lia).
  destruct (C81_restores H pr params key iv n m SET KB LAY F LF) as (c & R & LC).
  rewrite (C81_challenge H H2 pr params key iv n m SET KB ML LAY HH2 F c LF R origin pub (s_ids st) leaves tree root LD LI GT idx S FI N parallel_num r o).
  assert (OK : forall k, In k idx -> same_block params c origin k).
  { intros k I. rewrite Forall_forall in FI. unfold same_block. symmetry.
    apply (C87_restored H pr params key n m SET KB LAY iv iv (s_file st) F origin c k (FI k I) LS' LF R0 R); [|auto]. intros b RB. symmetry. eapply AG; eauto. }
  split; [intros [(E & _)|(_ & X)]; [exact E|contradiction]|intros ->; left; auto].
Qed.
Print Assumptions C87_challenge.
(** A wrong iv spoils nothing but block 0. *)
Theorem C87_iv : forall H pr params key n m, setting H pr params key n m ->
  (forall d, (le2z (H d) < key < 256 ^ Z.of_nat (unit_pl params))%Z) -> layout params n m ->
  forall F iv iv' c c', n * block_pl params <= length F -> restores H pr params key iv F c -> restores H pr params key iv' F c' ->
  forall k, 0 < k < n -> same_block params c c' k.
Proof.
  intros H pr params key n m SET KB LAY F iv iv' c c' LF R R' k K. apply (C87_restored H pr params key n m SET KB LAY iv iv' F F c c' k); auto; lia.
Qed.
Print Assumptions C87_iv.
(** With one sealing round it spoils at most the very first unit, and that exactly if the
    hashes of the two strings that end in the iv differ. *)
Theorem C87_iv_one_round : forall H pr params key n m, setting H pr params key n m ->
  (forall d, (le2z (H d) < key < 256 ^ Z.of_nat (unit_pl params))%Z) -> seal_rounds params = 1 -> 0 < n -> 0 < m ->
  forall F iv iv' G G', n * block_pl params <= length F -> unseal H pr params key iv F = Ok G -> unseal H pr params key iv' F = Ok G' ->
  (forall i, 0 < i < n * m -> unit_bytes params G i = unit_bytes params G' i) /\
  exists p, (unit_bytes params G 0 = unit_bytes params G' 0 <-> H (p ++ iv) = H (p ++ iv')).
Proof. intros H pr params key n m SET KB R1 N0 M0 F iv iv' G G' LF E E'. exact (iv_one_round H pr params key n m SET KB iv iv' F G G' R1 N0 M0 LF E E'). Qed.
Print Assumptions C87_iv_one_round.

(** Three blocks; block 2 reads only blocks 1 and 2 of the sealed file.  Wiping block 0
    spoils blocks 0 and 1 and spares block 2. *)
Definition local_trial : bool :=
  match (let* g := copy_and_pad spot_origin 12 2 in
         let* st := seal hsum Debug spot_params ex_key [] g in
         let* l := long_mode_random hsum 3 (hsum (block_bytes spot_params (s_file st) 1)) 2 1 in
         let* G := unseal hsum Debug spot_params ex_key [] (zeros 6 ++ skipn 6 (s_file st)) in
         let* c := copy_and_compress G 12 2 3 in
         Ok (st, l, c)) with
  | Panic => false
  | Ok (st, l, c) =>
      (length (s_file st) =? 18) && no_zero (s_log st) && (if list_eq_dec Nat.eq_dec l [1] then true else false) &&
      negb (bytes_eqb (read_file c 0 4) (read_file spot_origin 0 4)) && negb (bytes_eqb (read_file c 4 4) (read_file spot_origin 4 4)) &&
      bytes_eqb (read_file c 8 4) (read_file spot_origin 8 4)
  end.
Example C87_ex : setting hsum Debug spot_params ex_key 3 2 /\ layout spot_params 3 2 /\ sound_key hsum ex_key /\
  exists g st c, copy_and_pad spot_origin 12 2 = Ok g /\ seal hsum Debug spot_params ex_key [] g = Ok st /\ ~ In 0%Z (s_log st) /\ length (s_file st) = 18 /\
  (forall b, reads hsum Debug spot_params 3 (s_file st) 2 b <-> b = 1 \/ b = 2) /\
  restores hsum Debug spot_params ex_key [] (zeros 6 ++ skipn 6 (s_file st)) c /\
  ~ same_block spot_params c spot_origin 0 /\ ~ same_block spot_params c spot_origin 1 /\ same_block spot_params c spot_origin 2.
Proof.
  split; [exact spot_setting|]. split; [exact spot_layout|]. split; [exact ex_sound|].
  assert (E : local_trial = true) by (vm_compute; reflexivity). unfold local_trial in E. revert E.
  destruct (copy_and_pad spot_origin 12 2) as [g|]; [|discriminate]. cbn [bind].
  destruct (seal hsum Debug spot_params ex_key [] g) as [st|] eqn:E1; [|discriminate]. cbn [bind].
  destruct (long_mode_random hsum 3 (hsum (block_bytes spot_params (s_file st) 1)) 2 1) as [l|] eqn:E2; [|discriminate]. cbn [bind].
  destruct (unseal hsum Debug spot_params ex_key [] (zeros 6 ++ skipn 6 (s_file st))) as [G|] eqn:E3; [|discriminate]. cbn [bind].
  destruct (copy_and_compress G 12 2 3) as [c|] eqn:E4; [|discriminate]. cbn [bind]. intros E.
  apply andb_prop in E as (E & B6). apply andb_prop in E as (E & B5). apply andb_prop in E as (E & B4).
  apply andb_prop in E as (E & B3). apply andb_prop in E as (B1 & B2). apply Nat.eqb_eq in B1. apply negb_true_iff in B4, B5.
  destruct (list_eq_dec Nat.eq_dec l [1]) as [->|]; [|discriminate].
  exists g, st, c. split; [reflexivity|]. split; [exact E1|]. split; [now apply no_zero_ok|]. split; [exact B1|]. split.
  { intros b. split.
    - intros [|b' X|bs b' LC I]; [now right|left; lia|]. assert (LC' : long_mode_random hsum 3 (hsum (block_bytes spot_params (s_file st) 1)) 2 1 = Ok bs) by exact LC. rewrite E2 in LC'. injection LC' as <-. destruct I as [<-|[]]. now left.
    - intros [->| ->]; [now apply reads_before|constructor]. }
  split; [exists G; auto|]. split; [now apply bytes_eqb_neq|]. split; [now apply bytes_eqb_neq|now apply bytes_eqb_eq].
Qed.

(** * C88 *)

(** save_data interrupted after k bytes: the two ends. *)
Theorem C88_ends : forall f key iv k, save_data_upto 0 f key iv = f /\ (saved_length key iv <= k -> save_data_upto k f key iv = save_data f key iv).
Proof. intros f key iv k. split; [reflexivity|apply save_upto_all]. Qed.
Print Assumptions C88_ends.
(** Into a new file: an interrupted save is noticed, loading panics. *)
Theorem C88_new_file : forall key iv, (Z.of_nat (length (decimal key)) < 2 ^ 64)%Z -> (Z.of_nat (length iv) < 2 ^ 64)%Z ->
  forall k, load_data (save_data_upto k [] key iv) = if k <? saved_length key iv then Panic else Ok (key, iv).
Proof.
  intros key iv L1 L2 k. destruct (Nat.ltb_spec k (saved_length key iv)) as [C|C]; [now apply torn_fresh|].
  rewrite save_upto_all by exact C. now apply load_save.
Qed.
Print Assumptions C88_new_file.
(** Over the data of an earlier run with the same key: it is never noticed.  The new iv is
    loaded as far as it was written, the rest is the old one. *)
Theorem C88_overwrite : forall key iv iv0, (Z.of_nat (length (decimal key)) < 2 ^ 64)%Z -> (Z.of_nat (length iv) < 2 ^ 64)%Z -> length iv0 = length iv ->
  forall f k, let j := k - (16 + length (decimal key)) in
  load_data (save_data_upto k (save_data f key iv0) key iv) = Ok (key, firstn j iv ++ skipn j iv0).
Proof. intros key iv iv0 L1 L2 LI f k. now apply torn_over. Qed.
Print Assumptions C88_overwrite.
(** What is lost: the file was sealed with the new iv and the public data was saved up to
    byte k over an earlier save.  With what is then loaded, all blocks but block 0 are
    restored, and a challenge that leaves out block 0 passes. *)
Theorem C88_loss : forall H H2 pr params key iv n m, setting H pr params key n m -> sound_key H key ->
  mode_l params = 0 -> layout params n m -> hash32 H2 -> (256 ^ Z.of_nat (unit_l params) <= key)%Z ->
  forall origin g st, length origin = data_l params -> copy_and_pad origin (data_l params) (unit_l params) = Ok g ->
  seal H pr params key iv g = Ok st -> ~ In 0%Z (s_log st) ->
  (Z.of_nat (length (decimal key)) < 2 ^ 64)%Z -> (Z.of_nat (length iv) < 2 ^ 64)%Z ->
  forall iv0 f k, length iv0 = length iv ->
  exists iv' c, load_data (save_data_upto k (save_data f key iv0) key iv) = Ok (key, iv') /\
  restores H pr params key iv' (s_file st) c /\ (forall b, 0 < b < n -> same_block params c origin b) /\
  forall leaves tree root, generate_merkle_tree_from_data H2 (s_ids st) = Ok (leaves, tree, root) ->
  forall idx, StronglySorted lt idx -> Forall (fun i => 0 < i < n) idx -> idx <> [] ->
  forall parallel_num r o, challenge H H2 pr params parallel_num origin (s_file st) (save_data_upto k (save_data f key iv0) key iv) leaves tree root r idx o <-> o = Ok tt.
Proof.
  intros H H2 pr params key iv n m SET SK ML LAY HH2 KU origin g st LO EP ES NZ L1 L2 iv0 f k LI0.
  pose proof (sound_lt H pr params key n m SET SK) as KB.
  destruct (pad_sealable params key n m origin g) as (Lg & GS & PU); auto; try apply LAY.
  { rewrite (l_data _ _ _ LAY), (l_block _ _ _ LAY). reflexivity. }
  destruct (seal_total H pr params key iv n m SET g GS) as (st' & ES' & LS & _ & _ & LI). rewrite ES in ES'. injection ES' as <-. apply (f_equal (@length _)) in LI. rewrite map_length, seq_length in LI.
  assert (R0 : restores H pr params key iv (s_file st) origin).
  { eapply C82_pad_bytes_unchecked; eauto. intros q Q. rewrite PU by exact Q. rewrite firstn_app, read_file_length, Nat.sub_diag. cbn [firstn]. rewrite app_nil_r. apply firstn_all2. now rewrite read_file_length. }
  assert (LS' : n * block_pl params <= length (s_file st)) by (destruct GS; lia).
  pose proof (C88_overwrite key iv iv0 L1 L2 LI0 f k) as LD. cbv zeta in LD. set (iv' := firstn _ iv ++ _) in LD.
  destruct (C81_restores H pr params key iv' n m SET KB LAY (s_file st) LS') as (c & R & LC).
  assert (OK : forall b, 0 < b < n -> same_block params c origin b) by (intros b B; exact (C87_iv H pr params key n m SET KB LAY (s_file st) iv' iv c origin LS' R R0 b B)).
  exists iv', c. split; [exact LD|]. split; [exact R|]. split; [exact OK|].
  intros leaves tree root GT idx S FI N parallel_num r o.
  assert (FI' : Forall (fun i => i < n) idx) by (eapply Forall_impl; [|exact FI]; cbn; intros; lia).
  rewrite (C81_challenge H H2 pr params key iv' n m SET KB ML LAY HH2 (s_file st) c LS' R origin _ (s_ids st) leaves tree root LD LI GT idx S FI' N parallel_num r o).
  assert (OK' : forall b, In b idx -> same_block params c origin b) by (intros b I; rewrite Forall_forall in FI; apply OK, FI, I).
  split; [intros [(E & _)|(_ & X)]; [exact E|contradiction]|intros ->; left; auto].
Qed.
Print Assumptions C88_loss.

(** A hash that depends on the end of the string. *)
Definition hrev (d : list byte) : list byte := hsum (rev d).
Definition torn_pub : file := save_data_upto 25 (save_data [] ex_key [x01; x02]) ex_key [x03; x04].
Definition torn_trial : bool :=
  match (let* g := copy_and_pad spot_origin 12 2 in
         let* st := seal hrev Debug spot_params ex_key [x03; x04] g in
         let* (k, iv) := load_data torn_pub in
         let* G := unseal hrev Debug spot_params k iv (s_file st) in
         let* c := copy_and_compress G 12 2 3 in
         Ok (st, k, iv, c)) with
  | Panic => false
  | Ok (st, k, iv, c) =>
      no_zero (s_log st) && (k =? ex_key)%Z && bytes_eqb iv [x03; x02] &&
      negb (bytes_eqb (read_file c 0 4) (read_file spot_origin 0 4)) && bytes_eqb (read_file c 4 4) (read_file spot_origin 4 4) &&
      bytes_eqb (read_file c 8 4) (read_file spot_origin 8 4)
  end.
Lemma hrev_32 : hash32 hrev. Proof. intros d. apply hsum_32. Qed.
Lemma hrev_sound : sound_key hrev ex_key.
Proof. destruct ex_sound as [A B C]. constructor; [exact A|exact B|]. intros d. apply C. Qed.
(** So an interrupted save can leave an iv that is neither the old nor the new one, and
    block 0 is then not restored. *)
Theorem C88_crash_safe_refuted : exists g st iv c, copy_and_pad spot_origin 12 2 = Ok g /\ seal hrev Debug spot_params ex_key [x03; x04] g = Ok st /\
  ~ In 0%Z (s_log st) /\ load_data (save_data_upto 25 (save_data [] ex_key [x01; x02]) ex_key [x03; x04]) = Ok (ex_key, iv) /\ iv = [x03; x02] /\
  restores hrev Debug spot_params ex_key iv (s_file st) c /\ ~ same_block spot_params c spot_origin 0 /\ same_block spot_params c spot_origin 1 /\ same_block spot_params c spot_origin 2.
Proof.
  assert (E : torn_trial = true) by (vm_compute; reflexivity). unfold torn_trial in E. revert E.
  destruct (copy_and_pad spot_origin 12 2) as [g|]; [|discriminate]. cbn [bind].
  destruct (seal hrev Debug spot_params ex_key [x03; x04] g) as [st|] eqn:E1; [|discriminate]. cbn [bind].
  destruct (load_data torn_pub) as [(k, iv)|] eqn:E2; [|discriminate]. cbn [bind].
  destruct (unseal hrev Debug spot_params k iv (s_file st)) as [G|] eqn:E3; [|discriminate]. cbn [bind].
  destruct (copy_and_compress G 12 2 3) as [c|] eqn:E4; [|discriminate]. cbn [bind]. intros E.
  apply andb_prop in E as (E & B6). apply andb_prop in E as (E & B5). apply andb_prop in E as (E & B4).
  apply andb_prop in E as (E & B3). apply andb_prop in E as (B1 & B2). apply negb_true_iff in B4. apply Z.eqb_eq in B2. subst k. apply bytes_eqb_eq in B3.
  exists g, st, iv, c. split; [reflexivity|]. split; [exact E1|]. split; [now apply no_zero_ok|]. split; [exact E2|]. split; [exact B3|].
  split; [exists G; auto|]. split; [now apply bytes_eqb_neq|]. split; now apply bytes_eqb_eq.
Qed.
Print Assumptions C88_crash_safe_refuted.
Example C88_ex : setting hrev Debug spot_params ex_key 3 2 /\ layout spot_params 3 2 /\ sound_key hrev ex_key /\ hash32 hsum /\
  (256 ^ Z.of_nat (unit_l spot_params) <= ex_key)%Z /\ saved_length ex_key [x03; x04] = 26 /\ load_data (save_data_upto 25 [] ex_key [x03; x04]) = Panic.
Proof.
  split; [apply ex_setting; [exact hrev_32|cbn; lia|cbn; lia]|]. split; [exact spot_layout|]. split; [exact hrev_sound|]. split; [exact hsum_32|].
  split; [cbn; unfold ex_key; lia|]. split; reflexivity.
Qed.
