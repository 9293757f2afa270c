(** Properties C40-C47: saved parameters, the pipeline, responses and Merkle trees.
    H is blake3, H2 is SHA-256; both are arbitrary functions with 32-byte results. *)
From Coq Require Import Strings.String Strings.Byte Sorted.
From Verif Require Import Base Sloth Common Depend Prover Verifier Merkle Postorage SealSpec SealPad MerkleFacts MerkleRoot
  ParamFacts PostorageFacts SealWitness.
Local Open Scope nat_scope.

(** C40: [f] is what the target file contained before. *)
Theorem C40_load_save : forall f key iv,
  (Z.of_nat (length (decimal key)) < 2 ^ 64)%Z -> (Z.of_nat (length iv) < 2 ^ 64)%Z ->
  load_data (save_data f key iv) = Ok (key, iv).
Proof. exact load_save. Qed.
Print Assumptions C40_load_save.
(** What is written, c, does not depend on the previous content, whose tail stays. *)
Theorem C40_stale_tail : forall f key iv, exists c, save_data f key iv = c ++ skipn (length c) f /\
  forall g, save_data g key iv = c ++ skipn (length c) g.
Proof. exact save_tail. Qed.
Print Assumptions C40_stale_tail.
Example C40_ex : load_data (save_data (zeros 40) (-1234567890) [x01; x02]) = Ok ((-1234567890)%Z, [x01; x02])
  /\ length (save_data (zeros 40) (-1234567890) [x01; x02]) = 40.
Proof. split; vm_compute; reflexivity. Qed.

(** C41 *)
Theorem C41_key : forall pr upl rnd key iv, (Z.of_nat upl * 8 < 2 ^ 64)%Z -> prepare_params pr upl rnd = Ok (key, iv) ->
  (key = if upl =? 64 then P_512 else if upl =? 128 then P_1024 else if upl =? 256 then P_2048 else P_1024) /\
  ((upl = 64 \/ upl = 128 \/ upl = 256) -> key_fits key upl) /\
  (upl < 128 -> upl <> 64 -> (256 ^ Z.of_nat upl <= key)%Z).
Proof.
  intros pr upl rnd key iv L E. rewrite prepare_params_ok in E by exact L.
  assert (K : (if upl =? 64 then P_512 else if upl =? 128 then P_1024 else if upl =? 256 then P_2048 else P_1024) = key)
    by exact (f_equal (fun r => match r with Ok (k, _) => k | Panic => 0%Z end) E).
  split; [now symmetry|]. rewrite <- K. destruct shipped_keys_fit as (A & B & C). split.
  - intros [->|[->| ->]]; assumption.
  - intros LT N. apply Nat.eqb_neq in N. rewrite N. destruct (Nat.eqb_spec upl 128); [lia|]. destruct (Nat.eqb_spec upl 256); [lia|].
    now apply P_1024_too_big.
Qed.
Print Assumptions C41_key.
Theorem C41_iv : forall pr upl rnd key iv, prepare_params pr upl rnd = Ok (key, iv) ->
  length iv = 128 /\ forall k, k < 128 -> nth_error iv k = Some (rnd k).
Proof. exact prepare_params_iv. Qed.
Print Assumptions C41_iv.
Theorem C41_total : forall pr upl rnd, (Z.of_nat upl * 8 < 2 ^ 64)%Z -> exists r, prepare_params pr upl rnd = Ok r.
Proof. intros pr upl rnd L. rewrite prepare_params_ok by exact L. eauto. Qed.
Print Assumptions C41_total.
Example C41_ex : prepare_params Debug 128 (fun _ => x07) = Ok (P_1024, repeat x07 128).
Proof. vm_compute. reflexivity. Qed.
(** A unit length for which the chosen key cannot work at all. *)
Theorem C41_fits_refuted : exists upl key iv, prepare_params Debug upl (fun _ => x00) = Ok (key, iv) /\ ~ (key < 256 ^ Z.of_nat upl)%Z.
Proof. exists 32, P_1024, (zeros 128). split; [vm_compute; reflexivity|]. pose proof (P_1024_too_big 32 ltac:(lia)). lia. Qed.
Print Assumptions C41_fits_refuted.

(** C42: every run of the pipeline, for every schedule of the thread pool
    (parallel_num = 0 is the sequential version), every original file, iv, random byte
    and random index stream; NZ is the exclusion of the zero residue. *)
Theorem C42_pipeline : forall H H2 pr params n m, layout params n m -> hash32 H2 ->
  forall rnd_file rnd_iv pub key iv, prepare_params pr (unit_pl params) rnd_iv = Ok (key, iv) ->
  setting H pr params key n m -> sound_key H key -> (256 ^ Z.of_nat (unit_l params) <= key)%Z -> mode_l params = 0 ->
  (forall g st, copy_and_pad (create_random_file rnd_file (data_l params)) (data_l params) (unit_l params) = Ok g ->
     seal H pr params key iv g = Ok st -> ~ In 0%Z (s_log st)) ->
  forall parallel_num count cs, 0 < count ->
  (forall o, pipeline H H2 pr params parallel_num count rnd_file rnd_iv pub cs o -> o = Ok tt) /\
  (Forall (fun c => exists fuel idx, create_challenges fuel count (0, n) (snd c) = Some (Ok idx)) cs ->
   pipeline H H2 pr params parallel_num count rnd_file rnd_iv pub cs (Ok tt)).
Proof. exact pipeline_passes. Qed.
Print Assumptions C42_pipeline.
Theorem C42_shipped : forall H H2 pr l rnd_file rnd_iv pub, hash32 H -> hash32 H2 ->
  (forall g st, copy_and_pad (create_random_file rnd_file (data_l (gen_posdata l))) (data_l (gen_posdata l)) (unit_l (gen_posdata l)) = Ok g ->
     seal H pr (gen_posdata l) P_512 (map rnd_iv (seq 0 128)) g = Ok st -> ~ In 0%Z (s_log st)) ->
  forall parallel_num count cs, 0 < count ->
  (forall o, pipeline H H2 pr (gen_posdata l) parallel_num count rnd_file rnd_iv pub cs o -> o = Ok tt) /\
  (Forall (fun c => exists fuel idx, create_challenges fuel count (0, 256) (snd c) = Some (Ok idx)) cs ->
   pipeline H H2 pr (gen_posdata l) parallel_num count rnd_file rnd_iv pub cs (Ok tt)).
Proof.
  intros H H2 pr l rnd_file rnd_iv pub HH HH2 NZ.
  apply (pipeline_passes H H2 pr (gen_posdata l) 256 (units_per_block l) (gen_posdata_layout l) HH2 rnd_file rnd_iv pub P_512 (map rnd_iv (seq 0 128))); auto.
  - apply gen_posdata_key.
  - now apply gen_posdata_setting.
  - now apply shipped_sound.
  - destruct (gen_posdata_geometry l) as (-> & _). apply P_512_holds_unit.
  - now destruct (gen_posdata_geometry l) as (_ & _ & _ & _ & _ & _ & ML & _).
Qed.
Print Assumptions C42_shipped.
(** With one sealing round and a hash that is never zero no exclusion is needed. *)
Theorem C42_one_round : forall H H2 pr params n m, layout params n m -> hash32 H -> hash32 H2 ->
  (forall d, le2z (H d) <> 0%Z) -> unit_pl params = 64 -> seal_rounds params = 1 -> mode_l params = 0 -> setting H pr params P_512 n m ->
  forall rnd_file rnd_iv pub parallel_num count cs o, 0 < count ->
  pipeline H H2 pr params parallel_num count rnd_file rnd_iv pub cs o -> o = Ok tt.
Proof.
  intros H H2 pr params n m LAY HH HH2 HN UP SR ML SET rnd_file rnd_iv pub parallel_num count cs o C0.
  refine (proj1 (pipeline_passes H H2 pr params n m LAY HH2 rnd_file rnd_iv pub P_512 (map rnd_iv (seq 0 128)) _ SET _ _ ML _ parallel_num count cs C0) o).
  - rewrite UP. apply (prepare_params_ok pr 64). reflexivity.
  - now apply shipped_sound.
  - replace (unit_l params) with 63 by (pose proof (l_unit_pl _ _ _ LAY); lia). apply P_512_holds_unit.
  - intros g st EP ES. exact (one_round_no_zero H pr params n m _ _ g st HH HN LAY SET UP SR EP ES).
Qed.
Print Assumptions C42_one_round.
Definition one_params : PosPara := mkPosPara 252 63 126 126 64 128 128 1 1 "sloth"%string 0 3 0 3 1.
Definition hone (d : list byte) : list byte := x01 :: zeros 31.
Example C42_ex : layout one_params 2 2 /\ setting hone Debug one_params P_512 2 2 /\ hash32 hone /\ (forall d, le2z (hone d) <> 0%Z) /\
  exists fuel idx, create_challenges fuel 2 (0, 2) (fun i => i) = Some (Ok idx).
Proof.
  assert (HH : hash32 hone) by (intros d; reflexivity). split; [constructor; cbn; lia|]. split; [|split; [exact HH|split; [discriminate|now exists 4, [0; 1]]]].
  constructor; [exact HH|constructor; cbn; lia| |cbn; lia|cbn; lia]. pose proof P_512_fits. change (Z.of_nat (unit_pl one_params)) with 64%Z. lia.
Qed.
(** The other entry points. *)
Theorem C42_seal_and_unseal : forall H pr params n m, layout params n m ->
  forall rnd_iv pub key iv, prepare_params pr (unit_pl params) rnd_iv = Ok (key, iv) ->
  setting H pr params key n m -> sound_key H key -> (256 ^ Z.of_nat (unit_l params) <= key)%Z -> mode_l params = 0 ->
  forall origin unsealed, length origin = data_l params ->
  (forall g st, copy_and_pad origin (data_l params) (unit_l params) = Ok g -> seal H pr params key iv g = Ok st -> ~ In 0%Z (s_log st)) ->
  exists sealed pub', seal_and_unseal H pr params rnd_iv origin pub unsealed true = Ok (sealed, pub', origin) /\
  load_data pub' = Ok (key, iv).
Proof. exact seal_and_unseal_ok. Qed.
Print Assumptions C42_seal_and_unseal.
Theorem C42_single_blocks : forall H pr params n m, layout params n m ->
  forall key iv origin g st pub parallel_num o,
  setting H pr params key n m -> sound_key H key -> (256 ^ Z.of_nat (unit_l params) <= key)%Z ->
  copy_and_pad origin (data_l params) (unit_l params) = Ok g -> seal H pr params key iv g = Ok st -> ~ In 0%Z (s_log st) ->
  load_data pub = Ok (key, iv) -> 10 <= n ->
  unseal_single_and_verify H pr params pub origin (s_file st) parallel_num o <-> o = Ok tt.
Proof. exact unseal_single_ok. Qed.
Print Assumptions C42_single_blocks.
Theorem C42_merkle_tree_proof : forall H2 params n m, layout params n m -> hash32 H2 ->
  forall f idx, StronglySorted lt idx -> Forall (fun i => i < n) idx -> idx <> [] -> merkle_tree_proof H2 params f f idx = Ok tt.
Proof. intros H2. exact (merkle_tree_proof_ok H2 H2). Qed.
Print Assumptions C42_merkle_tree_proof.

(** C43: [same_shape]: the same numbers of blocks, units and bytes per unit.  The
    collision is the pair of hashed strings itself. *)
Theorem C43_response_binds : forall (H : list byte -> list byte) r r' a b, same_shape a b ->
  H (response_data r a) = H (response_data r' b) ->
  (r = r' /\ a = b) \/ (response_data r a <> response_data r' b).
Proof.
  intros H r r' a b S E. destruct (list_eq_dec Byte.byte_eq_dec (response_data r a) (response_data r' b)) as [Q|Q]; [left|now right].
  exact (response_injective r r' a b S Q).
Qed.
Print Assumptions C43_response_binds.
(** Without the shape the boundaries between units are not protected. *)
Theorem C43_other_shape_refuted : exists r a b, a <> b /\ response_data r a = response_data r b.
Proof. exists x00, [[[x01; x02]]], [[[x01]; [x02]]]. split; [discriminate|reflexivity]. Qed.
Print Assumptions C43_other_shape_refuted.
Example C43_ex : same_shape [[[x01; x02]; [x03]]] [[[x01; x02]; [x04]]].
Proof. reflexivity. Qed.

(** C44: if the checks before unsealing pass for one response they pass for any other
    blocks whatsoever, committed to in the same way. *)
Theorem C44_blocks_not_tied : forall H H2 r blocks proof root idx leaves,
  verify_response H H2 (H (response_data r blocks)) r blocks proof root idx leaves = Ok tt ->
  forall blocks', verify_response H H2 (H (response_data r blocks')) r blocks' proof root idx leaves = Ok tt.
Proof.
  intros H H2 r blocks proof root idx leaves V blocks'. unfold verify_response in *.
  destruct (list_eq_dec _ (H (response_data r blocks')) _) as [_|Q]; [|congruence].
  destruct (list_eq_dec _ (H (response_data r blocks)) _) as [_|Q]; [exact V|congruence].
Qed.
Print Assumptions C44_blocks_not_tied.
(** The checks do pass for an honest tree over the block ids. *)
Theorem C44_reachable : forall H H2 ids idx r blocks, hash32 H2 -> StronglySorted lt idx -> Forall (fun i => i < length ids) idx -> idx <> [] ->
  exists leaves tree root proof, generate_merkle_tree_from_data H2 ids = Ok (leaves, tree, root) /\
  generate_merkle_proof idx tree = Ok proof /\
  verify_response H H2 (H (response_data r blocks)) r blocks proof root idx leaves = Ok tt.
Proof.
  intros H H2 ids idx r blocks HH S F N. destruct (proof_complete H2 HH (map H2 ids) idx) as (proof & root & GP & TR & V); auto.
  - apply Forall_forall. intros x I. apply in_map_iff in I. destruct I as (y & <- & _). apply HH.
  - now rewrite map_length.
  - exists (map H2 ids), (from_leaves H2 (map H2 ids)), root, proof. unfold generate_merkle_tree_from_data. rewrite TR. split; [reflexivity|].
    split; [exact GP|]. unfold verify_response. destruct (list_eq_dec _ _ _); [exact V|congruence].
Qed.
Print Assumptions C44_reachable.
Example C44_ex : hash32 hsum /\ StronglySorted lt [0; 2] /\ Forall (fun i => i < length [[x00]; [x01]; [x02]]) [0; 2].
Proof. split; [exact hsum_32|]. split; repeat constructor. Qed.

(** C45 *)
Theorem C45_first_leaf_unread : forall H2 f g data_len leaf_len, skipn leaf_len f = skipn leaf_len g ->
  generate_merkle_tree_from_file H2 f data_len leaf_len = generate_merkle_tree_from_file H2 g data_len leaf_len.
Proof. exact file_root_suffix. Qed.
Print Assumptions C45_first_leaf_unread.
Theorem C45_leaves : forall H2 f data_len leaf_len, leaf_len <> 0 ->
  generate_merkle_tree_from_file H2 f data_len leaf_len
  = generate_merkle_tree_from_data H2 (map (fun i => read_file f ((i + 1) * leaf_len) leaf_len) (seq 0 (ceil_div data_len leaf_len))).
Proof. exact file_leaves. Qed.
Print Assumptions C45_leaves.
Theorem C45_last_leaf : forall H2 f n leaf_len, leaf_len <> 0 -> n <> 0 -> length f = n * leaf_len ->
  exists pre, forall ls t r, generate_merkle_tree_from_file H2 f (n * leaf_len) leaf_len = Ok (ls, t, r) ->
  length pre = n - 1 /\ ls = pre ++ [H2 (zeros leaf_len)].
Proof. exact file_last_leaf. Qed.
Print Assumptions C45_last_leaf.
(** The rest of the file is bound: files with the same root agree from leaf_len on, or
    two different leaves or two different pairs of nodes have the same hash. *)
Theorem C45_rest_bound : forall H2 f g data_len leaf_len lf tf lg tg r, (forall d, length (H2 d) = 32) ->
  generate_merkle_tree_from_file H2 f data_len leaf_len = Ok (lf, tf, r) ->
  generate_merkle_tree_from_file H2 g data_len leaf_len = Ok (lg, tg, r) ->
  (forall i, i * leaf_len < data_len -> read_file f ((i + 1) * leaf_len) leaf_len = read_file g ((i + 1) * leaf_len) leaf_len) \/
  (exists i, i * leaf_len < data_len /\ leaf_of f leaf_len i <> leaf_of g leaf_len i /\ H2 (leaf_of f leaf_len i) = H2 (leaf_of g leaf_len i)) \/
  exists x y, In x (tree_inputs tf) /\ In y (tree_inputs tg) /\ x <> y /\ H2 x = H2 y.
Proof. exact file_root_binding. Qed.
Print Assumptions C45_rest_bound.
Theorem C45_root_binds_file_refuted : exists f g, f <> g /\ length f = 4 /\ length g = 4 /\
  forall H2, generate_merkle_tree_from_file H2 f 4 2 = generate_merkle_tree_from_file H2 g 4 2.
Proof.
  exists [x00; x00; x01; x01], [x07; x08; x01; x01]. split; [discriminate|]. split; [reflexivity|]. split; [reflexivity|].
  intros H2. apply file_root_suffix. reflexivity.
Qed.
Print Assumptions C45_root_binds_file_refuted.
(** Hence the pipeline's final comparison accepts a file whose first block is lost. *)
Theorem C45_final_check_refuted : forall H2 params f g lf tf rf, length f = data_l params -> length g = data_l params ->
  skipn (block_l params) f = skipn (block_l params) g ->
  generate_merkle_tree_from_file H2 f (data_l params) (block_l params) = Ok (lf, tf, rf) ->
  exists lg tg, generate_merkle_tree_from_file H2 g (data_l params) (block_l params) = Ok (lg, tg, rf).
Proof. intros H2 params f g lf tf rf _ _ S E. rewrite (file_root_suffix H2 f g _ _ S) in E. eauto. Qed.
Print Assumptions C45_final_check_refuted.
(** Two files with the same root that agree from the second leaf on. *)
Example C45_ex : exists lf tf lg tg r, generate_merkle_tree_from_file hsum [x01; x02; x03; x04; x05; x06] 6 2 = Ok (lf, tf, r) /\
  generate_merkle_tree_from_file hsum [x09; x09; x03; x04; x05; x06] 6 2 = Ok (lg, tg, r) /\ length lf = 3 /\ nth 2 lf [] = hsum (zeros 2).
Proof. do 5 eexists. split; [vm_compute; reflexivity|]. split; [vm_compute; reflexivity|]. split; vm_compute; reflexivity. Qed.

(** C46: [vals] are the leaf values; challenge lists are strictly increasing (C30). *)
Theorem C46_proofs_verify : forall H2 vals idx, hash32 H2 ->
  StronglySorted lt idx -> Forall (fun i => i < length vals) idx -> idx <> [] ->
  exists leaves tree root proof, generate_merkle_tree_from_data H2 vals = Ok (leaves, tree, root) /\
  leaves = map H2 vals /\ generate_merkle_proof idx tree = Ok proof /\
  verify_merkle_proof H2 proof root idx leaves = Ok tt.
Proof.
  intros H2 vals idx HH S F N. destruct (proof_complete H2 HH (map H2 vals) idx) as (proof & root & GP & TR & V); auto.
  - apply Forall_forall. intros x I. apply in_map_iff in I. destruct I as (y & <- & _). apply HH.
  - now rewrite map_length.
  - exists (map H2 vals), (from_leaves H2 (map H2 vals)), root, proof. unfold generate_merkle_tree_from_data. rewrite TR. auto.
Qed.
Print Assumptions C46_proofs_verify.
(** The root is obtained by hashing neighbours until one node is left. *)
Theorem C46_root : forall H2 vals leaves tree root,
  generate_merkle_tree_from_data H2 vals = Ok (leaves, tree, root) <->
  leaves = map H2 vals /\ tree = from_leaves H2 (map H2 vals) /\ exists k, layers_up H2 k (map H2 vals) = [root].
Proof.
  intros H2 vals leaves tree root. unfold generate_merkle_tree_from_data. pose proof (root_spec H2 (map H2 vals)) as R.
  destruct (tree_root (from_leaves H2 (map H2 vals))) as [r|] eqn:TR.
  - split; [intros [= <- <- <-]; repeat split; now apply R|]. intros (-> & -> & K). apply R in K. now injection K as ->.
  - split; [discriminate|]. intros (_ & _ & K). apply R in K. discriminate.
Qed.
Print Assumptions C46_root.
Theorem C46_no_leaves : forall H2, generate_merkle_tree_from_data H2 [] = Panic.
Proof. reflexivity. Qed.
Print Assumptions C46_no_leaves.
Example C46_ex : StronglySorted lt [0; 2; 4] /\ Forall (fun i => i < length [[x00]; [x01]; [x02]; [x03]; [x04]]) [0; 2; 4].
Proof. split; repeat constructor. Qed.

(** C47: the collision is between a string hashed while checking the proof and a
    string hashed while building the tree. *)
Theorem C47_binding : forall H2, (forall d, length (H2 d) = 32) ->
  forall leaves claimed idx proof root,
  Forall (fun h => length h = 32) leaves -> Forall (fun h => length h = 32) claimed -> Forall (fun h => length h = 32) proof ->
  length claimed = length leaves -> StronglySorted lt idx ->
  tree_root (from_leaves H2 leaves) = Some root -> verify_merkle_proof H2 proof root idx claimed = Ok tt ->
  (forall i, In i idx -> nth_error claimed i = nth_error leaves i) \/
  exists t x y, proof_tree H2 proof idx (map (at_ claimed) idx) (length claimed) = Some t /\
  In x (tree_inputs t) /\ In y (tree_inputs (from_leaves H2 leaves)) /\ x <> y /\ H2 x = H2 y.
Proof. exact proof_binding. Qed.
Print Assumptions C47_binding.
(** The number of leaves is not bound: the pairs of leaf hashes, presented as leaf
    values, have the same root as the original values, for every hash. *)
Theorem C47_leaf_count_refuted : forall H2 vals leaves tree root, Nat.even (length vals) = true -> vals <> [] ->
  generate_merkle_tree_from_data H2 vals = Ok (leaves, tree, root) ->
  exists leaves' tree', generate_merkle_tree_from_data H2 (layer_inputs (map H2 vals)) = Ok (leaves', tree', root).
Proof.
  intros H2 vals leaves tree root E N G. unfold generate_merkle_tree_from_data in *.
  destruct (tree_root (from_leaves H2 (map H2 vals))) as [r|] eqn:TR; [|discriminate]. injection G as _ _ ->.
  rewrite (second_preimage H2 vals root E N TR). eauto.
Qed.
Print Assumptions C47_leaf_count_refuted.
Example C47_ex : layer_inputs [[x00]; [x01]; [x02]; [x03]] = [[x00; x01]; [x02; x03]].
Proof. reflexivity. Qed.
