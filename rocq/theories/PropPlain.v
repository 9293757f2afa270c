(** Property C115: what the parallel check accepts, and that the bare data pass it.
    Vocabulary: [verified] from PropGather; [only i l], the i-th element of l alone, from
    ParallelFacts. *)
From Coq Require Import Strings.Byte.
From Verif Require Import Base Sloth Common Depend Prover Verifier Merkle Postorage BytesFacts DependDet DependSpec SealSpec SealWitness VerifierFacts ParallelFacts ChallengeFacts MerkleFacts SpotFacts PropSpot PropVerifier PropPostorage PropChance Gather PropGather.
Local Open Scope nat_scope.

(** The blocks asked for, as they are in the original: units of unit_l bytes, not sealed and
    not even padded. *)
Definition bare (params : PosPara) (m : nat) (origin : file) (ks : list nat) : list (list (list byte)) :=
  map (fun k => map (fun j => read_file origin (k * block_l params + j * unit_l params) (unit_l params)) (seq 0 m)) ks.

(** Whatever the rules, key, iv, hash, number of threads and challenge: the bare data, sent
    with no dependencies at all, come back as the unsealed blocks in every schedule and
    pass batch_verify, although nothing was ever sealed. *)
Theorem C115_bare : forall H pr params key iv m, bp_idxs_s pr params <> Panic -> 0 < unit_l params -> 0 < m -> block_l params = m * unit_l params -> 0 < seal_rounds params ->
  forall threads ks origin before, threads <> 0 ->
  (forall r, batch_unseal_parallel H pr params key iv ks before [] threads (bare params m origin ks) r <-> r = Ok (bare params m origin ks)) /\
  verified params origin (ks, bare params m origin ks).
Proof.
  intros H pr params key iv m T U M B SR threads ks origin before TH. split.
  - intros r. destruct (bp_idxs_s pr params) as [t|] eqn:ET; [|congruence]. rewrite (par_result H pr params key iv ks before [] threads (bare params m origin ks) t r TH ET).
    enough (E : map (result H params key iv ks before [] t (bare params m origin ks)) (seq 0 (length (bare params m origin ks))) = bare params m origin ks) by now rewrite E.
    set (bs := bare params m origin ks). transitivity (map (fun i => nth i bs []) (seq 0 (length bs))).
    + apply map_ext_in. intros i I. apply in_seq in I. unfold result. replace (bjob H params key iv ks before [] t bs i) with (@Panic (list (list byte))); [reflexivity|]. symmetry.
      unfold bjob. destruct (index ks i) as [k|] eqn:K; [|reflexivity]. cbn [bind]. unfold index. destruct (nth_error bs i) as [b|] eqn:N; [|reflexivity]. cbn [bind].
      assert (LB : length b = m). { unfold bs, bare in N. rewrite nth_error_map in N. destruct (nth_error ks i); [|discriminate]. injection N as <-. now rewrite map_length, seq_length. }
      rewrite LB. apply (foldM_panic _ _ 0).
      * apply in_concat. exists (seq 0 m). split; [|apply in_seq; lia]. destruct (seal_rounds params); [lia|now left].
      * intros s. unfold bu_unit, bu_depend_data, index. destruct i; reflexivity.
    + clear. apply BytesFacts.list_ext. intros i. rewrite nth_error_map. destruct (nth_error (seq 0 (length bs)) i) as [j|] eqn:N.
      * apply nth_seq in N as (-> & L). cbn. symmetry. now apply nth_error_nth'.
      * cbn. apply nth_error_None in N. rewrite seq_length in N. symmetry. now apply nth_error_None.
  - unfold verified, bare. cbn [fst snd]. split; [apply map_length|]. intros i k o K O. rewrite nth_error_map, K in O. injection O as <-. apply C34_batch_verify. split; [exact U|]. split; [now exists m|].
    rewrite B, Nat.div_mul by lia. intros j J. rewrite nth_error_map, (proj2 (nth_seq m j j)) by auto. eexists. split; [reflexivity|]. apply firstn_all2. now rewrite read_file_length.
Qed.
Print Assumptions C115_bare.
(** The sequential check panics on the same answer. *)
Theorem C115_sequential : forall H pr params key iv m, 0 < m -> 0 < seal_rounds params ->
  forall ks origin before, ks <> [] -> batch_unseal H pr params key iv ks before [] (bare params m origin ks) = Panic.
Proof.
  intros H pr params key iv m M SR ks origin before NE. unfold batch_unseal. destruct (bu_idxs_s pr params) as [t|]; [|reflexivity]. cbn [bind].
  destruct ks as [|k ks]; [congruence|]. cbn [bare map length seq foldM]. unfold bu_block. cbn [index nth_error bind]. set (b := map _ (seq 0 m)). assert (LB : length b = m) by (unfold b; now rewrite map_length, seq_length).
  rewrite LB. replace (foldM _ (seq 0 (seal_rounds params)) b) with (@Panic (list (list byte))); [reflexivity|]. symmetry. apply (foldM_panic _ _ 0); [apply in_seq; lia|].
  intros s. apply (foldM_panic _ _ 0); [apply in_seq; lia|]. intros s'. reflexivity.
Qed.
Print Assumptions C115_sequential.
(** [judge] is the verifier of the pipeline: with the honest prover's messages it is the
    challenge of the model. *)
Theorem C115_judge : forall H H2 pr params parallel_num origin sealed pub leaves tree root r idx rs proof,
  mapM (single_unseal_prepare H pr params sealed) idx = Ok rs -> generate_merkle_proof idx tree = Ok proof ->
  let a := mkAnswer (map (fun x => snd (fst x)) rs) (map snd rs) (map (fun x => fst (fst x)) rs) in
  forall o, challenge H H2 pr params parallel_num origin sealed pub leaves tree root r idx o <->
    judge H H2 pr params parallel_num origin pub leaves root r idx (H (response_data r (a_blocks a))) a proof o.
Proof.
  intros H H2 pr params parallel_num origin sealed pub leaves tree root r idx rs proof R G a o.
  assert (P : challenge_prepare H H2 pr params sealed pub leaves tree root r idx =
    let* ki := (let* _ := verify_response H H2 (H (response_data r (a_blocks a))) r (a_blocks a) proof root idx leaves in load_data pub) in Ok (ki, rs)).
  { unfold challenge_prepare. rewrite R, G. cbn [bind]. unfold a. cbn [a_blocks]. destruct (verify_response _ _ _ _ _ _ _ _ _) as [[]|]; [|reflexivity]. cbn [bind]. destruct (load_data pub) as [[k i]|]; reflexivity. }
  split; intros C.
  - destruct C as [E|key iv rs' out E O]; rewrite P in E; destruct (let* _ := verify_response _ _ _ _ _ _ _ _ _ in _) as [[k i]|] eqn:V; cbn [bind] in E; try discriminate E.
    + now apply J_panic.
    + injection E as <- <- <-. eapply J_go; [exact V|exact O].
  - destruct C as [E|key iv out E O].
    + apply Ch_panic. now rewrite P, E.
    + eapply Ch_go; [rewrite P, E; reflexivity|exact O].
Qed.
Print Assumptions C115_judge.
(** A prover that never sealed anything passes every challenge of a verifier that unseals in
    parallel: it sends the bare data, the hash of them and the Merkle proof that goes with
    whatever tree is in use.  The proof is about the leaves the verifier has, not about the
    blocks it was sent. *)
Theorem C115_challenge : forall H H2 pr params key iv m, bp_idxs_s pr params <> Panic -> 0 < unit_l params -> 0 < m -> block_l params = m * unit_l params -> 0 < seal_rounds params ->
  forall pub ids leaves tree root, hash32 H2 -> load_data pub = Ok (key, iv) -> generate_merkle_tree_from_data H2 ids = Ok (leaves, tree, root) ->
  forall idx, Sorted.StronglySorted lt idx -> Forall (fun k => k < length ids) idx -> idx <> [] ->
  forall parallel_num origin r before, parallel_num <> 0 ->
  exists proof, generate_merkle_proof idx tree = Ok proof /\
  let a := mkAnswer before [] (bare params m origin idx) in
  forall o, judge H H2 pr params parallel_num origin pub leaves root r idx (H (response_data r (a_blocks a))) a proof o <-> o = Ok tt.
Proof.
  intros H H2 pr params key iv m T U M B SR pub ids leaves tree root HH LD GT idx S F N parallel_num origin r before TH.
  destruct (C46_proofs_verify H2 ids idx HH S F N) as (leaves' & tree' & root' & proof & GT' & _ & GP & V). rewrite GT in GT'. injection GT' as <- <- <-. exists proof. split; [exact GP|]. intros a o.
  destruct (C115_bare H pr params key iv m T U M B SR parallel_num idx origin before TH) as (P & VE).
  assert (E : (let* _ := verify_response H H2 (H (response_data r (a_blocks a))) r (a_blocks a) proof root idx leaves in load_data pub) = Ok (key, iv)).
  { unfold verify_response. destruct (list_eq_dec _ _ _); [|congruence]. rewrite V. exact LD. }
  assert (W : foldM (fun _ i => let* k := index idx i in let* b := index (bare params m origin idx) i in batch_verify origin k b (block_l params) (unit_l params)) (seq 0 (length idx)) tt = Ok tt).
  { apply foldM_unit, Forall_forall. intros i I. apply in_seq in I. destruct VE as (L & VE). cbn [fst snd] in *. unfold index. destruct (nth_error idx i) as [k|] eqn:K; [|apply nth_error_None in K; lia].
    destruct (nth_error (bare params m origin idx) i) as [b|] eqn:Bi; [|apply nth_error_None in Bi; lia]. cbn [bind]. eapply VE; eauto. }
  split.
  - intros J. destruct J as [E'|k' i' out E' O]; rewrite E in E'; [discriminate|]. injection E' as <- <-. destruct (Nat.eqb_spec parallel_num 0); [congruence|]. cbn [a a_before a_deps a_blocks] in O. apply P in O. subst out. cbn [bind]. exact W.
  - intros ->. rewrite <- W. pose proof (J_go H H2 pr params parallel_num origin pub leaves root r idx (H (response_data r (a_blocks a))) a proof key iv (Ok (bare params m origin idx)) E) as J.
    destruct (Nat.eqb_spec parallel_num 0); [congruence|]. cbn [bind] in J. apply J. cbn [a a_before a_deps a_blocks]. now apply P.
Qed.
Print Assumptions C115_challenge.
(** Which answers the parallel check accepts, in every schedule: each block is either
    unsealed to the original block by the sequential code, or makes it panic and is already
    as batch_verify wants it. *)
Theorem C115_accepts : forall H pr params key iv ks before deps threads blocks origin, threads <> 0 -> same_tables params -> length blocks = length ks ->
  forall out, batch_unseal_parallel H pr params key iv ks before deps threads blocks (Ok out) ->
  (verified params origin (ks, out) <-> forall i k b, nth_error ks i = Some k -> nth_error blocks i = Some b ->
     match batch_unseal H pr params key iv (only i ks) (only i before) (only i deps) [b] with
     | Ok c => exists u, c = [u] /\ batch_verify origin k u (block_l params) (unit_l params) = Ok tt
     | Panic => batch_verify origin k b (block_l params) (unit_l params) = Ok tt
     end).
Proof.
  intros H pr params key iv ks before deps threads blocks origin TH T LB out P. apply C37_blockwise in P as (LO & P); [|exact TH|exact T]. unfold verified. cbn [fst snd]. split.
  - intros (_ & V) i k b K B. specialize (V i k _ K (P i b B)). destruct (batch_unseal _ _ _ _ _ _ _ _ _) as [c|] eqn:E; [|exact V].
    apply batch_unseal_length in E. destruct c as [|u [|? ?]]; try discriminate E. exists u. auto.
  - intros A. split; [congruence|]. intros i k o K O. destruct (nth_error blocks i) as [b|] eqn:B; [|apply nth_error_None in B; assert (i < length out) by (apply nth_error_Some; congruence); lia].
    specialize (A i k b K B). rewrite (P i b B) in O. injection O as <-. destruct (batch_unseal _ _ _ _ _ _ _ _ _) as [c|]; [|exact A]. destruct A as (u & -> & V). exact V.
Qed.
Print Assumptions C115_accepts.
(** So also from what the parallel check accepted the data can be put together. *)
Theorem C115_collect : forall H pr params key iv n origin threads rounds, data_l params = n * block_l params -> length origin = data_l params ->
  Forall (fun r : list nat * answer * list (list (list byte)) => let '(ks, a, out) := r in
    batch_unseal_parallel H pr params key iv ks (a_before a) (a_deps a) threads (a_blocks a) (Ok out) /\ verified params origin (ks, out) /\ Forall (fun k => k < n) ks) rounds ->
  (forall k, k < n -> exists ks a out, In (ks, a, out) rounds /\ In k ks) ->
  collect params (map (fun r => (fst (fst r), snd r)) rounds) = origin.
Proof.
  intros H pr params key iv n origin threads rounds DL LO F ALL. set (rs := map (fun r => (fst (fst r), snd r)) rounds). rewrite Forall_forall in F.
  assert (V : Forall (verified params origin) rs). { apply Forall_forall. intros r IR. apply in_map_iff in IR as ([[ks a] out] & <- & IR). apply (F _ IR). }
  assert (R : Forall (fun r => Forall (fun k => k < n) (fst r)) rs). { apply Forall_forall. intros r IR. apply in_map_iff in IR as ([[ks a] out] & <- & IR). apply (F _ IR). }
  pose proof (collects_has params n origin DL rs [] _ (has_none params n origin) R V) as HF. fold (collect params rs) in HF.
  rewrite (has_all params n origin DL _ _ HF); [rewrite read_file_full by lia; cbn; apply firstn_all2; lia|].
  intros k K. destruct (ALL k K) as (ks & a & out & IR & IK). cbn [app]. apply in_concat. exists ks. split; [|exact IK]. apply in_map_iff. exists (ks, out). split; [reflexivity|]. apply in_map_iff. exists (ks, a, out). auto.
Qed.
Print Assumptions C115_collect.
(** Three blocks of two units, never sealed, pass with two threads. *)
Example C115_ex : bp_idxs_s Debug spot_params <> Panic /\ 0 < unit_l spot_params /\ block_l spot_params = 2 * unit_l spot_params /\ 0 < seal_rounds spot_params /\
  bare spot_params 2 spot_origin [2; 0] <> bare spot_params 2 (zeros 12) [2; 0] /\
  batch_unseal_parallel hsum Debug spot_params ex_key [] [2; 0] [] [] 2 (bare spot_params 2 spot_origin [2; 0]) (Ok (bare spot_params 2 spot_origin [2; 0])) /\
  verified spot_params spot_origin ([2; 0], bare spot_params 2 spot_origin [2; 0]).
Proof.
  destruct (C115_bare hsum Debug spot_params ex_key [] 2 ltac:(discriminate) ltac:(cbn; lia) ltac:(lia) eq_refl ltac:(cbn; lia) 2 [2; 0] spot_origin [] ltac:(lia)) as (A & B).
  split; [discriminate|]. split; [cbn; lia|]. split; [reflexivity|]. split; [cbn; lia|]. split; [vm_compute; discriminate|]. split; [now apply A|exact B].
Qed.
(** And a verifier of the pipeline with two threads accepts them for blocks 0 and 2, with a
    tree over three ids that have nothing to do with the data. *)
Example C115_challenge_ex : exists pub leaves tree root proof, load_data pub = Ok (ex_key, []) /\ generate_merkle_tree_from_data hfix [[x01]; [x02]; [x03]] = Ok (leaves, tree, root) /\
  generate_merkle_proof [0; 2] tree = Ok proof /\
  let blocks := bare spot_params 2 spot_origin [0; 2] in
  forall o, judge hsum hfix Debug spot_params 2 spot_origin pub leaves root x07 [0; 2] (hsum (response_data x07 blocks)) (mkAnswer [] [] blocks) proof o <-> o = Ok tt.
Proof.
  assert (HX : hash32 hfix) by (intros d; unfold hfix; rewrite firstn_length, app_length, repeat_length; lia).
  assert (GT : exists leaves tree root, generate_merkle_tree_from_data hfix [[x01]; [x02]; [x03]] = Ok (leaves, tree, root)) by (vm_compute; eauto).
  destruct GT as (leaves & tree & root & GT). assert (LD : load_data (save_data [] ex_key []) = Ok (ex_key, [])) by (vm_compute; reflexivity). revert LD. generalize (save_data [] ex_key []) as pub. intros pub LD.
  destruct (C115_challenge hsum hfix Debug spot_params ex_key [] 2 ltac:(discriminate) ltac:(cbn; lia) ltac:(lia) eq_refl ltac:(cbn; lia) pub [[x01]; [x02]; [x03]] leaves tree root HX LD GT [0; 2]
    ltac:(repeat constructor) ltac:(repeat constructor) ltac:(discriminate) 2 spot_origin x07 [] ltac:(lia)) as (proof & GP & J).
  exists pub, leaves, tree, root, proof. split; [exact LD|]. split; [exact GT|]. split; [exact GP|]. exact J.
Qed.
