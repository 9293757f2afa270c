(** Property C94: Merkle proofs as byte strings that somebody else supplies.  H2 is
    SHA-256.  Vocabulary: [tree_inputs], [at_] from MerkleFacts. *)
From Coq Require Import Strings.Byte Sorted List.
From Verif Require Import Base Common Merkle Postorage SealSpec CommonFacts MerkleFacts MerkleRoot MerkleMore PostorageFacts PropPostorage.
Local Open Scope nat_scope.

Lemma map_32 H2 (vals : list (list byte)) : hash32 H2 -> Forall (fun h => length h = 32) (map H2 vals).
Proof. intros HH. apply Forall_forall. intros x I. apply in_map_iff in I. destruct I as (y & <- & _). apply HH. Qed.
Lemma tree_from H2 vals leaves tree root : generate_merkle_tree_from_data H2 vals = Ok (leaves, tree, root) ->
  leaves = map H2 vals /\ tree = from_leaves H2 (map H2 vals) /\ tree_root tree = Some root.
Proof. unfold generate_merkle_tree_from_data. destruct (tree_root _) eqn:E; [|discriminate]. intros [= <- <- <-]. auto. Qed.

(** The verdict on a list of hashes depends on its beginning only, which is as long as
    the honest proof of the same leaves; a shorter list panics.  Any root, any claimed
    leaves. *)
Theorem C94_reads : forall H2 vals leaves tree root idx proof, hash32 H2 -> generate_merkle_tree_from_data H2 vals = Ok (leaves, tree, root) ->
  StronglySorted lt idx -> Forall (fun i => i < length vals) idx -> idx <> [] -> generate_merkle_proof idx tree = Ok proof ->
  forall q root' claimed, length claimed = length vals ->
  verify_merkle_proof H2 q root' idx claimed = if length q <? length proof then Panic else verify_merkle_proof H2 (firstn (length proof) q) root' idx claimed.
Proof.
  intros H2 vals leaves tree root idx proof HH GT S F N GP q root' claimed LC. apply tree_from in GT as (-> & -> & _).
  apply (verify_first H2 HH (map H2 vals)); auto; [now apply map_32|now rewrite map_length|now rewrite map_length].
Qed.
Print Assumptions C94_reads.
(** So proofs are malleable: an accepted one may be continued by any hashes. *)
Theorem C94_surplus : forall H2 vals leaves tree root idx proof, hash32 H2 -> generate_merkle_tree_from_data H2 vals = Ok (leaves, tree, root) ->
  StronglySorted lt idx -> Forall (fun i => i < length vals) idx -> idx <> [] -> generate_merkle_proof idx tree = Ok proof ->
  forall more, verify_merkle_proof H2 (proof ++ more) root idx leaves = Ok tt.
Proof.
  intros H2 vals leaves tree root idx proof HH GT S F N GP more.
  rewrite (C94_reads H2 vals leaves tree root idx proof HH GT S F N GP); [|apply tree_from in GT as (-> & _); apply map_length].
  rewrite app_length. destruct (Nat.ltb_spec (length proof + length more) (length proof)); [lia|]. rewrite firstn_app, firstn_all, Nat.sub_diag. cbn [firstn]. rewrite app_nil_r.
  destruct (C46_proofs_verify H2 vals idx HH S F N) as (l' & t' & r' & p' & GT' & _ & GP' & V). rewrite GT in GT'. injection GT' as <- <- <-. rewrite GP in GP'. now injection GP' as <-.
Qed.
Print Assumptions C94_surplus.
(** The part that is read is determined: if a list of hashes is accepted for some claimed
    leaves, these are the true ones and the list begins with the honest proof, or two
    different strings hashed by the prover and the verifier collide. *)
Theorem C94_unique : forall H2 vals leaves tree root idx proof, hash32 H2 -> generate_merkle_tree_from_data H2 vals = Ok (leaves, tree, root) ->
  StronglySorted lt idx -> generate_merkle_proof idx tree = Ok proof ->
  forall q claimed, Forall (fun h => length h = 32) q -> Forall (fun h => length h = 32) claimed -> length claimed = length vals ->
  verify_merkle_proof H2 q root idx claimed = Ok tt ->
  ((forall i, In i idx -> nth_error claimed i = nth_error leaves i) /\ firstn (length proof) q = proof) \/
  exists t x y, proof_tree H2 q idx (map (at_ claimed) idx) (length claimed) = Some t /\
  In x (tree_inputs t) /\ In y (tree_inputs tree) /\ x <> y /\ H2 x = H2 y.
Proof.
  intros H2 vals leaves tree root idx proof HH GT S GP q claimed Q32 C32 LC V. apply tree_from in GT as (-> & -> & TR).
  destruct (proof_binding_all H2 HH (map H2 vals) claimed idx q root) as [(A & p & E & P)|C]; auto; [now apply map_32|now rewrite map_length|].
  left. split; [exact A|]. rewrite E in GP. now injection GP as <-.
Qed.
Print Assumptions C94_unique.
(** An honest proof has at most one hash per leaf and layer. *)
Theorem C94_size : forall H2 vals leaves tree root idx proof, hash32 H2 -> generate_merkle_tree_from_data H2 vals = Ok (leaves, tree, root) ->
  StronglySorted lt idx -> Forall (fun i => i < length vals) idx -> idx <> [] -> generate_merkle_proof idx tree = Ok proof ->
  length proof <= length idx * Nat.log2_up (length vals) /\ Forall (fun h => length h = 32) proof.
Proof.
  intros H2 vals leaves tree root idx proof HH GT S F N GP. apply tree_from in GT as (-> & -> & TR). set (lv := map H2 vals) in *.
  assert (LL : length lv = length vals) by apply map_length. rewrite <- LL in *.
  assert (NL : lv <> []) by (intros Z; rewrite Z in F; destruct idx; [congruence|inversion F; subst; cbn in *; lia]).
  assert (L0 : length lv <> 0) by (destruct lv; [congruence|discriminate]).
  assert (AT : forall i, i < length lv -> length (at_ lv i) = 32).
  { intros i I. unfold at_. pose proof (map_32 H2 vals HH) as M. fold lv in M. rewrite Forall_forall in M. now apply M, nth_In. }
  destruct (from_leaves_full H2 lv NL) as [FT RT]. destruct (depth_halves _ L0) as [DH D0].
  unfold generate_merkle_proof in GP. rewrite FT, proof_round in GP by now apply helper_len.
  injection GP as <-. split; [|now apply helper_len]. rewrite helper_count by auto. pose proof (needed_bound (tree_depth (length lv)) (length lv) idx) as B.
  unfold tree_depth in B at 2. destruct (Nat.eqb_spec (length lv) 1) as [E|E]; [|lia].
  rewrite E in F |- *. rewrite (sorted_below_one idx S F N). cbn. lia.
Qed.
Print Assumptions C94_size.
(** The response check has the same freedom. *)
Theorem C94_response : forall H H2 ids leaves tree root idx proof, hash32 H2 -> generate_merkle_tree_from_data H2 ids = Ok (leaves, tree, root) ->
  StronglySorted lt idx -> Forall (fun i => i < length ids) idx -> idx <> [] -> generate_merkle_proof idx tree = Ok proof ->
  forall h r blocks q, verify_response H H2 h r blocks q root idx leaves = Ok tt <->
  h = H (response_data r blocks) /\ length proof <= length q /\ verify_merkle_proof H2 (firstn (length proof) q) root idx leaves = Ok tt.
Proof.
  intros H H2 ids leaves tree root idx proof HH GT S F N GP h r blocks q. unfold verify_response.
  rewrite (C94_reads H2 ids leaves tree root idx proof HH GT S F N GP q root leaves) by (apply tree_from in GT as (-> & _); apply map_length).
  destruct (list_eq_dec _ _ _) as [->|Q]; [|split; [discriminate|intros (Q' & _); congruence]].
  destruct (Nat.ltb_spec (length q) (length proof)) as [C|C]; split; auto; [discriminate|intros (_ & C' & _); lia|intros (_ & _ & V); exact V].
Qed.
Print Assumptions C94_response.
(** A proof of no leaf at all is never accepted, so a challenge without indices (zero
    leaves to prove) panics on every stored file, the honest one included. *)
Theorem C94_no_index : forall H2 proof root leaves, verify_merkle_proof H2 proof root [] leaves = Panic.
Proof. exact verify_no_index. Qed.
Print Assumptions C94_no_index.
Theorem C94_empty_challenge : forall H H2 pr params parallel_num origin sealed pub leaves tree root r o,
  challenge H H2 pr params parallel_num origin sealed pub leaves tree root r [] o <-> o = Panic.
Proof.
  intros H H2 pr params parallel_num origin sealed pub leaves tree root r o.
  assert (E : challenge_prepare H H2 pr params sealed pub leaves tree root r [] = Panic).
  { unfold challenge_prepare. cbn [mapM bind]. destruct (generate_merkle_proof [] tree) as [proof|]; [|reflexivity]. cbn [bind].
    unfold verify_response. destruct (list_eq_dec _ _ _); [|reflexivity]. now rewrite verify_no_index. }
  split; [|intros ->; now apply Ch_panic]. intros C. inversion C; congruence.
Qed.
Print Assumptions C94_empty_challenge.
(** Five leaves, two of them proved: two hashes. *)
Example C94_ex : exists leaves tree root proof, generate_merkle_tree_from_data hone [[x00]; [x01]; [x02]; [x03]; [x04]] = Ok (leaves, tree, root) /\
  generate_merkle_proof [1; 4] tree = Ok proof /\ length proof = 2 /\ hash32 hone /\ StronglySorted lt [1; 4] /\ Forall (fun i => i < 5) [1; 4].
Proof. do 4 eexists. split; [vm_compute; reflexivity|]. split; [vm_compute; reflexivity|]. split; [reflexivity|]. split; [intros d; reflexivity|]. split; repeat constructor. Qed.
