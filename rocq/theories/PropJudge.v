(** Property C116: exactly which messages the verifier of the pipeline accepts.  Vocabulary:
    [judge], [answer] from Gather; [same_tables] from PropGather; [only i l], the i-th
    element of l alone, from ParallelFacts. *)
From Coq Require Import Strings.Byte.
From Verif Require Import Base Sloth Common Depend Prover Verifier Merkle Postorage BytesFacts DependDet DependSpec SealSpec SealWitness VerifierFacts ParallelFacts ChallengeFacts
  SpotFacts PropSpot PropVerifier PropChance Gather PropGather PropPlain.
Local Open Scope nat_scope.

(** What the blocks sent must be, for the sequential verifier: batch_unseal gives, for each
    index asked for, a block that batch_verify accepts. *)
Definition opens (H : list byte -> list byte) (pr : profile) (params : PosPara) (key : Z) (iv : list byte) (origin : file) (idx : list nat) (a : answer) : Prop :=
  exists out, batch_unseal H pr params key iv idx (a_before a) (a_deps a) (a_blocks a) = Ok out /\
  forall i k, nth_error idx i = Some k -> exists u, nth_error out i = Some u /\ batch_verify origin k u (block_l params) (unit_l params) = Ok tt.
(** For the parallel one: each block alone is unsealed to such a block, or makes batch_unseal
    panic and already is one. *)
Definition opens_parallel (H : list byte -> list byte) (pr : profile) (params : PosPara) (key : Z) (iv : list byte) (origin : file) (idx : list nat) (a : answer) : Prop :=
  forall i k, nth_error idx i = Some k -> exists b, nth_error (a_blocks a) i = Some b /\
    match batch_unseal H pr params key iv (only i idx) (only i (a_before a)) (only i (a_deps a)) [b] with
    | Ok c => exists u, c = [u] /\ batch_verify origin k u (block_l params) (unit_l params) = Ok tt
    | Panic => batch_verify origin k b (block_l params) (unit_l params) = Ok tt
    end.

Lemma loop_verify origin params idx (out : list (list (list byte))) :
  foldM (fun _ i => let* k := index idx i in let* b := index out i in batch_verify origin k b (block_l params) (unit_l params)) (seq 0 (length idx)) tt = Ok tt <->
  forall i k, nth_error idx i = Some k -> exists u, nth_error out i = Some u /\ batch_verify origin k u (block_l params) (unit_l params) = Ok tt.
Proof.
  rewrite (foldM_unit (fun i => let* k := index idx i in let* b := index out i in batch_verify origin k b (block_l params) (unit_l params))), Forall_forall. split.
  - intros A i k K. assert (L : i < length idx) by (apply nth_error_Some; congruence). specialize (A i ltac:(apply in_seq; lia)). unfold index in A. rewrite K in A. cbn [bind] in A.
    destruct (nth_error out i) as [u|]; [|discriminate]. exists u. auto.
  - intros A i I. apply in_seq in I. destruct (nth_error idx i) as [k|] eqn:K; [|apply nth_error_None in K; lia]. destruct (A i k K) as (u & N & V). unfold index. now rewrite K, N.
Qed.
Lemma gate_ok H H2 hash_p r blocks proof root idx leaves pub x : (let* _ := verify_response H H2 hash_p r blocks proof root idx leaves in load_data pub) = Ok x <->
  hash_p = H (response_data r blocks) /\ verify_merkle_proof H2 proof root idx leaves = Ok tt /\ load_data pub = Ok x.
Proof.
  unfold verify_response. destruct (list_eq_dec _ _ _) as [E|E]; [|split; [discriminate|intros (E' & _); congruence]]. destruct (verify_merkle_proof H2 proof root idx leaves) as [[]|]; cbn [bind]; intuition congruence.
Qed.
Lemma judge_ok H H2 pr params parallel_num origin pub leaves root r idx hash_p a proof : judge H H2 pr params parallel_num origin pub leaves root r idx hash_p a proof (Ok tt) ->
  exists key iv out, (let* _ := verify_response H H2 hash_p r (a_blocks a) proof root idx leaves in load_data pub) = Ok (key, iv) /\
  (if parallel_num =? 0
   then out = batch_unseal H pr params key iv idx (a_before a) (a_deps a) (a_blocks a)
   else batch_unseal_parallel H pr params key iv idx (a_before a) (a_deps a) parallel_num (a_blocks a) out) /\
  (let* unsealed_blocks := out in
   foldM (fun _ i => let* k := index idx i in let* b := index unsealed_blocks i in batch_verify origin k b (block_l params) (unit_l params)) (seq 0 (length idx)) tt) = Ok tt.
Proof. intros J. remember (@Ok unit tt) as o eqn:E in J. destruct J as [|key iv out G O]; [discriminate|]. exists key, iv, out. auto. Qed.

(** The sequential verifier: three independent conditions, on the hash, on the Merkle proof
    and on the blocks. *)
Theorem C116_sequential : forall H H2 pr params origin pub leaves root r idx hash_p a proof,
  judge H H2 pr params 0 origin pub leaves root r idx hash_p a proof (Ok tt) <->
  hash_p = H (response_data r (a_blocks a)) /\
  verify_merkle_proof H2 proof root idx leaves = Ok tt /\
  exists key iv, load_data pub = Ok (key, iv) /\ opens H pr params key iv origin idx a.
Proof.
  intros H H2 pr params origin pub leaves root r idx hash_p a proof. split.
  - intros J. apply judge_ok in J as (key & iv & out & G & O & E). apply gate_ok in G as (A & B & C). cbn in O. split; [exact A|]. split; [exact B|]. exists key, iv. split; [exact C|].
    subst out. destruct (batch_unseal _ _ _ _ _ _ _ _ _) as [o|] eqn:U; [|discriminate]. cbn [bind] in E. exists o. split; [exact U|]. now apply loop_verify.
  - intros (A & B & key & iv & C & out & U & V). apply loop_verify in V. rewrite <- V. apply (J_go H H2 pr params 0 origin pub leaves root r idx hash_p a proof key iv (Ok out)); [now apply gate_ok|cbn; congruence].
Qed.
Print Assumptions C116_sequential.
(** The parallel verifier. *)
Theorem C116_parallel : forall H H2 pr params parallel_num origin pub leaves root r idx hash_p a proof, parallel_num <> 0 -> same_tables params -> bp_idxs_s pr params <> Panic ->
  judge H H2 pr params parallel_num origin pub leaves root r idx hash_p a proof (Ok tt) <->
  hash_p = H (response_data r (a_blocks a)) /\
  verify_merkle_proof H2 proof root idx leaves = Ok tt /\
  exists key iv, load_data pub = Ok (key, iv) /\ opens_parallel H pr params key iv origin idx a.
Proof.
  intros H H2 pr params parallel_num origin pub leaves root r idx hash_p a proof TH ST NT.
  assert (P : forall key iv out, batch_unseal_parallel H pr params key iv idx (a_before a) (a_deps a) parallel_num (a_blocks a) (Ok out) ->
    ((forall i k, nth_error idx i = Some k -> exists u, nth_error out i = Some u /\ batch_verify origin k u (block_l params) (unit_l params) = Ok tt) <-> opens_parallel H pr params key iv origin idx a)).
  { intros key iv out O. apply C37_blockwise in O as (LO & O); auto. split; intros A i k K.
    - destruct (A i k K) as (u & N & V). destruct (nth_error (a_blocks a) i) as [b|] eqn:B; [|apply nth_error_None in B; assert (i < length out) by (apply nth_error_Some; congruence); lia].
      exists b. split; [reflexivity|]. rewrite (O i b B) in N. injection N as <-. destruct (batch_unseal _ _ _ _ _ _ _ _ _) as [c|] eqn:E; [|exact V].
      apply batch_unseal_length in E. destruct c as [|u [|? ?]]; try discriminate E. exists u. auto.
    - destruct (A i k K) as (b & B & V). rewrite (O i b B). destruct (batch_unseal _ _ _ _ _ _ _ _ _) as [c|]; [|eauto]. destruct V as (u & -> & V). eauto. }
  split.
  - intros J. apply judge_ok in J as (key & iv & out & G & O & E). apply gate_ok in G as (A & B & C). destruct (Nat.eqb_spec parallel_num 0); [congruence|]. split; [exact A|]. split; [exact B|]. exists key, iv. split; [exact C|].
    destruct out as [o|]; [|discriminate]. cbn [bind] in E. apply (P key iv o O). now apply loop_verify.
  - intros (A & B & key & iv & C & V). destruct (bp_idxs_s pr params) as [t|] eqn:ET; [|congruence].
    pose proof (proj2 (par_result H pr params key iv idx (a_before a) (a_deps a) parallel_num (a_blocks a) t _ TH ET) eq_refl) as O. pose proof (proj2 (P key iv _ O) V) as W. apply loop_verify in W. rewrite <- W.
    pose proof (J_go H H2 pr params parallel_num origin pub leaves root r idx hash_p a proof key iv (Ok (map (result H params key iv idx (a_before a) (a_deps a) t (a_blocks a)) (seq 0 (length (a_blocks a)))))) as J.
    destruct (Nat.eqb_spec parallel_num 0); [congruence|]. apply J; [now apply gate_ok|exact O].
Qed.
Print Assumptions C116_parallel.
(** For any messages there is a verdict, and all schedules lead to the same one. *)
Theorem C116_verdict : forall H H2 pr params parallel_num origin pub leaves root r idx hash_p a proof,
  exists o, forall o', judge H H2 pr params parallel_num origin pub leaves root r idx hash_p a proof o' <-> o' = o.
Proof.
  intros H H2 pr params parallel_num origin pub leaves root r idx hash_p a proof. destruct (let* _ := verify_response H H2 hash_p r (a_blocks a) proof root idx leaves in load_data pub) as [[key iv]|] eqn:G.
  - assert (U : exists out, forall out', (if parallel_num =? 0 then out' = batch_unseal H pr params key iv idx (a_before a) (a_deps a) (a_blocks a)
      else batch_unseal_parallel H pr params key iv idx (a_before a) (a_deps a) parallel_num (a_blocks a) out') <-> out' = out).
    { destruct (Nat.eqb_spec parallel_num 0) as [|TH]; [eexists; reflexivity|]. destruct (bp_idxs_s pr params) as [t|] eqn:ET.
      - eexists. intros out'. exact (par_result H pr params key iv idx (a_before a) (a_deps a) parallel_num (a_blocks a) t out' TH ET).
      - exists Panic. intros out'. split; [intros P; destruct P; congruence|]. intros ->. now apply bp_table_panic. }
    destruct U as (out & U). eexists. intros o'. split.
    + intros J. destruct J as [E|key' iv' out' E O]; rewrite G in E; [discriminate|]. injection E as <- <-. apply U in O. subst out'. reflexivity.
    + intros ->. eapply J_go; [exact G|]. now apply U.
  - exists Panic. intros o'. split.
    + intros J. destruct J as [E|key' iv' out' E O]; [reflexivity|]. rewrite G in E. discriminate.
    + intros ->. now apply J_panic.
Qed.
Print Assumptions C116_verdict.
(** The random byte r binds nothing: an answer accepted for one value of r is accepted for
    every other, with the hash computed anew. *)
Theorem C116_replay : forall H H2 pr params parallel_num origin pub leaves root r r' idx hash_p a proof,
  judge H H2 pr params parallel_num origin pub leaves root r idx hash_p a proof (Ok tt) ->
  judge H H2 pr params parallel_num origin pub leaves root r' idx (H (response_data r' (a_blocks a))) a proof (Ok tt).
Proof.
  intros H H2 pr params parallel_num origin pub leaves root r r' idx hash_p a proof J. apply judge_ok in J as (key & iv & out & G & O & E). apply gate_ok in G as (_ & B & C).
  rewrite <- E. eapply J_go; [|exact O]. now apply gate_ok.
Qed.
Print Assumptions C116_replay.
(** The leaves bind nothing either: with another tree, in which the indices exist, the same
    blocks are accepted, with the proof of that tree. *)
Theorem C116_other_tree : forall H H2 pr params parallel_num origin pub leaves root r idx hash_p a proof, hash32 H2 -> Sorted.StronglySorted lt idx -> idx <> [] ->
  judge H H2 pr params parallel_num origin pub leaves root r idx hash_p a proof (Ok tt) ->
  forall ids leaves' tree' root', generate_merkle_tree_from_data H2 ids = Ok (leaves', tree', root') -> Forall (fun k => k < length ids) idx ->
  exists proof', generate_merkle_proof idx tree' = Ok proof' /\ judge H H2 pr params parallel_num origin pub leaves' root' r idx hash_p a proof' (Ok tt).
Proof.
  intros H H2 pr params parallel_num origin pub leaves root r idx hash_p a proof HH S N J ids leaves' tree' root' GT F. apply judge_ok in J as (key & iv & out & G & O & E). apply gate_ok in G as (A & _ & C).
  destruct (PropPostorage.C46_proofs_verify H2 ids idx HH S F N) as (l & t & rt & p & GT' & _ & GP & V). rewrite GT in GT'. injection GT' as <- <- <-. exists p. split; [exact GP|].
  rewrite <- E. eapply J_go; [|exact O]. now apply gate_ok.
Qed.
Print Assumptions C116_other_tree.
(** The answer of a prover with the sealed file to a challenge of blocks 0 and 2 is accepted
    by the sequential verifier, for every random byte and with whatever tree over three ids. *)
Example C116_ex : exists a, length (a_blocks a) = 2 /\ a_blocks a <> bare spot_params 2 spot_origin [0; 2] /\
  forall pub ids leaves tree root r, load_data pub = Ok (ex_key, []) -> length ids = 3 -> generate_merkle_tree_from_data hfix ids = Ok (leaves, tree, root) ->
  exists proof, judge hsum hfix Debug spot_params 0 spot_origin pub leaves root r [0; 2] (hsum (response_data r (a_blocks a))) a proof (Ok tt).
Proof.
  assert (X : exists a, length (a_blocks a) = 2 /\ a_blocks a <> bare spot_params 2 spot_origin [0; 2] /\ accepted hsum Debug spot_params ex_key [] spot_origin ([0; 2], a)).
  { destruct C114_ex as (M & A & _). assert (NB : match gather_rounds with (_, a) :: _ => if list_eq_dec (list_eq_dec (list_eq_dec Byte.byte_eq_dec)) (a_blocks a) (bare spot_params 2 spot_origin [0; 2]) then false else true | [] => false end = true) by (vm_compute; reflexivity).
    revert M A NB. generalize gather_rounds. intros rounds M A NB. destruct rounds as [|[ks a] rounds]; [discriminate|]. cbn [map fst] in M. injection M as M _. subst ks. inversion A as [|? ? AC _]; subst. exists a.
    split; [exact (proj1 AC)|]. split; [|exact AC]. intros E. rewrite E in NB. destruct (list_eq_dec _ _ _); [discriminate|congruence]. }
  destruct X as (a & LA & NB & AC). exists a. split; [exact LA|]. split; [exact NB|]. intros pub ids leaves tree root r LD LI GT.
  assert (HX : hash32 hfix) by (intros d; unfold hfix; rewrite firstn_length, app_length, repeat_length; lia).
  destruct (PropPostorage.C46_proofs_verify hfix ids [0; 2] HX ltac:(repeat constructor) ltac:(rewrite LI; repeat constructor) ltac:(discriminate)) as (l & t & rt & p & GT' & _ & _ & V). rewrite GT in GT'. injection GT' as <- <- <-.
  exists p. apply C116_sequential. split; [reflexivity|]. split; [exact V|]. exists ex_key, []. split; [exact LD|].
  destruct (accepted_verified hsum Debug spot_params ex_key [] spot_origin ([0; 2], a) (or_introl eq_refl) AC) as (out & U & L & W). exists out. split; [exact U|]. intros i k K. cbn [fst snd] in L, W.
  destruct (nth_error out i) as [u|] eqn:O; [|apply nth_error_None in O; assert (i < length [0; 2]) by (apply nth_error_Some; congruence); lia]. exists u. split; [reflexivity|]. eapply W; eauto.
Qed.
