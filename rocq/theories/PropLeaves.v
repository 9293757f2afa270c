(** Property C89: what the proof of the leaves (merkle_tree_proof, and the driver run
    with should_challenge_leaves) decides about the unsealed file.  H2 is SHA-256.
    Vocabulary: [layout] from PostorageFacts, [hash32] from SealSpec, [leaf_of]
    and [tree_inputs] from MerkleRoot and MerkleFacts: the strings that are hashed. *)
From Coq Require Import Strings.Byte Sorted.
From Verif Require Import Base Common Prover Verifier Merkle Postorage Driver BytesFacts SealSpec SealWitness ChallengeFacts MerkleFacts MerkleRoot
  ParamFacts PostorageFacts DriverFacts PropSpot PropPostorage PropDriver.
Local Open Scope nat_scope.

Lemma own_proof H2 leaves idx root : hash32 H2 -> Forall (fun h => length h = 32) leaves ->
  StronglySorted lt idx -> Forall (fun i => i < length leaves) idx -> idx <> [] ->
  exists proof own, generate_merkle_proof idx (from_leaves H2 leaves) = Ok proof /\ tree_root (from_leaves H2 leaves) = Some own /\
  (verify_merkle_proof H2 proof root idx leaves = Ok tt <-> root = own) /\ (verify_merkle_proof H2 proof root idx leaves <> Ok tt -> verify_merkle_proof H2 proof root idx leaves = Panic).
Proof.
  intros H32 L32 S F N. destruct (proof_complete H2 H32 leaves idx L32 S F N) as (proof & own & GP & TR & V). exists proof, own. split; [exact GP|]. split; [exact TR|].
  unfold verify_merkle_proof in *. rewrite leaves_to_prove in * by exact F. cbn [bind] in *.
  pose proof (verify_char H2 (length leaves) idx (at_ leaves) proof own S F N) as C1. cbv zeta in C1.
  pose proof (verify_char H2 (length leaves) idx (at_ leaves) proof root S F N) as C2. cbv zeta in C2.
  destruct (proof_verify H2 proof own idx _ _); [|discriminate]. destruct (proj1 C1 eq_refl) as [NE FI].
  destruct (proof_verify H2 proof root idx _ _).
  - split; [|congruence]. destruct (proj1 C2 eq_refl) as [_ FR]. split; [congruence|reflexivity].
  - split; [|reflexivity]. split; [discriminate|]. intros ->. assert (false = true) by (apply C2; auto). discriminate.
Qed.
Lemma file_tree_ok H2 params n m f : hash32 H2 -> layout params n m ->
  exists r, generate_merkle_tree_from_file H2 f (data_l params) (block_l params)
            = Ok (map H2 (map (leaf_of f (block_l params)) (seq 0 n)), from_leaves H2 (map H2 (map (leaf_of f (block_l params)) (seq 0 n))), r) /\
  tree_root (from_leaves H2 (map H2 (map (leaf_of f (block_l params)) (seq 0 n)))) = Some r.
Proof.
  intros H32 LAY. assert (B0 : block_l params <> 0) by (destruct LAY; rewrite l_block; nia). rewrite file_leaves by exact B0.
  assert (C : ceil_div (data_l params) (block_l params) = n) by (rewrite (l_data _ _ _ LAY); apply ceil_div_mul; lia). rewrite C.
  unfold generate_merkle_tree_from_data. destruct (root_total H2 (map H2 (map (leaf_of f (block_l params)) (seq 0 n)))) as [r R].
  - pose proof (l_n _ _ _ LAY). destruct n; [lia|discriminate].
  - exists r. rewrite R. auto.
Qed.

(** The outcome is the comparison of the two roots. *)
Theorem C89_decides : forall H2 params n m, layout params n m -> hash32 H2 ->
  forall origin unsealed, exists lo to ro lu tu ru,
  generate_merkle_tree_from_file H2 origin (data_l params) (block_l params) = Ok (lo, to, ro) /\
  generate_merkle_tree_from_file H2 unsealed (data_l params) (block_l params) = Ok (lu, tu, ru) /\
  forall idx, StronglySorted lt idx -> Forall (fun i => i < n) idx -> idx <> [] ->
  merkle_tree_proof H2 params origin unsealed idx = if list_eq_dec Byte.byte_eq_dec ro ru then Ok tt else Panic.
Proof.
  intros H2 params n m LAY H32 o u. destruct (file_tree_ok H2 params n m o H32 LAY) as (ro & EO & RO). destruct (file_tree_ok H2 params n m u H32 LAY) as (ru & EU & RU).
  do 6 eexists. split; [exact EO|]. split; [exact EU|]. intros idx S F N. unfold merkle_tree_proof. rewrite EO, EU. cbn [bind].
  destruct (own_proof H2 (map H2 (map (leaf_of u (block_l params)) (seq 0 n))) idx ro H32) as (p & own & GP & TR & V & VP); auto.
  { apply Forall_forall. intros x I. apply in_map_iff in I. destruct I as (y & <- & _). apply H32. }
  { now rewrite !map_length, seq_length. }
  rewrite RU in TR. injection TR as <-. rewrite GP. cbn [bind]. destruct (list_eq_dec _ ro ru) as [Q|Q]; [now apply V|]. apply VP. intros Z. apply V in Z. auto.
Qed.
Print Assumptions C89_decides.

(** So the drawn leaves do not matter. *)
Theorem C89_any_leaves : forall H2 params n m, layout params n m -> hash32 H2 ->
  forall origin unsealed idx idx', StronglySorted lt idx -> Forall (fun i => i < n) idx -> idx <> [] ->
  StronglySorted lt idx' -> Forall (fun i => i < n) idx' -> idx' <> [] ->
  merkle_tree_proof H2 params origin unsealed idx = merkle_tree_proof H2 params origin unsealed idx'.
Proof.
  intros H2 params n m LAY H32 o u idx idx' S F N S' F' N'. destruct (C89_decides H2 params n m LAY H32 o u) as (lo & to & ro & lu & tu & ru & _ & _ & D).
  now rewrite (D idx S F N), (D idx' S' F' N').
Qed.
Print Assumptions C89_any_leaves.

(** Passing for one list of leaves means that every block but the first is right, or two
    different leaves at the same place, or two different pairs of nodes of the two
    trees, have the same hash. *)
Theorem C89_passes : forall H2 params n m, layout params n m -> hash32 H2 ->
  forall origin unsealed idx, StronglySorted lt idx -> Forall (fun i => i < n) idx -> idx <> [] ->
  merkle_tree_proof H2 params origin unsealed idx = Ok tt ->
  (forall k, 1 <= k <= n -> read_file origin (k * block_l params) (block_l params) = read_file unsealed (k * block_l params) (block_l params)) \/
  (exists k, 1 <= k <= n /\ let a := read_file origin (k * block_l params) (block_l params) in let b := read_file unsealed (k * block_l params) (block_l params) in
     a <> b /\ H2 a = H2 b) \/
  exists lo to ro lu tu ru x y, generate_merkle_tree_from_file H2 origin (data_l params) (block_l params) = Ok (lo, to, ro) /\
  generate_merkle_tree_from_file H2 unsealed (data_l params) (block_l params) = Ok (lu, tu, ru) /\
  In x (tree_inputs to) /\ In y (tree_inputs tu) /\ x <> y /\ H2 x = H2 y.
Proof.
  intros H2 params n m LAY H32 o u idx S F N OK. destruct (C89_decides H2 params n m LAY H32 o u) as (lo & to & ro & lu & tu & ru & EO & EU & D).
  rewrite (D idx S F N) in OK. destruct (list_eq_dec _ ro ru) as [<-|]; [|discriminate].
  assert (B : forall k, k < n -> k * block_l params < data_l params) by (destruct LAY; intros; rewrite l_data, l_block; nia).
  assert (B' : forall i, i * block_l params < data_l params -> i < n) by (destruct LAY; intros; rewrite l_data, l_block in *; nia).
  destruct (file_root_binding H2 o u _ _ _ _ _ _ _ H32 EO EU) as [A|[(i & I & NE & E)|(x & y & X & Y & NE & E)]].
  - left. intros k K. specialize (A (k - 1)). replace (k - 1 + 1) with k in A by lia. apply A, B. lia.
  - right. left. exists (i + 1). apply B' in I. split; [lia|]. split; assumption.
  - right. right. exists lo, to, ro, lu, tu, ro, x, y. tauto.
Qed.
Print Assumptions C89_passes.

(** Conversely, equal blocks after the first are enough, whatever the first block is. *)
Theorem C89_first_block_free : forall H2 params n m, layout params n m -> hash32 H2 ->
  forall origin unsealed idx, StronglySorted lt idx -> Forall (fun i => i < n) idx -> idx <> [] ->
  (forall k, 1 <= k <= n -> read_file origin (k * block_l params) (block_l params) = read_file unsealed (k * block_l params) (block_l params)) ->
  merkle_tree_proof H2 params origin unsealed idx = Ok tt.
Proof.
  intros H2 params n m LAY H32 o u idx S F N A. destruct (C89_decides H2 params n m LAY H32 o u) as (lo & to & ro & lu & tu & ru & EO & EU & D).
  rewrite (D idx S F N). destruct (list_eq_dec _ ro ru) as [Q|Q]; [reflexivity|]. exfalso. apply Q.
  destruct (file_tree_ok H2 params n m o H32 LAY) as (r1 & E1 & R1). destruct (file_tree_ok H2 params n m u H32 LAY) as (r2 & E2 & R2).
  rewrite E1 in EO. rewrite E2 in EU. injection EO as _ _ <-. injection EU as _ _ <-.
  replace (map (leaf_of u (block_l params)) (seq 0 n)) with (map (leaf_of o (block_l params)) (seq 0 n)) in R2; [congruence|].
  apply map_ext_in. intros i I. apply in_seq in I. apply A. lia.
Qed.
Print Assumptions C89_first_block_free.

(** The driver, after any successful runs: if a run with the leaves flag ends normally,
    the unsealed file on the disk agrees with the original on disk in every block but
    the first, or the hash collides on two strings that were hashed. *)
Theorem C89_driver : forall H H2 pr params n m, layout params n m -> hash32 H2 -> 0 < leaves_to_prove_count params ->
  forall c d d', r_leaves c = true -> test_postorage H H2 pr params c d (Ok d') ->
  exists origin unsealed, d_origin d' = Some origin /\ d_unsealed d' = Some unsealed /\
  ((forall k, 1 <= k <= n -> read_file origin (k * block_l params) (block_l params) = read_file unsealed (k * block_l params) (block_l params)) \/
   (exists k, 1 <= k <= n /\ let a := read_file origin (k * block_l params) (block_l params) in let b := read_file unsealed (k * block_l params) (block_l params) in
      a <> b /\ H2 a = H2 b) \/
   exists lo to ro lu tu ru x y, generate_merkle_tree_from_file H2 origin (data_l params) (block_l params) = Ok (lo, to, ro) /\
   generate_merkle_tree_from_file H2 unsealed (data_l params) (block_l params) = Ok (lu, tu, ru) /\
   In x (tree_inputs to) /\ In y (tree_inputs tu) /\ x <> y /\ H2 x = H2 y).
Proof.
  intros H H2 pr params n m LAY H32 LC c d d' RL T.
  assert (L : exists d1, seal_step H pr params c d = Ok d1 /\ leaves_step H2 params c d1 (Ok tt) /\ d' = d1).
  { inversion T as [|?|d1 o E1 E2 E3 E4]. exists d1. split; [exact E1|]. destruct o as [[]|]; cbn in E4; [|discriminate]. split; [exact E3|congruence]. }
  destruct L as (d1 & _ & LS & ->). unfold leaves_step in LS. rewrite RL in LS. destruct (d_origin d1) as [o|]; [|discriminate]. destruct (d_unsealed d1) as [u|]; [|discriminate].
  exists o, u. split; [reflexivity|]. split; [reflexivity|]. destruct LS as (fuel & idx & CC & M). destruct idx as [idx|]; cbn [bind] in M; [|discriminate].
  destruct (challenges_sound _ _ _ _ _ _ CC) as (S & F & N).
  assert (DB : data_l params / block_l params = n) by (destruct LAY; rewrite l_data, l_block; apply Nat.div_mul; nia). rewrite DB in N.
  apply (C89_passes H2 params n m LAY H32 o u idx); auto.
  - eapply Forall_impl; [|exact N]. cbn. lia.
  - intros ->. cbn in F. lia.
Qed.
Print Assumptions C89_driver.

(** Three blocks of four bytes.  Changing the first block is not noticed, changing one
    byte of block 1 is, whichever leaf is drawn. *)
Definition leaf_trial : bool :=
  let wrong0 := zeros 4 ++ skipn 4 spot_origin in
  let wrong1 := firstn 4 spot_origin ++ xff :: skipn 5 spot_origin in
  let pass f := forallb (fun i => match merkle_tree_proof hsum spot_params spot_origin f [i] with Ok _ => true | Panic => false end) [0; 1; 2] in
  let fail f := forallb (fun i => match merkle_tree_proof hsum spot_params spot_origin f [i] with Ok _ => false | Panic => true end) [0; 1; 2] in
  negb (bytes_eqb wrong0 spot_origin) && negb (bytes_eqb wrong1 spot_origin) && pass wrong0 && pass spot_origin && fail wrong1.
Example C89_ex : layout spot_params 3 2 /\ hash32 hsum /\ leaf_trial = true.
Proof. split; [exact spot_layout|]. split; [exact hsum_32|]. vm_compute. reflexivity. Qed.
