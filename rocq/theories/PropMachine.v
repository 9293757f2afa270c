(** Property C98: the offsets of the storage code in 64-bit arithmetic.  The vocabulary is in
    MachineSpec. *)
From Coq Require Import Strings.String.
From Coq Require Import List.
From Verif Require Import Base BytesFacts Sloth Common Depend DependDet Prover SealCore SealSpec SealWitness Verifier Merkle DependSpec PropDepend PropSeal ParamFacts Machine MachineSpec MachineFacts.
Local Open Scope nat_scope.

(** Sealing: no product ever wraps, in neither build.  If every block starts where the file
    system can seek to, sealing does what the plain model says; otherwise it panics, after
    sealing the blocks before the first one that is out of reach. *)
Theorem C98_seal : forall H pr lim params key iv f n, (0 < lim <= 2 ^ 63)%Z -> nblocks params = Ok n ->
  (reachable lim n (block_pl params) -> seal_m lim pr H params key iv f = seal H pr params key iv f) /\
  (~ reachable lim n (block_pl params) -> seal_m lim pr H params key iv f = Panic) /\
  (forall k, reachable lim k (block_pl params) ->
     seal_upto_m lim pr H params key iv k f = seal_upto H pr params key iv k f).
Proof.
  intros H pr lim params key iv f n LIM En. split; [|split].
  - intros R. now apply (seal_m_ok lim LIM pr H params key iv f n).
  - intros R. now apply (seal_m_panic lim LIM pr H params key iv f n).
  - intros k R. apply (seal_upto_m_ok lim LIM). intros i n' _ _ K. now apply R.
Qed.
Print Assumptions C98_seal.

(** Unsealing: the same, although it starts with the largest offsets. *)
Theorem C98_unseal : forall H pr lim params key iv f n, (0 < lim <= 2 ^ 63)%Z -> nblocks params = Ok n ->
  (reachable lim n (block_pl params) -> sane_count params -> unseal_m lim pr H params key iv f = unseal H pr params key iv f) /\
  (~ reachable lim n (block_pl params) -> unseal_m lim pr H params key iv f = Panic).
Proof.
  intros H pr lim params key iv f n LIM En. split.
  - intros R SC. now apply (unseal_m_ok lim LIM pr H params key iv f n).
  - intros R. now apply (unseal_m_panic lim LIM pr H params key iv f n).
Qed.
Print Assumptions C98_unseal.

(** The two copies. *)
Theorem C98_copies : forall pr lim f data_l unit_l unit_pl, (0 < lim <= 2 ^ 63)%Z ->
  (reachable lim (data_l / unit_l) unit_l -> copy_and_pad_m lim pr f data_l unit_l = copy_and_pad f data_l unit_l) /\
  (~ reachable lim (data_l / unit_l) unit_l -> copy_and_pad_m lim pr f data_l unit_l = Panic) /\
  (reachable lim (data_l / unit_l) unit_pl ->
     copy_and_compress_m lim pr f data_l unit_l unit_pl = copy_and_compress f data_l unit_l unit_pl) /\
  (~ reachable lim (data_l / unit_l) unit_pl -> copy_and_compress_m lim pr f data_l unit_l unit_pl = Panic).
Proof.
  intros pr lim f d u up LIM. split; [now apply pad_m_ok|]. split; [now apply pad_m_panic|].
  split; [now apply compress_m_ok | now apply compress_m_panic].
Qed.
Print Assumptions C98_copies.

(** A response and the comparison with the original, for a block number whose offset is a
    64-bit number. *)
Theorem C98_response : forall H pr lim params f i, (0 < lim <= 2 ^ 63)%Z -> (Z.of_nat (i * block_pl params) < 2 ^ 64)%Z ->
  ((Z.of_nat (block_pl params) < 2 ^ 63)%Z /\ (Z.of_nat (i * block_pl params) < lim)%Z ->
     single_unseal_prepare_m lim pr H params f i = single_unseal_prepare H pr params f i) /\
  (~ ((Z.of_nat (block_pl params) < 2 ^ 63)%Z /\ (Z.of_nat (i * block_pl params) < lim)%Z) ->
     single_unseal_prepare_m lim pr H params f i = Panic).
Proof.
  intros H pr lim params f i LIM L. split.
  - intros N. now apply response_m_ok.
  - intros N. apply response_m_panic; [assumption|]. lia.
Qed.
Print Assumptions C98_response.
Theorem C98_verify : forall pr lim f i u block_l unit_l, (0 < lim <= 2 ^ 63)%Z -> (Z.of_nat (i * block_l) < 2 ^ 64)%Z ->
  ((Z.of_nat block_l < 2 ^ 63)%Z /\ (Z.of_nat (i * block_l) < lim)%Z ->
     batch_verify_m lim pr f i u block_l unit_l = batch_verify f i u block_l unit_l) /\
  (~ ((Z.of_nat block_l < 2 ^ 63)%Z /\ (Z.of_nat (i * block_l) < lim)%Z) -> batch_verify_m lim pr f i u block_l unit_l = Panic).
Proof.
  intros pr lim f i u bl ul LIM L. split.
  - intros (A & B). now apply verify_m_ok.
  - intros N. apply verify_m_panic; [assumption|]. lia.
Qed.
Print Assumptions C98_verify.

(** The tree over a file reads one piece further than the other functions. *)
Theorem C98_tree : forall H2 pr lim f data_len leaf_len, (0 < lim <= 2 ^ 63)%Z ->
  let fine := forall i, i < ceil_div data_len leaf_len ->
                (Z.of_nat leaf_len < 2 ^ 63)%Z /\ (Z.of_nat ((i + 1) * leaf_len) < lim)%Z in
  (fine -> generate_merkle_tree_from_file_m lim pr H2 f data_len leaf_len = generate_merkle_tree_from_file H2 f data_len leaf_len) /\
  (~ fine -> generate_merkle_tree_from_file_m lim pr H2 f data_len leaf_len = Panic).
Proof.
  intros H2 pr lim f d l LIM fine.
  assert (E : fine <-> (forall i, i < ceil_div d l -> (Z.of_nat l < 2 ^ 63)%Z /\ (Z.of_nat (i * l + l) < lim)%Z)).
  { unfold fine. split; intros F i I; specialize (F i I); replace ((i + 1) * l) with (i * l + l) in * by lia; exact F. }
  split.
  - intros F. apply tree_m_ok; [assumption|]. now apply E.
  - intros F. apply tree_m_panic; [assumption|]. intros G. apply F. now apply E.
Qed.
Print Assumptions C98_tree.

(** A block number whose offset is no 64-bit number: a debug build panics, a release build
    reads the block that the wrapped offset points to. *)
Theorem C98_wraps : forall H lim params f K i, (0 < lim <= 2 ^ 63)%Z ->
  Z.of_nat (K * block_pl params) = (2 ^ 64)%Z ->
  single_unseal_prepare_m lim Debug H params f (K + i) = Panic /\
  ((Z.of_nat (block_pl params) < 2 ^ 63)%Z -> (Z.of_nat (i * block_pl params) < lim)%Z ->
   forall b id deps, single_unseal_prepare_m lim Release H params f (K + i) = Ok (b, id, deps) ->
     read_block params f i = Ok b /\ (0 < i -> id = H (read_file f ((i - 1) * block_pl params) (block_pl params)))).
Proof.
  intros H lim params f K i LIM EK. split.
  - unfold single_unseal_prepare_m, read_block_m, umul. rewrite usz_debug_panic; [reflexivity|]. rewrite two64_pow. lia.
  - intros L1 L2 b id deps. unfold single_unseal_prepare_m.
    assert (W : forall j, (Z.of_nat (j * block_pl params) < lim)%Z -> umul Release (K + j) (block_pl params) = Ok (j * block_pl params)).
    { intros j Lj. unfold umul. rewrite usz_release, two64_pow. cbn [bind]. f_equal.
      replace (Z.of_nat (K + j) * Z.of_nat (block_pl params))%Z
        with (Z.of_nat (j * block_pl params) + 1 * 2 ^ 64)%Z by (rewrite <- EK; nia).
      rewrite Z.mod_add by lia. rewrite Z.mod_small by lia. lia. }
    unfold read_block_m at 1. rewrite (W i L2). cbn [bind]. rewrite read_m_ok by assumption. cbn [bind].
    fold (read_block params f i). destruct (read_block params f i) as [b0|] eqn:Eb; [|discriminate]. cbn [bind].
    destruct (nblocks params) as [n|]; [|discriminate]. cbn [bind].
    destruct (verifier_idxs_l Release params n) as [t|]; [|discriminate]. cbn [bind].
    destruct (before_id_m lim Release H params f (K + i)) as [id0|] eqn:Ei; [|discriminate]. cbn [bind].
    destruct (prepare_depend_blocks_m lim Release H params t n f id0 (K + i)) as [dd|]; [|discriminate]. cbn [bind].
    intros E. injection E as <- <- _. split; [reflexivity|]. intros P. unfold before_id_m in Ei.
    destruct (Nat.eqb_spec (K + i) 0); [lia|]. cbn [negb] in Ei. replace (K + i - 1) with (K + (i - 1)) in Ei by lia.
    assert (L3 : (Z.of_nat ((i - 1) * block_pl params) < lim)%Z).
    { assert ((i - 1) * block_pl params <= i * block_pl params) by (apply Nat.mul_le_mono_r; lia). lia. }
    rewrite (W (i - 1) L3) in Ei. cbn [bind] in Ei. rewrite read_m_ok in Ei by assumption. cbn [bind] in Ei.
    injection Ei as <-. reflexivity.
Qed.
Print Assumptions C98_wraps.
(** So a release build answers a challenge for a block far outside the file with the
    contents of a stored block. *)
Definition wrap_params : PosPara := mkPosPara 12 3 6 6 4 8 8 1 1 "sloth"%string 0 1 0 1 1.
Lemma far_number : exists K, Z.of_nat (K * 8) = (2 ^ 64)%Z.
Proof. exists (Z.to_nat (2 ^ 61)). rewrite Nat2Z.inj_mul, Z2Nat.id by (apply Z.pow_nonneg; lia). reflexivity. Qed.
Theorem C98_outside_refuted :
  exists H lim params f i b id deps, (0 < lim <= 2 ^ 63)%Z /\ hash32 H /\
    length f = 2 * block_pl params /\ (2 ^ 60 < Z.of_nat i)%Z /\
    single_unseal_prepare_m lim Release H params f i = Ok (b, id, deps) /\ read_block params f 1 = Ok b /\
    b = [repeat x05 4; repeat x05 4].
Proof.
  destruct far_number as (K & EK). set (f := repeat x04 8 ++ repeat x05 8).
  assert (LIM : (0 < 2 ^ 63 <= 2 ^ 63)%Z) by lia.
  assert (PK : K <> 0) by (intros ->; cbn in EK; lia).
  assert (R : forall k, k < 256 -> exists b, read_block_m (2 ^ 63) Release wrap_params f k = Ok b).
  { intros k L. rewrite block_m_ok; [|assumption | cbn [block_pl wrap_params]; lia]. unfold read_block. cbn [block_pl unit_pl wrap_params].
    rewrite (to_units_ok 4 2); [eauto | lia | apply read_file_length]. }
  assert (W : forall j, j < 256 -> umul Release (K + j) 8 = Ok (j * 8)).
  { intros j L. unfold umul. rewrite usz_release, two64_pow. cbn [bind]. f_equal.
    replace (Z.of_nat (K + j) * Z.of_nat 8)%Z with (Z.of_nat (j * 8) + 1 * 2 ^ 64)%Z by (rewrite <- EK; lia).
    rewrite Z.mod_add by lia. rewrite Z.mod_small by lia. lia. }
  assert (X : exists b id deps, single_unseal_prepare_m (2 ^ 63) Release hsum wrap_params f (K + 1) = Ok (b, id, deps)).
  { unfold single_unseal_prepare_m. unfold read_block_m at 1. cbn [block_pl unit_pl wrap_params]. rewrite (W 1) by lia. cbn [bind].
    rewrite read_m_ok by lia. cbn [bind]. rewrite (to_units_ok 4 2); [| lia | apply read_file_length]. cbn [bind].
    change (nblocks wrap_params) with (Ok 2). cbn [bind]. change (verifier_idxs_l Release wrap_params 2) with (Ok (@nil (list nat))). cbn [bind].
    unfold before_id_m. destruct (Nat.eqb_spec (K + 1) 0); [lia|]. cbn [negb block_pl wrap_params].
    replace (K + 1 - 1) with (K + 0) by lia. rewrite (W 0) by lia. cbn [bind]. rewrite read_m_ok by lia. cbn [bind].
    set (id := hsum (read_file f (0 * 8) 8)). unfold prepare_depend_blocks_m. cbn [mode_l cnt_l wrap_params]. cbn [Nat.eqb].
    destruct (Nat.eqb_spec (K + 1) 0); [lia|].
    destruct (proj2 (C17_long_random_returns hsum 2 id (K + 1) 1 hsum_32)) as (l & El); [lia|]. rewrite El. cbn [bind].
    destruct (mapM_exists (read_block_m (2 ^ 63) Release wrap_params f) (fun _ _ => True) l) as (bs & Ebs & _).
    - intros k Ik. apply (C20_small hsum 2 id (K + 1) 1 l) in Ik as (k' & _ & ->); [|lia|lia|exact El].
      destruct (R (byte_at (hash_chain hsum id (k' / 16)) (k' mod 16) mod (K + 1))) as (b & Eb).
      + apply Nat.le_lt_trans with (byte_at (hash_chain hsum id (k' / 16)) (k' mod 16)); [apply Nat.mod_le; lia|].
        unfold byte_at. pose proof (b2z_range (nth (k' mod 16) (hash_chain hsum id (k' / 16)) x00)). lia.
      + exists b. auto.
    - rewrite Ebs. cbn [bind]. eauto. }
  destruct X as (b & id & deps & E). exists hsum, (2 ^ 63)%Z, wrap_params, f, (K + 1), b, id, deps.
  destruct (C98_wraps hsum (2 ^ 63)%Z wrap_params f K 1 LIM EK) as (_ & C).
  destruct (C ltac:(cbn [block_pl wrap_params]; lia) ltac:(cbn [block_pl wrap_params]; lia) b id deps E) as (Eb & _).
  split; [assumption|]. split; [exact hsum_32|]. split; [reflexivity|]. split; [lia|]. split; [exact E|]. split; [exact Eb|].
  assert (V : read_block wrap_params f 1 = Ok [repeat x05 4; repeat x05 4]) by reflexivity. rewrite V in Eb. now injection Eb as <-.
Qed.
Print Assumptions C98_outside_refuted.

(** The byte range of batch_unseal_prepare: as in the plain model while the end is at least
    one block away from 2^64. *)
Theorem C98_range : forall pr idx_begin idx_end block_pl fuel,
  (Z.of_nat idx_end + Z.of_nat block_pl <= 2 ^ 64)%Z -> (Z.of_nat idx_begin < 2 ^ 64)%Z -> 0 < block_pl ->
  blocks_idx_loop_m pr fuel 0 idx_begin idx_end block_pl [] = blocks_idx_loop fuel 0 idx_begin idx_end block_pl [].
Proof. intros pr b e bp fuel L B P. apply range_m; auto. Qed.
Print Assumptions C98_range.
(** Closer to 2^64 the position wraps before it reaches the end: a release build never
    leaves the loop, a debug build panics. *)
Theorem C98_range_wraps : forall idx_end block_pl K, Z.of_nat (K * block_pl) = (2 ^ 64)%Z ->
  (2 ^ 64 - Z.of_nat block_pl < Z.of_nat idx_end < 2 ^ 64)%Z ->
  (forall fuel, blocks_idx_loop_m Release fuel 0 0 idx_end block_pl [] = None) /\
  (forall fuel, K < fuel -> blocks_idx_loop_m Debug fuel 0 0 idx_end block_pl [] = Some Panic).
Proof.
  intros e bp K EK E. assert (P : 0 < bp) by nia. assert (PK : 0 < K) by nia. split.
  - assert (X : forall fuel i acc, blocks_idx_loop_m Release fuel i 0 e bp acc = None).
    { induction fuel as [|fuel IH]; intros i acc; [reflexivity|]. cbn [blocks_idx_loop_m].
      unfold umul, uadd. rewrite !usz_release. cbn [bind]. rewrite !usz_release. cbn [bind]. rewrite two64_pow.
      assert (Em : ((Z.of_nat i * Z.of_nat bp) mod 2 ^ 64 = Z.of_nat bp * (Z.of_nat i mod Z.of_nat K))%Z).
      { replace (2 ^ 64)%Z with (Z.of_nat bp * Z.of_nat K)%Z by (rewrite <- EK; lia).
        rewrite (Z.mul_comm (Z.of_nat i)). apply Z.mul_mod_distr_l; lia. }
      assert (Bm : (0 <= Z.of_nat i mod Z.of_nat K < Z.of_nat K)%Z) by (apply Z.mod_pos_bound; lia).
      assert (Bw : (0 <= Z.of_nat bp * (Z.of_nat i mod Z.of_nat K) <= 2 ^ 64 - Z.of_nat bp)%Z) by (rewrite <- EK; nia).
      rewrite Em. rewrite Z.mod_small by lia.
      destruct (Nat.ltb_spec (Z.to_nat (Z.of_nat (Z.to_nat (Z.of_nat bp * (Z.of_nat i mod Z.of_nat K))) + Z.of_nat 0)) e) as [_ | C].
      - destruct (Nat.eqb_spec bp 0); [lia|]. apply IH.
      - exfalso. lia. }
    intros fuel. apply X.
  - assert (X : forall fuel i acc, i <= K -> K - i < fuel -> blocks_idx_loop_m Debug fuel i 0 e bp acc = Some Panic).
    { induction fuel as [|fuel IH]; intros i acc I L; [lia|]. cbn [blocks_idx_loop_m].
      destruct (Nat.eq_dec i K) as [-> | N].
      - unfold umul. rewrite usz_debug_panic; [reflexivity|]. rewrite two64_pow. lia.
      - assert (bp <= K * bp) by nia. assert (i * bp <= K * bp - bp) by nia. rewrite umul_ok by lia. cbn [bind]. rewrite uadd_ok by lia.
        destruct (Nat.ltb_spec (i * bp + 0) e) as [_ | C]; [|lia]. destruct (Nat.eqb_spec bp 0); [lia|].
        rewrite Nat.div_0_l by lia. assert (K <= K * bp) by nia.
        assert (i + 1 <= K) by lia. destruct (Z.eq_dec (Z.of_nat (i + 1)) (2 ^ 64)) as [E1 | N1].
        + assert (bp = 1) by nia. subst bp. lia.
        + rewrite !uadd_ok by lia. apply IH; lia. }
    intros fuel L. apply X; lia.
Qed.
Print Assumptions C98_range_wraps.

(** The shipped parameter sets: on any file system that can seek to 128 MiB every function
    is the plain one, in both builds. *)
Theorem C98_shipped : forall H H2 pr lim l key iv f u i, let P := gen_posdata l in (2 ^ 27 <= lim <= 2 ^ 63)%Z -> i < 256 ->
  copy_and_pad_m lim pr f (data_l P) (unit_l P) = copy_and_pad f (data_l P) (unit_l P) /\
  seal_m lim pr H P key iv f = seal H pr P key iv f /\
  unseal_m lim pr H P key iv f = unseal H pr P key iv f /\
  copy_and_compress_m lim pr f (data_l P) (unit_l P) (unit_pl P) = copy_and_compress f (data_l P) (unit_l P) (unit_pl P) /\
  single_unseal_prepare_m lim pr H P f i = single_unseal_prepare H pr P f i /\
  batch_verify_m lim pr f i u (block_l P) (unit_l P) = batch_verify f i u (block_l P) (unit_l P) /\
  generate_merkle_tree_from_file_m lim pr H2 f (data_l P) (block_l P) = generate_merkle_tree_from_file H2 f (data_l P) (block_l P).
Proof.
  intros H H2 pr lim l key iv f u i P LIM I. assert (LIM' : (0 < lim <= 2 ^ 63)%Z) by lia.
  destruct (gen_posdata_geometry l) as (U & UP & B & BP & D & M & ML & _). fold P in U, UP, B, BP, D, ML.
  assert (UB : units_per_block l <= 4096) by (unfold units_per_block; destruct (l =? 1), (l =? 4), (l =? 16); lia).
  set (m := units_per_block l) in *. clearbody m. rewrite U in B. rewrite UP in BP.
  assert (Q : data_l P / unit_l P = 256 * m) by (rewrite D, B, U, Nat.mul_assoc; apply Nat.div_mul; lia).
  assert (N : nblocks P = Ok 256).
  { unfold nblocks. destruct (Nat.eqb_spec (block_l P) 0) as [Z0|_]; [lia|]. rewrite D, Nat.div_mul by lia. reflexivity. }
  assert (R : forall n len, n * len <= 256 * 4096 * 64 -> len <= 4096 * 64 -> reachable lim n len).
  { intros n len L1 L2 j J. assert (j * len <= n * len) by (apply Nat.mul_le_mono_r; lia).
    assert (Z.of_nat (j * len) <= 256 * 4096 * 64)%Z by lia. split; lia. }
  assert (R1 : reachable lim (256 * m) 64) by (apply R; lia).
  assert (R2 : reachable lim (256 * m) 63) by (apply R; lia).
  assert (R3 : reachable lim 256 (m * 64)) by (apply R; lia).
  split; [apply pad_m_ok; [assumption | rewrite Q, U; exact R2]|].
  split; [apply seal_m_ok with (n := 256); [assumption | assumption | now rewrite BP]|].
  split; [apply (unseal_m_ok lim LIM' pr H P key iv f 256); [split; intros E; rewrite ML in E; discriminate E | assumption | now rewrite BP]|].
  split; [apply compress_m_ok; [assumption | rewrite Q, UP; exact R1]|].
  split; [apply (response_m_ok lim LIM' pr H P key iv f i); rewrite BP; exact (R3 i I)|].
  split; [apply verify_m_ok; [assumption | lia | rewrite B; nia]|].
  apply tree_m_ok; [assumption|]. intros j J. rewrite B. split; [lia|].
  assert (j < 256) by (rewrite D, ceil_div_mul in J by lia; exact J). nia.
Qed.
Print Assumptions C98_shipped.

(** Examples: three blocks of six bytes on a file system that can seek to 13 bytes, and on
    one that can seek to 10, where the first two blocks are sealed before the panic. *)
Example C98_ex : let P := ex_params 2 0 0 0 2 in
  nblocks P = Ok 3 /\ reachable 13 3 (block_pl P) /\ ~ reachable 10 3 (block_pl P) /\ reachable 10 2 (block_pl P) /\ sane_count P /\
  (exists st, seal_m 13 Debug hsum P ex_key [x01] ex_file = Ok st) /\
  seal_m 10 Debug hsum P ex_key [x01] ex_file = Panic /\
  (exists st, seal_upto_m 10 Debug hsum P ex_key [x01] 2 ex_file = Ok st).
Proof.
  intros P. assert (N : nblocks P = Ok 3) by reflexivity.
  assert (A : reachable 13 3 (block_pl P)) by (intros i I; destruct i as [|[|[|i]]]; cbn; lia).
  assert (B : ~ reachable 10 3 (block_pl P)) by (intros R; destruct (R 2 ltac:(lia)) as (_ & R2); cbn in R2; lia).
  assert (C : reachable 10 2 (block_pl P)) by (intros i I; destruct i as [|[|i]]; cbn; lia).
  split; [exact N|]. split; [exact A|]. split; [exact B|]. split; [exact C|]. split; [split; intros E; discriminate E|].
  assert (V : exists st, seal hsum Debug P ex_key [x01] ex_file = Ok st).
  { destruct (C22_seal_total hsum Debug P ex_key [x01] 3 2) with (f := ex_file) as (st & E & _);
      [apply ex_setting; [apply hsum_32|cbn; lia|cbn; lia] | now apply sealable_b_ok | eauto]. }
  split.
  { destruct (C98_seal hsum Debug 13 P ex_key [x01] ex_file 3 ltac:(lia) N) as (S1 & _). rewrite (S1 A). exact V. }
  destruct (C98_seal hsum Debug 10 P ex_key [x01] ex_file 3 ltac:(lia) N) as (_ & S2 & S3).
  split; [exact (S2 B)|]. rewrite (S3 2 C). vm_compute. eauto.
Qed.
