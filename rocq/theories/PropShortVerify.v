(** Property C100: answering challenges, checking answers and hashing files when the
    operating system delivers fewer bytes than asked for.  H is blake3, H2 is SHA-256.
    Vocabulary: [single_unseal_prepare_os] etc. from ShortVerify, [as_read] from
    ShortReadFacts, [arrived], [cut] from ShortVerifyFacts, [setting], [block_bytes] from
    SealSpec, [long_choice], [unseals_reply] from SealMeaning and ReplyMeaning, [layout]
    from PostorageFacts, [restores], [same_block] from PropSpot. *)
From Coq Require Import Strings.Byte Sorted.
From Verif Require Import Base Sloth Common Depend Prover Verifier Merkle Postorage BytesFacts CommonFacts SealSpec SealCore SealFile SealTop SealPad SealZero SealWitness
  ShortTable ChallengeFacts VerifierFacts SealMeaning ReplyMeaning MerkleFacts PostorageFacts SpotFacts PropSpot ShortRead ShortReadFacts ShortVerify ShortVerifyFacts.
Local Open Scope nat_scope.

(** If every read is complete, these are the functions of all other theorems. *)
Theorem C100_complete : forall H H2 pr params os oc, (forall i q, block_pl params <= os i q) -> (forall i, block_l params <= oc i) ->
  (forall i f k, single_unseal_prepare_os H pr params (os i) f k = single_unseal_prepare H pr params f k) /\
  (forall f b e, batch_unseal_prepare_os H pr params os f b e = batch_unseal_prepare H pr params f b e) /\
  (forall i origin k us, batch_verify_os (oc i) origin k us (block_l params) (unit_l params) = batch_verify origin k us (block_l params) (unit_l params)) /\
  (forall key iv ks before deps origin bs, batch_unseal_and_verify_os H pr params key iv ks before deps oc origin bs = batch_unseal_and_verify H pr params key iv ks before deps origin bs) /\
  (forall f, generate_merkle_tree_from_file_os H2 oc f (data_l params) (block_l params) = generate_merkle_tree_from_file H2 f (data_l params) (block_l params)) /\
  (forall parallel_num origin F pub leaves tree root r idx o, challenge_os H H2 pr params os oc parallel_num origin F pub leaves tree root r idx o <->
     challenge H H2 pr params parallel_num origin F pub leaves tree root r idx o).
Proof.
  intros H H2 pr params os oc FU FC.
  assert (RB : forall i q f k, read_block_os params (os i q) f k = to_units (read_file f (k * block_pl params) (block_pl params)) (unit_pl params)) by (intros; unfold read_block_os; now rewrite read_os_full by apply FU).
  assert (BE : forall i f k, prepare_before_id_os H params (os i 1) f k = prepare_before_id H params f k) by (intros; unfold prepare_before_id_os, prepare_before_id; now rewrite read_os_full by apply FU).
  assert (DE : forall i t n f w k, prepare_depend_blocks_os H params (fun j => os i (2 + j)) t n f w k = prepare_depend_blocks H params t n f w k).
  { intros i t n f w k. assert (X : forall l, mapM (fun j => let* idx := index l j in read_block_os params (os i (2 + j)) f idx) (seq 0 (length l)) =
      mapM (fun idx => to_units (read_file f (idx * block_pl params) (block_pl params)) (unit_pl params)) l).
    { intros l. rewrite <- (mapM_index_all (fun idx => to_units (read_file f (idx * block_pl params) (block_pl params)) (unit_pl params))). apply mapM_ext. intros j _.
      destruct (index l j); [|reflexivity]. cbn [bind]. apply RB. }
    unfold prepare_depend_blocks_os, prepare_depend_blocks. destruct (mode_l params =? 0).
    - match goal with |- (let* _ := ?x in _) = _ => destruct x as [l|] end; [|reflexivity]. cbn [bind]. apply X.
    - destruct (index t k) as [l|]; [|reflexivity]. cbn [bind]. apply X. }
  assert (S1 : forall i f k, single_unseal_prepare_os H pr params (os i) f k = single_unseal_prepare H pr params f k).
  { intros i f k. unfold single_unseal_prepare_os, single_unseal_prepare. rewrite RB. destruct (to_units _ _); [|reflexivity]. cbn [bind].
    destruct (nblocks params); [|reflexivity]. cbn [bind]. destruct (verifier_idxs_l _ _ _); [|reflexivity]. cbn [bind]. rewrite BE, DE. reflexivity. }
  assert (BV : forall i origin k us, batch_verify_os (oc i) origin k us (block_l params) (unit_l params) = batch_verify origin k us (block_l params) (unit_l params)).
  { intros. unfold batch_verify_os, batch_verify. now rewrite read_os_full by apply FC. }
  split; [exact S1|]. split; [|split; [exact BV|split; [|split]]].
  - intros f b e. unfold batch_unseal_prepare_os, batch_unseal_prepare. destruct (blocks_in_range _ _ _) as [ks|]; [|reflexivity]. cbn [bind].
    rewrite (mapM_ext _ (fun i => let* k := index ks i in to_units (read_file f (k * block_pl params) (block_pl params)) (unit_pl params))) by (intros i _; destruct (index ks i); [cbn [bind]; apply RB|reflexivity]).
    rewrite (mapM_index_all (fun k => to_units (read_file f (k * block_pl params) (block_pl params)) (unit_pl params))).
    destruct (mapM _ ks) as [bl|]; [|reflexivity]. cbn [bind]. destruct (nblocks params) as [n|]; [|reflexivity]. cbn [bind]. destruct (verifier_idxs_l pr params n) as [t|]; [|reflexivity]. cbn [bind].
    rewrite (mapM_ext _ (fun i => let* k := index ks i in (let bid := prepare_before_id H params f k in let* ds := prepare_depend_blocks H params t n f bid k in Ok (bid, ds)))).
    2:{ intros i _. destruct (index ks i) as [k|]; [|reflexivity]. cbn [bind]. rewrite BE, DE. reflexivity. }
    rewrite (mapM_index_all (fun k => let bid := prepare_before_id H params f k in let* ds := prepare_depend_blocks H params t n f bid k in Ok (bid, ds))). reflexivity.
  - intros key iv ks before deps origin bs. unfold batch_unseal_and_verify_os, batch_unseal_and_verify. destruct (bv_idxs_s pr params) as [t|]; [|reflexivity]. cbn [bind].
    apply foldM_ext. intros i u _. unfold bv_block_os, bv_block. destruct (index ks i) as [k|]; [|reflexivity]. cbn [bind]. now rewrite read_os_full by apply FC.
  - intros f. rewrite tree_as_read. unfold generate_merkle_tree_from_file. destruct (step_by _ _) as [st|] eqn:ST; [|reflexivity]. cbn [bind].
    assert (E : map (fun i => read_file (as_read (fun k => oc (k - 1)) (block_l params) f) (i + block_l params) (block_l params)) st = map (fun i => read_file f (i + block_l params) (block_l params)) st).
    { unfold step_by in ST. destruct (block_l params) as [|b] eqn:B; [discriminate|]. injection ST as <-. rewrite !map_map. apply map_ext. intros k.
      replace (k * S b + S b) with (S k * S b) by (cbn; lia). rewrite read_as_read, read_os_full by apply FC. reflexivity. }
    rewrite E. reflexivity.
  - intros p origin F pub leaves tree root r idx o.
    assert (CP : challenge_prepare_os H H2 pr params os F pub leaves tree root r idx = challenge_prepare H H2 pr params F pub leaves tree root r idx).
    { unfold challenge_prepare_os, challenge_prepare.
      rewrite (mapM_ext _ (fun i => let* k := index idx i in single_unseal_prepare H pr params F k)) by (intros i _; destruct (index idx i); [cbn [bind]; apply S1|reflexivity]).
      now rewrite (mapM_index_all (single_unseal_prepare H pr params F)). }
    assert (FE : forall ub, foldM (fun _ i => let* k := index idx i in let* b := index ub i in batch_verify_os (oc i) origin k b (block_l params) (unit_l params)) (seq 0 (length idx)) tt =
      foldM (fun _ i => let* k := index idx i in let* b := index ub i in batch_verify origin k b (block_l params) (unit_l params)) (seq 0 (length idx)) tt).
    { intros ub. apply foldM_ext. intros i u _. destruct (index idx i); [|reflexivity]. cbn [bind]. destruct (index ub i); [|reflexivity]. cbn [bind]. apply BV. }
    split; intros C.
    + inversion C as [P|k' iv' rs out P O E]; subst o; [apply Ch_panic; congruence|]. rewrite CP in P. pose proof (Ch_go H H2 pr params p origin F pub leaves tree root r idx k' iv' rs out P O) as G.
      destruct out as [ub|]; [|exact G]. cbn [bind] in *. now rewrite FE.
    + inversion C as [P|k' iv' rs out P O E]; subst o; [apply Ch_os_panic; congruence|]. rewrite <- CP in P. pose proof (Ch_os_go H H2 pr params os oc p origin F pub leaves tree root r idx k' iv' rs out P O) as G.
      destruct out as [ub|]; [|exact G]. cbn [bind] in *. now rewrite <- FE.
Qed.
Print Assumptions C100_complete.

(** The answer for a block never fails.  It holds the units of the block as it arrived, the
    hash of the block before as it arrived, and the units of the dependencies as they
    arrived; which blocks those are is decided by the hash of what arrived. *)
Theorem C100_response : forall H pr params key n m, setting H pr params key n m ->
  forall F k, n * block_pl params <= length F -> k < n -> forall os,
  exists bs, long_choice H pr params n (H (arrived params (os 1) F (k - 1))) k bs /\ Forall (fun b => b < k) bs /\
  single_unseal_prepare_os H pr params os F k =
    Ok (cut params m (arrived params (os 0) F k), if k =? 0 then [] else H (arrived params (os 1) F (k - 1)),
        map (fun j => cut params m (arrived params (os (2 + j)) F (nth j bs 0))) (seq 0 (length bs))).
Proof. intros H pr params key n m SET F k LF K os. exact (response_os H pr params key n m SET os F k LF K). Qed.
Print Assumptions C100_response.
(** A range is answered block by block. *)
Theorem C100_range : forall H pr params key n m, setting H pr params key n m ->
  forall F, n * block_pl params <= length F -> forall b e ks, blocks_in_range b e (block_pl params) = Ok ks -> Forall (fun k => k < n) ks -> forall os,
  exists rs, length rs = length ks /\ (forall i k, nth_error ks i = Some k -> exists r, nth_error rs i = Some r /\ single_unseal_prepare_os H pr params (os i) F k = Ok r) /\
  batch_unseal_prepare_os H pr params os F b e = Ok (ks, map (fun r => fst (fst r)) rs, map (fun r => snd (fst r)) rs, map snd rs).
Proof.
  intros H pr params key n m SET F LF b e ks BR FK os. destruct (answers H pr params key n m SET F LF os ks FK) as (rs & RS & LR & X).
  exists rs. split; [exact LR|]. split.
  - intros i k NK. destruct (X i k NK) as (bs & _ & NR & E). eauto.
  - apply (range_of_singles H pr params os F b e ks n rs); auto; [exact (set_nblocks H pr params key n m SET)|].
    destruct (tabl_ex H pr params key n m SET) as (t & (TL & _)). change (verifier_idxs_l pr params n) with (seal_idxs_l pr params n). congruence.
Qed.
Print Assumptions C100_range.

(** Checking: an unsealed block is compared with the original block as it arrived. *)
Theorem C100_verify : forall params n m, layout params n m -> forall us, length us = m -> Forall (fun u => length u = unit_pl params) us ->
  forall c origin k, batch_verify_os c origin k us (block_l params) (unit_l params) = Ok tt <->
  concat (map (firstn (unit_l params)) us) = firstn c (read_file origin (k * block_l params) (block_l params)) ++ zeros (block_l params - c).
Proof.
  intros params n m LAY us LU SH c origin k. rewrite batch_verify_as_read, (concat_firstn_units params n m us LAY LU SH), read_as_read, read_os_eq. reflexivity.
Qed.
Print Assumptions C100_verify.
(** The fused check does the same, block by block, for any answer. *)
Theorem C100_fused : forall H pr params key iv n m, short_modes_fine pr params n m -> layout params n m ->
  forall ks before deps bs, Forall (fun b => length b = m) bs -> forall oc origin,
  batch_unseal_and_verify_os H pr params key iv ks before deps oc origin bs = Ok tt <->
  exists out, batch_unseal H pr params key iv ks before deps bs = Ok out /\
  forall i o, nth_error out i = Some o -> exists k, nth_error ks i = Some k /\ batch_verify_os (oc i) origin k o (block_l params) (unit_l params) = Ok tt.
Proof. intros H pr params key iv n m SM LAY ks before deps bs SH oc origin. exact (fused_os H pr params key iv ks before deps n m SM LAY oc origin bs SH). Qed.
Print Assumptions C100_fused.

(** The Merkle tree of a file is the tree of the file as it arrived, and so is the proof. *)
Theorem C100_tree : forall H2 os f data_len leaf_len,
  generate_merkle_tree_from_file_os H2 os f data_len leaf_len = generate_merkle_tree_from_file H2 (as_read (fun k => os (k - 1)) leaf_len f) data_len leaf_len.
Proof. exact tree_as_read. Qed.
Print Assumptions C100_tree.
Theorem C100_tree_proof : forall H2 params os1 os2 origin unsealed idx,
  merkle_tree_proof_os H2 params os1 os2 origin unsealed idx =
  merkle_tree_proof H2 params (as_read (fun k => os1 (k - 1)) (block_l params) origin) (as_read (fun k => os2 (k - 1)) (block_l params) unsealed) idx.
Proof. intros. unfold merkle_tree_proof_os, merkle_tree_proof. now rewrite !tree_as_read. Qed.
Print Assumptions C100_tree_proof.

(** One challenge on any stored file.  What the answer for the i-th challenged block
    unseals to, back i, depends on the prover's reads only; the challenge passes, for every
    number of threads and every schedule, exactly if each back i is the original block as
    the verifier's read delivered it, and panics otherwise. *)
Theorem C100_challenge : forall H H2 pr params key iv n m, setting H pr params key n m ->
  (forall d, (le2z (H d) < key < 256 ^ Z.of_nat (unit_pl params))%Z) -> layout params n m -> hash32 H2 ->
  forall F, n * block_pl params <= length F ->
  forall pub ids leaves tree root, load_data pub = Ok (key, iv) -> length ids = n -> generate_merkle_tree_from_data H2 ids = Ok (leaves, tree, root) ->
  forall idx, StronglySorted lt idx -> Forall (fun i => i < n) idx -> idx <> [] ->
  forall os, exists back : nat -> list byte,
  (forall i k, nth_error idx i = Some k -> exists B before deps R U, single_unseal_prepare_os H pr params (os i) F k = Ok (B, before, deps) /\
     length R = m /\ unseals_reply H pr params key iv m k before deps B R U /\ back i = concat (map (firstn (unit_l params)) R)) /\
  (forall i k c, nth_error idx i = Some k -> mode_l params = 0 -> (forall q, block_pl params <= os i q) -> restores H pr params key iv F c ->
     back i = read_file c (k * block_l params) (block_l params)) /\
  forall origin oc parallel_num r o, challenge_os H H2 pr params os oc parallel_num origin F pub leaves tree root r idx o <->
  (o = Ok tt /\ forall i k, nth_error idx i = Some k -> back i = firstn (oc i) (read_file origin (k * block_l params) (block_l params)) ++ zeros (block_l params - oc i)) \/
  (o = Panic /\ ~ forall i k, nth_error idx i = Some k -> back i = firstn (oc i) (read_file origin (k * block_l params) (block_l params)) ++ zeros (block_l params - oc i)).
Proof.
  intros H H2 pr params key iv n m SET KB LAY HH2 F LF pub ids leaves tree root LD LI GT idx S FI N os.
  destruct (challenge_short H H2 pr params key iv n m SET KB LAY HH2 F pub ids leaves tree root LF LD LI GT os idx S FI N) as (back & GB & CH).
  exists back. split; [exact GB|]. split.
  - intros i k c NK ML FU (G & EU & EC). destruct (unseal_total H pr params key iv n m SET F KB LF) as (G' & EU' & LG & _). rewrite EU in EU'. injection EU' as <-.
    assert (K : k < n) by (rewrite Forall_forall in FI; apply FI; eapply nth_error_In; eauto).
    eapply (gives_unique H pr params key iv n m SET KB LAY (os i) F k); [apply GB; exact NK|]. apply (gives_full H pr params key iv n m SET KB LAY (os i) F G c k); auto; lia.
  - intros origin oc p r o. rewrite CH.
    assert (E : (forall i k, nth_error idx i = Some k -> back i = read_os (oc i) origin (k * block_l params) (block_l params)) <->
      (forall i k, nth_error idx i = Some k -> back i = firstn (oc i) (read_file origin (k * block_l params) (block_l params)) ++ zeros (block_l params - oc i))).
    { split; intros X i k NK; specialize (X i k NK); rewrite read_os_eq in *; exact X. }
    rewrite E. reflexivity.
Qed.
Print Assumptions C100_challenge.

(** Only the verifier's reads are short: a stored file passes exactly if the part of each
    challenged block that arrived is restored correctly and the rest of it is restored as
    zeros. *)
Theorem C100_verifier_short : forall H H2 pr params key iv n m, setting H pr params key n m ->
  (forall d, (le2z (H d) < key < 256 ^ Z.of_nat (unit_pl params))%Z) -> mode_l params = 0 -> layout params n m -> hash32 H2 ->
  forall F c, n * block_pl params <= length F -> restores H pr params key iv F c ->
  forall pub ids leaves tree root, load_data pub = Ok (key, iv) -> length ids = n -> generate_merkle_tree_from_data H2 ids = Ok (leaves, tree, root) ->
  forall idx, StronglySorted lt idx -> Forall (fun i => i < n) idx -> idx <> [] ->
  forall os oc, (forall i q, block_pl params <= os i q) -> (forall i, oc i <= block_l params) ->
  forall origin parallel_num r, challenge_os H H2 pr params os oc parallel_num origin F pub leaves tree root r idx (Ok tt) <->
  forall i k, nth_error idx i = Some k ->
    read_file c (k * block_l params) (oc i) = read_file origin (k * block_l params) (oc i) /\
    read_file c (k * block_l params + oc i) (block_l params - oc i) = zeros (block_l params - oc i).
Proof.
  intros H H2 pr params key iv n m SET KB ML LAY HH2 F c LF RS pub ids leaves tree root LD LI GT idx S FI N os oc FU OC origin p r.
  destruct (C100_challenge H H2 pr params key iv n m SET KB LAY HH2 F LF pub ids leaves tree root LD LI GT idx S FI N os) as (back & _ & BK & CH). rewrite CH.
  assert (SP : forall i f k, read_file f (k * block_l params) (block_l params) = read_file f (k * block_l params) (oc i) ++ read_file f (k * block_l params + oc i) (block_l params - oc i)).
  { intros i f k. rewrite <- read_split. f_equal. specialize (OC i). lia. }
  assert (FI' : forall i f k, firstn (oc i) (read_file f (k * block_l params) (block_l params)) = read_file f (k * block_l params) (oc i)).
  { intros i f k. rewrite (SP i f k), firstn_app, read_file_length, Nat.sub_diag. cbn [firstn]. rewrite app_nil_r. apply firstn_all2. now rewrite read_file_length. }
  split.
  - intros [(_ & X)|(C & _)]; [|discriminate]. intros i k NK. specialize (X i k NK). rewrite (BK i k c NK ML ltac:(auto) RS), FI', (SP i c k) in X.
    assert (X' : read_file c (k * block_l params) (oc i) = read_file origin (k * block_l params) (oc i)).
    { apply (f_equal (firstn (oc i))) in X. rewrite !firstn_app, !read_file_length, Nat.sub_diag in X. cbn [firstn] in X. rewrite !app_nil_r, !firstn_all2 in X by (rewrite read_file_length; lia). exact X. }
    split; [exact X'|]. rewrite X' in X. now apply app_inv_head in X.
  - intros X. left. split; [reflexivity|]. intros i k NK. destruct (X i k NK) as (A & B). rewrite (BK i k c NK ML ltac:(auto) RS), FI', (SP i c k), A, B. reflexivity.
Qed.
Print Assumptions C100_verifier_short.
(** The outcome depends neither on the number of threads, nor on the schedule, nor on the
    random byte sent with the challenge. *)
Theorem C100_schedule : forall H H2 pr params key iv n m, setting H pr params key n m ->
  (forall d, (le2z (H d) < key < 256 ^ Z.of_nat (unit_pl params))%Z) -> layout params n m -> hash32 H2 ->
  forall F, n * block_pl params <= length F ->
  forall pub ids leaves tree root, load_data pub = Ok (key, iv) -> length ids = n -> generate_merkle_tree_from_data H2 ids = Ok (leaves, tree, root) ->
  forall idx, StronglySorted lt idx -> Forall (fun i => i < n) idx -> idx <> [] ->
  forall os oc origin p r o p' r' o', challenge_os H H2 pr params os oc p origin F pub leaves tree root r idx o ->
  (challenge_os H H2 pr params os oc p' origin F pub leaves tree root r' idx o' <-> o' = o).
Proof.
  intros H H2 pr params key iv n m SET KB LAY HH2 F LF pub ids leaves tree root LD LI GT idx S FI N os oc origin p r o p' r' o' C.
  destruct (C100_challenge H H2 pr params key iv n m SET KB LAY HH2 F LF pub ids leaves tree root LD LI GT idx S FI N os) as (back & _ & _ & CH).
  apply CH in C. rewrite CH. split.
  - intros C'. destruct C as [(-> & X)|(-> & X)], C' as [(-> & X')|(-> & X')]; tauto.
  - intros ->. exact C.
Qed.
Print Assumptions C100_schedule.

(** One run of a challenge without threads. *)
Definition seq_challenge (H H2 : list byte -> list byte) pr params (os : nat -> nat -> nat) (oc : nat -> nat) (origin F pub : file) leaves tree root r idx : res unit :=
  let* (vde_key, iv, rs) := challenge_prepare_os H H2 pr params os F pub leaves tree root r idx in
  let* ub := batch_unseal H pr params vde_key iv idx (map (fun x => snd (fst x)) rs) (map snd rs) (map (fun x => fst (fst x)) rs) in
  foldM (fun _ i => let* k := index idx i in let* b := index ub i in batch_verify_os (oc i) origin k b (block_l params) (unit_l params)) (seq 0 (length idx)) tt.
Lemma seq_challenge_run H H2 pr params os oc origin F pub leaves tree root r idx :
  challenge_os H H2 pr params os oc 0 origin F pub leaves tree root r idx (seq_challenge H H2 pr params os oc origin F pub leaves tree root r idx).
Proof.
  unfold seq_challenge. destruct (challenge_prepare_os H H2 pr params os F pub leaves tree root r idx) as [[[k iv] rs]|] eqn:E; cbn [bind]; [|now constructor].
  exact (Ch_os_go H H2 pr params os oc 0 origin F pub leaves tree root r idx k iv rs _ E eq_refl).
Qed.

(** Short reads and an honest prover.  The file is sealed properly and blocks 1 and 2 are
    challenged.  With complete reads the challenge passes.  One short read - of the
    challenged block, of the block before it, of a dependency, or of the original by the
    verifier - and it panics as for a cheating prover; and a stored file that has lost
    half of a block passes if the verifier's read of that block is short. *)
Definition hfix (d : list byte) : list byte := firstn 32 (d ++ repeat x00 32).
Definition ids3 : list (list byte) := [[x01]; [x02]; [x03]].
Definition spot_pub : file := save_data [] ex_key [].
(** spot_origin without the last two bytes of block 1. *)
Definition half_lost : file := firstn 6 spot_origin ++ zeros 2 ++ skipn 8 spot_origin.
Definition full_p : nat -> nat -> nat := fun _ _ => 6.
Definition full_v : nat -> nat := fun _ => 4.
Definition p_short (i q c : nat) : nat -> nat -> nat := fun i' q' => if (i' =? i) && (q' =? q) then c else 6.
Definition v_short (i c : nat) : nat -> nat := fun i' => if i' =? i then c else 4.
Definition sv_outcomes (F F' : file) leaves tree root : list (res unit) :=
  let run os oc f := seq_challenge hsum hfix Debug spot_params os oc spot_origin f spot_pub leaves tree root x00 [1; 2] in
  [run full_p full_v F; run (p_short 0 0 3) full_v F; run (p_short 1 1 0) full_v F; run (p_short 1 2 0) full_v F; run full_p (v_short 0 2) F;
   run full_p full_v F'; run full_p (v_short 0 2) F'].
Definition sv_trial : bool :=
  match (let* g := copy_and_pad spot_origin 12 2 in
         let* st := seal hsum Debug spot_params ex_key [] g in
         let* g' := copy_and_pad half_lost 12 2 in
         let* st' := seal hsum Debug spot_params ex_key [] g' in
         let* (leaves, tree, root) := generate_merkle_tree_from_data hfix ids3 in
         Ok (st, st', sv_outcomes (s_file st) (s_file st') leaves tree root)) with
  | Panic => false
  | Ok (st, st', l) => no_zero (s_log st) && no_zero (s_log st') && (length (s_file st) =? 18) && (length (s_file st') =? 18) &&
      match l with [Ok _; Panic; Panic; Panic; Panic; Panic; Ok _] => true | _ => false end
  end.
(** Every run of the challenge on the stored file F ends in o. *)
Definition ends (os : nat -> nat -> nat) (oc : nat -> nat) (F : file) leaves tree root (o : res unit) : Prop :=
  forall parallel_num r o', challenge_os hsum hfix Debug spot_params os oc parallel_num spot_origin F spot_pub leaves tree root r [1; 2] o' <-> o' = o.
Lemma hfix_32 : hash32 hfix.
Proof. intros d. unfold hfix. rewrite firstn_length, app_length, repeat_length. lia. Qed.
Lemma spot_key_bound : forall d, (le2z (hsum d) < ex_key < 256 ^ Z.of_nat (unit_pl spot_params))%Z.
Proof. intros d. split; [apply ex_sound|reflexivity]. Qed.
Lemma ends_ok os oc F leaves tree root : length F = 18 -> generate_merkle_tree_from_data hfix ids3 = Ok (leaves, tree, root) ->
  ends os oc F leaves tree root (seq_challenge hsum hfix Debug spot_params os oc spot_origin F spot_pub leaves tree root x00 [1; 2]).
Proof.
  intros LF GT p r o'.
  apply (C100_schedule hsum hfix Debug spot_params ex_key [] 3 2 spot_setting spot_key_bound spot_layout hfix_32 F ltac:(rewrite LF; cbn; lia) spot_pub ids3 leaves tree root)
    with (p := 0) (r := x00).
  - vm_compute. reflexivity.
  - reflexivity.
  - exact GT.
  - repeat constructor.
  - repeat constructor.
  - discriminate.
  - apply seq_challenge_run.
Qed.
Theorem C100_noticed_refuted : exists g st g' st' leaves tree root,
  copy_and_pad spot_origin 12 2 = Ok g /\ seal hsum Debug spot_params ex_key [] g = Ok st /\ ~ In 0%Z (s_log st) /\
  copy_and_pad half_lost 12 2 = Ok g' /\ seal hsum Debug spot_params ex_key [] g' = Ok st' /\ ~ In 0%Z (s_log st') /\
  generate_merkle_tree_from_data hfix ids3 = Ok (leaves, tree, root) /\
  (* the honest prover *)
  ends full_p full_v (s_file st) leaves tree root (Ok tt) /\
  ends (p_short 0 0 3) full_v (s_file st) leaves tree root Panic /\
  ends (p_short 1 1 0) full_v (s_file st) leaves tree root Panic /\
  ends (p_short 1 2 0) full_v (s_file st) leaves tree root Panic /\
  ends full_p (v_short 0 2) (s_file st) leaves tree root Panic /\
  (* half a block lost *)
  ends full_p full_v (s_file st') leaves tree root Panic /\
  ends full_p (v_short 0 2) (s_file st') leaves tree root (Ok tt).
Proof.
  assert (E : sv_trial = true) by (vm_compute; reflexivity). revert E. unfold sv_trial.
  destruct (copy_and_pad spot_origin 12 2) as [g|]; [|discriminate]. cbn [bind].
  destruct (seal hsum Debug spot_params ex_key [] g) as [st|] eqn:E1; [|discriminate]. cbn [bind].
  destruct (copy_and_pad half_lost 12 2) as [g'|]; [|discriminate]. cbn [bind].
  destruct (seal hsum Debug spot_params ex_key [] g') as [st'|] eqn:E2; [|discriminate]. cbn [bind].
  destruct (generate_merkle_tree_from_data hfix ids3) as [[[leaves tree] root]|] eqn:GT; [|discriminate]. cbn [bind].
  intros E. apply andb_prop in E as (E & M). apply andb_prop in E as (E & L2). apply andb_prop in E as (E & L1). apply andb_prop in E as (Z1 & Z2).
  apply Nat.eqb_eq in L1, L2. pose proof (fun os oc => ends_ok os oc (s_file st) leaves tree root L1 GT) as R. pose proof (fun os oc => ends_ok os oc (s_file st') leaves tree root L2 GT) as R'.
  unfold sv_outcomes in M.
  pose proof (R full_p full_v) as R1. pose proof (R (p_short 0 0 3) full_v) as R2. pose proof (R (p_short 1 1 0) full_v) as R3. pose proof (R (p_short 1 2 0) full_v) as R4.
  pose proof (R full_p (v_short 0 2)) as R5. pose proof (R' full_p full_v) as R6. pose proof (R' full_p (v_short 0 2)) as R7. clear R R'.
  revert M R1 R2 R3 R4 R5 R6 R7.
  generalize (seq_challenge hsum hfix Debug spot_params full_p full_v spot_origin (s_file st) spot_pub leaves tree root x00 [1; 2]).
  generalize (seq_challenge hsum hfix Debug spot_params (p_short 0 0 3) full_v spot_origin (s_file st) spot_pub leaves tree root x00 [1; 2]).
  generalize (seq_challenge hsum hfix Debug spot_params (p_short 1 1 0) full_v spot_origin (s_file st) spot_pub leaves tree root x00 [1; 2]).
  generalize (seq_challenge hsum hfix Debug spot_params (p_short 1 2 0) full_v spot_origin (s_file st) spot_pub leaves tree root x00 [1; 2]).
  generalize (seq_challenge hsum hfix Debug spot_params full_p (v_short 0 2) spot_origin (s_file st) spot_pub leaves tree root x00 [1; 2]).
  generalize (seq_challenge hsum hfix Debug spot_params full_p full_v spot_origin (s_file st') spot_pub leaves tree root x00 [1; 2]).
  generalize (seq_challenge hsum hfix Debug spot_params full_p (v_short 0 2) spot_origin (s_file st') spot_pub leaves tree root x00 [1; 2]).
  intros o7 o6 o5 o4 o3 o2 o1 M.
  destruct o1 as [[]|], o2 as [[]|], o3 as [[]|], o4 as [[]|], o5 as [[]|], o6 as [[]|], o7 as [[]|]; try discriminate M. intros R1 R2 R3 R4 R5 R6 R7.
  exists g, st, g', st', leaves, tree, root. split; [reflexivity|]. split; [exact E1|]. split; [exact (no_zero_ok _ Z1)|]. split; [reflexivity|]. split; [exact E2|].
  split; [exact (no_zero_ok _ Z2)|]. split; [reflexivity|]. auto 10.
Qed.
Print Assumptions C100_noticed_refuted.

(** The Merkle proof: of a file against itself it succeeds, and it fails if one leaf of one
    of the two readings is cut short; a file without half of a block passes as the
    original if the original was read without it too. *)
Theorem C100_tree_refuted :
  merkle_tree_proof_os hsum spot_params full_v full_v spot_origin spot_origin [0; 1] = Ok tt /\
  merkle_tree_proof_os hsum spot_params full_v (v_short 0 0) spot_origin spot_origin [0; 1] = Panic /\
  merkle_tree_proof_os hsum spot_params (v_short 0 1) full_v spot_origin spot_origin [0; 1] = Panic /\
  merkle_tree_proof_os hsum spot_params full_v full_v spot_origin half_lost [0; 1] = Panic /\
  merkle_tree_proof_os hsum spot_params (v_short 0 2) full_v spot_origin half_lost [0; 1] = Ok tt.
Proof. repeat split; vm_compute; reflexivity. Qed.
Print Assumptions C100_tree_refuted.

(** The settings of these runs meet the hypotheses of the theorems above. *)
Example C100_ex : setting hsum Debug spot_params ex_key 3 2 /\ (forall d, (le2z (hsum d) < ex_key < 256 ^ Z.of_nat (unit_pl spot_params))%Z) /\
  mode_l spot_params = 0 /\ layout spot_params 3 2 /\ short_modes_fine Debug spot_params 3 2 /\ hash32 hfix /\ load_data spot_pub = Ok (ex_key, []) /\ length ids3 = 3 /\
  blocks_in_range 5 13 (block_pl spot_params) = Ok [0; 1] /\
  (exists F c, length F = 18 /\ restores hsum Debug spot_params ex_key [] F c /\ c <> spot_origin).
Proof.
  split; [exact spot_setting|]. split; [exact spot_key_bound|]. split; [reflexivity|]. split; [exact spot_layout|]. split; [exact (set_short _ _ _ _ _ _ spot_setting)|].
  split; [exact hfix_32|]. split; [vm_compute; reflexivity|]. split; [reflexivity|]. split; [vm_compute; reflexivity|].
  destruct C81_ex as (_ & _ & _ & F & c & LF & RS & _ & _ & B2). exists F, c. split; [exact LF|]. split; [exact RS|]. intros ->. apply B2. reflexivity.
Qed.
