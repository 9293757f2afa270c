(** Answering, checking and hashing under short reads.  As in ShortRead.v, the number of
    bytes each call of read_file delivers is an argument; the functions of verifier.rs,
    merkle_tree.rs and postorage.rs that read files are repeated with it. *)
From Coq Require Import Strings.Byte.
From Coq Require Import List.
From Verif Require Import Base Sloth Common Depend Prover Verifier Merkle Postorage ShortRead.
Local Open Scope nat_scope.

(** verifier.rs 474-504; the call delivers [c] bytes. *)
Definition batch_verify_os (c : nat) (origin : file) (idx2 : nat) (unseal_block : list (list byte)) (block_l unit_l : nat) : res unit :=
  let origin_block := read_os c origin (idx2 * block_l) block_l in
  let* origin_block := to_units origin_block unit_l in
  verify_block_units origin_block unseal_block unit_l.

Section Answer.
Variable H : list byte -> list byte.
Variable pr : profile.
Variable params : PosPara.

(** verifier.rs 72-80, 161-169. *)
Definition prepare_before_id_os (c : nat) (f : file) (idx2 : nat) : list byte :=
  if negb (idx2 =? 0)
  then H (read_os c f ((idx2 - 1) * block_pl params) (block_pl params))
  else [].

(** verifier.rs 82-113, 171-202; [os j] bytes are delivered for the j-th dependency. *)
Definition prepare_depend_blocks_os (os : nat -> nat) (idxs_l : list (list nat)) (block_cnt : nat) (f : file)
           (before_block_id : list byte) (idx2 : nat) : res (list (list (list byte))) :=
  let read_all l := mapM (fun j => let* idx := index l j in read_block_os params (os j) f idx) (seq 0 (length l)) in
  if mode_l params =? 0 then
    let* cur_idxs_l :=
      if idx2 =? 0 then Ok []
      else if cnt_l params =? 0 then long_mode_random H block_cnt before_block_id idx2 (idx2 / 10 + 1)
      else long_mode_random H block_cnt before_block_id idx2 (cnt_l params) in
    read_all cur_idxs_l
  else
    let* row := index idxs_l idx2 in
    read_all row.

(** verifier.rs 47-116: the block itself is read with [os 0], the one before it with
    [os 1], its j-th dependency with [os (2 + j)]. *)
Definition single_unseal_prepare_os (os : nat -> nat) (f : file) (block_idx : nat)
  : res (list (list byte) * list byte * list (list (list byte))) :=
  let* block := read_block_os params (os 0) f block_idx in
  let* block_cnt := nblocks params in
  let* idxs_l := verifier_idxs_l pr params block_cnt in
  let before_block_id := prepare_before_id_os (os 1) f block_idx in
  let* depend_blocks := prepare_depend_blocks_os (fun j => os (2 + j)) idxs_l block_cnt f before_block_id block_idx in
  Ok (block, before_block_id, depend_blocks).

(** verifier.rs 118-208: the same numbers for each position of the list of blocks. *)
Definition batch_unseal_prepare_os (os : nat -> nat -> nat) (f : file) (idx_begin idx_end : nat)
  : res (list nat * list (list (list byte)) * list (list byte) * list (list (list (list byte)))) :=
  let* blocks_idx := blocks_in_range idx_begin idx_end (block_pl params) in
  let* blocks := mapM (fun i => let* idx2 := index blocks_idx i in read_block_os params (os i 0) f idx2) (seq 0 (length blocks_idx)) in
  let* block_cnt := nblocks params in
  let* idxs_l := verifier_idxs_l pr params block_cnt in
  let* both := mapM (fun i =>
      let* idx2 := index blocks_idx i in
      let bid := prepare_before_id_os (os i 1) f idx2 in
      let* deps := prepare_depend_blocks_os (fun j => os i (2 + j)) idxs_l block_cnt f bid idx2 in
      Ok (bid, deps)) (seq 0 (length blocks_idx)) in
  Ok (blocks_idx, blocks, map fst both, map snd both).

(** verifier.rs 221-305; the call in iteration [i] delivers [oc i] bytes. *)
Definition bv_block_os (vde_key : Z) (iv : list byte) (blocks_idx : list nat) (before_block_ids : list (list byte))
           (depend_blocks : list (list (list (list byte)))) (oc : nat -> nat) (idxs_s : list (list nat)) (origin : file)
           (blocks : list (list (list byte))) (i : nat) : res unit :=
  let* idx2 := index blocks_idx i in
  let* cur_block := index blocks i in
  let unit_cnt := length cur_block in
  let* cur_block' :=
    foldM (fun cb _ => foldM (bv_unit H params vde_key iv before_block_ids depend_blocks idxs_s i idx2 unit_cnt) (seq 0 unit_cnt) cb)
          (seq 0 (seal_rounds params)) cur_block in
  let* origin_block := to_units (read_os (oc i) origin (idx2 * block_l params) (block_l params)) (unit_l params) in
  verify_block_units origin_block cur_block' (unit_l params).

(** verifier.rs 210-306. *)
Definition batch_unseal_and_verify_os (vde_key : Z) (iv : list byte) (blocks_idx : list nat) (before_block_ids : list (list byte))
           (depend_blocks : list (list (list (list byte)))) (oc : nat -> nat) (origin : file) (blocks : list (list (list byte))) : res unit :=
  let* idxs_s := bv_idxs_s pr params in
  foldM (fun _ i => bv_block_os vde_key iv blocks_idx before_block_ids depend_blocks oc idxs_s origin blocks i) (seq 0 (length blocks)) tt.
End Answer.

(** merkle_tree.rs 9-24; [os i] bytes are delivered for leaf i. *)
Definition generate_merkle_tree_from_file_os (H2 : list byte -> list byte) (os : nat -> nat) (f : file) (data_len leaf_len : nat)
  : res (list (list byte) * list (list (nat * list byte)) * list byte) :=
  let* starts := step_by data_len leaf_len in
  let leaf_values := map (fun ik => read_os (os (fst ik)) f (snd ik + leaf_len) leaf_len) (combine (seq 0 (length starts)) starts) in
  let leaves := map H2 leaf_values in
  let t := from_leaves H2 leaves in
  match tree_root t with
  | Some r => Ok (leaves, t, r)
  | None => Panic
  end.

Section Runs.
Variable H : list byte -> list byte.   (* blake3_hash *)
Variable H2 : list byte -> list byte.  (* Sha256::hash *)
Variable pr : profile.
Variable params : PosPara.

(** postorage.rs 179-185: the original is read with [os1], the unsealed file with [os2]. *)
Definition merkle_tree_proof_os (os1 os2 : nat -> nat) (origin unsealed : file) (indices_to_prove : list nat) : res unit :=
  let* (_, _, merkle_root) := generate_merkle_tree_from_file_os H2 os1 origin (data_l params) (block_l params) in
  let* (leaves, tree, _) := generate_merkle_tree_from_file_os H2 os2 unsealed (data_l params) (block_l params) in
  let* proof := generate_merkle_proof indices_to_prove tree in
  verify_merkle_proof H2 proof merkle_root indices_to_prove leaves.

(** postorage.rs 334-417: one challenge.  For the i-th challenged block the prover's reads
    deliver [os i] and the verifier's read of the original delivers [oc i]. *)
Definition challenge_prepare_os (os : nat -> nat -> nat) (sealed pub : file) (leaves : list (list byte)) (tree : list (list (nat * list byte)))
           (root : list byte) (r : byte) (idx : list nat)
  : res (Z * list byte * list (list (list byte) * list byte * list (list (list byte)))) :=
  let* rs := mapM (fun i => let* k := index idx i in single_unseal_prepare_os H pr params (os i) sealed k) (seq 0 (length idx)) in
  let hash_p := H (response_data r (map (fun x => fst (fst x)) rs)) in
  let* proof := generate_merkle_proof idx tree in
  let* _ := verify_response H H2 hash_p r (map (fun x => fst (fst x)) rs) proof root idx leaves in
  let* (vde_key, iv) := load_data pub in
  Ok (vde_key, iv, rs).
Inductive challenge_os (os : nat -> nat -> nat) (oc : nat -> nat) (parallel_num : nat) (origin sealed pub : file) (leaves : list (list byte))
          (tree : list (list (nat * list byte))) (root : list byte) (r : byte) (idx : list nat) : res unit -> Prop :=
| Ch_os_panic : challenge_prepare_os os sealed pub leaves tree root r idx = Panic ->
    challenge_os os oc parallel_num origin sealed pub leaves tree root r idx Panic
| Ch_os_go : forall vde_key iv rs out,
    challenge_prepare_os os sealed pub leaves tree root r idx = Ok (vde_key, iv, rs) ->
    (if parallel_num =? 0
     then out = batch_unseal H pr params vde_key iv idx (map (fun x => snd (fst x)) rs) (map snd rs) (map (fun x => fst (fst x)) rs)
     else batch_unseal_parallel H pr params vde_key iv idx (map (fun x => snd (fst x)) rs) (map snd rs) parallel_num (map (fun x => fst (fst x)) rs) out) ->
    challenge_os os oc parallel_num origin sealed pub leaves tree root r idx
      (let* unsealed_blocks := out in
       foldM (fun _ i =>
                let* k := index idx i in
                let* b := index unsealed_blocks i in
                batch_verify_os (oc i) origin k b (block_l params) (unit_l params)) (seq 0 (length idx)) tt).
End Runs.
