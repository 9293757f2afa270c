(** Answering while the sealed file changes.  Sealing and unsealing work in place
    (prover.rs 239-240, 466-467) and nothing locks the file, so an answer given at the same
    time reads it at several moments.  The functions of verifier.rs and postorage.rs that
    read the sealed file are repeated here with the content of the file at each read as an
    argument: [now q] is what the q-th read of an answer finds.  The public data and the
    original are fixed. *)
From Verif Require Import Base Sloth Common Depend Prover Verifier Merkle Postorage.
Local Open Scope nat_scope.

Section Live.
Variable H : list byte -> list byte.   (* blake3_hash *)
Variable H2 : list byte -> list byte.  (* Sha256::hash *)
Variable pr : profile.
Variable params : PosPara.

(** verifier.rs 82-113, 171-202; the j-th dependency is read from [now j]. *)
Definition prepare_depend_blocks_live (now : nat -> file) (idxs_l : list (list nat)) (block_cnt : nat)
           (before_block_id : list byte) (idx2 : nat) : res (list (list (list byte))) :=
  let read_all l := mapM (fun j => let* idx := index l j in to_units (read_file (now j) (idx * block_pl params) (block_pl params)) (unit_pl params)) (seq 0 (length l)) in
  if mode_l params =? 0 then
    let* cur_idxs_l :=
      if idx2 =? 0 then Ok []
      else if cnt_l params =? 0 then long_mode_random H block_cnt before_block_id idx2 (idx2 / 10 + 1)
      else long_mode_random H block_cnt before_block_id idx2 (cnt_l params) in
    read_all cur_idxs_l
  else
    let* row := index idxs_l idx2 in
    read_all row.

(** verifier.rs 47-116: the block itself is read from [now 0], the one before it from
    [now 1], its j-th dependency from [now (2 + j)]. *)
Definition single_unseal_prepare_live (now : nat -> file) (block_idx : nat)
  : res (list (list byte) * list byte * list (list (list byte))) :=
  let* block := to_units (read_file (now 0) (block_idx * block_pl params) (block_pl params)) (unit_pl params) in
  let* block_cnt := nblocks params in
  let* idxs_l := verifier_idxs_l pr params block_cnt in
  let before_block_id := prepare_before_id H params (now 1) block_idx in
  let* depend_blocks := prepare_depend_blocks_live (fun j => now (2 + j)) idxs_l block_cnt before_block_id block_idx in
  Ok (block, before_block_id, depend_blocks).

(** verifier.rs 118-208: all blocks of the range are read first, then for each of them the
    rest; [now i q] as above for the i-th block of the range. *)
Definition batch_unseal_prepare_live (now : nat -> nat -> file) (idx_begin idx_end : nat)
  : res (list nat * list (list (list byte)) * list (list byte) * list (list (list (list byte)))) :=
  let* blocks_idx := blocks_in_range idx_begin idx_end (block_pl params) in
  let* blocks := mapM (fun i => let* idx2 := index blocks_idx i in
                        to_units (read_file (now i 0) (idx2 * block_pl params) (block_pl params)) (unit_pl params)) (seq 0 (length blocks_idx)) in
  let* block_cnt := nblocks params in
  let* idxs_l := verifier_idxs_l pr params block_cnt in
  let* both := mapM (fun i =>
      let* idx2 := index blocks_idx i in
      let bid := prepare_before_id H params (now i 1) idx2 in
      let* deps := prepare_depend_blocks_live (fun j => now i (2 + j)) idxs_l block_cnt bid idx2 in
      Ok (bid, deps)) (seq 0 (length blocks_idx)) in
  Ok (blocks_idx, blocks, map fst both, map snd both).

(** postorage.rs 334-417: one challenge; [now i] is for the i-th challenged block. *)
Definition challenge_prepare_live (now : nat -> nat -> file) (pub : file) (leaves : list (list byte)) (tree : list (list (nat * list byte)))
           (root : list byte) (r : byte) (idx : list nat)
  : res (Z * list byte * list (list (list byte) * list byte * list (list (list byte)))) :=
  let* rs := mapM (fun i => let* k := index idx i in single_unseal_prepare_live (now i) k) (seq 0 (length idx)) in
  let hash_p := H (response_data r (map (fun x => fst (fst x)) rs)) in
  let* proof := generate_merkle_proof idx tree in
  let* _ := verify_response H H2 hash_p r (map (fun x => fst (fst x)) rs) proof root idx leaves in
  let* (vde_key, iv) := load_data pub in
  Ok (vde_key, iv, rs).
Inductive challenge_live (now : nat -> nat -> file) (parallel_num : nat) (origin pub : file) (leaves : list (list byte))
          (tree : list (list (nat * list byte))) (root : list byte) (r : byte) (idx : list nat) : res unit -> Prop :=
| Ch_live_panic : challenge_prepare_live now pub leaves tree root r idx = Panic ->
    challenge_live now parallel_num origin pub leaves tree root r idx Panic
| Ch_live_go : forall vde_key iv rs out,
    challenge_prepare_live now pub leaves tree root r idx = Ok (vde_key, iv, rs) ->
    (if parallel_num =? 0
     then out = batch_unseal H pr params vde_key iv idx (map (fun x => snd (fst x)) rs) (map snd rs) (map (fun x => fst (fst x)) rs)
     else batch_unseal_parallel H pr params vde_key iv idx (map (fun x => snd (fst x)) rs) (map snd rs) parallel_num (map (fun x => fst (fst x)) rs) out) ->
    challenge_live now parallel_num origin pub leaves tree root r idx
      (let* unsealed_blocks := out in
       foldM (fun _ i =>
                let* k := index idx i in
                let* b := index unsealed_blocks i in
                batch_verify origin k b (block_l params) (unit_l params)) (seq 0 (length idx)) tt).
End Live.
