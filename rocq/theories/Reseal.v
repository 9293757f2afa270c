(** Sealing lost blocks of a sealed file again.  These are not functions of the repository:
    they are what the holder of the original data can do with its code, block by block, and
    with the hashes of the sealed blocks (which seal returns) in place of the blocks. *)
From Verif Require Import Base Sloth Common Depend Prover Verifier.
Local Open Scope nat_scope.

Section Reseal.
Variable H : list byte -> list byte.
Variable pr : profile.
Variable params : PosPara.
Variable vde_key : Z.
Variable iv : list byte.

(** Block k of the original, read from the padded file g, is put in its place and the body
    of the loop of seal (prover.rs 88-242) runs for it alone. *)
Definition reseal_block (g : file) (idxs_l idxs_s : list (list nat)) (block_cnt : nat) (st : seal_state) (k : nat) : res seal_state :=
  let pos := k * block_pl params in
  seal_block H params vde_key iv idxs_l idxs_s block_cnt
    (mkSeal (write_at (s_file st) pos (read_file g pos (block_pl params))) (s_ids st) (s_log st)) k.
(** As seal (prover.rs 50-245), for the blocks ks only; F is what is left of the sealed file. *)
Definition reseal (g F : file) (blocks_id : list (list byte)) (ks : list nat) : res seal_state :=
  let* block_cnt := nblocks params in
  let* idxs_l := seal_idxs_l pr params block_cnt in
  let* idxs_s := seal_idxs_s pr params block_cnt in
  foldM (reseal_block g idxs_l idxs_s block_cnt) ks (mkSeal F blocks_id []).
(** As single_unseal_prepare (verifier.rs 47-116), with the hash of the block before taken
    from the list of hashes and not computed from the file. *)
Definition answer_kept (blocks_id : list (list byte)) (F : file) (k : nat) : res (list (list byte) * list byte * list (list (list byte))) :=
  let* block := to_units (read_file F (k * block_pl params) (block_pl params)) (unit_pl params) in
  let* block_cnt := nblocks params in
  let* idxs_l := verifier_idxs_l pr params block_cnt in
  let* before_block_id := if k =? 0 then Ok [] else index blocks_id (k - 1) in
  let* depend_blocks := prepare_depend_blocks H params idxs_l block_cnt F before_block_id k in
  Ok (block, before_block_id, depend_blocks).
End Reseal.
