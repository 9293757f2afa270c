(** Data that change or grow after they were sealed.  These are not functions of the
    repository: they are what the holder of the new data can do with its code and with what
    is left of the earlier sealing. *)
From Verif Require Import Base Sloth Common Depend Prover.
Local Open Scope nat_scope.

(** The same parameters for d bytes of data (postorage.rs 28-54, the field data_l). *)
Definition with_data (params : PosPara) (d : nat) : PosPara :=
  mkPosPara d (unit_l params) (block_l params) (big_block_l params) (unit_pl params) (block_pl params) (big_block_pl params)
    (seal_rounds params) (vde_rounds params) (vde_mode params) (mode_l params) (cnt_l params) (mode_s params) (cnt_s params) (leaves_to_prove_count params).

(** As seal (prover.rs 50-245), the loop starting at block [from]: blocks_id has the hashes
    of the blocks before it, F those blocks sealed and the others as they are to be sealed. *)
Definition seal_from (H : list byte -> list byte) (pr : profile) (params : PosPara) (vde_key : Z) (iv : list byte)
           (from : nat) (F : file) (blocks_id : list (list byte)) : res seal_state :=
  let* block_cnt := nblocks params in
  let* idxs_l := seal_idxs_l pr params block_cnt in
  let* idxs_s := seal_idxs_s pr params block_cnt in
  foldM (seal_block H params vde_key iv idxs_l idxs_s block_cnt) (seq from (block_cnt - from))
        (mkSeal F (blocks_id ++ repeat [] (block_cnt - from)) []).

(** With random short dependencies the rules look at the number of blocks only to know how
    many bytes of a hash an index takes: one up to 256 blocks, two up to 65536, else three
    (depend.rs 58-68). *)
Definition same_rules (params : PosPara) (n n' : nat) : Prop :=
  n = n' \/ mode_s params = 0 /\ (mode_l params = 0 -> (n <= 256 <-> n' <= 256) /\ (Z.of_nat n <= 65536 <-> Z.of_nat n' <= 65536)%Z).
