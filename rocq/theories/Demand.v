(** Sealing on demand.  Not functions of the repository: what a prover can do with its code
    that stores nothing but the original data and seals a block when it is asked for. *)
From Verif Require Import Base Sloth Common Depend Prover Verifier Postorage Gather.
Local Open Scope nat_scope.

Section Demand.
Variable H : list byte -> list byte.
Variable pr : profile.
Variable params : PosPara.
Variable vde_key : Z.
Variable iv : list byte.

(** Block k of the padded original g, sealed alone by the loops of seal over rounds and units
    (prover.rs 164-228), without dependency blocks and with an empty hash for the block
    before; the second component lists the numbers handed to the delay function. *)
Definition seal_alone (g : file) (k : nat) : res (list (list byte) * list Z) :=
  let* cur_block := read_block params g k in
  let* idxs_s := bu_idxs_s pr params in
  seal_block_rounds H params vde_key iv idxs_s [] (repeat [] k) k (cur_block, []).
(** The answer to a challenge: the original is padded (prover.rs 27-48), and each block asked
    for is sealed alone. *)
Definition answer_on_demand (origin : file) (idx : list nat) : res (answer * list Z) :=
  let* g := copy_and_pad origin (data_l params) (unit_l params) in
  let* bs := mapM (seal_alone g) idx in
  Ok (mkAnswer (map (fun _ => []) bs) (map (fun _ => []) bs) (map fst bs), concat (map snd bs)).
End Demand.
