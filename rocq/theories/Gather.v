(** Putting the data together again from the answers to challenges, without the stored file
    and without the original.  Not code of the repository: the code only compares; this is
    what anyone can do who keeps the answers, with batch_unseal (verifier.rs 308-377). *)
From Verif Require Import Base Sloth Common Depend Prover Verifier Postorage.
Local Open Scope nat_scope.

(** What a prover sends for a challenge (prover.rs 474-594): the hash of the block before,
    the blocks depended on and the block itself, for each index.  Nothing says that they
    come from a sealed file. *)
Record answer := mkAnswer {
  a_before : list (list byte);
  a_deps : list (list (list (list byte)));
  a_blocks : list (list (list byte)) }.

(** postorage.rs 373-417: the verifier's part of a challenge, for whatever the prover sends:
    hash_p (first answer), a and proof (second answer). *)
Inductive judge (H H2 : list byte -> list byte) (pr : profile) (params : PosPara) (parallel_num : nat) (origin pub : file) (leaves : list (list byte)) (root : list byte)
          (r : byte) (idx : list nat) (hash_p : list byte) (a : answer) (proof : list (list byte)) : res unit -> Prop :=
| J_panic : (let* _ := verify_response H H2 hash_p r (a_blocks a) proof root idx leaves in load_data pub) = Panic ->
    judge H H2 pr params parallel_num origin pub leaves root r idx hash_p a proof Panic
| J_go : forall vde_key iv out,
    (let* _ := verify_response H H2 hash_p r (a_blocks a) proof root idx leaves in load_data pub) = Ok (vde_key, iv) ->
    (if parallel_num =? 0
     then out = batch_unseal H pr params vde_key iv idx (a_before a) (a_deps a) (a_blocks a)
     else batch_unseal_parallel H pr params vde_key iv idx (a_before a) (a_deps a) parallel_num (a_blocks a) out) ->
    judge H H2 pr params parallel_num origin pub leaves root r idx hash_p a proof
      (let* unsealed_blocks := out in
       foldM (fun _ i =>
                let* k := index idx i in
                let* b := index unsealed_blocks i in
                batch_verify origin k b (block_l params) (unit_l params)) (seq 0 (length idx)) tt).

Section Gather.
Variable H : list byte -> list byte.
Variable pr : profile.
Variable params : PosPara.
Variable key : Z.
Variable iv : list byte.

(** The data in an unsealed block: the first unit_l bytes of each unit, as
    copy_and_compress takes them (prover.rs 247-266). *)
Definition plain (us : list (list byte)) : list byte :=
  concat (map (firstn (unit_l params)) (firstn (block_l params / unit_l params) us)).
(** Writing it where it belongs. *)
Definition keep (f : file) (b : nat * list (list byte)) : file :=
  write_at f (fst b * block_l params) (plain (snd b)).
(** From unsealed blocks and their indices, starting from a file of zeros. *)
Definition collect (rounds : list (list nat * list (list (list byte)))) : file :=
  fold_left (fun f r => fold_left keep (combine (fst r) (snd r)) f) rounds (zeros (data_l params)).
(** From answers. *)
Definition gather (rounds : list (list nat * answer)) : res file :=
  let* outs := mapM (fun r => let* out := batch_unseal H pr params key iv (fst r) (a_before (snd r)) (a_deps (snd r)) (a_blocks (snd r)) in
                              Ok (fst r, out)) rounds in
  Ok (collect outs).
End Gather.
