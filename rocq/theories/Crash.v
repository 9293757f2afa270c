(** A run of seal_and_unseal that is killed: every write may stop after any number of
    bytes, and nothing after it happens. *)
From Verif Require Import Base Common Depend Prover Postorage.
Local Open Scope nat_scope.

Section Crash.
Variable H : list byte -> list byte.  (* blake3_hash *)
Variable pr : profile.
Variable params : PosPara.

Section Key.
Variable vde_key : Z.
Variable iv : list byte.

(** prover.rs 50-245 killed while block j is written back (lines 239-240), after k of its
    bytes. *)
Definition seal_crash (j k : nat) (f : file) : res file :=
  let* st := seal_upto H pr params vde_key iv j f in
  let* block_cnt := nblocks params in
  let* idxs_l := seal_idxs_l pr params block_cnt in
  let* idxs_s := seal_idxs_s pr params block_cnt in
  let* cur_block := read_block params (s_file st) j in
  let* depend_blocks := seal_depend_blocks H params idxs_l block_cnt (s_file st) (s_ids st) j in
  let* (cur_block', _) := seal_block_rounds H params vde_key iv idxs_s depend_blocks (s_ids st) j (cur_block, s_log st) in
  Ok (write_at (s_file st) (j * block_pl params) (firstn k (com_units cur_block'))).

(** prover.rs 268-472 killed in iteration i of the loop over the blocks, while the block
    is written back (lines 466-467), after k of its bytes. *)
Definition unseal_crash (i k : nat) (f : file) : res file :=
  let* f := unseal_range H pr params vde_key iv 0 i f in
  let* block_cnt := nblocks params in
  let* idxs_l := unseal_idxs_l pr params block_cnt in
  let* idxs_s := unseal_idxs_s pr params block_cnt in
  let idx2 := block_cnt - 1 - i in
  let before_block_id := unseal_before_id H params f idx2 in
  let* cur_block := read_block params f idx2 in
  let* depend_blocks := unseal_depend_blocks H params idxs_l block_cnt f before_block_id idx2 in
  let* cur_block' := unseal_block_rounds H params vde_key iv idxs_s depend_blocks before_block_id idx2 cur_block in
  Ok (write_at f (idx2 * block_pl params) (firstn k (com_units cur_block'))).
End Key.

(** postorage.rs 118-155 killed somewhere: what the sealed file, the public data and the
    unsealed file then contain.  sealed0, pub0 and unsealed0 are their contents before.
    Padding and compressing (prover.rs 27-48, 247-266) truncate their target and append
    to it, so a part of the result is there.  A kill in the middle of reading or
    computing looks like one at the end of the write before it. *)
Inductive run_crash (rnd_iv : nat -> byte) (origin sealed0 pub0 unsealed0 : file) (should_unseal : bool) : file -> file -> file -> Prop :=
| RC_start : run_crash rnd_iv origin sealed0 pub0 unsealed0 should_unseal sealed0 pub0 unsealed0
| RC_pad : forall g k, copy_and_pad origin (data_l params) (unit_l params) = Ok g ->
    run_crash rnd_iv origin sealed0 pub0 unsealed0 should_unseal (firstn k g) pub0 unsealed0
| RC_seal : forall g vde_key iv j k F, copy_and_pad origin (data_l params) (unit_l params) = Ok g ->
    prepare_params pr (unit_pl params) rnd_iv = Ok (vde_key, iv) -> j < data_l params / block_l params -> seal_crash vde_key iv j k g = Ok F ->
    run_crash rnd_iv origin sealed0 pub0 unsealed0 should_unseal F pub0 unsealed0
| RC_save : forall g vde_key iv st k, copy_and_pad origin (data_l params) (unit_l params) = Ok g ->
    prepare_params pr (unit_pl params) rnd_iv = Ok (vde_key, iv) -> seal H pr params vde_key iv g = Ok st ->
    run_crash rnd_iv origin sealed0 pub0 unsealed0 should_unseal (s_file st) (save_data_upto k pub0 vde_key iv) unsealed0
| RC_unseal : forall g vde_key iv st i k F, should_unseal = true -> copy_and_pad origin (data_l params) (unit_l params) = Ok g ->
    prepare_params pr (unit_pl params) rnd_iv = Ok (vde_key, iv) -> seal H pr params vde_key iv g = Ok st ->
    i < data_l params / block_l params -> unseal_crash vde_key iv i k (s_file st) = Ok F ->
    run_crash rnd_iv origin sealed0 pub0 unsealed0 should_unseal F (save_data pub0 vde_key iv) unsealed0
| RC_compress : forall g vde_key iv st u c k, should_unseal = true -> copy_and_pad origin (data_l params) (unit_l params) = Ok g ->
    prepare_params pr (unit_pl params) rnd_iv = Ok (vde_key, iv) -> seal H pr params vde_key iv g = Ok st ->
    unseal H pr params vde_key iv (s_file st) = Ok u -> copy_and_compress u (data_l params) (unit_l params) (unit_pl params) = Ok c ->
    run_crash rnd_iv origin sealed0 pub0 unsealed0 should_unseal u (save_data pub0 vde_key iv) (firstn k c).
End Crash.
