(** The storage code under short reads.  read_file (common.rs 78-84) calls [read] once and
    ignores the number of bytes it returns; the operating system may deliver fewer bytes
    than asked for.  The functions of prover.rs are repeated here with the number of
    bytes delivered by each call as an argument; everything else is as in Prover.v. *)
From Verif Require Import Base Sloth Common Depend Prover.
Local Open Scope nat_scope.

(** common.rs 78-84 when the call delivers at most [c] bytes: the rest of the buffer stays
    zero. *)
Definition read_os (c : nat) (f : file) (begin_idx len : nat) : list byte :=
  let avail := firstn c (firstn len (skipn begin_idx f)) in
  avail ++ zeros (len - length avail).

(** prover.rs 27-48; [os cnt] bytes are delivered in iteration [cnt]. *)
Definition copy_and_pad_os (os : nat -> nat) (origin : file) (data_l unit_l : nat) : res file :=
  if unit_l =? 0 then Panic else
  let block_cnt := data_l / unit_l in
  Ok (fold_left (fun new cnt => new ++ (read_os (os cnt) origin (cnt * unit_l) unit_l ++ [x00]))
                (seq 0 block_cnt) []).

(** prover.rs 247-266. *)
Definition copy_and_compress_os (os : nat -> nat) (origin : file) (data_l unit_l unit_pl : nat) : res file :=
  if unit_l =? 0 then Panic else
  let block_cnt := data_l / unit_l in
  foldM (fun new cnt =>
           let buf := read_os (os cnt) origin (cnt * unit_pl) unit_pl in
           let* b := slice buf 0 unit_l in
           Ok (new ++ b)) (seq 0 block_cnt) [].

Section Prover.
Variable H : list byte -> list byte.
Variable pr : profile.
Variable params : PosPara.
Variable vde_key : Z.
Variable iv : list byte.

(** prover.rs 91-95, 138-142, 151-155. *)
Definition read_block_os (c : nat) (f : file) (idx : nat) : res (list (list byte)) :=
  to_units (read_os c f (idx * block_pl params) (block_pl params)) (unit_pl params).

(** prover.rs 103-162; [os j] bytes are delivered for the j-th dependency. *)
Definition seal_depend_blocks_os (os : nat -> nat) (idxs_l : list (list nat)) (block_cnt : nat) (f : file)
           (blocks_id : list (list byte)) (idx2 : nat) : res (list (list (list byte))) :=
  let* cur_idxs_l :=
    if mode_l params =? 0 then
      if idx2 =? 0 then Ok []
      else if cnt_l params =? 0 then
        let* d := index blocks_id (idx2 - 1) in
        long_mode_random H block_cnt d idx2 (idx2 / 10 + 1)
      else
        let* d := index blocks_id (idx2 - 1) in
        long_mode_random H block_cnt d idx2 (cnt_l params)
    else index idxs_l idx2 in
  mapM (fun j => let* i := index cur_idxs_l j in read_block_os (os j) f i) (seq 0 (length cur_idxs_l)).

(** prover.rs 88-242: in iteration [idx2] the block itself is read with [os idx2 0], its
    j-th dependency with [os idx2 (1 + j)]. *)
Definition seal_block_os (os : nat -> nat -> nat) (idxs_l idxs_s : list (list nat)) (block_cnt : nat)
           (st : seal_state) (idx2 : nat) : res seal_state :=
  let* cur_block := read_block_os (os idx2 0) (s_file st) idx2 in
  let* depend_blocks := seal_depend_blocks_os (fun j => os idx2 (1 + j)) idxs_l block_cnt (s_file st) (s_ids st) idx2 in
  let* (cur_block', log') :=
    seal_block_rounds H params vde_key iv idxs_s depend_blocks (s_ids st) idx2 (cur_block, s_log st) in
  let bytes := com_units cur_block' in
  let* ids' := set_index (s_ids st) idx2 (H bytes) in
  Ok (mkSeal (write_at (s_file st) (idx2 * block_pl params) bytes) ids' log').

(** prover.rs 50-245. *)
Definition seal_os (os : nat -> nat -> nat) (f : file) : res seal_state :=
  let* block_cnt := nblocks params in
  let blocks_id := repeat [] block_cnt in
  let* idxs_l := seal_idxs_l pr params block_cnt in
  let* idxs_s := seal_idxs_s pr params block_cnt in
  foldM (seal_block_os os idxs_l idxs_s block_cnt) (seq 0 block_cnt) (mkSeal f blocks_id []).

(** prover.rs 307-320. *)
Definition unseal_before_id_os (c : nat) (f : file) (idx2 : nat) : list byte :=
  if negb (idx2 =? 0)
  then H (read_os c f ((idx2 - 1) * block_pl params) (block_pl params))
  else [].

(** prover.rs 335-394. *)
Definition unseal_depend_blocks_os (os : nat -> nat) (idxs_l : list (list nat)) (block_cnt : nat) (f : file)
           (before_block_id : list byte) (idx2 : nat) : res (list (list (list byte))) :=
  if mode_l params =? 0 then
    let* cur_idxs_l :=
      if idx2 =? 0 then Ok []
      else if cnt_l params =? 0 then
        long_mode_random H block_cnt before_block_id idx2 (idx2 / 10 + 1)
      else
        long_mode_random H block_cnt before_block_id idx2 (cnt_l params) in
    mapM (fun i => let* k := index cur_idxs_l i in read_block_os (os i) f k) (seq 0 (length cur_idxs_l))
  else
    let* row := index idxs_l idx2 in
    mapM (fun i => read_block_os (os i) f i) (seq 0 (length row)).

(** prover.rs 304-469: for block [idx2], the block before it is read with [os idx2 0], the
    block itself with [os idx2 1], its j-th dependency with [os idx2 (2 + j)]. *)
Definition unseal_block_os (os : nat -> nat -> nat) (idxs_l idxs_s : list (list nat)) (block_cnt : nat)
           (f : file) (i : nat) : res file :=
  let idx2 := block_cnt - 1 - i in
  let before_block_id := unseal_before_id_os (os idx2 0) f idx2 in
  let* cur_block := read_block_os (os idx2 1) f idx2 in
  let* depend_blocks := unseal_depend_blocks_os (fun j => os idx2 (2 + j)) idxs_l block_cnt f before_block_id idx2 in
  let* cur_block' := unseal_block_rounds H params vde_key iv idxs_s depend_blocks before_block_id idx2 cur_block in
  Ok (write_at f (idx2 * block_pl params) (com_units cur_block')).

(** prover.rs 268-472. *)
Definition unseal_os (os : nat -> nat -> nat) (f : file) : res file :=
  let* block_cnt := nblocks params in
  let* idxs_l := unseal_idxs_l pr params block_cnt in
  let* idxs_s := unseal_idxs_s pr params block_cnt in
  foldM (unseal_block_os os idxs_l idxs_s block_cnt) (seq 0 block_cnt) f.
End Prover.
