(** The storage code with 64-bit offsets.  Prover.v, Verifier.v and Merkle.v compute file
    offsets with natural numbers.  Here the same functions compute them as the code does,
    with [usize] products and sums that panic or wrap, with buffers of at most
    isize::MAX = 2^63 - 1 bytes and with a file system that refuses to seek to offsets
    from [lim] on (lseek takes an i64, so [lim] is at most 2^63).  Everything else is as in
    those files.  Not modelled: running out of memory, a write that fails. *)
From Verif Require Import Base Sloth Common Depend Prover Verifier Merkle.
Local Open Scope nat_scope.

(** [a * b] and [a + b] on usize. *)
Definition umul (pr : profile) (a b : nat) : res nat :=
  let* z := usz pr (Z.of_nat a * Z.of_nat b) in Ok (Z.to_nat z).
Definition uadd (pr : profile) (a b : nat) : res nat :=
  let* z := usz pr (Z.of_nat a + Z.of_nat b) in Ok (Z.to_nat z).

Definition two63 : Z := 9223372036854775808%Z.

Section Machine.
Variable lim : Z.
Variable pr : profile.

(** [file.seek(SeekFrom::Start(pos)).unwrap()]. *)
Definition seek (pos : nat) : res unit := if (Z.of_nat pos <? lim)%Z then Ok tt else Panic.

(** common.rs 78-84: [vec![0; len]] panics for more than isize::MAX bytes. *)
Definition read_file_m (f : file) (begin_idx len : nat) : res (list byte) :=
  if (Z.of_nat len <? two63)%Z then
    let* _ := seek begin_idx in Ok (read_file f begin_idx len)
  else Panic.

(** prover.rs 27-48. *)
Definition copy_and_pad_m (origin : file) (data_l unit_l : nat) : res file :=
  if unit_l =? 0 then Panic else
  let block_cnt := data_l / unit_l in
  foldM (fun new cnt =>
           let* off := umul pr cnt unit_l in
           let* buf := read_file_m origin off unit_l in
           Ok (new ++ (buf ++ [x00]))) (seq 0 block_cnt) [].

(** prover.rs 247-266. *)
Definition copy_and_compress_m (origin : file) (data_l unit_l unit_pl : nat) : res file :=
  if unit_l =? 0 then Panic else
  let block_cnt := data_l / unit_l in
  foldM (fun new cnt =>
           let* off := umul pr cnt unit_pl in
           let* buf := read_file_m origin off unit_pl in
           let* b := slice buf 0 unit_l in
           Ok (new ++ b)) (seq 0 block_cnt) [].

(** verifier.rs 474-504. *)
Definition batch_verify_m (origin : file) (idx2 : nat) (unseal_block : list (list byte)) (block_l unit_l : nat) : res unit :=
  let* off := umul pr idx2 block_l in
  let* origin_block := read_file_m origin off block_l in
  let* origin_block := to_units origin_block unit_l in
  verify_block_units origin_block unseal_block unit_l.

(** verifier.rs 125-133: [i * block_pl + idx_begin < idx_end], then
    [i + idx_begin / block_pl].  None = out of fuel. *)
Fixpoint blocks_idx_loop_m (fuel i idx_begin idx_end block_pl : nat) (acc : list nat) : option (res (list nat)) :=
  match fuel with
  | O => None
  | S fuel' =>
      match (let* t := umul pr i block_pl in uadd pr t idx_begin) with
      | Panic => Some Panic
      | Ok pos =>
          if pos <? idx_end then
            if block_pl =? 0 then Some Panic
            else match uadd pr i (idx_begin / block_pl), uadd pr i 1 with
                 | Ok k, Ok i' => blocks_idx_loop_m fuel' i' idx_begin idx_end block_pl (acc ++ [k])
                 | _, _ => Some Panic
                 end
          else Some (Ok acc)
      end
  end.

(** merkle_tree.rs 9-24. *)
Definition generate_merkle_tree_from_file_m (H : list byte -> list byte) (f : file) (data_len leaf_len : nat) :=
  let* starts := step_by data_len leaf_len in
  let* leaf_values := mapM (fun i => let* off := uadd pr i leaf_len in read_file_m f off leaf_len) starts in
  let leaves := map H leaf_values in
  let t := from_leaves H leaves in
  match tree_root t with
  | Some r => Ok (leaves, t, r)
  | None => Panic
  end.

Section Params.
Variable H : list byte -> list byte.
Variable params : PosPara.

(** A padded block at [idx * block_pl], cut into units (prover.rs 91-95, 138-142,
    151-155; verifier.rs 55-59, 101-103, 107-109). *)
Definition read_block_m (f : file) (idx : nat) : res (list (list byte)) :=
  let* off := umul pr idx (block_pl params) in
  let* buf := read_file_m f off (block_pl params) in
  to_units buf (unit_pl params).

(** prover.rs 307-320, verifier.rs 72-80. *)
Definition before_id_m (f : file) (idx2 : nat) : res (list byte) :=
  if negb (idx2 =? 0) then
    let* off := umul pr (idx2 - 1) (block_pl params) in
    let* buf := read_file_m f off (block_pl params) in
    Ok (H buf)
  else Ok [].

(** verifier.rs 82-113. *)
Definition prepare_depend_blocks_m (idxs_l : list (list nat)) (block_cnt : nat) (f : file)
           (before_block_id : list byte) (idx2 : nat) : res (list (list (list byte))) :=
  if mode_l params =? 0 then
    let* cur_idxs_l :=
      if idx2 =? 0 then Ok []
      else if cnt_l params =? 0 then long_mode_random H block_cnt before_block_id idx2 (idx2 / 10 + 1)
      else long_mode_random H block_cnt before_block_id idx2 (cnt_l params) in
    mapM (read_block_m f) cur_idxs_l
  else
    let* row := index idxs_l idx2 in
    mapM (read_block_m f) row.

(** verifier.rs 47-116. *)
Definition single_unseal_prepare_m (f : file) (block_idx : nat)
  : res (list (list byte) * list byte * list (list (list byte))) :=
  let* block := read_block_m f block_idx in
  let* block_cnt := nblocks params in
  let* idxs_l := verifier_idxs_l pr params block_cnt in
  let* before_block_id := before_id_m f block_idx in
  let* depend_blocks := prepare_depend_blocks_m idxs_l block_cnt f before_block_id block_idx in
  Ok (block, before_block_id, depend_blocks).

Variable vde_key : Z.
Variable iv : list byte.

(** prover.rs 103-162. *)
Definition seal_depend_blocks_m (idxs_l : list (list nat)) (block_cnt : nat) (f : file)
           (blocks_id : list (list byte)) (idx2 : nat) : res (list (list (list byte))) :=
  if mode_l params =? 0 then
    let* cur_idxs_l :=
      if idx2 =? 0 then Ok []
      else if cnt_l params =? 0 then
        let* d := index blocks_id (idx2 - 1) in
        long_mode_random H block_cnt d idx2 (idx2 / 10 + 1)
      else
        let* d := index blocks_id (idx2 - 1) in
        long_mode_random H block_cnt d idx2 (cnt_l params) in
    mapM (read_block_m f) cur_idxs_l
  else
    let* row := index idxs_l idx2 in
    mapM (read_block_m f) row.

(** prover.rs 88-242. *)
Definition seal_block_m (idxs_l idxs_s : list (list nat)) (block_cnt : nat)
           (st : seal_state) (idx2 : nat) : res seal_state :=
  let* cur_block := read_block_m (s_file st) idx2 in
  let* depend_blocks := seal_depend_blocks_m idxs_l block_cnt (s_file st) (s_ids st) idx2 in
  let* (cur_block', log') :=
    seal_block_rounds H params vde_key iv idxs_s depend_blocks (s_ids st) idx2 (cur_block, s_log st) in
  let bytes := com_units cur_block' in
  let* ids' := set_index (s_ids st) idx2 (H bytes) in
  let* off := umul pr idx2 (block_pl params) in
  let* _ := seek off in
  Ok (mkSeal (write_at (s_file st) off bytes) ids' log').

(** prover.rs 50-245, stopped after [upto] blocks. *)
Definition seal_upto_m (upto : nat) (f : file) : res seal_state :=
  let* block_cnt := nblocks params in
  let blocks_id := repeat [] block_cnt in
  let* idxs_l := seal_idxs_l pr params block_cnt in
  let* idxs_s := seal_idxs_s pr params block_cnt in
  foldM (seal_block_m idxs_l idxs_s block_cnt) (firstn upto (seq 0 block_cnt)) (mkSeal f blocks_id []).

(** prover.rs 50-245. *)
Definition seal_m (f : file) : res seal_state :=
  let* block_cnt := nblocks params in
  let blocks_id := repeat [] block_cnt in
  let* idxs_l := seal_idxs_l pr params block_cnt in
  let* idxs_s := seal_idxs_s pr params block_cnt in
  foldM (seal_block_m idxs_l idxs_s block_cnt) (seq 0 block_cnt) (mkSeal f blocks_id []).

(** prover.rs 335-394. *)
Definition unseal_depend_blocks_m (idxs_l : list (list nat)) (block_cnt : nat) (f : file)
           (before_block_id : list byte) (idx2 : nat) : res (list (list (list byte))) :=
  if mode_l params =? 0 then
    let* cur_idxs_l :=
      if idx2 =? 0 then Ok []
      else if cnt_l params =? 0 then
        long_mode_random H block_cnt before_block_id idx2 (idx2 / 10 + 1)
      else
        long_mode_random H block_cnt before_block_id idx2 (cnt_l params) in
    mapM (fun i => let* k := index cur_idxs_l i in read_block_m f k) (seq 0 (length cur_idxs_l))
  else
    let* row := index idxs_l idx2 in
    mapM (fun i => read_block_m f i) (seq 0 (length row)).

(** prover.rs 304-469. *)
Definition unseal_block_m (idxs_l idxs_s : list (list nat)) (block_cnt : nat) (f : file) (i : nat) : res file :=
  let idx2 := block_cnt - 1 - i in
  let* before_block_id := before_id_m f idx2 in
  let* cur_block := read_block_m f idx2 in
  let* depend_blocks := unseal_depend_blocks_m idxs_l block_cnt f before_block_id idx2 in
  let* cur_block' := unseal_block_rounds H params vde_key iv idxs_s depend_blocks before_block_id idx2 cur_block in
  let* off := umul pr idx2 (block_pl params) in
  let* _ := seek off in
  Ok (write_at f off (com_units cur_block')).

(** prover.rs 268-472. *)
Definition unseal_m (f : file) : res file :=
  let* block_cnt := nblocks params in
  let* idxs_l := unseal_idxs_l pr params block_cnt in
  let* idxs_s := unseal_idxs_s pr params block_cnt in
  foldM (unseal_block_m idxs_l idxs_s block_cnt) (seq 0 block_cnt) f.
End Params.
End Machine.
