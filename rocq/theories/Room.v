(** A full disk: the functions of prover.rs and postorage.rs that write, on a disk with
    room for so many more bytes.  The room is counted in bytes of file length (a file
    system counts in blocks and need not store holes); writing over existing bytes needs
    none, and emptying a file gives its length back.  The files are different files.
    Where a write does not fit, write_all has written the bytes that did and returns an
    error, which the callers unwrap. *)
From Verif Require Import Base Common Depend Prover Postorage.
Local Open Scope nat_scope.

(** The file being written and the room left. *)
Definition roomy : Type := file * nat.

(** File::write_all at [pos] (std). *)
Definition write_room (fr : roomy) (pos : nat) (buf : list byte) : roomy * res unit :=
  let (f, free) := fr in
  let limit := length f + free in
  let g := write_at f pos buf in
  if length g <=? limit then ((g, limit - length g), Ok tt)
  else let h := write_at f pos (firstn (limit - pos) buf) in ((h, limit - length h), Panic).
(** OpenOptions with create and truncate: prover.rs 34-40, 253-259. *)
Definition truncate_room (fr : roomy) : roomy := ([], length (fst fr) + snd fr).

(** A loop whose body looks at the file, computes where and what to write, and writes it. *)
Fixpoint loop_room {S : Type} (body : file -> S -> nat -> res (nat * list byte * S)) (l : list nat) (fr : roomy) (s : S) : roomy * res S :=
  match l with
  | [] => (fr, Ok s)
  | a :: l' =>
      match body (fst fr) s a with
      | Panic => (fr, Panic)
      | Ok (pos, buf, s') =>
          match write_room fr pos buf with
          | (fr', Panic) => (fr', Panic)
          | (fr', Ok _) => loop_room body l' fr' s'
          end
      end
  end.

(** prover.rs 27-48; the state of the loop is the cursor of the new file. *)
Definition pad_body (origin : file) (unit_l : nat) (_ : file) (pos cnt : nat) : res (nat * list byte * nat) :=
  let buf := read_file origin (cnt * unit_l) unit_l ++ [x00] in Ok (pos, buf, pos + length buf).
Definition copy_and_pad_room (origin : file) (new : roomy) (data_l unit_l : nat) : roomy * res nat :=
  let new := truncate_room new in
  if unit_l =? 0 then (new, Panic)
  else loop_room (pad_body origin unit_l) (seq 0 (data_l / unit_l)) new 0.

(** prover.rs 247-266. *)
Definition compress_body (origin : file) (unit_l unit_pl : nat) (_ : file) (pos cnt : nat) : res (nat * list byte * nat) :=
  let buf := read_file origin (cnt * unit_pl) unit_pl in
  let* b := slice buf 0 unit_l in Ok (pos, b, pos + length b).
Definition copy_and_compress_room (origin : file) (new : roomy) (data_l unit_l unit_pl : nat) : roomy * res nat :=
  let new := truncate_room new in
  if unit_l =? 0 then (new, Panic)
  else loop_room (compress_body origin unit_l unit_pl) (seq 0 (data_l / unit_l)) new 0.

(** postorage.rs 57-75: opened without truncation and written from the start, piece by
    piece without a buffer. *)
Definition save_data_room (pub : roomy) (vde_key : Z) (iv : list byte) : roomy * res unit :=
  write_room pub 0 (enc_bytes (decimal vde_key) ++ enc_bytes iv).

Section Room.
Variable H : list byte -> list byte.  (* blake3_hash *)
Variable pr : profile.
Variable params : PosPara.

Section Key.
Variable vde_key : Z.
Variable iv : list byte.

(** prover.rs 50-245; the state of the loop are the ids of the blocks and the log. *)
Definition seal_body (idxs_l idxs_s : list (list nat)) (block_cnt : nat) (f : file) (s : list (list byte) * list Z) (idx2 : nat)
  : res (nat * list byte * (list (list byte) * list Z)) :=
  let* cur_block := read_block params f idx2 in
  let* depend_blocks := seal_depend_blocks H params idxs_l block_cnt f (fst s) idx2 in
  let* (cur_block', log') := seal_block_rounds H params vde_key iv idxs_s depend_blocks (fst s) idx2 (cur_block, snd s) in
  let bytes := com_units cur_block' in
  let* ids' := set_index (fst s) idx2 (H bytes) in
  Ok (idx2 * block_pl params, bytes, (ids', log')).
Definition seal_room (fr : roomy) : roomy * res (list (list byte) * list Z) :=
  match (let* block_cnt := nblocks params in
         let* idxs_l := seal_idxs_l pr params block_cnt in
         let* idxs_s := seal_idxs_s pr params block_cnt in
         Ok (block_cnt, idxs_l, idxs_s)) with
  | Panic => (fr, Panic)
  | Ok (block_cnt, idxs_l, idxs_s) => loop_room (seal_body idxs_l idxs_s block_cnt) (seq 0 block_cnt) fr (repeat [] block_cnt, [])
  end.

(** prover.rs 268-472. *)
Definition unseal_body (idxs_l idxs_s : list (list nat)) (block_cnt : nat) (f : file) (s : unit) (i : nat) : res (nat * list byte * unit) :=
  let idx2 := block_cnt - 1 - i in
  let before_block_id := unseal_before_id H params f idx2 in
  let* cur_block := read_block params f idx2 in
  let* depend_blocks := unseal_depend_blocks H params idxs_l block_cnt f before_block_id idx2 in
  let* cur_block' := unseal_block_rounds H params vde_key iv idxs_s depend_blocks before_block_id idx2 cur_block in
  Ok (idx2 * block_pl params, com_units cur_block', s).
Definition unseal_room (fr : roomy) : roomy * res unit :=
  match (let* block_cnt := nblocks params in
         let* idxs_l := unseal_idxs_l pr params block_cnt in
         let* idxs_s := unseal_idxs_s pr params block_cnt in
         Ok (block_cnt, idxs_l, idxs_s)) with
  | Panic => (fr, Panic)
  | Ok (block_cnt, idxs_l, idxs_s) => loop_room (unseal_body idxs_l idxs_s block_cnt) (seq 0 block_cnt) fr tt
  end.
End Key.

(** What the sealed file, the public data and the unsealed file contain, and the room. *)
Definition files_room : Type := file * file * file * nat.

(** postorage.rs 118-155; the two result files are left out. *)
Definition seal_and_unseal_room (rnd : nat -> byte) (origin sealed pub unsealed : file) (should_unseal : bool) (free : nat) : files_room * res unit :=
  match copy_and_pad_room origin (sealed, free) (data_l params) (unit_l params) with
  | ((s, r), Panic) => ((s, pub, unsealed, r), Panic)
  | ((s, r), Ok _) =>
      match prepare_params pr (unit_pl params) rnd with
      | Panic => ((s, pub, unsealed, r), Panic)
      | Ok (vde_key, iv) =>
          match seal_room vde_key iv (s, r) with
          | ((s, r), Panic) => ((s, pub, unsealed, r), Panic)
          | ((s, r), Ok _) =>
              match save_data_room (pub, r) vde_key iv with
              | ((pub, r), Panic) => ((s, pub, unsealed, r), Panic)
              | ((pub, r), Ok _) =>
                  if should_unseal then
                    match unseal_room vde_key iv (s, r) with
                    | ((s, r), Panic) => ((s, pub, unsealed, r), Panic)
                    | ((s, r), Ok _) =>
                        match copy_and_compress_room s (unsealed, r) (data_l params) (unit_l params) (unit_pl params) with
                        | ((u, r), Panic) => ((s, pub, u, r), Panic)
                        | ((u, r), Ok _) => ((s, pub, u, r), Ok tt)
                        end
                    end
                  else ((s, pub, unsealed, r), Ok tt)
              end
          end
      end
  end.
End Room.
