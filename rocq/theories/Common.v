(** Model of proof_of_storage/src/proof_of_storage/common.rs. *)
From Verif Require Import Base Sloth.
From Coq Require Import Strings.String.
From Coq Require Import List.
Local Open Scope nat_scope.

(** common.rs 78-84.  A regular file returns everything that is available in one
    [read]; short reads for other reasons are the subject of ShortRead.v.  The file itself is
    unchanged (only its cursor moves). *)
Definition read_file (f : file) (begin_idx len : nat) : list byte :=
  let avail := firstn len (skipn begin_idx f) in
  avail ++ zeros (len - length avail).

(** common.rs 86-93. *)
Definition to_units (data : list byte) (len : nat) : res (list (list byte)) :=
  let* starts := step_by (length data) len in
  mapM (fun i => slice data i (i + len)) starts.

(** common.rs 95-102. *)
Definition com_units (data : list (list byte)) : list byte :=
  fold_left (fun acc u => acc ++ u) data [].

(** common.rs 104-127: the two branches are kept separate as in the code; [zipx]
    is the indexed loop over the shorter length. *)
Definition bxor (a b : byte) : byte := z2b (Z.lxor (b2z a) (b2z b)).
Fixpoint zipx (l r : list byte) : list byte :=
  match l, r with
  | a :: l', b :: r' => bxor a b :: zipx l' r'
  | _, _ => []
  end.
Definition vecu8_xor (left right : list byte) : list byte :=
  if length right <? length left
  then zipx left right ++ skipn (length right) left
  else zipx left right ++ skipn (length left) right.

(** [res.append(&mut vec![0u8; n - res.len()])] (common.rs 134, 143): the
    subtraction overflows when the digits are longer than n; a debug build panics
    on the subtraction, a release build on the impossible allocation. *)
Definition pad_exact (n : nat) (bs : list byte) : res (list byte) :=
  if length bs <=? n then Ok (bs ++ zeros (n - length bs)) else Panic.

(** common.rs 129-136.  [%] by 0 panics. *)
Definition modadd (left right : list byte) (p : Z) : res (list byte) :=
  if (p =? 0)%Z then Panic else
  let res_int := Z.rem (le2z left + le2z right) p in
  pad_exact (length left) (z2le res_int).

(** common.rs 138-145. *)
Definition modsub (left right : list byte) (p : Z) : res (list byte) :=
  if (p =? 0)%Z then Panic else
  let res_int := Z.rem (le2z left + p - le2z right) p in
  pad_exact (length left) (z2le res_int).

(** postorage.rs 27-55. *)
Record PosPara := mkPosPara {
  data_l : nat;
  unit_l : nat;
  block_l : nat;
  big_block_l : nat;
  unit_pl : nat;
  block_pl : nat;
  big_block_pl : nat;
  seal_rounds : nat;
  vde_rounds : nat;
  vde_mode : string;
  mode_l : nat;
  cnt_l : nat;
  mode_s : nat;
  cnt_s : nat;
  leaves_to_prove_count : nat
}.

(** common.rs 147-251.  The products are kept as written. *)
Definition gen_posdata (l : nat) : PosPara :=
  if l =? 1 then
    mkPosPara (63 * 16 * 1024 * 1) 63 (63 * 64) (63 * 128 * 128)
              64 (64 * 64) (64 * 128 * 128) 2 10 "sloth" 0 0 0 10 3
  else if l =? 4 then
    mkPosPara (63 * 16 * 1024 * 4) 63 (63 * 256) (63 * 128 * 128)
              64 (64 * 256) (64 * 128 * 128) 2 10 "sloth" 0 0 0 10 3
  else if l =? 16 then
    mkPosPara (63 * 16 * 1024 * 16) 63 (63 * 1024) (63 * 128 * 128)
              64 (64 * 1024) (64 * 128 * 128) 2 10 "sloth" 0 0 0 10 3
  else
    mkPosPara (63 * 16 * 1024 * 64) 63 (63 * 4 * 1024) (63 * 128 * 128)
              64 (64 * 4 * 1024) (64 * 128 * 128) 2 10 "sloth" 0 0 0 10 3.
