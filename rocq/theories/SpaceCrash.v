(** Preparing and marking the space (/repo/proof_of_space/src/proof_of_space/prover.rs
    24-131) when the process is killed: every write is one byte, so a kill leaves the
    writes made before it and nothing else.  A kill in the middle of reading or computing
    looks like one at the end of the write before it. *)
From Verif Require Import Base Field Mimc Convert Space.
Local Open Scope nat_scope.

(** prover.rs 24-42 killed: before the file is opened, or after it was truncated and k
    bytes were written.  f is the content before. *)
Inductive prepare_crash (pr : profile) (f : file) (n : nat) : file -> Prop :=
| PC_before : prepare_crash pr f n f
| PC_opened : prepare_crash pr f n []
| PC_writing : forall count total k, pow2 pr n = Ok count -> usz pr ((Z.of_nat n + 1) * count) = Ok total -> k <= Z.to_nat (total / 8) ->
    prepare_crash pr f n (fold_left (fun g i => write_at g i [x00]) (seq 0 k) []).

(** prover.rs 73-116 killed after t of the bits of x were handled, before the write of
    lines 119-125: the state of the file. *)
Definition mark_slot_upto (pr : profile) (n : nat) (f : file) (y : Z) (x_bits : list bool) (t : nat) : res file :=
  let* yn_bit_idx := usz pr ((Z.of_nat n + 1) * y) in
  let idx := Z.to_nat (yn_bit_idx / 8) in
  let left_count := Z.to_nat (yn_bit_idx mod 8) in
  let buf := read_into f idx [x00] in
  let* (f, _, _, _, _) := foldM (mark_bit pr) (firstn t x_bits) (f, idx, buf, bytes_to_bits buf, left_count) in
  Ok f.

Section Crash.
Context {K : prime_ops}.
(** prover.rs 60-126, the iterations for the values below x. *)
Definition mark_upto (pr : profile) (f : file) (key m : K) (df_constants : list K) (n x : nat) : res file :=
  foldM (fun f x =>
    let* (y, x_bits) := mark_target pr key m df_constants n (Z.of_nat x) in
    mark_slot pr n f y x_bits) (seq 0 x) f.
(** prover.rs 44-131 killed: between two values, or inside value x after t of its bits. *)
Inductive mark_crash (pr : profile) (f : file) (key m : K) (df_constants : list K) (n : nat) : file -> Prop :=
| MC_between : forall count x g, pow2 pr n = Ok count -> x <= Z.to_nat count -> mark_upto pr f key m df_constants n x = Ok g ->
    mark_crash pr f key m df_constants n g
| MC_inside : forall count x t f1 y x_bits g, pow2 pr n = Ok count -> x < Z.to_nat count -> mark_upto pr f key m df_constants n x = Ok f1 ->
    mark_target pr key m df_constants n (Z.of_nat x) = Ok (y, x_bits) -> mark_slot_upto pr n f1 y x_bits t = Ok g ->
    mark_crash pr f key m df_constants n g.
End Crash.
