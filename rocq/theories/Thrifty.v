(** A prover that keeps less than the space.  No program of /repo does this; it is what a
    dishonest prover may run in place of mark_space and response_1 of
    /repo/proof_of_space/src/proof_of_space/prover.rs 44-201, with the same primitives: the
    slots are cut to the upper n - k bits of x and the mark, and the lower k bits are
    searched for again when a challenge comes. *)
From Verif Require Import Base Field Mimc Convert Space SpaceFacts.
Local Open Scope nat_scope.

Section Thrifty.
Context {K : prime_ops} (pr : profile) (key m : K) (consts : list K) (n k : nat).

(** In place of prover.rs 44-131: 2^n slots of n - k + 1 bits, on a file of zeros. *)
Definition thrifty_mark : res file :=
  foldM (fun f x =>
    let* (y, _) := mark_target pr key m consts n (Z.of_nat x) in
    match usize_to_bits (Z.of_nat (x / 2 ^ k)) (n - k) with
    | Some (Ok b) => mark_slot pr (n - k) f y (b ++ [true])
    | _ => Panic
    end) (seq 0 (2 ^ n)) (zeros ((n - k + 1) * 2 ^ n / 8)).

(** The largest of lo .. lo + c - 1 that the delay function sends to slot y, tried from the
    top, and the number of evaluations. *)
Fixpoint search (y lo c : nat) : res (option nat * nat) :=
  match c with
  | 0 => Ok (None, 0)
  | S c' =>
    let* v := mimc5_df (fadd (of_Z (Z.of_nat (lo + c'))) key) m consts in
    if low_bits n v =? y then Ok (Some (lo + c'), 1)
    else let* (r, w) := search y lo c' in Ok (r, S w)
  end.

(** What is answered to one challenge, with the cut slots and with nothing at all. *)
Definition thrifty_ask (t : file) (y : nat) : res (option nat * nat) :=
  let* bits := read_slot pr t (n - k) (Z.of_nat y) in
  let* flag := index bits (n - k) in
  if flag then let* hi := bits_to_usize pr (firstn (n - k) bits) in search y (Z.to_nat hi * 2 ^ k) (2 ^ k)
  else Ok (None, 0).
Definition bare_ask (y : nat) : res (option nat * nat) := search y 0 (2 ^ n).

(** In place of prover.rs 148-197. *)
Fixpoint respond_by (ask : nat -> res (option nat * nat)) (i : nat) (cs : list nat) (xs : list K) (idxs : list nat) (work : nat) : res (list K * list nat * nat) :=
  match cs with
  | [] => Ok (xs, idxs, work)
  | y :: rest =>
    let* (a, w) := ask y in
    let (xs, idxs) := match a with Some x => (xs ++ [of_Z (Z.of_nat x)], idxs ++ [i]) | None => (xs, idxs) end in
    if length xs =? RESPONSE_COUNT then Ok (xs, idxs, work + w)
    else respond_by ask (S i) rest xs idxs (work + w)
  end.
(** In place of prover.rs 133-201. *)
Definition response_by (ask : nat -> res (option nat * nat)) (hash_constants : list K) (cs : list nat) : res (list K * list nat * K * nat) :=
  let* (xs, idxs, work) := respond_by ask 0 cs [] [] 0 in
  let* h := multi_mimc5_hash xs key hash_constants in
  Ok (xs, idxs, h, work).
End Thrifty.
