(** Model of /repo/proof_of_space/src/proof_of_space/convert.rs. *)
From Verif Require Import Base.
Local Open Scope Z_scope.

(** Checked u8 arithmetic: overflow panics in a debug build and wraps in a release build. *)
Definition u8 (pr : profile) (z : Z) : res Z :=
  if (0 <=? z) && (z <? 256) then Ok z
  else match pr with Debug => Panic | Release => Ok (z mod 256) end.

(** convert.rs 6-16: eight times, the parity of xi, then xi /= 2. *)
Fixpoint byte_bits_loop (k : nat) (xi : Z) : list bool :=
  match k with
  | O => []
  | S k' => (xi mod 2 =? 1) :: byte_bits_loop k' (xi / 2)
  end.
Definition byte_bits (b : byte) : list bool := byte_bits_loop 8 (b2z b).
(** convert.rs 1-20. *)
Definition bytes_to_bits (x : list byte) : list bool := flat_map byte_bits x.

(** convert.rs 29-48, one iteration; the state is (res, j, tmp, base), u8 for tmp and base. *)
Definition bits_to_bytes_step (pr : profile) (s : list byte * nat * Z * Z) (xi : bool) : res (list byte * nat * Z * Z) :=
  let '(out, j, tmp, base) := s in
  let* t := u8 pr (base * (if xi then 1 else 0)) in
  let* tmp := u8 pr (tmp + t) in
  let j := S j in
  if (j =? 8)%nat then Ok (out ++ [z2b tmp], 0%nat, 0, 1)
  else let* base := u8 pr (base * 2) in Ok (out, j, tmp, base).
(** convert.rs 22-54. *)
Definition bits_to_bytes (pr : profile) (x : list bool) : res (list byte) :=
  let* (out, j, tmp, _) := foldM (bits_to_bytes_step pr) x ([], 0%nat, 0, 1) in
  if (j =? 0)%nat then Ok out else Ok (out ++ [z2b tmp]).

(** convert.rs 60-70, one iteration; the state is (res, base). *)
Definition bits_to_usize_step (pr : profile) (s : Z * Z) (xi : bool) : res (Z * Z) :=
  let '(r, base) := s in
  let* t := usz pr (base * (if xi then 1 else 0)) in
  let* r := usz pr (r + t) in
  let* base := usz pr (base * 2) in
  Ok (r, base).
(** convert.rs 56-72. *)
Definition bits_to_usize (pr : profile) (x : list bool) : res Z :=
  let* (r, _) := foldM (bits_to_usize_step pr) x (0, 1) in Ok r.

(** convert.rs 79-89.  The loop ends after at most max(1, n) iterations; the fuel is
    n + 1 and C49 shows that it is never used up. *)
Fixpoint usize_to_bits_loop (fuel : nat) (x : Z) (r : list bool) (i n : nat) : option (res (list bool)) :=
  match fuel with
  | O => None
  | S fuel' =>
    if x <=? 0 then Some (Ok r)
    else match (if x mod 2 =? 1 then set_index r i true else Ok r) with
         | Panic => Some Panic
         | Ok r => let i := S i in
                   if (n <=? i)%nat then Some (Ok r) else usize_to_bits_loop fuel' (x / 2) r i n
         end
  end.
(** convert.rs 74-91. *)
Definition usize_to_bits (x : Z) (n : nat) : option (res (list bool)) :=
  usize_to_bits_loop (S n) x (repeat false n) 0 n.
