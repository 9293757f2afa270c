(** Model of the quadratic-residue test, proof_of_storage/src/vde/rug_sloth.rs
    lines 13-55 and its num-bigint twin proof_of_storage/src/vde/sloth.rs lines
    12-54 (textually the same algorithm on another big-integer type). *)
From Verif Require Import Base.
Local Open Scope Z_scope.

(** rug_sloth.rs 22-29: [while x % 2 == 0 { x = x / 2; e += 1 }].  Returns the
    final (x, e); None when the fuel runs out. *)
Fixpoint strip2 (fuel : nat) (x e : Z) : option (Z * Z) :=
  match fuel with
  | O => None
  | S fuel' => if Z.rem x 2 =? 0 then strip2 fuel' (Z.quot x 2) (e + 1) else Some (x, e)
  end.

(** rug_sloth.rs 31-45: the sign collected at one recursion level, for the
    stripped x, the exponent e and the modulus p. *)
Definition level_sign (x e p : Z) : Z :=
  let s := if Z.rem e 2 =? 0 then 1
           else if (Z.rem p 8 =? 3) || (Z.rem p 8 =? 5) then -1 else 1 in
  if (Z.rem p 4 =? 3) && (Z.rem x 4 =? 3) then - s else s.

(** rug_sloth.rs 13-55.  The fuel bounds the recursion depth; the inner loop gets
    the bit length of x. *)
Fixpoint legendre_fuel (fuel : nat) (x p : Z) : option Z :=
  match fuel with
  | O => None
  | S fuel' =>
      if x =? 0 then Some 0
      else if x =? 1 then Some 1
      else match strip2 (Z.to_nat (Z.log2 (Z.abs x)) + 2) x 0 with
           | None => None
           | Some (x', e) =>
               let s := level_sign x' e p in
               let p1 := Z.rem p x' in
               if x' =? 1 then Some s
               else match legendre_fuel fuel' p1 x' with
                    | None => None
                    | Some v => Some (s * v)
                    end
           end
  end.

(** Recursion depth that always suffices (theorem C01). *)
Definition legendre_depth (x p : Z) : nat :=
  Z.to_nat (2 * Z.log2 (Z.abs x) + 4).

(** The function; the default 0 for exhausted fuel is unreachable (C01). *)
Definition legendre (x p : Z) : Z :=
  match legendre_fuel (legendre_depth x p) x p with
  | Some v => v
  | None => 0
  end.
