(** Vocabulary for the statements about circuits. *)
From Verif Require Import Base Field R1cs.

Section Spec.
Context {K : ops}.
(** Parameter generation for the circuit c (all values missing) gives the constraints l
    over n public inputs. *)
Definition params (c : M K unit) (n : nat) (l : list (r1c K)) : Prop :=
  exists s, c (new_cs true) = Ok (tt, s) /\ n_inst s = n /\ cons s = l.
(** The public inputs pub are accepted by the constraints l: some choice of the private
    wires satisfies all of them.  (A SNARK shows no more than this about pub.) *)
Definition accepts (l : list (r1c K)) (pub : list K) : Prop :=
  exists a : var -> K, a One = f1 /\ (forall i v, nth_error pub i = Some v -> a (Inst i) = v) /\ sat a l.
(** Proving with the circuit c builds the constraints l, with public inputs pub, and the
    values it computes satisfy them. *)
Definition proves (c : M K unit) (l : list (r1c K)) (pub : list K) : Prop :=
  exists s, c (new_cs false) = Ok (tt, s) /\ inst_val s = pub /\ cons s = l /\ sat (asg s) l.
(** A bit as a field element. *)
Definition bit (b : bool) : K := if b then f1 else f0.
(** k as a field element. *)
Fixpoint fnat (k : nat) : K := match k with O => f0 | S k' => fadd f1 (fnat k') end.
End Spec.

(** The number with the given bits, least significant first. *)
Fixpoint number (bits : list bool) : nat :=
  match bits with [] => 0 | b :: r => (if b : bool then 1 else 0) + 2 * number r end.
(** The same bits as the optional bytes the circuits take. *)
Definition u8s (bits : list bool) : list (option Z) := map (fun b : bool => Some (if b then 1 else 0)%Z) bits.
