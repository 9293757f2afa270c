(** The scalar field of BLS12-381 (ark_bls12_381::Fr): integers modulo a 255-bit prime.
    The arithmetic is ark-ff's; here it is arithmetic modulo the published modulus. *)
From Coq Require Import Znumtheory Eqdep_dec.
From Verif Require Import Base NumTheory Primality Field.
Local Open Scope Z_scope.

(** The modulus of ark_bls12_381::Fr. *)
Definition r_bls : Z := 52435875175126190479447740508185965837690552500527637822603658699938581184513.

Definition FrT : Type := {z : Z | (z mod r_bls =? z) = true}.
Lemma fr_canon z : ((z mod r_bls) mod r_bls =? z mod r_bls) = true.
Proof. apply Z.eqb_eq. apply Z.mod_mod. discriminate. Qed.
Definition fr (z : Z) : FrT := exist _ (z mod r_bls) (fr_canon z).
Definition fr_val (x : FrT) : Z := proj1_sig x.
(** Inverse by exponentiation with r - 2. *)
Definition fr_inv (x : FrT) : FrT := fr (Zpow_facts.Zpow_mod (fr_val x) (r_bls - 2) r_bls).

Definition FrOps : ops := {|
  car := FrT; f0 := fr 0; f1 := fr 1;
  fadd := fun a b => fr (fr_val a + fr_val b);
  fmul := fun a b => fr (fr_val a * fr_val b);
  fsub := fun a b => fr (fr_val a - fr_val b);
  fopp := fun a => fr (- fr_val a);
  finv := fr_inv |}.
Definition FrBls : prime_ops := {| base_ops := FrOps; modulus := r_bls; of_Z := fr; repr := fr_val |}.
