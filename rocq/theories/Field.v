(** Field arithmetic as used through the ark-ff traits [Field] and [PrimeField]
    (an external library): a carrier with its operations.  Theorems quantify over every
    structure satisfying [is_ring] or [is_field]; [FrBls] is the concrete scalar field
    of BLS12-381 (see FrFacts.v). *)
From Coq Require Export Ring_theory Field_theory.
From Verif Require Import Base.

Record ops : Type := mkOps {
  car :> Type;
  f0 : car;
  f1 : car;
  fadd : car -> car -> car;
  fmul : car -> car -> car;
  fsub : car -> car -> car;
  fopp : car -> car;
  finv : car -> car
}.
Arguments f0 {o}. Arguments f1 {o}. Arguments fadd {o}. Arguments fmul {o}.
Arguments fsub {o}. Arguments fopp {o}. Arguments finv {o}.

Definition fdiv {K : ops} (a b : K) : K := fmul a (finv b).
Definition is_ring (K : ops) : Prop := ring_theory (R := K) f0 f1 fadd fmul fsub fopp eq.
Definition is_field (K : ops) : Prop := field_theory (R := K) f0 f1 fadd fmul fsub fopp fdiv finv eq.

(** [x.square_in_place()]. *)
Definition fsquare {K : ops} (x : K) : K := fmul x x.
Fixpoint fpow {K : ops} (x : K) (k : nat) : K :=
  match k with O => f1 | S k' => fmul x (fpow x k') end.

(** The additional operations of a prime field used by the code: [Fr::from_str] of the
    decimal representation of a machine integer, and the canonical representative
    obtained by conversion into [BigInteger256]. *)
Record prime_ops : Type := mkPrimeOps {
  base_ops :> ops;
  modulus : Z;
  of_Z : Z -> base_ops;
  repr : base_ops -> Z
}.
Arguments of_Z {p}. Arguments repr {p}.
Record is_prime_field (K : prime_ops) : Prop := {
  pf_field : is_field K;
  pf_modulus : (1 < modulus K < 2 ^ 256)%Z;
  pf_repr : forall x : K, (0 <= repr x < modulus K)%Z;
  pf_of_repr : forall x : K, of_Z (repr x) = x;
  pf_repr_of : forall z : Z, repr (of_Z z : K) = (z mod modulus K)%Z;
  pf_0 : of_Z 0 = f0 :> K;
  pf_1 : of_Z 1 = f1 :> K;
  pf_add : forall a b, of_Z (a + b) = fadd (of_Z a) (of_Z b) :> K;
  pf_mul : forall a b, of_Z (a * b) = fmul (of_Z a) (of_Z b) :> K
}.
