(** The Legendre symbol, defined by squares, and the statement that [legendre]
    computes it. *)
From Verif Require Import Base Legendre NumTheory LegendreFacts Euler.
From Coq Require Import Znumtheory.
Local Open Scope Z_scope.

Definition square_mod (p x : Z) : Prop := exists y, (y * y) mod p = x mod p.
Definition legendre_symbol (x p s : Z) : Prop :=
  ((p | x) /\ s = 0) \/
  (~ (p | x) /\ square_mod p x /\ s = 1) \/
  (~ square_mod p x /\ s = -1).

Lemma legendre_fuel_S n x p : legendre_fuel (S n) x p =
    (if x =? 0 then Some 0 else if x =? 1 then Some 1
     else match strip2 (Z.to_nat (Z.log2 (Z.abs x)) + 2) x 0 with
          | None => None
          | Some (x', e) =>
              if x' =? 1 then Some (level_sign x' e p)
              else match legendre_fuel n (Z.rem p x') x' with None => None | Some v => Some (level_sign x' e p * v) end
          end).
Proof. reflexivity. Qed.
Lemma legendre_fuel_mono n : forall x p v, legendre_fuel n x p = Some v -> legendre_fuel (S n) x p = Some v.
Proof.
  induction n as [|n IH]; intros x p v; [discriminate|]. rewrite (legendre_fuel_S (S n)), legendre_fuel_S.
  destruct (x =? 0); [auto|]. destruct (x =? 1); [auto|].
  destruct (strip2 _ x 0) as [[x' e]|]; [|discriminate]. destruct (x' =? 1); [auto|].
  destruct (legendre_fuel n (Z.rem p x') x') as [w|] eqn:E; [|discriminate]. now rewrite (IH _ _ _ E).
Qed.
Lemma legendre_terminates_all x p : exists bound v, forall fuel, (bound <= fuel)%nat -> legendre_fuel fuel x p = Some v.
Proof.
  destruct (legendre_terminates x p) as (v & E & _). exists (legendre_depth x p), v. intros fuel L.
  induction L as [|fuel L IH]; [exact E|]. now apply legendre_fuel_mono.
Qed.

Lemma square_rel p x y : prime p -> (y * y) mod p = x mod p -> rel_prime x p -> rel_prime y p.
Proof.
  intros P E R. apply rel_prime_sym. apply prime_rel_prime; [exact P|]. intros D.
  pose proof (prime_ge_2 p P).
  assert (p | x).
  { apply Zmod_divide; [lia|]. rewrite <- E. apply Zdivide_mod. now apply Z.divide_mul_l. }
  apply rel_prime_sym in R. destruct R as [_ _ G]. specialize (G p (Z.divide_refl p) H0).
  apply Z.divide_1_r_nonneg in G; lia.
Qed.
Theorem legendre_correct x p : prime p -> p <> 2 -> 0 <= x -> legendre_symbol x p (legendre x p).
Proof.
  intros P N2 X. pose proof (prime_ge_2 p P) as G2.
  assert (O : p mod 2 = 1).
  { pose proof (Z.mod_pos_bound p 2 ltac:(lia)). destruct (Z.eq_dec (p mod 2) 0) as [E|]; [|lia].
    apply Zmod_divide in E; [|lia]. apply prime_div_prime in E; [lia|apply prime_2|exact P]. }
  rewrite legendre_Gs by lia. unfold legendre_symbol.
  destruct (Z.eqb_spec (Z.gcd x p) 1) as [G|G].
  - assert (R : rel_prime x p) by now apply Zgcd_1_rel_prime.
    assert (ND : ~ (p | x)).
    { intros D. destruct R as [_ _ R]. specialize (R p D (Z.divide_refl p)). apply Z.divide_1_r_nonneg in R; lia. }
    destruct (Gs_pm p x) as [E|E].
    + right. left. split; [exact ND|]. split; [|exact E].
      destruct (Gs_1_square p x P O R E) as (y & _ & Y). exists y. exact Y.
    + right. right. split; [|exact E]. intros (y & Y). pose proof (square_rel p x y P Y R) as RY.
      pose proof (Gs_sq p y O ltac:(lia) RY) as S1.
      assert (Gs p (y * y) = Gs p x); [|lia]. apply Gs_mod; lia.
  - left. split; [|reflexivity]. destruct (Zdivide_dec p x) as [D|D]; [exact D|]. exfalso. apply G.
    apply Zgcd_1_rel_prime. apply rel_prime_sym. now apply prime_rel_prime.
Qed.
