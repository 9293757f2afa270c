(** Termination and correctness of the model of [legendre]. *)
From Verif Require Import Base NumTheory Reciprocity Legendre.
From Coq Require Import Znumtheory Zpow_facts.
Local Open Scope Z_scope.

(** ** The halving loop *)
Lemma strip2_some fuel : forall x e, x <> 0 -> Z.log2 (Z.abs x) + 2 <= Z.of_nat fuel ->
  exists x' k, strip2 fuel x e = Some (x', e + k) /\ 0 <= k /\ x = x' * 2 ^ k /\ Z.rem x' 2 <> 0.
Proof.
  induction fuel as [|fuel IH]; intros x e Hx Hf.
  - pose proof (Z.log2_nonneg (Z.abs x)). lia.
  - cbn [strip2]. destruct (Z.eqb_spec (Z.rem x 2) 0) as [Hr|Hr].
    + assert (Ex : x = 2 * Z.quot x 2) by (pose proof (Z.quot_rem' x 2); lia).
      set (y := Z.quot x 2) in *. assert (Hy : y <> 0) by lia.
      destruct (IH y (e + 1) Hy) as (x' & k & E & Hk & Ey & Hx').
      { assert (Z.log2 (Z.abs x) = Z.succ (Z.log2 (Z.abs y))).
        { rewrite <- Z.log2_double by lia. f_equal. lia. } lia. }
      exists x', (k + 1). repeat split; auto; [| lia |].
      * rewrite E. do 2 f_equal. lia.
      * rewrite Z.pow_add_r, Z.pow_1_r by lia. rewrite Ex, Ey. ring.
    + exists x, 0. repeat split; auto; try lia. do 2 f_equal. lia.
Qed.

Lemma strip2_ok x : x <> 0 ->
  exists x' k, strip2 (Z.to_nat (Z.log2 (Z.abs x)) + 2) x 0 = Some (x', k) /\ 0 <= k
     /\ x = x' * 2 ^ k /\ Z.rem x' 2 <> 0.
Proof.
  intros Hx. destruct (strip2_some (Z.to_nat (Z.log2 (Z.abs x)) + 2) x 0 Hx) as (x' & k & E & H).
  - pose proof (Z.log2_nonneg (Z.abs x)). lia.
  - exists x', k. rewrite E. auto.
Qed.

Lemma strip_bound x x' k : x = x' * 2 ^ k -> x <> 0 -> 0 <= k -> x' <> 0 /\ Z.abs x' <= Z.abs x.
Proof.
  intros E Hx Hk. assert (0 < 2 ^ k) by (apply Z.pow_pos_nonneg; lia).
  split; [intros ->; lia|]. rewrite E, Z.abs_mul. rewrite (Z.abs_eq (2^k)) by lia. nia.
Qed.

Lemma rem_bound a b : b <> 0 -> Z.abs (Z.rem a b) < Z.abs b.
Proof. intros H. pose proof (Z.rem_bound_abs a b H). lia. Qed.

Lemma rem_half a b : b <> 0 -> Z.abs b <= Z.abs a -> 2 * Z.abs (Z.rem a b) < Z.abs a.
Proof.
  intros Hb H. pose proof (Z.quot_rem' a b) as E. pose proof (rem_bound a b Hb) as R.
  assert (Hs : Z.abs a = Z.abs b * Z.abs (Z.quot a b) + Z.abs (Z.rem a b)).
  { destruct (Z.eq_dec (Z.rem a b) 0) as [Z0|NZ].
    - rewrite Z0 in *. rewrite E at 1. rewrite Z.add_0_r, Z.abs_mul. change (Z.abs 0) with 0. lia.
    - pose proof (Z.quot_abs a b Hb). pose proof (Z.rem_abs a b Hb).
      rewrite <- H0, <- H1. apply Z.quot_rem'. }
  assert (Z.abs (Z.quot a b) <> 0) by (intros Q; rewrite Q in Hs; lia). nia.
Qed.

(** Two levels halve the first argument. *)
Lemma legendre_terminates_aux n : forall x p, (2 * Z.to_nat (Z.log2 (Z.abs x)) + 4 <= n)%nat ->
  legendre_fuel n x p <> None.
Proof.
  induction n as [n IH] using lt_wf_ind. intros x p Hn.
  destruct n as [|n]; [lia|]. cbn [legendre_fuel].
  destruct (Z.eqb_spec x 0) as [->|Hx0]; [discriminate|].
  destruct (Z.eqb_spec x 1) as [->|Hx1]; [discriminate|].
  destruct (strip2_ok x Hx0) as (x' & k & E & Hk & Ex & Ho). rewrite E.
  destruct (strip_bound x x' k Ex Hx0 Hk) as [Hx'0 Hx'].
  destruct (Z.eqb_spec x' 1) as [_|Hx'1]; [discriminate|].
  set (p1 := Z.rem p x'). pose proof (rem_bound p x' Hx'0) as Hp1. fold p1 in Hp1.
  enough (legendre_fuel n p1 x' <> None) by (destruct (legendre_fuel n p1 x'); [discriminate|congruence]).
  destruct n as [|n]; [lia|]. cbn [legendre_fuel].
  destruct (Z.eqb_spec p1 0) as [_|Hp0]; [discriminate|].
  destruct (Z.eqb_spec p1 1) as [_|Hp1']; [discriminate|].
  destruct (strip2_ok p1 Hp0) as (x'' & k' & E' & Hk' & Ex' & Ho'). rewrite E'.
  destruct (strip_bound p1 x'' k' Ex' Hp0 Hk') as [Hx''0 Hx''].
  destruct (Z.eqb_spec x'' 1) as [_|Hx''1]; [discriminate|].
  set (p2 := Z.rem x' x''). pose proof (rem_half x' x'' Hx''0 ltac:(lia)) as Hp2. fold p2 in Hp2.
  enough (legendre_fuel n p2 x'' <> None) by (destruct (legendre_fuel n p2 x''); [discriminate|congruence]).
  destruct (Z.eq_dec p2 0) as [Z0|NZ].
  - rewrite Z0. destruct n; [lia|]. discriminate.
  - apply IH; [lia|].
    assert (L : Z.succ (Z.log2 (Z.abs p2)) <= Z.log2 (Z.abs x)).
    { rewrite <- Z.log2_double by lia. apply Z.log2_le_mono. lia. }
    pose proof (Z.log2_nonneg (Z.abs p2)). lia.
Qed.

Lemma legendre_terminates x p : exists v, legendre_fuel (legendre_depth x p) x p = Some v /\ legendre x p = v.
Proof.
  pose proof (legendre_terminates_aux (legendre_depth x p) x p) as H.
  unfold legendre. destruct (legendre_fuel (legendre_depth x p) x p) as [v|] eqn:E.
  - exists v; auto.
  - exfalso. apply H; [|reflexivity]. unfold legendre_depth.
    pose proof (Z.log2_nonneg (Z.abs x)). lia.
Qed.

(** More fuel never changes the answer. *)
Lemma legendre_fuel_mono n : forall m x p v, (n <= m)%nat -> legendre_fuel n x p = Some v -> legendre_fuel m x p = Some v.
Proof.
  induction n as [|n IH]; intros m x p v Hm H; [discriminate|].
  destruct m as [|m]; [lia|]. cbn [legendre_fuel] in *.
  destruct (x =? 0); [exact H|]. destruct (x =? 1); [exact H|].
  destruct (strip2 _ x 0) as [[x' e]|]; [|exact H].
  destruct (x' =? 1); [exact H|].
  destruct (legendre_fuel n (Z.rem p x') x') as [w|] eqn:E; [|discriminate].
  rewrite (IH m _ _ w ltac:(lia) E). exact H.
Qed.

(** ** Value: the half-system sign, or 0 when not coprime *)
Lemma rel_prime_gcd a b : rel_prime a b <-> Z.gcd a b = 1.
Proof. symmetry. apply Zgcd_1_rel_prime. Qed.

Lemma rel_prime_pow2 p k : p mod 2 = 1 -> 0 <= k -> rel_prime (2 ^ k) p.
Proof.
  intros Hp Hk. apply rel_prime_sym, rel_prime_Zpower_r; [lia|].
  apply rel_prime_sym, prime_rel_prime; [apply prime_2|].
  intros D. apply Zdivide_mod in D. lia.
Qed.

Lemma Gs_pow2 p k : p mod 2 = 1 -> 0 < p -> 0 <= k ->
  Gs p (2 ^ k) = if Z.rem k 2 =? 0 then 1 else if (Z.rem p 8 =? 3) || (Z.rem p 8 =? 5) then -1 else 1.
Proof.
  intros Hp Hpos Hk. rewrite (Z.rem_mod_nonneg p 8) by lia. rewrite <- Gs_2 by assumption.
  revert k Hk. apply natlike_ind.
  - cbn. apply Gs_1; assumption.
  - intros k Hk IH. rewrite Z.pow_succ_r by exact Hk.
    rewrite Gs_mul; try assumption; [|apply (rel_prime_pow2 p 1 Hp); lia|now apply rel_prime_pow2].
    rewrite IH. rewrite !Z.rem_mod_nonneg by lia.
    assert (Q : Gs p 2 = 1 \/ Gs p 2 = -1) by apply Gs_pm.
    unfold Z.succ.
    destruct (Z.eqb_spec (k mod 2) 0), (Z.eqb_spec ((k+1) mod 2) 0);
      try (Z.div_mod_to_equations; lia); destruct Q as [-> | ->]; reflexivity.
Qed.

Lemma legendre_value n : forall x p v, 0 <= x -> 1 < p -> p mod 2 = 1 ->
  legendre_fuel n x p = Some v -> v = if Z.gcd x p =? 1 then Gs p x else 0.
Proof.
  induction n as [|n IH]; intros x p v Hx Hp Ho H; [discriminate|]. cbn [legendre_fuel] in H.
  destruct (Z.eqb_spec x 0) as [->|Hx0].
  { injection H as <-. rewrite Z.gcd_0_l, Z.abs_eq by lia. destruct (Z.eqb_spec p 1); lia. }
  destruct (Z.eqb_spec x 1) as [->|Hx1].
  { injection H as <-. rewrite Z.gcd_1_l. cbn. symmetry. apply Gs_1; lia. }
  destruct (strip2_ok x Hx0) as (x' & k & E & Hk & Ex & Hox). rewrite E in H.
  assert (P2 : 0 < 2 ^ k) by (apply Z.pow_pos_nonneg; lia).
  assert (Hx'pos : 0 < x') by nia.
  rewrite Z.rem_mod_nonneg in Hox by lia. assert (Hox1 : x' mod 2 = 1) by (Z.div_mod_to_equations; lia).
  assert (G1 : rel_prime (2 ^ k) p) by (apply rel_prime_pow2; assumption).
  assert (Grel : Z.gcd x p = 1 <-> Z.gcd x' p = 1).
  { rewrite <- !rel_prime_gcd. rewrite Ex. split; intros R.
    - apply rel_prime_div with (p := x' * 2 ^ k); [exact R|]. exists (2^k). ring.
    - apply rel_prime_sym, rel_prime_mult; apply rel_prime_sym; assumption. }
  assert (S : rel_prime x' p -> level_sign x' k p * (if x' =? 1 then 1 else Gs x' (p mod x')) = Gs p x).
  { intros R. rewrite Ex, Gs_mul by (assumption || lia). rewrite Gs_pow2 by lia.
    unfold level_sign. rewrite !(Z.rem_mod_nonneg _ 4) by lia.
    destruct (Z.eqb_spec x' 1) as [E1|N1].
    - rewrite E1. change (1 mod 4 =? 3) with false. rewrite andb_false_r, Gs_1 by lia. ring.
    - rewrite (reciprocity p x') by (assumption || lia).
      rewrite (Gs_mod x' (p mod x') p) by (apply Zmod_mod).
      destruct ((p mod 4 =? 3) && (x' mod 4 =? 3)); ring. }
  destruct (Z.eqb_spec x' 1) as [E1|N1].
  - injection H as <-. rewrite E1 in *. destruct (Z.eqb_spec (Z.gcd x p) 1) as [_|N].
    + rewrite <- S; [ring|]. apply rel_prime_1.
    + exfalso. apply N, Grel, Z.gcd_1_l.
  - destruct (legendre_fuel n (Z.rem p x') x') as [w|] eqn:Ew; [|discriminate].
    injection H as <-. rewrite Z.rem_mod_nonneg in Ew by lia.
    pose proof (Z.mod_pos_bound p x' Hx'pos) as B.
    apply IH in Ew; [|lia|lia|exact Hox1]. subst w.
    rewrite Z.gcd_mod, Z.gcd_comm by lia.
    replace (Z.gcd p x') with (Z.gcd x' p) by apply Z.gcd_comm.
    destruct (Z.eqb_spec (Z.gcd x p) 1) as [Y|N], (Z.eqb_spec (Z.gcd x' p) 1) as [Y'|N']; try tauto.
    + apply S. now apply rel_prime_gcd.
    + ring.
Qed.

Lemma legendre_Gs x p : 0 <= x -> 1 < p -> p mod 2 = 1 ->
  legendre x p = if Z.gcd x p =? 1 then Gs p x else 0.
Proof.
  intros Hx Hp Ho. destruct (legendre_terminates x p) as (v & E & ->).
  eapply legendre_value; eassumption.
Qed.
