(** The sloth round is a permutation of [1, p-1]; behaviour at 0. *)
From Verif Require Import Base NumTheory Reciprocity Legendre LegendreFacts Euler Sloth.
From Coq Require Import Znumtheory Zpow_facts.
Local Open Scope Z_scope.

Ltac Zify.zify_post_hook ::= Z.div_mod_to_equations.

Section Prime34.
Variable p : Z.
Hypothesis Hp : prime p.
Hypothesis H34 : p mod 4 = 3.

Lemma p_odd : p mod 2 = 1. Proof. lia. Qed.
Lemma p_ge3 : 3 <= p. Proof. apply prime_odd_ge3; [exact Hp|apply p_odd]. Qed.
Let h := (p - 1) / 2.
Lemma h_eq : p = 2 * h + 1. Proof. unfold h. lia. Qed.
Lemma quot4 : Z.quot (p + 1) 4 = (p + 1) / 4.
Proof. pose proof p_ge3. apply Z.quot_div_nonneg; lia. Qed.

Lemma unit_rel x : 1 <= x <= p - 1 -> rel_prime x p.
Proof. intros H. apply rel_prime_le_prime; [exact Hp|lia]. Qed.

Lemma rel_prime_m1 : rel_prime (-1) p.
Proof. apply Zgcd_1_rel_prime. change (-1) with (- (1)). rewrite Z.gcd_opp_l. apply Z.gcd_1_l. Qed.

Lemma Gs_m1 : Gs p (-1) = -1.
Proof.
  pose proof p_ge3. pose proof p_odd as Ho.
  assert (R : rel_prime (-1) p).
  { apply rel_prime_m1. }
  pose proof (gauss_lemma p Ho ltac:(lia) (-1) Hp R) as G. fold h in G.
  assert (Eh : exists m, h = 2 * m + 1 /\ 0 <= m) by (exists (h/2); unfold h; lia).
  destruct Eh as (m & Em & Hm). rewrite Em, Z.pow_add_r, Z.pow_mul_r in G by lia.
  change ((-1)^2) with 1 in G. change ((-1)^1) with (-1) in G.
  rewrite Z.pow_1_l, Z.mul_1_l in G by exact Hm.
  destruct (Gs_pm p (-1)) as [E|E]; [|exact E]. exfalso. rewrite E in G.
  rewrite (Z.mod_small 1 p) in G by lia. 
  assert (E1 : -1 mod p = p - 1) by (symmetry; apply Z.mod_unique with (q := -1); lia). lia.
Qed.

Lemma Gs_neg x : rel_prime x p -> Gs p (p - x) = - Gs p x.
Proof.
  pose proof p_ge3. pose proof p_odd as Ho. intros R.
  rewrite (Gs_mod p (p - x) (-1 * x)).
  - rewrite Gs_mul; [rewrite Gs_m1; ring|exact Ho|lia| |exact R].
    apply rel_prime_m1.
  - replace (p - x) with (-1 * x + 1 * p) by ring. apply Z_mod_plus_full.
Qed.

(** The square root of a residue. *)
Definition root (x : Z) : Z := (x ^ ((p + 1) / 4)) mod p.

Lemma root_sq x : 1 <= x <= p - 1 -> Gs p x = 1 -> (root x * root x) mod p = x.
Proof.
  intros Hx HG. pose proof p_ge3 as H3. pose proof p_odd as Ho.
  unfold root. rewrite <- Zmult_mod.
  set (e := (p+1)/4). assert (He : 0 <= e) by (unfold e; lia).
  rewrite <- Z.pow_add_r by exact He. replace (e + e) with (h + 1) by (unfold e, h; lia).
  rewrite Z.pow_add_r, Z.pow_1_r by (unfold h; lia).
  rewrite Zmult_mod. unfold h. rewrite (gauss_lemma p Ho ltac:(lia) x Hp (unit_rel x Hx)), HG.
  rewrite <- Zmult_mod, Z.mul_1_l. apply Z.mod_small. lia.
Qed.

Lemma root_range x : 1 <= x <= p - 1 -> 1 <= root x <= p - 1.
Proof.
  intros Hx. pose proof p_ge3 as H3. unfold root.
  pose proof (Z.mod_pos_bound (x ^ ((p+1)/4)) p ltac:(lia)) as B.
  enough ((x ^ ((p+1)/4)) mod p <> 0) by lia.
  intros E. apply Zmod_divide in E; [|lia].
  pose proof (rel_prime_Zpower_r ((p+1)/4) p x ltac:(lia) (rel_prime_sym _ _ (unit_rel x Hx))) as R.
  destruct R as [_ _ R]. specialize (R p (Z.divide_refl p) E). apply Z.divide_pos_le in R; lia.
Qed.

Lemma sq_neg y : ((p - y) * (p - y)) mod p = (y * y) mod p.
Proof. replace ((p-y)*(p-y)) with (y * y + (p - 2*y) * p) by ring. apply Z_mod_plus_full. Qed.

Lemma sq_inj y z : 1 <= y <= p - 1 -> 1 <= z <= p - 1 -> (y * y) mod p = (z * z) mod p -> y = z \/ y = p - z.
Proof.
  intros Hy Hz E.
  assert (D : (p | (y - z) * (y + z))).
  { replace ((y-z)*(y+z)) with (y*y - z*z) by ring. apply Zmod_divide; [lia|].
    rewrite Zminus_mod, E, Z.sub_diag. apply Zmod_0_l. }
  apply prime_mult in D; [|exact Hp]. destruct D as [[k Ek]|[k Ek]].
  - left. assert (k = 0) by nia. lia.
  - right. assert (k = 1) by nia. lia.
Qed.

(** Characterisation of the forward round in terms of the even/odd root. *)
Lemma single_sloth_spec x : 1 <= x <= p - 1 ->
  exists y, 1 <= y <= p - 1 /\
   ((y mod 2 = 0 /\ (y * y) mod p = x /\ single_sloth x p = y - 1) \/
    (y mod 2 = 1 /\ (y * y) mod p = p - x /\ single_sloth x p = y + 1)).
Proof.
  intros Hx. pose proof p_ge3 as H3. pose proof p_odd as Ho. unfold single_sloth.
  rewrite legendre_Gs by lia.
  assert (Hg : Z.gcd x p = 1) by (apply rel_prime_gcd, unit_rel; exact Hx).
  rewrite Hg. change (1 =? 1) with true. cbv iota.
  rewrite quot4, !Zpow_mod_correct by lia.
  destruct (Gs_pm p x) as [HG|HG]; rewrite HG.
  - change (1 =? 1) with true. cbv iota. fold (root x).
    pose proof (root_range x Hx) as Hr. pose proof (root_sq x Hx HG) as Hs. set (r := root x) in *.
    clearbody r. rewrite (Z.rem_mod_nonneg r 2) by lia. rewrite (Z.rem_mod_nonneg (p - r)), (Z.mod_small (p - r)) by lia.
    destruct (Z.eqb_spec (r mod 2) 1) as [O|O].
    + exists (p - r). split; [lia|]. left. split; [lia|]. rewrite sq_neg. split; [exact Hs|].
      rewrite (Z.rem_mod_nonneg (p - r) 2) by lia. destruct (Z.eqb_spec ((p - r) mod 2) 1); [lia|].
      rewrite Z.rem_mod_nonneg, Z.mod_small by lia. reflexivity.
    + exists r. split; [lia|]. left. split; [lia|]. split; [exact Hs|].
      try rewrite (Z.rem_mod_nonneg r 2) by lia. destruct (Z.eqb_spec (r mod 2) 1); [lia|].
      rewrite Z.rem_mod_nonneg, Z.mod_small by lia. reflexivity.
  - change (-1 =? 1) with false. cbv iota.
    rewrite (Z.rem_mod_nonneg (p - x)), (Z.mod_small (p - x)) by lia. fold (root (p - x)).
    assert (Hx' : 1 <= p - x <= p - 1) by lia.
    assert (HG' : Gs p (p - x) = 1) by (rewrite Gs_neg, HG; [reflexivity|apply unit_rel; exact Hx]).
    pose proof (root_range _ Hx') as Hr. pose proof (root_sq _ Hx' HG') as Hs. set (r := root (p - x)) in *.
    clearbody r. rewrite (Z.rem_mod_nonneg r 2) by lia. rewrite (Z.rem_mod_nonneg (p - r)), (Z.mod_small (p - r)) by lia.
    destruct (Z.eqb_spec (r mod 2) 0) as [O|O].
    + exists (p - r). split; [lia|]. right. split; [lia|]. rewrite sq_neg. split; [exact Hs|].
      rewrite (Z.rem_mod_nonneg (p - r) 2) by lia. destruct (Z.eqb_spec ((p - r) mod 2) 1); [|lia].
      rewrite Z.rem_mod_nonneg, Z.mod_small by lia. reflexivity.
    + exists r. split; [lia|]. right. split; [lia|]. split; [exact Hs|].
      try rewrite (Z.rem_mod_nonneg r 2) by lia. destruct (Z.eqb_spec (r mod 2) 1); [|lia].
      rewrite Z.rem_mod_nonneg, Z.mod_small by lia. reflexivity.
Qed.

Lemma single_sloth_range x : 1 <= x <= p - 1 -> 1 <= single_sloth x p <= p - 1.
Proof.
  intros Hx. pose proof p_odd. destruct (single_sloth_spec x Hx) as (y & Hy & [(E & _ & ->)|(E & _ & ->)]); lia.
Qed.

Lemma sq_mod_pos y : 1 <= y <= p - 1 -> 1 <= (y * y) mod p <= p - 1.
Proof.
  intros Hy. pose proof (Z.mod_pos_bound (y*y) p ltac:(lia)).
  enough ((y * y) mod p <> 0) by lia. intros E. apply Zmod_divide in E; [|lia].
  apply prime_mult in E; [|exact Hp]. destruct E as [E|E]; apply Z.divide_pos_le in E; lia.
Qed.

(** Characterisation of the inverse round. *)
Lemma single_sloth_inv_even y : 1 <= y <= p - 1 -> y mod 2 = 0 -> single_sloth_inv (y - 1) p = (y * y) mod p.
Proof.
  intros Hy E. pose proof p_ge3. unfold single_sloth_inv.
  rewrite (Z.rem_mod_nonneg (y - 1) 2) by lia. destruct (Z.eqb_spec ((y-1) mod 2) 1); [|lia].
  replace (y - 1 + 1) with y by ring. rewrite (Z.rem_mod_nonneg y p), (Z.mod_small y p) by lia.
  rewrite (Z.rem_mod_nonneg y 2) by lia. destruct (Z.eqb_spec (y mod 2) 1); [lia|].
  rewrite Zpow_mod_correct by lia. f_equal. ring.
Qed.

Lemma single_sloth_inv_odd y : 1 <= y <= p - 1 -> y mod 2 = 1 -> single_sloth_inv (y + 1) p = p - (y * y) mod p.
Proof.
  intros Hy E. pose proof p_ge3. unfold single_sloth_inv.
  rewrite (Z.rem_mod_nonneg (y + 1) 2) by lia. destruct (Z.eqb_spec ((y+1) mod 2) 1); [lia|].
  replace (y + 1 - 1) with y by ring. rewrite (Z.rem_mod_nonneg y p), (Z.mod_small y p) by lia.
  rewrite (Z.rem_mod_nonneg y 2) by lia. destruct (Z.eqb_spec (y mod 2) 1); [|lia].
  rewrite Zpow_mod_correct by lia. replace (y ^ 2) with (y * y) by ring.
  pose proof (Z.mod_pos_bound (y*y) p ltac:(lia)).
  rewrite Z.rem_mod_nonneg, Zmod_mod by lia. reflexivity.
Qed.

Lemma single_round_trip x : 1 <= x <= p - 1 -> single_sloth_inv (single_sloth x p) p = x.
Proof.
  intros Hx. destruct (single_sloth_spec x Hx) as (y & Hy & [(E & S & ->)|(E & S & ->)]).
  - rewrite single_sloth_inv_even by assumption. exact S.
  - rewrite single_sloth_inv_odd by assumption. lia.
Qed.

Lemma single_sloth_inv_range y : 1 <= y <= p - 1 -> 1 <= single_sloth_inv y p <= p - 1.
Proof.
  intros Hy. pose proof p_odd. destruct (Z.eq_dec (y mod 2) 1) as [O|O].
  - replace y with (y + 1 - 1) by ring. rewrite single_sloth_inv_even by lia. apply sq_mod_pos. lia.
  - replace y with (y - 1 + 1) by ring. rewrite single_sloth_inv_odd by lia.
    pose proof (sq_mod_pos (y - 1) ltac:(lia)). lia.
Qed.

Lemma single_round_trip' y : 1 <= y <= p - 1 -> single_sloth (single_sloth_inv y p) p = y.
Proof.
  intros Hy. pose proof p_odd as Ho. pose proof p_ge3 as H3.
  assert (M1 : forall z w, 1 <= z <= p - 1 -> 1 <= w <= p - 1 -> (w * w) mod p = p - (z * z) mod p -> False).
  { intros z w Hz Hw E.
    assert (G1 : Gs p (w * w) = 1) by (apply Gs_sq; [exact Ho|lia|apply unit_rel; exact Hw]).
    assert (G2 : Gs p (z * z) = 1) by (apply Gs_sq; [exact Ho|lia|apply unit_rel; exact Hz]).
    assert (G3 : Gs p (p - (z * z) mod p) = - Gs p ((z*z) mod p)).
    { apply Gs_neg. apply unit_rel. apply sq_mod_pos. exact Hz. }
    rewrite (Gs_mod p ((z*z) mod p) (z*z)) in G3 by apply Zmod_mod.
    rewrite (Gs_mod p (w * w) ((w*w) mod p)) in G1 by (symmetry; apply Zmod_mod).
    rewrite E, G3, G2 in G1. discriminate. }
  destruct (Z.eq_dec (y mod 2) 1) as [O|O].
  - set (z := y + 1). assert (Hz : 1 <= z <= p - 1) by (unfold z; lia).
    replace y with (z - 1) by (unfold z; ring). rewrite single_sloth_inv_even by (assumption || unfold z; lia).
    destruct (single_sloth_spec _ (sq_mod_pos z Hz)) as (w & Hw & [(E & S & ->)|(E & S & ->)]).
    + destruct (sq_inj w z Hw Hz S) as [->| ->]; [reflexivity|]. exfalso. unfold z in *. lia.
    + exfalso. exact (M1 z w Hz Hw S).
  - set (z := y - 1). assert (Hz : 1 <= z <= p - 1) by (unfold z; lia).
    replace y with (z + 1) by (unfold z; ring). rewrite single_sloth_inv_odd by (assumption || unfold z; lia).
    pose proof (sq_mod_pos z Hz) as Hs.
    destruct (single_sloth_spec (p - (z*z) mod p) ltac:(lia)) as (w & Hw & [(E & S & ->)|(E & S & ->)]).
    + exfalso. exact (M1 z w Hz Hw S).
    + replace (p - (p - (z*z) mod p)) with ((z*z) mod p) in S by ring.
      destruct (sq_inj w z Hw Hz S) as [->| ->]; [reflexivity|]. exfalso. unfold z in *. lia.
Qed.

Lemma sloth_range t : forall x, 1 <= x <= p - 1 -> 1 <= sloth x p t <= p - 1.
Proof. induction t as [|t IH]; intros x Hx; [exact Hx|]. cbn [sloth]. apply IH, single_sloth_range, Hx. Qed.
Lemma sloth_inv_range t : forall x, 1 <= x <= p - 1 -> 1 <= sloth_inv x p t <= p - 1.
Proof. induction t as [|t IH]; intros x Hx; [exact Hx|]. cbn [sloth_inv]. apply IH, single_sloth_inv_range, Hx. Qed.

Lemma sloth_snoc q t : forall x, sloth x q (S t) = single_sloth (sloth x q t) q.
Proof. induction t as [|t IH]; intros x; [reflexivity|]. cbn [sloth] in *. now rewrite <- IH. Qed.
Lemma sloth_inv_snoc q t : forall x, sloth_inv x q (S t) = single_sloth_inv (sloth_inv x q t) q.
Proof. induction t as [|t IH]; intros x; [reflexivity|]. cbn [sloth_inv] in *. now rewrite <- IH. Qed.

Lemma sloth_round_trip t : forall x, 1 <= x <= p - 1 -> sloth_inv (sloth x p t) p t = x.
Proof.
  induction t as [|t IH]; intros x Hx; [reflexivity|].
  rewrite sloth_inv_snoc. cbn [sloth]. rewrite IH by (apply single_sloth_range; exact Hx).
  apply single_round_trip; exact Hx.
Qed.
Lemma sloth_round_trip' t : forall y, 1 <= y <= p - 1 -> sloth (sloth_inv y p t) p t = y.
Proof.
  induction t as [|t IH]; intros y Hy; [reflexivity|].
  rewrite sloth_snoc. cbn [sloth_inv]. rewrite IH by (apply single_sloth_inv_range; exact Hy).
  apply single_round_trip'; exact Hy.
Qed.

(** ** The residue 0 *)
Lemma single_sloth_0 : single_sloth 0 p = -1.
Proof.
  pose proof p_ge3. unfold single_sloth.
  change (legendre 0 p) with 0. change (0 =? 1) with false. cbv iota.
  rewrite Z.sub_0_r, Z.rem_same by lia. rewrite quot4, Zpow_mod_correct by lia.
  rewrite Z.pow_0_l by lia. rewrite Zmod_0_l. change (Z.rem 0 2 =? 0) with true. cbv iota.
  rewrite Z.sub_0_r, Z.rem_same by lia. change (Z.rem 0 2 =? 1) with false. cbv iota.
  change (0 - 1) with (Z.opp 1).
  rewrite Z.rem_opp_l by lia. rewrite Z.rem_small by lia. reflexivity.
Qed.

Lemma legendre_m1 : legendre (-1) p = 0.
Proof.
  unfold legendre. change (legendre_depth (-1) p) with 4%nat. cbn [legendre_fuel].
  change (-1 =? 0) with false. change (-1 =? 1) with false. cbv iota.
  change (strip2 (Z.to_nat (Z.log2 (Z.abs (-1))) + 2) (-1) 0) with (Some (-1, 0)). cbv iota.
  change (-1 =? 1) with false. cbv iota.
  replace (Z.rem p (-1)) with 0. 2:{ rewrite Z.rem_opp_r' with (b := 1). now rewrite Z.rem_1_r. }
  change (0 =? 0) with true. cbv iota. now rewrite Z.mul_0_r.
Qed.

Lemma single_sloth_m1 : single_sloth (-1) p = 2.
Proof.
  pose proof p_ge3. pose proof p_odd. unfold single_sloth. rewrite legendre_m1.
  change (0 =? 1) with false. cbv iota. replace (p - -1) with (p + 1) by ring.
  rewrite (Z.rem_mod_nonneg (p + 1)) by lia.
  replace ((p + 1) mod p) with 1 by (apply Z.mod_unique with (q := 1); lia).
  rewrite quot4, Zpow_mod_correct by lia. rewrite Z.pow_1_l, Z.mod_small by lia.
  change (Z.rem 1 2 =? 0) with false. cbv iota. change (Z.rem 1 2 =? 1) with true. cbv iota.
  rewrite Z.rem_mod_nonneg, Z.mod_small by lia. reflexivity.
Qed.

Lemma sloth_inv_2 : 7 <= p -> single_sloth_inv 2 p = p - 1.
Proof.
  intros H7. change 2 with (1 + 1). rewrite single_sloth_inv_odd; [|lia|reflexivity].
  rewrite Z.mod_small by lia. ring.
Qed.
Lemma sloth_inv_pm1 : 7 <= p -> single_sloth_inv (p - 1) p = p - 4.
Proof.
  intros H7. pose proof p_odd. replace (p - 1) with ((p - 2) + 1) by ring.
  rewrite single_sloth_inv_odd; [|lia|lia]. rewrite sq_neg. rewrite Z.mod_small by lia. ring.
Qed.
Lemma sloth_inv_1 : 7 <= p -> single_sloth_inv 1 p = 4.
Proof.
  intros H7. change 1 with (2 - 1). rewrite single_sloth_inv_even; [|lia|reflexivity].
  now rewrite Z.mod_small by lia.
Qed.
Lemma sloth_inv_m1 : 7 <= p -> single_sloth_inv (-1) p = 4.
Proof.
  intros H7. unfold single_sloth_inv. change (Z.rem (-1) 2 =? 1) with false. cbv iota.
  change (-1 - 1) with (Z.opp 2). rewrite Z.rem_opp_l by lia. rewrite (Z.rem_small 2 p) by lia.
  change (Z.rem (- (2)) 2 =? 1) with false. cbv iota. rewrite Zpow_mod_correct by lia.
  change ((- (2)) ^ 2) with 4. apply Z.mod_small. lia.
Qed.

Lemma sloth_zero_1 : sloth 0 p 1 = -1.
Proof. apply single_sloth_0. Qed.
Lemma sloth_zero_ge2 t : sloth 0 p (S (S t)) = sloth 2 p t.
Proof. cbn [sloth]. now rewrite single_sloth_0, single_sloth_m1. Qed.
Lemma sloth_inv_zero_ge2 t : 7 <= p -> sloth_inv (sloth 0 p (S (S t))) p (S (S t)) = p - 4.
Proof.
  intros H7. rewrite sloth_zero_ge2, !sloth_inv_snoc, sloth_round_trip by lia.
  now rewrite sloth_inv_2, sloth_inv_pm1.
Qed.
End Prime34.
