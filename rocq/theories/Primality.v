(** Pocklington / Brillhart-Lehmer-Selfridge primality criterion with an
    executable certificate check, and an executable trial-division check. *)
From Verif Require Import Base NumTheory Euler.
From Coq Require Import Znumtheory Zpow_facts.
Local Open Scope Z_scope.

Lemma pow_one_mul d a u k : 1 < d -> 0 <= u -> 0 <= k -> a ^ u mod d = 1 -> a ^ (u * k) mod d = 1.
Proof.
  intros Hd Hu Hk H. rewrite Z.pow_mul_r by assumption. rewrite Zpower_mod by lia. rewrite H.
  rewrite Z.pow_1_l by exact Hk. apply Z.mod_small. lia.
Qed.

Lemma pow_one_mod d a u v : 1 < d -> 0 <= u -> 0 < v -> a ^ u mod d = 1 -> a ^ v mod d = 1 -> a ^ (u mod v) mod d = 1.
Proof.
  intros Hd Hu Hv HU HV. rewrite (Z.div_mod u v) in HU by lia.
  pose proof (Z.mod_pos_bound u v Hv). pose proof (Z.div_pos u v Hu Hv).
  rewrite Z.pow_add_r in HU by nia. rewrite Zmult_mod, pow_one_mul, Z.mul_1_l, Zmod_mod in HU by (assumption || lia).
  exact HU.
Qed.

Lemma pow_one_gcd d a : 1 < d -> forall v u, 0 <= v -> 0 <= u -> a ^ u mod d = 1 -> a ^ v mod d = 1 -> a ^ Z.gcd u v mod d = 1.
Proof.
  intros Hd v. induction v as [v IH] using (well_founded_induction (Z.lt_wf 0)).
  intros u Hv Hu HU HV. destruct (Z.eq_dec v 0) as [->|Nv].
  - rewrite Z.gcd_0_r, Z.abs_eq by lia. exact HU.
  - pose proof (Z.mod_pos_bound u v ltac:(lia)). rewrite Z.gcd_comm, <- Z.gcd_mod, Z.gcd_comm by lia.
    apply IH; try lia; try assumption. apply pow_one_mod; try lia; assumption.
Qed.

Lemma prime_div_exists n : 1 < n -> ~ prime n -> exists d, prime d /\ (d | n) /\ d < n.
Proof.
  induction n as [n IH] using (well_founded_induction (Z.lt_wf 0)). intros Hn Hp.
  apply not_prime_divide in Hp; [|exact Hn]. destruct Hp as (m & Hm & D).
  destruct (prime_dec m) as [P|N]; [exists m; auto with zarith|].
  destruct (IH m) as (d & Pd & Dd & Ld); try lia; auto.
  exists d. split; [exact Pd|split; [|lia]]. eapply Z.divide_trans; eassumption.
Qed.

(** One certificate entry: a prime q, an exponent e with q^e | n-1, a base a. *)
Definition entry_ok (n : Z) (t : Z * Z * Z) : bool :=
  match t with
  | (q, e, a) =>
      (0 <? e) && (1 <? q) && ((n - 1) mod q ^ e =? 0)
      && (Zpow_mod a (n - 1) n =? 1)
      && (Z.gcd (Zpow_mod a ((n - 1) / q) n - 1) n =? 1)
  end.

Definition cert_F (l : list (Z * Z * Z)) : Z := prodZ (map (fun t => match t with (q, e, _) => q ^ e end) l).

Definition is_square (z : Z) : bool := Z.sqrt z * Z.sqrt z =? z.

Definition pock_ok (n : Z) (l : list (Z * Z * Z)) : bool :=
  let F := cert_F l in
  let R := (n - 1) / F in
  (1 <? n) && (n mod 2 =? 1) && forallb (entry_ok n) l && ((n - 1) mod F =? 0)
  && ((n <=? F * F) || ((n <=? F * F * F) && negb (is_square ((R mod F) * (R mod F) - 4 * (R / F))))).

Lemma entry_divides n d q e a : 1 < n -> n mod 2 = 1 -> prime q -> prime d -> (d | n) ->
  entry_ok n (q, e, a) = true -> (q ^ e | d - 1).
Proof.
  intros Hn Hodd Hq Hd Hdn H. unfold entry_ok in H.
  rewrite !andb_true_iff in H. destruct H as ((((He & _) & Hdiv) & Hpow) & Hgcd).
  apply Z.ltb_lt in He. apply Z.eqb_eq in Hdiv, Hpow, Hgcd.
  rewrite Zpow_mod_correct in Hpow, Hgcd by lia.
  pose proof (prime_ge_2 d Hd) as Hd2. pose proof (prime_ge_2 q Hq) as Hq2.
  assert (Hdo : d mod 2 = 1).
  { destruct Hdn as [k ->]. rewrite Zmult_mod in Hodd.
    assert (d mod 2 = 0 \/ d mod 2 = 1) as [Z0|]; [|rewrite Z0, Z.mul_0_r in Hodd; discriminate|assumption].
    pose proof (Z.mod_pos_bound d 2). lia. }
  assert (Hmod : forall x, x mod n = 1 -> x mod d = 1).
  { intros x Hx. destruct Hdn as [k Ek]. rewrite (Z.div_mod x n) by lia. rewrite Hx, Ek.
    replace (k * d * (x / (k * d)) + 1) with (1 + (k * (x / (k*d))) * d) by ring.
    rewrite Z_mod_plus_full. apply Z.mod_small. lia. }
  apply Hmod in Hpow.
  assert (Hqe : 0 < q ^ e) by (apply Z.pow_pos_nonneg; lia).
  assert (Hra : rel_prime a d).
  { apply rel_prime_sym, prime_rel_prime; [exact Hd|]. intros D.
    assert (D' : (d | a ^ (n - 1))).
    { replace (n - 1) with (Z.succ (n - 2)) by lia. rewrite Z.pow_succ_r by lia. now apply Z.divide_mul_l. }
    apply Zdivide_mod in D'. lia. }
  pose proof (fermat d a Hd Hdo Hra) as Hf.
  pose proof (pow_one_gcd d a ltac:(lia) (d-1) (n-1) ltac:(lia) ltac:(lia) Hpow Hf) as Hg.
  set (g := Z.gcd (n-1) (d-1)) in *.
  assert (Hgn : (g | n - 1)) by apply Z.gcd_divide_l. assert (Hgd : (g | d - 1)) by apply Z.gcd_divide_r.
  destruct Hgn as [y Ey]. assert (Hg0 : 0 <= g) by apply Z.gcd_nonneg. clearbody g.
  assert (Hgnz : g <> 0) by (intros Z0; rewrite Z0 in Ey; lia).
  assert (Hgpos : 0 < g) by lia. assert (Hy : 0 < y) by nia.
  assert (Hqn : (q | n - 1)).
  { apply Z.divide_trans with (q ^ e); [|apply Zmod_divide; lia].
    exists (q ^ (e - 1)). rewrite Z.mul_comm, <- Z.pow_succ_r by lia. f_equal. lia. }
  destruct (Zdivide_dec q y) as [[z Ez]|Nqy].
  - exfalso.
    assert (Eq : (n - 1) / q = g * z). { rewrite Ey, Ez. replace (z * q * g) with (g * z * q) by ring. apply Z.div_mul. lia. }
    rewrite Eq in Hgcd.
    assert (P1 : a ^ (g * z) mod d = 1) by (apply pow_one_mul; nia || assumption).
    assert (Dd : (d | Z.gcd (a ^ (g * z) mod n - 1) n)).
    { apply Z.gcd_greatest; [|exact Hdn]. apply Zmod_divide; [lia|].
      rewrite Zminus_mod. replace ((a ^ (g*z) mod n) mod d) with (a ^ (g*z) mod d).
      - rewrite P1, (Z.mod_small 1) by lia. reflexivity.
      - destruct Hdn as [k Ek]. rewrite (Z.div_mod (a ^ (g*z)) n) at 1 by lia. rewrite Ek at 1.
        rewrite Z.add_comm. replace (k * d * (a ^ (g*z) / n)) with ((k * (a ^ (g*z) / n)) * d) by ring.
        rewrite Z_mod_plus_full. reflexivity. }
    rewrite Hgcd in Dd. apply Z.divide_pos_le in Dd; lia.
  - apply Z.divide_trans with g; [|exact Hgd].
    apply Gauss with (b := y).
    + rewrite <- Ey. apply Zmod_divide; [lia|exact Hdiv].
    + apply rel_prime_sym, rel_prime_Zpower_r; [lia|]. apply rel_prime_sym. apply prime_rel_prime; assumption.
Qed.

Lemma cert_F_divides n d l : 1 < n -> n mod 2 = 1 -> prime d -> (d | n) ->
  Forall prime (map (fun t => fst (fst t)) l) -> NoDup (map (fun t => fst (fst t)) l) ->
  forallb (entry_ok n) l = true -> (cert_F l | d - 1).
Proof.
  intros Hn Ho Hd Hdn. induction l as [|[[q e] a] l IH]; intros Hp Hnd Hok.
  - apply Z.divide_1_l.
  - cbn [map fst forallb] in *. apply andb_true_iff in Hok. destruct Hok as [Hok1 Hok2].
    inversion Hp as [|? ? Pq Pl]; subst. inversion Hnd as [|? ? Nq Nl]; subst.
    unfold cert_F. cbn [map]. rewrite prodZ_cons. fold (cert_F l).
    specialize (IH Pl Nl Hok2).
    pose proof (entry_divides n d q e a Hn Ho Pq Hd Hdn Hok1) as D1.
    assert (He : 0 < e) by (unfold entry_ok in Hok1; rewrite !andb_true_iff in Hok1; lia).
    assert (R : rel_prime (q ^ e) (cert_F l)).
    { unfold cert_F. apply prodZ_rel_prime. intros x Hx. apply in_map_iff in Hx. destruct Hx as ([[q' e'] a'] & <- & Hin).
      assert (He' : 0 < e').
      { rewrite forallb_forall in Hok2. specialize (Hok2 _ Hin). unfold entry_ok in Hok2. rewrite !andb_true_iff in Hok2. lia. }
      apply rel_prime_Zpower; try lia. 
      assert (Pq' : prime q') by (rewrite Forall_forall in Pl; apply Pl, in_map_iff; exists (q', e', a'); auto).
      apply prime_rel_prime; [exact Pq|]. intros D. apply prime_div_prime in D; try assumption. subst q'.
      apply Nq, in_map_iff. exists (q, e', a'); auto. }
    destruct IH as [k Ek]. rewrite Ek in *. rewrite Z.mul_comm in D1.
    apply Gauss in D1; [|exact R]. destruct D1 as [m ->]. exists m. ring.
Qed.

Lemma is_square_true z : 0 <= z -> is_square (z * z) = true.
Proof. intros H. unfold is_square. rewrite Z.sqrt_square by exact H. apply Z.eqb_refl. Qed.

Theorem pocklington n l : pock_ok n l = true ->
  Forall prime (map (fun t => fst (fst t)) l) -> NoDup (map (fun t => fst (fst t)) l) -> prime n.
Proof.
  intros H Hp Hnd. unfold pock_ok in H. set (F := cert_F l) in *. set (R := (n-1)/F) in *.
  rewrite !andb_true_iff in H. destruct H as ((((Hn & Ho) & Hok) & HF) & Hsz).
  apply Z.ltb_lt in Hn. apply Z.eqb_eq in Ho, HF.
  destruct (prime_dec n) as [P|NP]; [exact P|exfalso].
  destruct (prime_div_exists n Hn NP) as (d & Pd & [m Em] & Ld).
  pose proof (prime_ge_2 d Pd) as Hd2.
  assert (DF : (F | d - 1)) by (apply (cert_F_divides n d l); auto; exists m; exact Em).
  assert (HF0 : F <> 0). { intros Z0. rewrite Z0 in DF. destruct DF. lia. }
  assert (HFnn : 0 <= F).
  { unfold F, cert_F. clear - Hp. induction l as [|[[q e] a] l IH]; [cbn; lia|].
    cbn [map fst] in *. rewrite prodZ_cons. inversion Hp as [|? ? Pq Pl]; subst. specialize (IH Pl).
    assert (0 <= q ^ e) by (apply Z.pow_nonneg; pose proof (prime_ge_2 q Pq); lia). nia. }
  assert (HFpos : 0 < F) by lia.
  assert (DF' : (F | n - 1)) by (apply Zmod_divide; auto).
  assert (DFm : (F | m - 1)).
  { destruct DF as [u Eu], DF' as [v Ev]. exists (v - u * m).
    rewrite Z.mul_sub_distr_r, <- Ev, Em. replace (u * m * F) with (m * (u * F)) by ring. rewrite <- Eu. ring. }
  destruct DF as [a Ea], DFm as [b Eb]. clearbody F.
  assert (Hm : 1 < m).
  { destruct (Z_lt_le_dec 1 m); [assumption|]. assert (m * d <= 1 * d) by (apply Z.mul_le_mono_nonneg_r; lia). lia. }
  assert (Ha : 1 <= a).
  { destruct (Z_lt_le_dec a 1); [|assumption]. assert (a * F <= 0 * F) by (apply Z.mul_le_mono_nonneg_r; lia). lia. }
  assert (Hb : 1 <= b).
  { destruct (Z_lt_le_dec b 1); [|assumption]. assert (b * F <= 0 * F) by (apply Z.mul_le_mono_nonneg_r; lia). lia. }
  assert (En : n = (1 + a * F) * (1 + b * F)).
  { rewrite <- Ea, <- Eb, Em. ring. }
  assert (ER : R = (a + b) + (a * b) * F).
  { unfold R. replace (n - 1) with ((a + b + a * b * F) * F) by (rewrite En; ring). apply Z.div_mul. lia. }
  assert (HaF : F <= a * F) by (rewrite <- (Z.mul_1_l F) at 1; apply Z.mul_le_mono_nonneg_r; lia).
  assert (HbF : F <= b * F) by (rewrite <- (Z.mul_1_l F) at 1; apply Z.mul_le_mono_nonneg_r; lia).
  assert (Hlow : (1 + F) * (1 + F) <= n) by (rewrite En; apply Z.mul_le_mono_nonneg; lia).
  assert (HFF : 0 < F * F) by (apply Z.mul_pos_pos; lia).
  assert (Hx : n = 1 + (a + b) * F + (a * b) * (F * F)) by (rewrite En; ring).
  apply orb_true_iff in Hsz. destruct Hsz as [Hsz|Hsz]; [apply Z.leb_le in Hsz; lia|].
  apply andb_true_iff in Hsz. destruct Hsz as [Hsz Hns]. apply Z.leb_le in Hsz.
  assert (Hab : a * b < F).
  { apply Z.nle_gt. intros C. assert (F * (F * F) <= (a * b) * (F * F)) by (apply Z.mul_le_mono_nonneg_r; lia).
    assert (0 <= (a + b) * F) by (apply Z.mul_nonneg_nonneg; lia). lia. }
  assert (Hs : a + b < F).
  { assert (0 <= (a - 1) * (b - 1)) by (apply Z.mul_nonneg_nonneg; lia).
    destruct (Z.eq_dec (a + b) F) as [E|]; [|lia].
    assert (E3 : a * b = F - 1) by lia. exfalso. rewrite E, E3 in Hx. lia. }
  assert (E1 : R mod F = a + b) by (rewrite ER, Z_mod_plus_full; apply Z.mod_small; lia).
  assert (E2 : R / F = a * b) by (rewrite ER, Z.div_add by lia; rewrite Z.div_small by lia; lia).
  rewrite E1, E2 in Hns. apply negb_true_iff in Hns.
  replace ((a + b) * (a + b) - 4 * (a * b)) with (Z.abs (a - b) * Z.abs (a - b)) in Hns.
  - rewrite is_square_true in Hns; [discriminate|lia].
  - rewrite <- Z.abs_mul, Z.abs_eq by apply Z.square_nonneg. ring.
Qed.

(** Trial division by 2 and by odd numbers, for small primes. *)
Fixpoint no_odd_divisor (fuel : nat) (d n : Z) : bool :=
  match fuel with
  | O => false
  | S f => if n <? d * d then true
           else if n mod d =? 0 then false else no_odd_divisor f (d + 2) n
  end.
Definition small_prime (fuel : N) (n : Z) : bool :=
  (n =? 2) || ((2 <? n) && (n mod 2 =? 1) && no_odd_divisor (N.to_nat fuel) 3 n).

Lemma no_odd_divisor_ok fuel : forall d n, no_odd_divisor fuel d n = true -> 3 <= d -> d mod 2 = 1 ->
  n mod 2 = 1 -> 2 < n ->
  (forall q, prime q -> (q | n) -> d <= q) -> prime n.
Proof.
  induction fuel as [|f IH]; intros d n H Hd Ho Hno Hn2 Hq; [discriminate|]. cbn [no_odd_divisor] in H.
  destruct (Z.ltb_spec n (d * d)) as [Hlt|Hge].
  - destruct (prime_dec n) as [P|NP]; [exact P|exfalso].
    destruct (prime_div_exists n) as (q & Pq & [m Em] & Lq); [lia|exact NP|].
    pose proof (prime_ge_2 q Pq). assert (1 < m).
    { destruct (Z_lt_le_dec 1 m); [assumption|]. assert (m * q <= 1 * q) by (apply Z.mul_le_mono_nonneg_r; lia). lia. }
    assert (d <= q) by (apply Hq; [exact Pq|exists m; exact Em]).
    assert (exists q', prime q' /\ (q' | m)) as (q' & Pq' & [m' Em']).
    { destruct (prime_dec m) as [P|N]; [exists m; split; [exact P|apply Z.divide_refl]|].
      destruct (prime_div_exists m ltac:(lia) N) as (x & ? & ? & _). exists x; auto. }
    pose proof (prime_ge_2 q' Pq').
    assert (d <= q') by (apply Hq; [exact Pq'|]; exists (m' * q); rewrite Em, Em'; ring).
    assert (q' <= m) by (apply Z.divide_pos_le; [lia|exists m'; exact Em']).
    assert (d * d <= m * q) by (apply Z.mul_le_mono_nonneg; lia). lia.
  - destruct (Z.eqb_spec (n mod d) 0) as [|Nd]; [discriminate|].
    apply (IH (d + 2) n H); try lia.
    + Z.div_mod_to_equations. lia.
    + intros q Pq Dq. specialize (Hq q Pq Dq).
      destruct (Z.eq_dec q d) as [->|N1]; [apply Zdivide_mod in Dq; contradiction|].
      destruct (Z.eq_dec q (d + 1)) as [E|N2]; [|lia].
      exfalso. destruct Dq as [k Ek]. rewrite E in Ek.
      rewrite Ek, Zmult_mod in Hno. replace ((d + 1) mod 2) with 0 in Hno by (Z.div_mod_to_equations; lia).
      rewrite Z.mul_0_r in Hno. discriminate.
Qed.

Lemma small_prime_ok fuel n : small_prime fuel n = true -> prime n.
Proof.
  unfold small_prime. intros H. apply orb_true_iff in H. destruct H as [H|H].
  - apply Z.eqb_eq in H. subst. apply prime_2.
  - rewrite !andb_true_iff in H. destruct H as ((H2 & Ho) & H). apply Z.ltb_lt in H2. apply Z.eqb_eq in Ho.
    apply (no_odd_divisor_ok (N.to_nat fuel) 3 n H); try lia; try reflexivity.
    intros q Pq Dq. pose proof (prime_ge_2 q Pq). destruct (Z.eq_dec q 2) as [->|]; [|lia].
    apply Zdivide_mod in Dq. lia.
Qed.
