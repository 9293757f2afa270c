(** Quadratic reciprocity for odd coprime numbers, the supplement for 2, and the
    consequences used for the Legendre-symbol algorithm. *)
From Verif Require Import Base NumTheory.
From Coq Require Import Znumtheory Zpow_facts Permutation.
Local Open Scope Z_scope.

Definition sg (z : Z) : Z := if Z.even z then 1 else -1.

Lemma sg_add a b : sg (a + b) = sg a * sg b.
Proof. unfold sg. rewrite Z.even_add. destruct (Z.even a), (Z.even b); reflexivity. Qed.
Lemma sg_sq a : sg a * sg a = 1.
Proof. unfold sg. destruct (Z.even a); reflexivity. Qed.
Lemma sg_even a : Z.even a = true -> sg a = 1.
Proof. unfold sg. now intros ->. Qed.

Lemma even_sum {A} (f : A -> Z) l : (forall x, In x l -> Z.even (f x) = true) -> Z.even (sumZ (map f l)) = true.
Proof.
  induction l as [|a l IH]; intros H; [reflexivity|]. cbn [map]. rewrite sumZ_cons, Z.even_add.
  rewrite (H a), IH; auto with datatypes.
Qed.

Lemma sumZ_swap {A B} (F : A -> B -> Z) l m :
  sumZ (map (fun a => sumZ (map (F a) m)) l) = sumZ (map (fun b => sumZ (map (fun a => F a b) l)) m).
Proof.
  induction l as [|a l IH]; cbn [map].
  - rewrite (map_ext _ (fun _ => 0)) by reflexivity. clear. cbn.
    induction m as [|b m IHm]; [reflexivity|]. cbn [map]. rewrite sumZ_cons. lia.
  - rewrite sumZ_cons, IH. rewrite <- sumZ_map_add. f_equal.
Qed.

Lemma sumZ_ext {A} (f g : A -> Z) l : (forall x, In x l -> f x = g x) -> sumZ (map f l) = sumZ (map g l).
Proof. intros H. f_equal. apply map_ext_in, H. Qed.

Lemma sumZ_const {A} c (l : list A) : sumZ (map (fun _ => c) l) = c * Z.of_nat (length l).
Proof. induction l as [|a l IH]; [cbn; lia|]. cbn [map length]. rewrite sumZ_cons, IH. lia. Qed.

Lemma count_le n m g : 0 < n -> 0 <= m -> 0 <= g ->
  sumZ (map (fun j => if n * j <=? m then 1 else 0) (zrange g)) = Z.min g (m / n).
Proof.
  intros Hn Hm. revert g. apply natlike_ind.
  - cbn. pose proof (Z.div_pos m n Hm Hn). lia.
  - intros g Hg IH. unfold Z.succ. rewrite zrange_succ, map_app, sumZ_app, IH by lia.
    cbn [map]. rewrite sumZ_cons. cbn [sumZ fold_right].
    pose proof (Z.div_mod m n ltac:(lia)) as D. pose proof (Z.mod_pos_bound m n Hn) as B.
    set (q := m / n) in *. destruct (Z.leb_spec (n * (g + 1)) m).
    + assert (g + 1 <= q) by nia. lia.
    + assert (q < g + 1) by nia. lia.
Qed.

Lemma Gs_ind n a : Gs n a = sg (sumZ (map (fun k => if mres n a k <=? (n - 1) / 2 then 0 else 1) (zrange ((n-1)/2)))).
Proof.
  unfold Gs. induction (zrange ((n-1)/2)) as [|k l IH]; [reflexivity|].
  cbn [map]. rewrite prodZ_cons, sumZ_cons, sg_add, IH. f_equal.
  unfold eps. destruct (_ <=? _); reflexivity.
Qed.

(** Eisenstein's form of the sign. *)
Lemma eisenstein n a : n mod 2 = 1 -> 0 < n -> a mod 2 = 1 -> rel_prime a n ->
  Gs n a = sg (sumZ (map (fun k => a * k / n) (zrange ((n - 1) / 2)))).
Proof.
  intros Hn Hp Ha Hr. rewrite Gs_ind. set (h := (n-1)/2).
  set (I := fun k => if mres n a k <=? h then 0 else 1). set (Fl := fun k => a * k / n).
  fold (sumZ (map I (zrange h))). 
  assert (E : Z.even (sumZ (map I (zrange h)) + sumZ (map Fl (zrange h))) = true).
  { assert (Hs : sumZ (map (sig n a) (zrange h)) = sumZ (zrange h)).
    { apply sumZ_perm. apply sig_perm; assumption. }
    assert (Ev : Z.even (sumZ (map (fun k => (I k + Fl k) + (sig n a k + k)) (zrange h))) = true).
    { apply even_sum. intros k _. unfold I, Fl, sig. fold h.
      pose proof (Z.div_mod (a*k) n ltac:(lia)) as D. fold (mres n a k) in D.
      apply Z.even_spec. set (m := mres n a k) in *. set (q := a * k / n) in *.
      assert (exists a', a = 2 * a' + 1) as [a' ->] by (exists (a/2); Z.div_mod_to_equations; lia).
      assert (exists n', n = 2 * n' + 1) as [n' En] by (exists (n/2); Z.div_mod_to_equations; lia).
      destruct (m <=? h).
      - exists (k + a' * k - n' * q). rewrite En in D. lia.
      - exists (1 + n' - m + (k + a' * k - n' * q)). rewrite En in *. lia. }
    rewrite !sumZ_map_add, Hs, map_id in Ev.
    replace (sumZ (zrange h) + sumZ (zrange h)) with (2 * sumZ (zrange h)) in Ev by lia.
    rewrite Z.even_add in Ev. rewrite Z.even_mul in Ev. change (Z.even 2) with true in Ev. cbn [orb] in Ev.
    destruct (Z.even (sumZ (map I (zrange h)) + sumZ (map Fl (zrange h)))); [reflexivity|discriminate]. }
  apply sg_even in E. rewrite sg_add in E.
  change (sg (sumZ (map I (zrange h))) = sg (sumZ (map Fl (zrange h)))).
  unfold sg in *. destruct (Z.even (sumZ (map I _))), (Z.even (sumZ (map Fl _))); try reflexivity; discriminate.
Qed.

Lemma lattice n a : n mod 2 = 1 -> a mod 2 = 1 -> 0 < n -> 0 < a -> rel_prime a n ->
  sumZ (map (fun k => a * k / n) (zrange ((n-1)/2))) + sumZ (map (fun j => n * j / a) (zrange ((a-1)/2)))
  = ((n-1)/2) * ((a-1)/2).
Proof.
  intros Hn Ha Hpn Hpa Hr. set (h := (n-1)/2). set (g := (a-1)/2).
  assert (En : n = 2 * h + 1) by (unfold h; Z.div_mod_to_equations; lia).
  assert (Ea : a = 2 * g + 1) by (unfold g; Z.div_mod_to_equations; lia).
  assert (A : sumZ (map (fun k => a * k / n) (zrange h))
     = sumZ (map (fun k => sumZ (map (fun j => if n * j <=? a * k then 1 else 0) (zrange g))) (zrange h))).
  { apply sumZ_ext. intros k Hk. apply zrange_in in Hk. rewrite count_le by nia.
    rewrite Z.min_r; [reflexivity|]. assert (a * k / n < g + 1); [|lia]. apply Z.div_lt_upper_bound; nia. }
  assert (B : sumZ (map (fun j => n * j / a) (zrange g))
     = sumZ (map (fun j => sumZ (map (fun k => if a * k <=? n * j then 1 else 0) (zrange h))) (zrange g))).
  { apply sumZ_ext. intros k Hk. apply zrange_in in Hk. rewrite count_le by nia.
    rewrite Z.min_r; [reflexivity|]. assert (n * k / a < h + 1); [|lia]. apply Z.div_lt_upper_bound; nia. }
  rewrite A, B. rewrite (sumZ_swap (fun j k => if a * k <=? n * j then 1 else 0)).
  rewrite <- sumZ_map_add.
  transitivity (sumZ (map (fun _ : Z => g) (zrange h))).
  - apply sumZ_ext. intros k Hk. apply zrange_in in Hk. rewrite <- sumZ_map_add.
    transitivity (sumZ (map (fun _ : Z => 1) (zrange g))).
    + apply sumZ_ext. intros j Hj. apply zrange_in in Hj.
      assert (n * j <> a * k).
      { intros E. assert (Hd : (n | a * k)) by (exists j; lia).
        apply Gauss in Hd; [|apply rel_prime_sym; exact Hr]. apply Z.divide_pos_le in Hd; lia. }
      destruct (Z.leb_spec (n*j) (a*k)), (Z.leb_spec (a*k) (n*j)); lia.
    + rewrite sumZ_const, zrange_length. lia.
  - rewrite sumZ_const, zrange_length. lia.
Qed.

Lemma reciprocity n a : n mod 2 = 1 -> a mod 2 = 1 -> 0 < n -> 0 < a -> rel_prime a n ->
  Gs n a = (if (n mod 4 =? 3) && (a mod 4 =? 3) then -1 else 1) * Gs a n.
Proof.
  intros Hn Ha Hpn Hpa Hr.
  rewrite (eisenstein n a), (eisenstein a n) by (first [assumption | apply rel_prime_sym; assumption]).
  pose proof (lattice n a Hn Ha Hpn Hpa Hr) as L.
  set (S1 := sumZ (map (fun k => a * k / n) _)) in *. set (S2 := sumZ (map (fun k => n * k / a) _)) in *.
  assert (E : sg S1 * sg S2 = sg ((n-1)/2 * ((a-1)/2))) by (rewrite <- sg_add, L; reflexivity).
  assert (Q : sg ((n-1)/2 * ((a-1)/2)) = if (n mod 4 =? 3) && (a mod 4 =? 3) then -1 else 1).
  { unfold sg. rewrite Z.even_mul.
    assert (P : forall z, z mod 2 = 1 -> Z.even ((z-1)/2) = negb (z mod 4 =? 3)).
    { intros z Hz. rewrite Zeven_mod.
      destruct (Z.eqb_spec (z mod 4) 3); cbn [negb]; unfold Zeq_bool;
      destruct (Z.compare_spec (((z-1)/2) mod 2) 0); Z.div_mod_to_equations; lia. }
    rewrite !P by assumption. destruct (n mod 4 =? 3), (a mod 4 =? 3); reflexivity. }
  rewrite <- Q, <- E. rewrite <- Z.mul_assoc, sg_sq. ring.
Qed.

Lemma Gs_2 n : n mod 2 = 1 -> 0 < n ->
  Gs n 2 = if (n mod 8 =? 3) || (n mod 8 =? 5) then -1 else 1.
Proof.
  intros Hn Hp. rewrite Gs_ind. set (h := (n-1)/2).
  assert (En : n = 2 * h + 1) by (unfold h; Z.div_mod_to_equations; lia).
  assert (E : sumZ (map (fun k => if mres n 2 k <=? h then 0 else 1) (zrange h)) = h - h / 2).
  { transitivity (sumZ (map (fun k => 1 + (-1) * (if 2 * k <=? h then 1 else 0)) (zrange h))).
    - apply sumZ_ext. intros k Hk. apply zrange_in in Hk. unfold mres. rewrite Z.mod_small by lia.
      destruct (2 * k <=? h); reflexivity.
    - rewrite sumZ_map_add, sumZ_map_scale, sumZ_const, zrange_length, count_le by lia.
      assert (0 <= h / 2 <= h) by (Z.div_mod_to_equations; lia). lia. }
  rewrite E. unfold sg. rewrite Zeven_mod. unfold Zeq_bool.
  destruct (Z.compare_spec ((h - h/2) mod 2) 0), (Z.eqb_spec (n mod 8) 3), (Z.eqb_spec (n mod 8) 5); cbn [orb]; 
    try reflexivity; exfalso; Z.div_mod_to_equations; lia.
Qed.
