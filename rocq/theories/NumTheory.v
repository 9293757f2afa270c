(** Elementary number theory in Z: the sign of multiplication on a half system,
    quadratic reciprocity (for odd coprime numbers, not only primes), Gauss' lemma. *)
From Verif Require Import Base.
From Coq Require Import Znumtheory Zpow_facts Permutation.
Local Open Scope Z_scope.

(** ** Ranges, sums and products *)
Definition zrange (h : Z) : list Z := map Z.of_nat (seq 1 (Z.to_nat h)).
Definition sumZ (l : list Z) : Z := fold_right Z.add 0 l.
Definition prodZ (l : list Z) : Z := fold_right Z.mul 1 l.

Lemma zrange_in h k : In k (zrange h) <-> 1 <= k <= h.
Proof.
  unfold zrange. rewrite in_map_iff. split.
  - intros (n & <- & Hn). apply in_seq in Hn. lia.
  - intros H. exists (Z.to_nat k). split; [lia|]. apply in_seq. lia.
Qed.

Lemma zrange_nodup h : NoDup (zrange h).
Proof.
  unfold zrange. apply FinFun.Injective_map_NoDup; [|apply seq_NoDup].
  intros a b; apply Nat2Z.inj.
Qed.

Lemma zrange_length h : length (zrange h) = Z.to_nat h.
Proof. unfold zrange. now rewrite map_length, seq_length. Qed.

Lemma zrange_succ h : 0 <= h -> zrange (h + 1) = zrange h ++ [h + 1].
Proof.
  intros H. unfold zrange. replace (Z.to_nat (h+1)) with (S (Z.to_nat h)) by lia.
  rewrite seq_S, map_app. cbn [map]. do 2 f_equal. lia.
Qed.

Lemma sumZ_cons x l : sumZ (x :: l) = x + sumZ l. Proof. reflexivity. Qed.
Lemma prodZ_cons x l : prodZ (x :: l) = x * prodZ l. Proof. reflexivity. Qed.

Lemma sumZ_app a b : sumZ (a ++ b) = sumZ a + sumZ b.
Proof. induction a as [|x a IH]; cbn [app]; rewrite ?sumZ_cons; [reflexivity|lia]. Qed.
Lemma prodZ_app a b : prodZ (a ++ b) = prodZ a * prodZ b.
Proof. induction a as [|x a IH]; cbn [app]; rewrite ?prodZ_cons; [cbn [prodZ fold_right]; ring|]. rewrite IH. ring. Qed.

Lemma sumZ_perm a b : Permutation a b -> sumZ a = sumZ b.
Proof. induction 1; rewrite ?sumZ_cons; lia. Qed.
Lemma prodZ_perm a b : Permutation a b -> prodZ a = prodZ b.
Proof.
  induction 1 as [|x l l' _ IH|x y l|l1 l2 l3 _ IH1 _ IH2]; rewrite ?prodZ_cons.
  - reflexivity.
  - now rewrite IH.
  - ring.
  - congruence.
Qed.

Lemma sumZ_map_add {A} (f g : A -> Z) l : sumZ (map (fun x => f x + g x) l) = sumZ (map f l) + sumZ (map g l).
Proof. induction l as [|a l IH]; cbn [map]; rewrite ?sumZ_cons; [reflexivity|lia]. Qed.
Lemma sumZ_map_scale {A} c (f : A -> Z) l : sumZ (map (fun x => c * f x) l) = c * sumZ (map f l).
Proof. induction l as [|a l IH]; cbn [map]; rewrite ?sumZ_cons; [cbn; ring|]. rewrite IH. ring. Qed.
Lemma prodZ_map_mul {A} (f g : A -> Z) l : prodZ (map (fun x => f x * g x) l) = prodZ (map f l) * prodZ (map g l).
Proof. induction l as [|a l IH]; cbn [map]; rewrite ?prodZ_cons; [reflexivity|]. rewrite IH. ring. Qed.
Lemma prodZ_map_const {A} c (l : list A) : prodZ (map (fun _ => c) l) = c ^ Z.of_nat (length l).
Proof. induction l as [|a l IH]; [reflexivity|].
  cbn [map length]. rewrite prodZ_cons, IH, Nat2Z.inj_succ, Z.pow_succ_r by lia. reflexivity. Qed.
Lemma prodZ_mod {A} n (f g : A -> Z) l : (forall x, In x l -> f x mod n = g x mod n) ->
  prodZ (map f l) mod n = prodZ (map g l) mod n.
Proof.
  induction l as [|a l IH]; intros H; [reflexivity|].
  cbn [map prodZ fold_right]. fold (prodZ (map f l)). fold (prodZ (map g l)).
  rewrite Zmult_mod, (Zmult_mod (g a)). rewrite (H a), IH; auto with datatypes.
Qed.
Lemma prodZ_rel_prime n l : (forall x, In x l -> rel_prime n x) -> rel_prime n (prodZ l).
Proof.
  induction l as [|a l IH]; intros H; cbn [prodZ fold_right].
  - apply rel_prime_sym, rel_prime_1.
  - apply rel_prime_mult; [apply H; now left | apply IH; intros; apply H; now right].
Qed.

(** ** The half system *)
Section Half.
Variable n : Z.              (* the odd modulus *)
Let h := (n - 1) / 2.
Definition mres (a k : Z) := (a * k) mod n.
Definition eps (a k : Z) : Z := if mres a k <=? (n - 1) / 2 then 1 else -1.
Definition sig (a k : Z) : Z := if mres a k <=? (n - 1) / 2 then mres a k else n - mres a k.
Definition Gs (a : Z) : Z := prodZ (map (eps a) (zrange ((n - 1) / 2))).

Hypothesis Hodd : n mod 2 = 1.
Hypothesis Hpos : 0 < n.

Lemma half_eq : n = 2 * h + 1.
Proof. unfold h. Z.div_mod_to_equations. lia. Qed.

Lemma eps_sig a k : (eps a k * sig a k) mod n = (a * k) mod n.
Proof.
  unfold eps, sig. destruct (mres a k <=? (n-1)/2).
  - rewrite Z.mul_1_l. unfold mres. now rewrite Zmod_mod.
  - replace (-1 * (n - mres a k)) with (mres a k + (-1) * n) by ring.
    rewrite Z_mod_plus_full. unfold mres. now rewrite Zmod_mod.
Qed.

Lemma eps_pm a k : eps a k = 1 \/ eps a k = -1.
Proof. unfold eps. destruct (_ <=? _); auto. Qed.

Lemma mres_range a k : 0 <= mres a k < n.
Proof. apply Z.mod_pos_bound. lia. Qed.

Lemma mres_nz a k : rel_prime a n -> 1 <= k <= h -> mres a k <> 0.
Proof.
  intros Hr Hk H. unfold mres in H.
  assert (Hd : (n | a * k)) by (apply Zmod_divide; lia).
  assert (Hd' : (n | k)).
  { apply (Gauss n a k Hd). apply rel_prime_sym. exact Hr. }
  apply Z.divide_pos_le in Hd'; [|lia]. pose proof half_eq. lia.
Qed.

Lemma sig_range a k : rel_prime a n -> 1 <= k <= h -> 1 <= sig a k <= h.
Proof.
  intros Hr Hk. pose proof (mres_nz a k Hr Hk). pose proof (mres_range a k). pose proof half_eq.
  unfold sig. fold h. destruct (Z.leb_spec (mres a k) h); lia.
Qed.

Lemma sig_inj a k k' : rel_prime a n -> 1 <= k <= h -> 1 <= k' <= h -> sig a k = sig a k' -> k = k'.
Proof.
  intros Hr Hk Hk' E. pose proof half_eq.
  assert (Hd : (n | a * (k - k')) \/ (n | a * (k + k'))).
  { pose proof (eps_sig a k) as E1. pose proof (eps_sig a k') as E2. rewrite <- E in E2.
    pose proof (Z.div_mod (a*k) n ltac:(lia)) as D1. pose proof (Z.div_mod (a*k') n ltac:(lia)) as D2.
    unfold sig, mres in E.
    destruct (a*k mod n <=? (n-1)/2), (a*k' mod n <=? (n-1)/2).
    - left. exists (a*k/n - a*k'/n). rewrite Z.mul_sub_distr_l. lia.
    - right. exists (a*k/n + a*k'/n + 1). lia.
    - right. exists (a*k/n + a*k'/n + 1). lia.
    - left. exists (a*k/n - a*k'/n). rewrite Z.mul_sub_distr_l. lia. }
  destruct Hd as [Hd|Hd]; apply Gauss in Hd; try (apply rel_prime_sym; exact Hr).
  - destruct Hd as [q Hq]. assert (q = 0) by nia. lia.
  - exfalso. destruct Hd as [q Hq]. assert (0 < q < 1) by nia. lia.
Qed.

Lemma sig_perm a : rel_prime a n -> Permutation (map (sig a) (zrange h)) (zrange h).
Proof.
  intros Hr. apply NoDup_Permutation_bis.
  - apply NoDup_map_inv with (f := fun x => x). rewrite map_id.
    assert (Hin : forall x, In x (zrange h) -> 1 <= x <= h) by (intros x; apply zrange_in).
    pose proof (zrange_nodup h) as Hnd. induction (zrange h) as [|x l IH]; cbn; [constructor|].
    inversion Hnd as [|? ? Hx Hl]; subst. constructor.
    + rewrite in_map_iff. intros (y & Ey & Hy). apply Hx.
      apply sig_inj in Ey; [subst; exact Hy | exact Hr | |]; apply Hin; auto with datatypes.
    + apply IH; [|exact Hl]. intros; apply Hin; auto with datatypes.
  - rewrite map_length. lia.
  - intros x. rewrite in_map_iff. intros (k & <- & Hk). apply zrange_in. apply zrange_in in Hk.
    apply sig_range; auto.
Qed.

Lemma Gs_pm a : Gs a = 1 \/ Gs a = -1.
Proof.
  unfold Gs. induction (zrange _) as [|x l IH]; cbn [map prodZ fold_right]; [auto|].
  fold (prodZ (map (eps a) l)). destruct (eps_pm a x) as [-> | ->], IH as [-> | ->]; auto.
Qed.

Lemma Gs_1 : 0 < n -> Gs 1 = 1.
Proof.
  intros _. unfold Gs. fold h. assert (H : forall k, In k (zrange h) -> eps 1 k = 1).
  { intros k Hk. apply zrange_in in Hk. unfold eps, mres. fold h. pose proof half_eq.
    rewrite Z.mul_1_l, Z.mod_small by lia. destruct (Z.leb_spec k h); lia. }
  induction (zrange h) as [|x l IH]; [reflexivity|].
  cbn [map prodZ fold_right]. fold (prodZ (map (eps 1) l)). rewrite IH, H; auto with datatypes.
Qed.

Lemma Gs_mod a b : a mod n = b mod n -> Gs a = Gs b.
Proof.
  intros E. unfold Gs. f_equal. apply map_ext. intros k. unfold eps, mres.
  rewrite (Zmult_mod a), E, <- Zmult_mod. reflexivity.
Qed.

(** Multiplicativity. *)
Lemma Gs_mul a b : rel_prime a n -> rel_prime b n -> Gs (a * b) = Gs a * Gs b.
Proof.
  intros Ha Hb. unfold Gs. fold h.
  assert (E : forall k, In k (zrange h) -> eps (a * b) k = eps a (sig b k) * eps b k).
  { intros k Hk. apply zrange_in in Hk. pose proof half_eq as Hn.
    pose proof (sig_range b k Hb Hk) as Hs.
    pose proof (mres_nz a (sig b k) Ha Hs) as Hz. pose proof (mres_range a (sig b k)) as Hrg.
    assert (Hm : mres (a*b) k = (eps b k * mres a (sig b k)) mod n).
    { unfold mres. rewrite Zmult_mod_idemp_r.
      replace (eps b k * (a * sig b k)) with (a * (eps b k * sig b k)) by ring.
      rewrite <- (Zmult_mod_idemp_r (eps b k * sig b k) a n), eps_sig, Zmult_mod_idemp_r. f_equal. ring. }
    unfold eps at 1. rewrite Hm. unfold eps at 2. fold h.
    destruct (eps_pm b k) as [-> | ->].
    - rewrite Z.mul_1_l, Z.mod_small by lia. rewrite Z.mul_1_r. reflexivity.
    - replace ((-1 * mres a (sig b k)) mod n) with (n - mres a (sig b k)).
      + destruct (Z.leb_spec (n - mres a (sig b k)) h), (Z.leb_spec (mres a (sig b k)) h); lia.
      + apply Z.mod_unique with (q := -1); lia. }
  rewrite (map_ext_in _ _ _ E), prodZ_map_mul. f_equal.
  rewrite <- (map_map (sig b) (eps a)). apply prodZ_perm, Permutation_map, sig_perm; exact Hb.
Qed.

(** Gauss' lemma (needs only that h! is invertible, i.e. holds for prime n). *)
Lemma gauss_lemma a : prime n -> rel_prime a n -> (a ^ h) mod n = Gs a mod n.
Proof.
  intros Hp Hr. pose proof half_eq as Hn.
  assert (E : (prodZ (map (fun k => a * k) (zrange h))) mod n
              = (prodZ (map (fun k => eps a k * sig a k) (zrange h))) mod n).
  { apply prodZ_mod. intros. symmetry. apply eps_sig. }
  rewrite !prodZ_map_mul, prodZ_map_const, map_id, zrange_length in E.
  rewrite (prodZ_perm _ _ (sig_perm a Hr)) in E. rewrite Z2Nat.id in E by lia.
  fold h in E. change (prodZ (map (eps a) (zrange h))) with (Gs a) in E.
  set (P := prodZ (zrange h)) in *.
  assert (Hrp : rel_prime n P).
  { apply prodZ_rel_prime. intros x Hx. apply zrange_in in Hx. apply rel_prime_sym.
    apply rel_prime_le_prime; [exact Hp|]. lia. }
  assert (Hd : (n | P * (a ^ h - Gs a))).
  { apply Zmod_divide; [lia|]. rewrite Z.mul_sub_distr_l, Zminus_mod.
    rewrite (Z.mul_comm P (a^h)), (Z.mul_comm P (Gs a)), E, Z.sub_diag. apply Zmod_0_l. }
  apply Gauss in Hd; [|exact Hrp]. destruct Hd as [q Hq].
  replace (a ^ h) with (Gs a + q * n) by lia. apply Z_mod_plus_full.
Qed.
End Half.
