(** Fermat's little theorem, Lagrange's bound on roots, Euler's criterion, and the
    Pocklington primality criterion. *)
From Verif Require Import Base NumTheory.
From Coq Require Import Znumtheory Zpow_facts Permutation.
Local Open Scope Z_scope.

Lemma prime_odd_ge3 p : prime p -> p mod 2 = 1 -> 3 <= p.
Proof. intros Hp Ho. pose proof (prime_ge_2 p Hp). destruct (Z.eq_dec p 2) as [->|]; [discriminate|lia]. Qed.

Lemma Gs_sq p y : p mod 2 = 1 -> 0 < p -> rel_prime y p -> Gs p (y * y) = 1.
Proof.
  intros Ho Hp Hy. rewrite Gs_mul by assumption.
  destruct (Gs_pm p y) as [-> | ->]; reflexivity.
Qed.

Lemma fermat p a : prime p -> p mod 2 = 1 -> rel_prime a p -> (a ^ (p - 1)) mod p = 1.
Proof.
  intros Hp Ho Ha. pose proof (prime_odd_ge3 p Hp Ho) as H3.
  pose proof (gauss_lemma p Ho ltac:(lia) a Hp Ha) as G.
  set (h := (p-1)/2) in *. assert (E : p - 1 = h + h) by (unfold h; Z.div_mod_to_equations; lia).
  rewrite E, Z.pow_add_r by (unfold h; Z.div_mod_to_equations; lia).
  rewrite Zmult_mod, G, <- Zmult_mod.
  destruct (Gs_pm p a) as [-> | ->]; apply Z.mod_small; lia.
Qed.

(** ** Polynomials as coefficient lists, lowest first *)
Fixpoint peval (f : list Z) (x : Z) : Z :=
  match f with [] => 0 | c :: g => c + x * peval g x end.
Fixpoint padd (f g : list Z) (r : Z) : list Z :=   (* f + r g, length of f *)
  match f, g with
  | [], _ => []
  | _, [] => f
  | c :: f', d :: g' => (c + r * d) :: padd f' g' r
  end.
Fixpoint pquot (f : list Z) (r : Z) : list Z :=
  match f with [] => [] | c :: g => padd g (pquot g r) r end.

Lemma padd_length f : forall g r, length (padd f g r) = length f.
Proof. induction f as [|c f IH]; intros [|d g] r; cbn; auto. Qed.
Lemma padd_eval f : forall g r x, (length g <= length f)%nat -> peval (padd f g r) x = peval f x + r * peval g x.
Proof.
  induction f as [|c f IH]; intros [|d g] r x H; cbn [padd peval length] in *; try lia.
  rewrite IH by lia. ring.
Qed.
Lemma pquot_length f r : length (pquot f r) = pred (length f).
Proof. destruct f; cbn; [reflexivity|]. apply padd_length. Qed.
Lemma pquot_eval f r x : peval f x - peval f r = (x - r) * peval (pquot f r) x.
Proof.
  induction f as [|c f IH]; cbn [peval pquot]; [ring|].
  rewrite padd_eval by (rewrite pquot_length; lia).
  transitivity ((x - r) * peval f x + r * (peval f x - peval f r)); [ring|]. rewrite IH. ring.
Qed.
Lemma padd_last f : forall g r, (length g < length f)%nat -> last (padd f g r) 0 = last f 0.
Proof.
  induction f as [|c f IH]; intros [|d g] r H; cbn [padd length] in *; try lia; try reflexivity.
  destruct f as [|c' f'].
  - cbn in H. lia.
  - specialize (IH g r ltac:(lia)). pose proof (padd_length (c' :: f') g r) as L.
    destruct (padd (c' :: f') g r) as [|z zs] eqn:E; [discriminate|]. cbn [last] in *. exact IH.
Qed.

Lemma roots_bound p : prime p -> forall n f, length f = S n -> ~ (p | last f 0) ->
  forall l, NoDup l -> (forall x, In x l -> 0 <= x < p /\ (p | peval f x)) -> (length l <= n)%nat.
Proof.
  intros Hp. induction n as [|n IH]; intros f Hl Hlast l Hnd Hr.
  - destruct f as [|c [|]]; try discriminate. destruct l as [|x l]; [cbn; lia|].
    destruct (Hr x) as [_ D]; [now left|]. cbn in D. rewrite Z.mul_0_r, Z.add_0_r in D. contradiction.
  - destruct l as [|r l]; [cbn; lia|]. cbn [length]. apply le_n_S.
    inversion Hnd as [|? ? Hnr Hnl]; subst.
    apply (IH (pquot f r)).
    + rewrite pquot_length, Hl. reflexivity.
    + destruct f as [|c g]; [discriminate|]. cbn [pquot]. rewrite padd_last.
      * destruct g as [|c' g']; [cbn in Hl; lia|]. exact Hlast.
      * rewrite pquot_length. cbn in Hl. lia.
    + exact Hnl.
    + intros s Hs. destruct (Hr s) as [Bs Ds]; [now right|]. destruct (Hr r) as [Br Dr]; [now left|].
      split; [exact Bs|].
      assert (D : (p | (s - r) * peval (pquot f r) s)) by (rewrite <- pquot_eval; now apply Z.divide_sub_r).
      apply prime_mult in D; [|exact Hp]. destruct D as [D|D]; [exfalso|exact D].
      assert (s <> r) by (intros ->; contradiction).
      apply Z.divide_abs_r in D. apply Z.divide_pos_le in D; lia.
Qed.

Definition xn_minus_1 (n : nat) : list Z := (-1) :: repeat 0 n ++ [1].   (* X^(n+1) - 1 *)
Lemma xn_eval n x : peval (xn_minus_1 n) x = x ^ (Z.of_nat n + 1) - 1.
Proof.
  unfold xn_minus_1. cbn [peval].
  assert (E : peval (repeat 0 n ++ [1]) x = x ^ Z.of_nat n).
  { induction n as [|n IH]; [cbn [repeat app peval]; change (x ^ Z.of_nat 0) with 1; ring|]. cbn [repeat app peval]. rewrite IH, Nat2Z.inj_succ, Z.pow_succ_r by lia. ring. }
  rewrite E, Z.pow_add_r, Z.pow_1_r by lia. ring.
Qed.

(** Euler's criterion, the hard direction. *)
Lemma Gs_1_square p x : prime p -> p mod 2 = 1 -> rel_prime x p -> Gs p x = 1 ->
  exists y, 1 <= y <= (p - 1) / 2 /\ (y * y) mod p = x mod p.
Proof.
  intros Hp Ho Hx HG. pose proof (prime_odd_ge3 p Hp Ho) as H3. set (h := (p-1)/2).
  assert (Eh : p = 2 * h + 1) by (unfold h; Z.div_mod_to_equations; lia).
  set (S := map (fun k => (k * k) mod p) (zrange h)).
  destruct (in_dec Z.eq_dec (x mod p) S) as [Hin|Hnin].
  - unfold S in Hin. apply in_map_iff in Hin. destruct Hin as (y & E & Hy). apply zrange_in in Hy. exists y; auto.
  - exfalso.
    assert (Hrp : forall k, 1 <= k <= h -> rel_prime k p)
      by (intros k Hk; apply rel_prime_le_prime; [exact Hp|lia]).
    assert (Hroot : forall z, rel_prime z p -> Gs p z = 1 -> (p | z ^ h - 1)).
    { intros z Hz Gz. pose proof (gauss_lemma p Ho ltac:(lia) z Hp Hz) as G. fold h in G. rewrite Gz in G.
      apply Zmod_divide; [lia|]. rewrite Zminus_mod, G, Z.sub_diag. apply Zmod_0_l. }
    assert (L : (length ((x mod p)%Z :: S) <= Z.to_nat h)%nat).
    { apply (roots_bound p Hp (Z.to_nat h) (xn_minus_1 (Z.to_nat (h - 1)))).
      - unfold xn_minus_1. cbn [length]. rewrite app_length, repeat_length. cbn [length]. lia.
      - unfold xn_minus_1. change ((-1) :: repeat 0 (Z.to_nat (h-1)) ++ [1]) with (((-1) :: repeat 0 (Z.to_nat (h-1))) ++ [1]).
        rewrite last_last. intros D. apply Z.divide_pos_le in D; lia.
      - constructor; [exact Hnin|]. unfold S.
        assert (Hin : forall k, In k (zrange h) -> 1 <= k <= h) by (intros k; apply zrange_in).
        pose proof (zrange_nodup h) as Hnd. clear Hnin S. induction (zrange h) as [|k l IHl]; cbn; [constructor|].
        apply NoDup_cons_iff in Hnd. destruct Hnd as [Hk Hl]. constructor.
        + rewrite in_map_iff. intros (k' & E & Hk'). apply Hk.
          assert (B := Hin k (or_introl eq_refl)). assert (B' := Hin k' (or_intror Hk')).
          assert (D : (p | (k' - k) * (k' + k))).
          { replace ((k'-k)*(k'+k)) with (k'*k' - k*k) by ring. apply Zmod_divide; [lia|].
            rewrite Zminus_mod, E, Z.sub_diag. apply Zmod_0_l. }
          apply prime_mult in D; [|exact Hp]. destruct D as [D|D].
          * destruct (Z.eq_dec k' k) as [->|N]; [exact Hk'|].
            apply Z.divide_abs_r in D. apply Z.divide_pos_le in D; lia.
          * apply Z.divide_pos_le in D; lia.
        + apply IHl; [|exact Hl]. intros; apply Hin; now right.
      - assert (Sq : forall z, In z (x mod p :: S) -> exists w, z = w mod p /\ rel_prime w p /\ Gs p w = 1).
        { intros z [<-|Hz]; [exists x; auto|]. unfold S in Hz. apply in_map_iff in Hz. destruct Hz as (k & <- & Hk).
          apply zrange_in in Hk. exists (k*k). split; [reflexivity|split].
          - apply rel_prime_sym, rel_prime_mult; apply rel_prime_sym; apply Hrp; exact Hk.
          - apply Gs_sq; [exact Ho|lia|]. apply Hrp; exact Hk. }
        intros z Hz. destruct (Sq z Hz) as (w & -> & Hw & Gw). split; [apply Z.mod_pos_bound; lia|].
        rewrite xn_eval. replace (Z.of_nat (Z.to_nat (h-1)) + 1) with h by lia.
        apply Zmod_divide; [lia|]. rewrite Zminus_mod, <- Zpower_mod by lia. rewrite <- Zminus_mod.
        apply Zdivide_mod. apply Hroot; assumption. }
    unfold S in L. cbn [length] in L. rewrite map_length, zrange_length in L. lia.
Qed.
