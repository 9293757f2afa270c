(** Lucas' primality criterion (using a large prime factor of n+1), in Z[sqrt d],
    with an executable certificate check; and the Pocklington check of Primality
    on machine integers. *)
From Verif Require Import Base NumTheory Euler Primality FastMod.
From Coq Require Import Znumtheory Zpow_facts.
Local Open Scope Z_scope.

(** * Pocklington with fast exponentiation *)
Definition entry_fast (n : Z) (t : Z * Z * Z) : bool :=
  match t with
  | (q, e, a) =>
      (0 <? e) && (1 <? q) && ((n - 1) mod q ^ e =? 0)
      && match fast_pow a ((n - 1) / q) n with
         | Some s => match fast_pow s q n with Some r => (r =? 1) && (Z.gcd (s - 1) n =? 1) | None => false end
         | None => false
         end
  end.
Lemma cong_mod n a b : 0 < n -> cong n a b -> a mod n = b mod n.
Proof.
  intros P [k E]. replace a with (b + k * n) by lia. apply Z_mod_plus_full.
Qed.
Lemma cong_gcd n a b : cong n a b -> Z.gcd a n = Z.gcd b n.
Proof.
  intros [k E]. replace a with (b + k * n) by lia. rewrite Z.add_comm, Z.gcd_comm, (Z.gcd_comm b).
  rewrite Z.add_comm. apply Z.gcd_add_mult_diag_r.
Qed.
Lemma cong_pow n a b e : 0 <= e -> cong n a b -> cong n (a ^ e) (b ^ e).
Proof.
  intros E C. pattern e. apply natlike_ind; [apply cong_refl| |exact E]. intros k K IH.
  rewrite !Z.pow_succ_r by exact K. now apply cong_mul.
Qed.
Lemma entry_fast_ok n t : 1 < n -> entry_fast n t = true -> entry_ok n t = true.
Proof.
  destruct t as [[q e] a]. unfold entry_fast, entry_ok. intros N E. rewrite !andb_true_iff in *.
  destruct E as (((E0 & E1) & E2) & F). destruct (fast_pow a ((n - 1) / q) n) as [s|] eqn:S; [|discriminate].
  destruct (fast_pow s q n) as [r|] eqn:R; [|discriminate]. apply andb_true_iff in F as (F1 & F2).
  pose proof E0 as E0'. pose proof E1 as E1'. pose proof E2 as E2'. apply Z.ltb_lt in E0', E1'. apply Z.eqb_eq in E2'.
  assert (D : n - 1 = (n - 1) / q * q).
  { rewrite Z.mul_comm. apply Z_div_exact_2; [lia|]. apply Z.mod_divide in E2'; [|apply Z.pow_nonzero; lia].
    apply Z.mod_divide; [lia|]. apply Z.divide_trans with (q ^ e); [|exact E2'].
    exists (q ^ (e - 1)). rewrite Z.mul_comm, <- Z.pow_succ_r by lia. f_equal. lia. }
  apply Z.eqb_eq in F1, F2. subst r. apply fast_pow_ok in R as (R0 & R), S as (S0 & S).
  assert (P : cong n 1 (a ^ (n - 1))).
  { rewrite D, Z.pow_mul_r by lia. apply cong_trans with (1 := R). apply cong_pow; [lia|exact S]. }
  split; [split; [auto|]|]; apply Z.eqb_eq; rewrite Zpow_mod_correct by lia.
  - rewrite <- (cong_mod n _ _ ltac:(lia) P). apply Z.mod_small. lia.
  - transitivity (Z.gcd (s - 1) n); [|exact F2]. apply cong_gcd. apply cong_sym. apply cong_trans with (a ^ ((n - 1) / q) - 1).
    + destruct S as [k S]. exists k. lia.
    + exists (a ^ ((n - 1) / q) / n). rewrite Z.mod_eq by lia. ring.
Qed.
Definition pock_fast (n : Z) (l : list (Z * Z * Z)) : bool :=
  let F := cert_F l in
  let R := (n - 1) / F in
  (1 <? n) && (n mod 2 =? 1) && forallb (entry_fast n) l && ((n - 1) mod F =? 0)
  && ((n <=? F * F) || ((n <=? F * F * F) && negb (is_square ((R mod F) * (R mod F) - 4 * (R / F))))).
Lemma pock_fast_ok n l : pock_fast n l = true -> pock_ok n l = true.
Proof.
  unfold pock_fast, pock_ok. rewrite !andb_true_iff. intros ((((N & O) & F) & D) & B). repeat split; auto.
  apply Z.ltb_lt in N. rewrite forallb_forall in *. intros t T. apply entry_fast_ok; auto.
Qed.

(** * Binomial coefficients modulo a prime *)
Fixpoint binom (n k : nat) : Z :=
  match n, k with
  | _, O => 1
  | O, S _ => 0
  | S n', S k' => binom n' k' + binom n' (S k')
  end.
Lemma binom_0 n : binom n 0 = 1. Proof. destruct n; reflexivity. Qed.
Lemma binom_S n k : binom (S n) (S k) = binom n k + binom n (S k). Proof. reflexivity. Qed.
Lemma binom_gt n : forall k, (n < k)%nat -> binom n k = 0.
Proof. induction n as [|n IH]; intros [|k] L; try lia; [reflexivity|]. rewrite binom_S, !IH by lia. reflexivity. Qed.
Lemma binom_nn n : binom n n = 1.
Proof. induction n as [|n IH]; [reflexivity|]. rewrite binom_S, IH, binom_gt by lia. reflexivity. Qed.
Lemma absorb n : forall k, Z.of_nat (S k) * binom (S n) (S k) = Z.of_nat (S n) * binom n k.
Proof.
  induction n as [|n IH]; intros k.
  - destruct k; [reflexivity|]. rewrite binom_S. cbn [binom]. lia.
  - rewrite binom_S, Z.mul_add_distr_l, IH. destruct k as [|k].
    + rewrite !binom_0. lia.
    + pose proof (IH k) as E. replace (Z.of_nat (S (S k))) with (1 + Z.of_nat (S k)) by lia.
      rewrite Z.mul_add_distr_r, E. rewrite (binom_S n k). lia.
Qed.
Lemma binom_prime p k : prime (Z.of_nat p) -> (0 < k < p)%nat -> (Z.of_nat p | binom p k).
Proof.
  intros P K. destruct p as [|p]; [lia|]. destruct k as [|k]; [lia|].
  apply Gauss with (Z.of_nat (S k)).
  - rewrite absorb. apply Z.divide_factor_l.
  - apply prime_rel_prime; [exact P|]. intros D. apply Z.divide_pos_le in D; lia.
Qed.

(** * Pairs: u + v sqrt d *)
Section Pairs.
Context (d : Z).
Definition pmul (u v : Z * Z) : Z * Z := (fst u * fst v + d * (snd u * snd v), fst u * snd v + snd u * fst v).
Fixpoint ppow (u : Z * Z) (n : nat) : Z * Z := match n with O => (1, 0) | S k => pmul u (ppow u k) end.
Lemma pair_ext (u v : Z * Z) : fst u = fst v -> snd u = snd v -> u = v.
Proof. destruct u, v; cbn; congruence. Qed.
Lemma pmul_comm u v : pmul u v = pmul v u. Proof. apply pair_ext; unfold pmul; cbn [fst snd]; ring. Qed.
Lemma pmul_assoc u v w : pmul u (pmul v w) = pmul (pmul u v) w. Proof. apply pair_ext; unfold pmul; cbn [fst snd]; ring. Qed.
Lemma pmul_1 u : pmul (1, 0) u = u. Proof. apply pair_ext; unfold pmul; cbn [fst snd]; ring. Qed.
Lemma ppow_add u a b : ppow u (a + b) = pmul (ppow u a) (ppow u b).
Proof. induction a as [|a IH]; cbn [plus ppow]; [now rewrite pmul_1|]. now rewrite IH, pmul_assoc. Qed.
Lemma ppow_mul u a b : ppow u (a * b) = ppow (ppow u a) b.
Proof. induction b as [|b IH]; [now rewrite Nat.mul_0_r|]. rewrite Nat.mul_succ_r, Nat.add_comm, ppow_add, IH. reflexivity. Qed.

(** Polynomials in w = y sqrt d with integer coefficients. *)
Section Eval.
Context (x y : Z).
Fixpoint ev (l : list Z) : Z * Z :=
  match l with [] => (0, 0) | c :: t => (c + d * (y * snd (ev t)), y * fst (ev t)) end.
Fixpoint addl (a b : list Z) : list Z :=
  match a, b with [], _ => b | _, [] => a | s :: a', t :: b' => (s + t) :: addl a' b' end.
Fixpoint row (n : nat) : list Z :=
  match n with O => [1] | S k => addl (map (Z.mul x) (row k)) (0 :: row k) end.
Lemma ev_addl a : forall b, ev (addl a b) = (fst (ev a) + fst (ev b), snd (ev a) + snd (ev b)).
Proof.
  induction a as [|s a IH]; intros [|t b]; apply pair_ext; cbn [addl ev fst snd]; try ring; rewrite IH; cbn [fst snd]; ring.
Qed.
Lemma ev_scale c a : ev (map (Z.mul c) a) = (c * fst (ev a), c * snd (ev a)).
Proof. induction a as [|s a IH]; apply pair_ext; cbn [map ev fst snd]; try ring; rewrite IH; cbn [fst snd]; ring. Qed.
Lemma ev_row n : ev (row n) = ppow (x, y) n.
Proof.
  induction n as [|n IH]; [apply pair_ext; cbn [ppow ev row Nat.mul Nat.add pmul fst snd Z.of_nat Z.pow]; ring|]. cbn [row ppow]. rewrite ev_addl, ev_scale. cbn [ev fst snd].
  rewrite IH. apply pair_ext; cbn [pmul fst snd]; ring.
Qed.
Lemma nth_addl a : forall b k, nth k (addl a b) 0 = nth k a 0 + nth k b 0.
Proof. induction a as [|s a IH]; intros [|t b] [|k]; cbn; try ring; apply IH || (rewrite IH; ring). Qed.
Lemma addl_length a : forall b, length (addl a b) = Nat.max (length a) (length b).
Proof. induction a as [|s a IH]; intros [|t b]; cbn; auto. Qed.
Lemma row_length n : length (row n) = S n.
Proof. induction n as [|n IH]; [reflexivity|]. cbn [row]. rewrite addl_length, map_length. cbn [length]. rewrite IH. lia. Qed.
Lemma row_nth n : forall k, (k <= n)%nat -> nth k (row n) 0 = binom n k * x ^ Z.of_nat (n - k).
Proof.
  induction n as [|n IH]; intros k K.
  - assert (k = 0)%nat as -> by lia. reflexivity.
  - cbn [row]. rewrite nth_addl. replace 0 with (x * 0) at 1 by ring. rewrite map_nth.
    destruct k as [|k]; cbn [nth].
    + rewrite IH by lia. rewrite !binom_0, !Nat.sub_0_r, Nat2Z.inj_succ, Z.pow_succ_r by lia. ring.
    + rewrite (IH k) by lia. rewrite binom_S. replace (S n - S k)%nat with (n - k)%nat by lia.
      destruct (Nat.eq_dec k n) as [->|NE].
      * rewrite nth_overflow by (rewrite row_length; lia). rewrite (binom_gt n (S n)) by lia. ring.
      * rewrite IH by lia. replace (n - k)%nat with (S (n - S k)) by lia.
        rewrite Nat2Z.inj_succ, Z.pow_succ_r by lia. ring.
Qed.
End Eval.

Definition pcong (p : Z) (u v : Z * Z) : Prop := cong p (fst u) (fst v) /\ cong p (snd u) (snd v).
Lemma pcong_refl p u : pcong p u u. Proof. split; apply cong_refl. Qed.
Lemma pcong_sym p u v : pcong p u v -> pcong p v u. Proof. intros [A B]; split; now apply cong_sym. Qed.
Lemma pcong_trans p u v w : pcong p u v -> pcong p v w -> pcong p u w.
Proof. intros [A B] [C D]; split; eapply cong_trans; eauto. Qed.
Lemma pcong_mul p u v u' v' : pcong p u u' -> pcong p v v' -> pcong p (pmul u v) (pmul u' v').
Proof.
  intros [A B] [C D]; split; cbn [pmul fst snd]; apply cong_add; try (now apply cong_mul).
  apply cong_mul; [apply cong_refl|now apply cong_mul].
Qed.

(** Evaluating a polynomial all of whose middle coefficients vanish. *)
Lemma ev_tail p y : forall l b, Forall (fun c => cong p c 0) l ->
  pcong p (ev y (l ++ [b])) (pmul (ppow (0, y) (length l)) (b, 0)).
Proof.
  induction l as [|c l IH]; intros b F.
  - cbn [app ev length ppow]. unfold pmul. split; cbn [fst snd]; match goal with |- cong _ ?a ?b => replace a with b by ring end; apply cong_refl.
  - inversion F as [|? ? C F']; subst. specialize (IH b F'). cbn [app ev length ppow]. rewrite <- pmul_assoc.
    set (t := ev y (l ++ [b])) in *. set (s := pmul (ppow (0, y) (length l)) (b, 0)) in *. destruct IH as [I1 I2].
    split; cbn [pmul fst snd].
    + replace (0 * fst s + d * (y * snd s)) with (0 + d * (y * snd s)) by ring.
      apply cong_add; [exact C|]. apply cong_mul; [apply cong_refl|]. apply cong_mul; [apply cong_refl|exact I2].
    + replace (0 * snd s + y * fst s) with (y * fst s) by ring. apply cong_mul; [apply cong_refl|exact I1].
Qed.
Lemma sqrt_pow y j : ppow (0, y) (2 * j + 1) = (0, y ^ Z.of_nat (2 * j + 1) * d ^ Z.of_nat j).
Proof.
  induction j as [|j IH]; [apply pair_ext; unfold Nat.mul, Nat.add, ppow, pmul; cbn [fst snd]; change (Z.of_nat 1) with 1; change (Z.of_nat 0) with 0; rewrite ?Z.pow_1_r, ?Z.pow_0_r; ring|].
  replace (2 * S j + 1)%nat with (S (S (2 * j + 1))) by lia. cbn [ppow]. rewrite IH.
  apply pair_ext; cbn [pmul fst snd]; [ring|]. rewrite !Nat2Z.inj_succ, !Z.pow_succ_r by lia. ring.
Qed.
Lemma frobenius p x y : prime (Z.of_nat p) -> Nat.odd p = true ->
  pcong (Z.of_nat p) (ppow (x, y) p)
    (x ^ Z.of_nat p, y ^ Z.of_nat p * d ^ Z.of_nat (p / 2)).
Proof.
  intros P O. rewrite <- ev_row. pose proof (row_length x p) as L.
  assert (E : row x p = nth 0 (row x p) 0 :: map (fun k => nth k (row x p) 0) (seq 1 (p - 1)) ++ [nth p (row x p) 0]).
  { pose proof (prime_ge_2 _ P). apply nth_ext with (d := 0) (d' := 0).
    - cbn [length]. rewrite app_length, map_length, seq_length, L. cbn [length]. lia.
    - intros k K. rewrite L in K. destruct k as [|k]; [reflexivity|]. cbn [nth].
      destruct (Nat.lt_ge_cases k (p - 1)) as [C|C].
      + rewrite app_nth1 by (rewrite map_length, seq_length; exact C).
        rewrite (nth_indep (map (fun k => nth k (row x p) 0) (seq 1 (p - 1))) 0 (nth 0 (row x p) 0)) by (rewrite map_length, seq_length; exact C).
        rewrite (map_nth (fun k => nth k (row x p) 0) (seq 1 (p - 1)) 0%nat k), seq_nth by exact C. f_equal.
      + rewrite app_nth2 by (rewrite map_length, seq_length; exact C). rewrite map_length, seq_length.
        replace (k - (p - 1))%nat with 0%nat by lia. cbn [nth]. f_equal. lia. }
  rewrite E. rewrite (row_nth x p 0), (row_nth x p p), binom_0, binom_nn, Nat.sub_diag, Nat.sub_0_r by lia.
  rewrite Z.mul_1_l, Z.mul_1_l. change (x ^ Z.of_nat 0) with 1. cbn [ev].
  destruct (ev_tail (Z.of_nat p) y (map (fun k => nth k (row x p) 0) (seq 1 (p - 1))) 1) as [E1 E2].
  { apply Forall_map, Forall_forall. intros k K. apply in_seq in K. rewrite row_nth by lia.
    unfold cong. rewrite Z.sub_0_r. apply Z.divide_mul_l. apply binom_prime; [exact P|lia]. }
  rewrite map_length, seq_length in E1, E2.
  assert (O2 : p = (2 * (p / 2) + 1)%nat).
  { pose proof (Nat.div_mod_eq p 2). apply Nat.odd_spec in O as [j J]. subst p.
    rewrite Nat.add_comm, Nat.mul_comm, Nat.div_add by lia. rewrite Nat.div_small by lia. lia. }
  pose proof (sqrt_pow y (p / 2)) as SQ. rewrite <- O2 in SQ.
  replace p with (S (p - 1)) in SQ at 1 by (pose proof (prime_ge_2 _ P); lia). cbn [ppow] in SQ.
  set (s := ppow (0, y) (p - 1)) in *. pose proof (f_equal fst SQ) as S1. pose proof (f_equal snd SQ) as S2. unfold pmul in S1, S2. cbn [fst snd] in S1, S2.
  split; cbn [fst snd].
  - apply cong_trans with (x ^ Z.of_nat p + d * (y * snd s)); [|replace (d * (y * snd s)) with 0 by lia; rewrite Z.add_0_r; apply cong_refl].
    apply cong_add; [apply cong_refl|]. apply cong_mul; [apply cong_refl|]. apply cong_mul; [apply cong_refl|].
    cbn [pmul fst snd] in E2. replace (snd s) with (fst s * 0 + snd s * 1) by ring. exact E2.
  - rewrite <- S2. replace (0 * snd s + y * fst s) with (y * fst s) by ring. apply cong_mul; [apply cong_refl|].
    cbn [pmul fst snd] in E1. replace (fst s) with (fst s * 1 + d * (snd s * 0)) by ring. exact E1.
Qed.

(** Elements of norm 1 have order dividing p - 1 or p + 1. *)
Lemma fermat_any p x : prime p -> p mod 2 = 1 -> cong p (x ^ p) x.
Proof.
  intros P O. pose proof (prime_ge_2 _ P). destruct (Zdivide_dec p x) as [D|D].
  - unfold cong. apply Z.divide_sub_r; [|exact D]. replace p with (Z.succ (p - 1)) at 2 by lia.
    rewrite Z.pow_succ_r by lia. now apply Z.divide_mul_l.
  - assert (R : rel_prime x p) by (apply rel_prime_sym, prime_rel_prime; assumption).
    pose proof (fermat p x P O R) as F. replace p with (Z.succ (p - 1)) at 2 by lia. rewrite Z.pow_succ_r by lia.
    exists (x * (x ^ (p - 1) / p)). pose proof (Z.div_mod (x ^ (p - 1)) p ltac:(lia)) as E. rewrite F in E. rewrite E at 1. ring.
Qed.
Lemma norm_one_order p x y : prime p -> p mod 2 = 1 -> ~ (p | d) -> cong p (x * x - d * (y * y)) 1 ->
  pcong p (ppow (x, y) (Z.to_nat (p - 1))) (1, 0) \/ pcong p (ppow (x, y) (Z.to_nat (p + 1))) (1, 0).
Proof.
  intros P O ND NO. pose proof (prime_ge_2 _ P) as P2. set (k := Z.to_nat p). assert (EK : Z.of_nat k = p) by (apply Z2Nat.id; lia).
  assert (OK : Nat.odd k = true).
  { apply Nat.odd_spec. exists (Z.to_nat (p / 2)). pose proof (Z.div_mod p 2 ltac:(lia)). pose proof (Z.div_pos p 2 ltac:(lia) ltac:(lia)). lia. }
  pose proof (frobenius k x y ltac:(rewrite EK; exact P) OK) as F. rewrite EK in F.
  set (h := Z.of_nat (k / 2)) in *.
  assert (EH : p - 1 = h + h).
  { apply Nat.odd_spec in OK as [j J]. assert (k / 2 = j)%nat. { rewrite J, Nat.add_comm, Nat.mul_comm, Nat.div_add by lia. rewrite Nat.div_small by lia. lia. }
    unfold h. lia. }
  assert (H0 : 0 <= h) by (unfold h; lia).
  assert (SG : cong p (d ^ h) 1 \/ cong p (d ^ h) (-1)).
  { pose proof (fermat p d P O ltac:(apply rel_prime_sym, prime_rel_prime; assumption)) as E. rewrite EH, Z.pow_add_r in E by lia.
    assert (D : (p | (d ^ h - 1) * (d ^ h - -1))).
    { exists (d ^ h * d ^ h / p). pose proof (Z.div_mod (d ^ h * d ^ h) p ltac:(lia)) as G. rewrite E in G. lia. }
    apply prime_mult in D; [|exact P]. exact D. }
  assert (CJ : pcong p (pmul (x, y) (x, - y)) (1, 0)).
  { split; cbn [pmul fst snd]; [replace (x * x + d * (y * - y)) with (x * x - d * (y * y)) by ring; exact NO|].
    replace (x * - y + y * x) with 0 by ring. apply cong_refl. }
  assert (FX : forall s, cong p (d ^ h) s -> pcong p (ppow (x, y) k) (x, y * s)).
  { intros s Hs. apply pcong_trans with (1 := F). split; cbn [fst snd]; [now apply fermat_any|]. apply cong_mul; [now apply fermat_any|exact Hs]. }
  destruct SG as [SG|SG]; [left|right].
  - replace (Z.to_nat (p - 1)) with (k - 1)%nat by lia. specialize (FX 1 SG). replace (y * 1) with y in FX by ring.
    replace k with (S (k - 1)) in FX by lia. cbn [ppow] in FX.
    assert (G : pcong p (pmul (x, -y) (pmul (x, y) (ppow (x, y) (k - 1)))) (pmul (x, -y) (x, y))) by (apply pcong_mul; [apply pcong_refl|exact FX]).
    rewrite pmul_assoc, (pmul_comm (x, -y)) in G.
    apply pcong_trans with (pmul (pmul (x, y) (x, - y)) (ppow (x, y) (k - 1))).
    + rewrite <- (pmul_1 (ppow (x, y) (k - 1))) at 1. apply pcong_mul; [now apply pcong_sym|apply pcong_refl].
    + apply pcong_trans with (1 := G). exact CJ.
  - replace (Z.to_nat (p + 1)) with (S k) by lia. cbn [ppow]. apply pcong_trans with (pmul (x, y) (x, y * -1)).
    + apply pcong_mul; [apply pcong_refl|]. now apply FX.
    + replace (y * -1) with (- y) by ring. exact CJ.
Qed.

Lemma ppow_1 p u : forall k, pcong p u (1, 0) -> pcong p (ppow u k) (1, 0).
Proof.
  induction k as [|k IH]; intros E; [apply pcong_refl|]. cbn [ppow]. apply pcong_trans with (pmul (1, 0) (1, 0)).
  - apply pcong_mul; auto.
  - rewrite pmul_1. apply pcong_refl.
Qed.
Lemma order_gcd p u : forall b a, pcong p (ppow u a) (1, 0) -> pcong p (ppow u b) (1, 0) -> pcong p (ppow u (Nat.gcd a b)) (1, 0).
Proof.
  induction b as [b IH] using (well_founded_induction lt_wf). intros a A B.
  destruct (Nat.eq_dec b 0) as [->|NZ]; [rewrite Nat.gcd_0_r; exact A|].
  rewrite Nat.gcd_comm, <- Nat.gcd_mod by exact NZ. rewrite Nat.gcd_comm. apply IH; [apply Nat.mod_upper_bound; exact NZ|exact B|].
  rewrite (Nat.div_mod_eq a b), ppow_add, ppow_mul in A. apply pcong_trans with (2 := A).
  rewrite <- (pmul_1 (ppow u (a mod b))) at 1. apply pcong_mul; [|apply pcong_refl]. apply pcong_sym. now apply ppow_1.
Qed.

(** The criterion. *)
Theorem lucas n f x y u v : 1 < n -> n mod 2 = 1 -> prime f -> (f | n + 1) -> n < (f - 1) * (f - 1) ->
  rel_prime d n -> cong n (x * x - d * (y * y)) 1 ->
  pcong n (ppow (x, y) (Z.to_nat (n + 1))) (1, 0) ->
  pcong n (ppow (x, y) (Z.to_nat ((n + 1) / f))) (u, v) -> rel_prime v n -> prime n.
Proof.
  intros N O PF FD FB RD NO A B RV. pose proof (prime_ge_2 _ PF) as F2.
  assert (BIG : forall p, prime p -> (p | n) -> f - 1 <= p).
  { intros p P D. pose proof (prime_ge_2 _ P) as P2.
    assert (Op : p mod 2 = 1).
    { destruct (Z.eq_dec (p mod 2) 0) as [E|E]; [|pose proof (Z.mod_pos_bound p 2 ltac:(lia)); lia]. exfalso.
      apply Z.mod_divide in E; [|lia]. assert (X : (2 | n)) by (eapply Z.divide_trans; eauto).
      apply Z.mod_divide in X; lia. }
    assert (UP : forall a b, cong n a b -> cong p a b) by (intros a b X; unfold cong in *; eapply Z.divide_trans; eauto).
    assert (UPP : forall a b, pcong n a b -> pcong p a b) by (intros a b [X Y]; split; now apply UP).
    assert (NPD : forall z, rel_prime z n -> ~ (p | z)).
    { intros z R X. destruct R as [_ _ R]. specialize (R p X D). apply Z.divide_1_r in R. lia. }
    assert (G : forall e, 0 < e -> pcong p (ppow (x, y) (Z.to_nat e)) (1, 0) -> (f | e)).
    { intros e E0 E. destruct (Zdivide_dec f e) as [|NF]; [assumption|]. exfalso.
      pose proof (order_gcd p (x, y) _ _ (UPP _ _ A) E) as GC.
      set (g := Nat.gcd (Z.to_nat (n + 1)) (Z.to_nat e)) in *.
      assert (G1 : (Z.of_nat g | n + 1)).
      { destruct (Nat.gcd_divide_l (Z.to_nat (n + 1)) (Z.to_nat e)) as [q Q]. fold g in Q. exists (Z.of_nat q). lia. }
      assert (G2 : (Z.of_nat g | e)).
      { destruct (Nat.gcd_divide_r (Z.to_nat (n + 1)) (Z.to_nat e)) as [q Q]. fold g in Q. exists (Z.of_nat q). lia. }
      destruct FD as [m M]. assert (EM : (n + 1) / f = m) by (rewrite M; apply Z.div_mul; lia).
      assert (GM : (Z.of_nat g | m)).
      { apply Gauss with f; [rewrite Z.mul_comm, <- M; exact G1|]. apply rel_prime_sym, prime_rel_prime; [exact PF|].
        intros X. apply NF. eapply Z.divide_trans; eauto. }
      rewrite EM in B. destruct GM as [q Q].
      assert (Q0 : 0 <= q) by nia.
      assert (E3 : Z.to_nat m = (g * Z.to_nat q)%nat) by nia.
      assert (X : pcong p (ppow (x, y) (Z.to_nat m)) (1, 0)).
      { rewrite E3, ppow_mul. now apply ppow_1. }
      destruct (pcong_trans _ _ _ _ (pcong_sym _ _ _ (UPP _ _ B)) X) as [_ Y]. cbn [snd] in Y.
      apply (NPD v RV). unfold cong in Y. now rewrite Z.sub_0_r in Y. }
    destruct (norm_one_order p x y P Op (NPD d RD) (UP _ _ NO)) as [E|E].
    - apply G in E; [|lia]. apply Z.divide_pos_le in E; lia.
    - apply G in E; [|lia]. apply Z.divide_pos_le in E; lia. }
  destruct (prime_dec n) as [|NP]; [assumption|]. exfalso.
  destruct (prime_div_exists n N NP) as (p & P & D & L). pose proof (BIG p P D) as LP. pose proof (prime_ge_2 _ P).
  destruct D as [k K]. assert (K1 : 1 < k) by nia.
  assert (LK : f - 1 <= k).
  { destruct (prime_dec k) as [PK|NK].
    - apply BIG; [exact PK|]. exists p. lia.
    - destruct (prime_div_exists k K1 NK) as (r & R & DR & LR). apply Z.le_trans with r; [|lia]. apply BIG; [exact R|].
      apply Z.divide_trans with k; [exact DR|]. exists p. lia. }
  nia.
Qed.
End Pairs.

(** * Certificate check *)
Lemma mul2_spec n M d u v : wf (m_N M) -> wf (m_mu M) -> val (m_N M) = n -> wf d -> wf2 u -> wf2 v ->
  pcong n (val2 (mul2 M d u v)) (pmul (val d) (val2 u) (val2 v)) /\ wf2 (mul2 M d u v).
Proof.
  intros N MU V D [U1 U2] [V1 V2]. destruct u as [a b], v as [c e]. cbn [fst snd] in *.
  destruct (mulM_spec n M N MU V a c U1 V1) as (C1 & W1). destruct (mulM_spec n M N MU V b e U2 V2) as (C2 & W2).
  destruct (mulM_spec n M N MU V _ _ D W2) as (C3 & W3). destruct (addM_spec n M N V _ _ W1 W3) as (C4 & W4).
  destruct (mulM_spec n M N MU V a e U1 V2) as (C5 & W5). destruct (mulM_spec n M N MU V b c U2 V1) as (C6 & W6).
  destruct (addM_spec n M N V _ _ W5 W6) as (C7 & W7).
  split; [|split; assumption]. split; cbn [mul2 val2 pmul fst snd].
  - apply cong_trans with (1 := C4). apply cong_add; [exact C1|]. apply cong_trans with (1 := C3). apply cong_mul; [apply cong_refl|exact C2].
  - apply cong_trans with (1 := C7). now apply cong_add.
Qed.
Lemma sq2_spec n M d u : wf (m_N M) -> wf (m_mu M) -> val (m_N M) = n -> wf d -> wf2 u ->
  pcong n (val2 (sq2 M d u)) (pmul (val d) (val2 u) (val2 u)) /\ wf2 (sq2 M d u).
Proof.
  intros N MU V D [U1 U2]. destruct u as [a b]. cbn [fst snd] in *.
  destruct (mulM_spec n M N MU V a a U1 U1) as (C1 & W1). destruct (mulM_spec n M N MU V b b U2 U2) as (C2 & W2).
  destruct (mulM_spec n M N MU V _ _ D W2) as (C3 & W3). destruct (addM_spec n M N V _ _ W1 W3) as (C4 & W4).
  destruct (mulM_spec n M N MU V a b U1 U2) as (C5 & W5).
  destruct (addM_spec n M N V _ _ W5 W5) as (C7 & W7).
  split; [|split; assumption]. split; cbn [sq2 val2 pmul fst snd].
  - apply cong_trans with (1 := C4). apply cong_add; [exact C1|]. apply cong_trans with (1 := C3). apply cong_mul; [apply cong_refl|exact C2].
  - apply cong_trans with (1 := C7). apply cong_add; [exact C5|]. replace (val b * val a) with (val a * val b) by ring. exact C5.
Qed.
Lemma pow2_spec n M d u e : wf (m_N M) -> wf (m_mu M) -> val (m_N M) = n -> wf d -> wf2 u ->
  pcong n (val2 (pow2 M d u e)) (ppow (val d) (val2 u) (Pos.to_nat e)) /\ wf2 (pow2 M d u e).
Proof.
  intros N MU V D U. induction e as [p (C & W)|p (C & W)|]; cbn [pow2].
  - destruct (sq2_spec n M d _ N MU V D W) as (C1 & W1). destruct (mul2_spec n M d _ _ N MU V D W1 U) as (C2 & W2).
    split; [|exact W2]. apply pcong_trans with (1 := C2).
    replace (Pos.to_nat p~1) with (S (Pos.to_nat p + Pos.to_nat p)) by lia. cbn [ppow]. rewrite (pmul_comm (val d) (val2 u)), ppow_add.
    apply pcong_mul; [|apply pcong_refl]. apply pcong_trans with (1 := C1). now apply pcong_mul.
  - destruct (sq2_spec n M d _ N MU V D W) as (C1 & W1). split; [|exact W1]. apply pcong_trans with (1 := C1).
    replace (Pos.to_nat p~0) with (Pos.to_nat p + Pos.to_nat p)%nat by lia. rewrite ppow_add. now apply pcong_mul.
  - split; [|exact U]. change (Pos.to_nat 1) with 1%nat. cbn [ppow]. rewrite pmul_comm, pmul_1. apply pcong_refl.
Qed.
Lemma ppow_cong p d u v k : pcong p u v -> pcong p (ppow d u k) (ppow d v k).
Proof. intros E. induction k as [|k IH]; [apply pcong_refl|]. cbn [ppow]. now apply pcong_mul. Qed.
Definition fast_pow2 (d x y e n : Z) : option (Z * Z) :=
  let M := mk_modulus n in
  let dl := ofZ (m_k M) d in let xl := ofZ (m_k M) x in let yl := ofZ (m_k M) y in
  match e with
  | Zpos p => if good M n && (val dl =? d) && (val xl =? x) && (val yl =? y) then Some (val2 (pow2 M dl (xl, yl) p)) else None
  | _ => None
  end.
Lemma fast_pow2_ok d x y e n r : fast_pow2 d x y e n = Some r -> 0 < e /\ pcong n (ppow d (x, y) (Z.to_nat e)) r.
Proof.
  unfold fast_pow2. destruct e as [|p|p]; [discriminate| |discriminate].
  destruct (good _ _) eqn:G; [|discriminate]. destruct (val _ =? d) eqn:D; [|discriminate].
  destruct (val _ =? x) eqn:X; [|discriminate]. destruct (val _ =? y) eqn:Y; [|discriminate]. cbn [andb]. intros [= <-].
  apply Z.eqb_eq in G, D, X, Y. split; [lia|]. destruct (good_wf n) as (W1 & W2). apply pcong_sym.
  destruct (pow2_spec n (mk_modulus n) (ofZ (m_k (mk_modulus n)) d) (ofZ (m_k (mk_modulus n)) x, ofZ (m_k (mk_modulus n)) y) p W1 W2 G (ofZ_wf _ _) (conj (ofZ_wf _ _) (ofZ_wf _ _))) as (C & _).
  unfold val2 in C at 2. cbn [fst snd] in C. rewrite D, X, Y in C. exact C.
Qed.
Definition lucas_ok (n f d x y : Z) : bool :=
  (1 <? n) && (n mod 2 =? 1) && ((n + 1) mod f =? 0) && (n <? (f - 1) * (f - 1)) && (Z.gcd d n =? 1)
  && ((x * x - d * (y * y) - 1) mod n =? 0)
  && match fast_pow2 d x y ((n + 1) / f) n with
     | Some s => match fast_pow2 d (fst s) (snd s) f n with
                 | Some r => ((fst r - 1) mod n =? 0) && (snd r mod n =? 0) && (Z.gcd (snd s) n =? 1)
                 | None => false
                 end
     | None => false
     end.
Theorem lucas_prime n f d x y : prime f -> lucas_ok n f d x y = true -> prime n.
Proof.
  intros PF E. unfold lucas_ok in E. rewrite !andb_true_iff in E. destruct E as ((((((N & O) & FD) & FB) & GD) & NO) & E).
  destruct (fast_pow2 d x y ((n + 1) / f) n) as [s|] eqn:S; [|discriminate].
  destruct (fast_pow2 d (fst s) (snd s) f n) as [r|] eqn:R; [|discriminate].
  rewrite !andb_true_iff in E. destruct E as ((E1 & E2) & E3).
  apply Z.ltb_lt in N, FB. apply Z.eqb_eq in O, FD, GD, NO, E1, E2, E3.
  pose proof (prime_ge_2 _ PF). apply Z.mod_divide in FD, NO, E1, E2; try lia.
  apply fast_pow2_ok in R as (_ & R), S as (S0 & S). destruct s as [u v]. cbn [fst snd] in *.
  assert (D : Z.to_nat (n + 1) = (Z.to_nat ((n + 1) / f) * Z.to_nat f)%nat).
  { rewrite <- Z2Nat.inj_mul by lia. f_equal. rewrite Z.mul_comm. apply Z_div_exact_2; [lia|]. apply Z.mod_divide; [lia|exact FD]. }
  apply (lucas d n f x y u v); auto.
  - now apply Zgcd_1_rel_prime.
  - rewrite D, ppow_mul. apply pcong_trans with (1 := ppow_cong _ _ _ _ _ S). apply pcong_trans with (1 := R).
    split; cbn [fst snd]; [exact E1|]. unfold cong. now rewrite Z.sub_0_r.
  - now apply Zgcd_1_rel_prime.
Qed.
