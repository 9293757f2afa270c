(** Facts about the Python scripts. *)
From Coq Require Import Znumtheory Zpow_facts.
From Verif Require Import Base Scripts NumTheory Euler Primality.
Local Open Scope Z_scope.

(** * file_compare *)
Lemma compare_fold a b l : forall r w, fold_left (fun '(is_right, wrong_count) i =>
    if Byte.eqb (nth i a x00) (nth i b x00) then (is_right, wrong_count) else (false, wrong_count + 1)) l (r, w)
  = (r && forallb (fun i => Byte.eqb (nth i a x00) (nth i b x00)) l,
     w + Z.of_nat (length (filter (fun i => negb (Byte.eqb (nth i a x00) (nth i b x00))) l))).
Proof.
  induction l as [|i l IH]; intros r w; cbn [fold_left forallb filter].
  - cbn [length]. now rewrite andb_true_r, Z.add_0_r.
  - destruct (Byte.eqb _ _); cbn [negb andb]; rewrite IH; [reflexivity|].
    cbn [length andb]. rewrite andb_false_r. f_equal. lia.
Qed.

(** * The list of small primes *)
Lemma small_all_prime : Forall prime small_primes.
Proof.
  assert (X : forallb (small_prime 20) small_primes = true) by (vm_compute; reflexivity).
  rewrite Forall_forall. intros p I. rewrite forallb_forall in X. eapply small_prime_ok, X, I.
Qed.
Lemma small_lt p : In p small_primes -> 2 <= p < 1000.
Proof.
  intros I. assert (X : forallb (fun p => (2 <=? p) && (p <? 1000)) small_primes = true) by (vm_compute; reflexivity).
  rewrite forallb_forall in X. specialize (X p I). lia.
Qed.
Lemma small_cover d : 2 <= d < 1009 -> exists p, In p small_primes /\ (p | d).
Proof.
  intros D. assert (X : forallb (fun d => existsb (fun p => d mod p =? 0) small_primes) (map Z.of_nat (seq 2 1007)) = true) by (vm_compute; reflexivity).
  rewrite forallb_forall in X. specialize (X d).
  assert (I : In d (map Z.of_nat (seq 2 1007))) by (apply in_map_iff; exists (Z.to_nat d); split; [lia|apply in_seq; lia]).
  apply existsb_exists in X as (p & P & E); [|exact I]. exists p. split; [exact P|]. apply Z.mod_divide; [pose proof (small_lt p P); lia|lia].
Qed.
Lemma small_iff p : In p small_primes <-> prime p /\ p < 1000.
Proof.
  split.
  - intros I. split; [|apply small_lt, I]. pose proof small_all_prime as F. rewrite Forall_forall in F. now apply F.
  - intros (P & L). pose proof (prime_ge_2 p P). destruct (small_cover p ltac:(lia)) as (q & I & D). pose proof (small_lt q I).
    apply prime_divisors in D; [|exact P]. assert (p = q) as -> by lia. exact I.
Qed.

(** * The strong probable prime test *)
Definition odd_part (n s t : Z) : Prop := n - 1 = 2 ^ t * s /\ s mod 2 = 1 /\ 0 <= t /\ 0 < s.
Definition passes (n s t a : Z) : Prop := a ^ s mod n = 1 \/ exists r, 0 <= r < t /\ a ^ (2 ^ r * s) mod n = n - 1.

Lemma split_ok fuel : forall s t, 0 < s < 2 ^ Z.of_nat fuel -> exists k s', split_loop fuel s t = Ok (s', t + k) /\ s = 2 ^ k * s' /\ s' mod 2 = 1 /\ 0 <= k /\ 0 < s'.
Proof.
  induction fuel as [|fuel IH]; intros s t S; [change (2 ^ Z.of_nat 0) with 1 in S; lia|].
  cbn [split_loop]. rewrite Nat2Z.inj_succ, Z.pow_succ_r in S by lia. destruct (Z.eqb_spec (s mod 2) 0) as [E|E].
  - pose proof (Z.div_mod s 2 ltac:(lia)) as D. destruct (IH (s / 2) (t + 1) ltac:(lia)) as (k & s' & L & A & B & C & P).
    exists (k + 1), s'. split; [rewrite L; do 2 f_equal; lia|]. rewrite Z.pow_add_r by lia. change (2 ^ 1) with 2. split; [nia|]. split; [exact B|]. lia.
  - exists 0, s. pose proof (Z.mod_pos_bound s 2 ltac:(lia)). rewrite Z.add_0_r, Z.pow_0_r. split; [reflexivity|]. split; [lia|]. split; [lia|]. lia.
Qed.

Lemma square_ok num t : 1 < num -> forall fuel i v, 0 <= i < t -> (Z.to_nat (t - i) <= fuel)%nat -> 0 <= v < num ->
  exists b, square_loop fuel num t i v = Ok b /\ (b = true <-> exists r, 0 <= r < t - i /\ v ^ (2 ^ r) mod num = num - 1).
Proof.
  intros N. induction fuel as [|fuel IH]; intros i v I F V; [lia|]. cbn [square_loop].
  destruct (Z.eqb_spec v (num - 1)) as [E|E]; cbn [negb].
  - exists true. split; [reflexivity|]. split; [|reflexivity]. intros _. exists 0. split; [lia|]. rewrite Z.pow_0_r, Z.pow_1_r, Z.mod_small; lia.
  - destruct (Z.eqb_spec i (t - 1)) as [E2|E2].
    + exists false. split; [reflexivity|]. split; [discriminate|]. intros (r & R & X). assert (r = 0) as -> by lia. rewrite Z.pow_0_r, Z.pow_1_r, Z.mod_small in X; lia.
    + pose proof (Z.mod_pos_bound (v ^ 2) num ltac:(lia)). destruct (IH (i + 1) (v ^ 2 mod num) ltac:(lia) ltac:(lia) ltac:(lia)) as (b & L & B).
      exists b. split; [exact L|]. rewrite B.
      assert (PW : forall r, 0 <= r -> (v ^ 2 mod num) ^ (2 ^ r) mod num = v ^ (2 ^ (r + 1)) mod num).
      { intros r R. rewrite <- Zpower_mod by lia. rewrite <- Z.pow_mul_r by (try apply Z.pow_nonneg; lia). do 2 f_equal. rewrite Z.pow_add_r by lia. lia. }
      split; intros (r & R & X).
      * exists (r + 1). split; [lia|]. now rewrite <- PW by lia.
      * destruct (Z.eq_dec r 0) as [->|R0]; [rewrite Z.pow_0_r, Z.pow_1_r, Z.mod_small in X; lia|].
        exists (r - 1). split; [lia|]. rewrite PW by lia. now replace (r - 1 + 1) with r by lia.
Qed.

Lemma trial_ok num s t a : 2 < num -> odd_part num s t -> 0 < t -> exists b, trial_base num s t a = Ok b /\ (b = true <-> passes num s t a).
Proof.
  intros N (E & SO & T0 & S0) T. unfold trial_base. rewrite Zpow_mod_correct by lia.
  pose proof (Z.mod_pos_bound (a ^ s) num ltac:(lia)) as V. destruct (Z.eqb_spec (a ^ s mod num) 1) as [E1|E1]; cbn [negb].
  - exists true. split; [reflexivity|]. split; [|reflexivity]. intros _. now left.
  - destruct (square_ok num t ltac:(lia) (S (Z.to_nat t)) 0 (a ^ s mod num) ltac:(lia) ltac:(lia) V) as (b & L & B).
    exists b. split; [exact L|]. rewrite B, Z.sub_0_r.
    assert (PW : forall r, 0 <= r -> (a ^ s mod num) ^ (2 ^ r) mod num = a ^ (2 ^ r * s) mod num).
    { intros r R. rewrite <- Zpower_mod by lia. rewrite <- Z.pow_mul_r by (try apply Z.pow_nonneg; lia). do 2 f_equal. lia. }
    unfold passes. split.
    + intros (r & R & X). right. exists r. split; [exact R|]. now rewrite <- PW by lia.
    + intros [X|(r & R & X)]; [contradiction|]. exists r. split; [exact R|]. now rewrite PW by lia.
Qed.

Lemma trials_ok num s t : 3 < num -> odd_part num s t -> 0 < t -> forall k draws, (k <= length draws)%nat ->
  exists b, trials k num s t draws = Ok b /\ (b = true <-> Forall (passes num s t) (firstn k draws)).
Proof.
  intros N O T. induction k as [|k IH]; intros draws L.
  - exists true. split; [reflexivity|]. split; [|reflexivity]. constructor.
  - destruct draws as [|a draws]; [cbn in L; lia|]. cbn [trials firstn]. destruct (Z.ltb_spec 2 (num - 1)); [|lia].
    destruct (trial_ok num s t a ltac:(lia) O T) as (b & -> & B). cbn [bind]. destruct b.
    + destruct (IH draws ltac:(cbn in L; lia)) as (b' & -> & B'). exists b'. split; [reflexivity|]. rewrite B', Forall_cons_iff. tauto.
    + exists false. split; [reflexivity|]. rewrite Forall_cons_iff. split; [discriminate|]. intros (X & _). apply B in X. discriminate.
Qed.

Lemma rabin_ok num draws : 3 < num -> num mod 2 = 1 -> (5 <= length draws)%nat ->
  exists s t b, odd_part num s t /\ 0 < t /\ rabin_miller num draws = Ok b /\ (b = true <-> Forall (passes num s t) (firstn 5 draws)).
Proof.
  intros N O L. unfold rabin_miller.
  destruct (split_ok (Z.to_nat (Z.log2 (num - 1)) + 1) (num - 1) 0) as (k & s & -> & E & SO & K0 & S0).
  { split; [lia|]. pose proof (Z.log2_spec (num - 1) ltac:(lia)). pose proof (Z.log2_nonneg (num - 1)).
    replace (Z.of_nat (Z.to_nat (Z.log2 (num - 1)) + 1)) with (Z.succ (Z.log2 (num - 1))) by lia. lia. }
  assert (0 < k). { destruct (Z.eq_dec k 0) as [->|]; [|lia]. rewrite Z.pow_0_r in E. rewrite Z.mul_1_l in E. subst s. rewrite Zminus_mod, O in SO. discriminate. }
  cbn [bind]. rewrite Z.add_0_l. assert (OP : odd_part num s k) by (repeat split; auto).
  destruct (trials_ok num s k N OP ltac:(lia) 5 draws L) as (b & E1 & B). exists s, k, b. auto.
Qed.

Lemma odd_part_unique n s t s' t' : odd_part n s t -> odd_part n s' t' -> s = s' /\ t = t'.
Proof.
  assert (W : forall s t s' t', odd_part n s t -> odd_part n s' t' -> t <= t').
  { intros a b c d (E & A & B & C) (E' & A' & B' & C'). destruct (Z.le_gt_cases b d); [assumption|exfalso].
    rewrite E in E'. replace b with (d + (b - d)) in E' by lia. rewrite Z.pow_add_r, <- Z.mul_assoc in E' by lia.
    apply Z.mul_reg_l in E'; [|apply Z.pow_nonzero; lia]. replace (b - d) with (1 + (b - d - 1)) in E' by lia. rewrite Z.pow_add_r in E' by lia. change (2 ^ 1) with 2 in E'.
    rewrite <- E', <- Z.mul_assoc, Z.mul_comm, Z.mod_mul in A' by lia. discriminate. }
  intros A B. assert (t = t') as -> by (pose proof (W _ _ _ _ A B); pose proof (W _ _ _ _ B A); lia). split; [|reflexivity].
  destruct A as (E & _), B as (E' & _ & T & _). rewrite E in E'. apply Z.mul_reg_l in E'; [exact E'|apply Z.pow_nonzero; lia].
Qed.

(** Every base passes for a prime. *)
Lemma prime_passes n s t a : prime n -> odd_part n s t -> 0 < t -> ~ (n | a) -> passes n s t a.
Proof.
  intros P (E & SO & T0 & S0) T ND. pose proof (prime_ge_2 n P) as G2.
  assert (O : n mod 2 = 1).
  { replace n with (2 ^ (t - 1) * s * 2 + 1) by (replace t with (Z.succ (t - 1)) in E by lia; rewrite Z.pow_succ_r in E by lia; lia).
    rewrite Z.add_comm, Z.mod_add by lia. reflexivity. }
  assert (RP : rel_prime a n) by (apply rel_prime_sym, prime_rel_prime; assumption).
  pose proof (fermat n a P O RP) as F. rewrite E in F.
  assert (W : forall k, (Z.of_nat k <= t) -> a ^ (2 ^ Z.of_nat k * s) mod n = 1 -> a ^ s mod n = 1 \/ exists r, 0 <= r < Z.of_nat k /\ a ^ (2 ^ r * s) mod n = n - 1).
  { induction k as [|k IH]; intros L X; [left; now rewrite Z.pow_0_r, Z.mul_1_l in X|].
    assert (SQ : a ^ (2 ^ Z.of_nat (S k) * s) = a ^ (2 ^ Z.of_nat k * s) * a ^ (2 ^ Z.of_nat k * s)).
    { rewrite <- Z.pow_add_r by (apply Z.mul_nonneg_nonneg; [apply Z.pow_nonneg|]; lia). f_equal. rewrite Nat2Z.inj_succ, Z.pow_succ_r by lia. ring. }
    rewrite SQ in X. set (v := a ^ (2 ^ Z.of_nat k * s)) in *.
    assert (D : (n | (v - 1) * (v + 1))).
    { apply Z.mod_divide; [lia|]. replace ((v - 1) * (v + 1)) with (v * v - 1) by ring. rewrite Zminus_mod, X, (Z.mod_small 1) by lia. reflexivity. }
    apply prime_mult in D as [D|D]; [| |exact P].
    - destruct IH as [A|(r & R & A)]; [lia| |now left|right; exists r; split; [lia|exact A]].
      fold v. destruct D as (q & D). replace v with (1 + q * n) by lia. rewrite Z.mod_add by lia. apply Z.mod_small. lia.
    - right. exists (Z.of_nat k). split; [lia|]. fold v. destruct D as (q & D). replace v with (n - 1 + (q - 1) * n) by lia. rewrite Z.mod_add by lia. apply Z.mod_small. lia. }
  destruct (W (Z.to_nat t)) as [A|(r & R & A)]; [lia|rewrite Z2Nat.id by lia; exact F|now left|right; exists r; split; [lia|exact A]].
Qed.

(** A base sharing a factor with the number fails. *)
Lemma factor_fails n s t a : 2 < n -> odd_part n s t -> 1 < Z.gcd a n -> ~ passes n s t a.
Proof.
  intros N (E & SO & T0 & S0) G. set (g := Z.gcd a n) in *. assert (GA : (g | a)) by apply Z.gcd_divide_l. assert (GN : (g | n)) by apply Z.gcd_divide_r.
  assert (PD : forall e, 0 < e -> (g | a ^ e)). { intros e P. replace e with (1 + (e - 1)) by lia. rewrite Z.pow_add_r, Z.pow_1_r by lia. now apply Z.divide_mul_l. }
  assert (K : forall e c, 0 < e -> a ^ e mod n = c -> (g | c)).
  { intros e c P <-. rewrite Z.mod_eq by lia. apply Z.divide_sub_r; [now apply PD|]. now apply Z.divide_mul_l. }
  intros [X|(r & R & X)].
  - apply K in X; [|lia]. apply Z.divide_1_r_nonneg in X; lia.
  - apply K in X; [|apply Z.mul_pos_pos; [apply Z.pow_pos_nonneg|]; lia].
    assert ((g | 1)) as Y by (replace 1 with (n - (n - 1)) by lia; now apply Z.divide_sub_r). apply Z.divide_1_r_nonneg in Y; lia.
Qed.

(** * At most half of the bases pass for a composite *)
Lemma mod_eq_div n a b : 0 < n -> (a mod n = b mod n <-> (n | a - b)).
Proof.
  intros N. split.
  - intros E. apply Z.mod_divide; [lia|]. rewrite Zminus_mod, E, Z.sub_diag. reflexivity.
  - intros (q & E). replace a with (b + q * n) by lia. now rewrite Z.mod_add by lia.
Qed.
Lemma pow_mod n a b e : 0 < n -> a mod n = b mod n -> a ^ e mod n = b ^ e mod n.
Proof. intros N E. rewrite (Zpower_mod a), (Zpower_mod b), E by lia. reflexivity. Qed.
Lemma minus_one n : 1 < n -> (-1) mod n = n - 1.
Proof. intros N. symmetry. apply (Z.mod_unique_pos _ _ (-1)); lia. Qed.
Definition pm1 (n a : Z) : Prop := a mod n = 1 mod n \/ a mod n = (-1) mod n.


Lemma pow_square n a s r j : 1 < n -> 0 <= s -> 0 <= r < j -> a ^ (2 ^ r * s) mod n = n - 1 -> a ^ (2 ^ j * s) mod n = 1.
Proof.
  intros N S0 R X. assert (Q : 2 ^ j * s = (2 ^ r * s) * 2 * 2 ^ (j - r - 1)).
  { replace j with (r + 1 + (j - r - 1)) at 1 by lia. rewrite !Z.pow_add_r by lia. change (2 ^ 1) with 2. ring. }
  pose proof (Z.pow_nonneg 2 r ltac:(lia)). rewrite Q. rewrite Z.pow_mul_r by (try apply Z.pow_nonneg; lia). rewrite Z.pow_mul_r by lia.
  rewrite (pow_mod n _ (1 ^ 2)); [rewrite <- Z.pow_mul_r by (try apply Z.pow_nonneg; lia); rewrite Z.pow_1_l by (apply Z.mul_nonneg_nonneg; [|apply Z.pow_nonneg]; lia); apply Z.mod_small; lia|lia|].
  rewrite (pow_mod n _ (-1)); [reflexivity|lia|]. rewrite X. symmetry. apply minus_one. lia.
Qed.

Lemma passes_fermat n s t a : 1 < n -> odd_part n s t -> passes n s t a -> a ^ (n - 1) mod n = 1.
Proof.
  intros N (E & _ & T0 & S0) [X|(r & R & X)]; rewrite E.
  - rewrite Z.mul_comm, Z.pow_mul_r by (try apply Z.pow_nonneg; lia). rewrite (pow_mod n _ 1) by (rewrite ?(Z.mod_small 1); lia). rewrite Z.pow_1_l by (apply Z.pow_nonneg; lia). apply Z.mod_small. lia.
  - eapply pow_square; eauto; lia.
Qed.


(** The largest j for which some power 2^j s is -1. *)
Lemma root_dec n e : 0 < n -> {exists x, x ^ e mod n = n - 1} + {~ exists x, x ^ e mod n = n - 1}.
Proof.
  intros N. destruct (existsb (fun x => x ^ e mod n =? n - 1) (map Z.of_nat (seq 0 (Z.to_nat n)))) eqn:X.
  - left. apply existsb_exists in X as (x & _ & X). exists x. lia.
  - right. intros (x & Q). assert (C : existsb (fun x => x ^ e mod n =? n - 1) (map Z.of_nat (seq 0 (Z.to_nat n))) = true); [|congruence].
    pose proof (Z.mod_pos_bound x n N). apply existsb_exists. exists (x mod n). split; [apply in_map_iff; exists (Z.to_nat (x mod n)); split; [lia|apply in_seq; lia]|].
    apply Z.eqb_eq. rewrite <- Q. apply pow_mod; [lia|]. apply Z.mod_mod. lia.
Qed.
Lemma max_root n s : 1 < n -> s mod 2 = 1 -> 0 < s -> forall k : nat, exists j x, 0 <= j <= Z.of_nat k /\ x ^ (2 ^ j * s) mod n = n - 1 /\
  forall r, 0 <= r <= Z.of_nat k -> (exists x, x ^ (2 ^ r * s) mod n = n - 1) -> r <= j.
Proof.
  intros N SO S0. induction k as [|k (j & x & J & X & M)].
  - exists 0, (-1). split; [lia|]. split; [|intros; lia]. rewrite Z.pow_0_r, Z.mul_1_l.
    assert (D0 : 0 <= s / 2) by (apply Z.div_pos; lia). rewrite (Z.div_mod s 2) by lia. rewrite SO, Z.pow_add_r, Z.pow_mul_r by lia. change ((-1) ^ 2) with 1. rewrite Z.pow_1_l by lia. apply minus_one. lia.
  - destruct (root_dec n (2 ^ Z.of_nat (S k) * s) ltac:(lia)) as [Y|NY].
    + destruct Y as (y & Y). exists (Z.of_nat (S k)), y. split; [lia|]. split; [exact Y|]. intros; lia.
    + exists j, x. split; [lia|]. split; [exact X|]. intros r R Q. destruct (Z.eq_dec r (Z.of_nat (S k))) as [->|]; [contradiction|]. apply M; [lia|exact Q].
Qed.


(** * is_prime *)
Lemma in_small num : existsb (Z.eqb num) small_primes = true <-> prime num /\ num < 1000.
Proof. rewrite existsb_exists, <- small_iff. split; [intros (x & I & E); apply Z.eqb_eq in E; now subst|intros I; exists num; split; [exact I|apply Z.eqb_refl]]. Qed.
Lemma small_factor num : 2 <= num -> existsb (fun p => num mod p =? 0) small_primes = true <-> exists p, prime p /\ p < 1000 /\ (p | num).
Proof.
  intros N. rewrite existsb_exists. split.
  - intros (p & I & E). pose proof (small_lt p I). apply small_iff in I as (P & L). exists p. split; [exact P|]. split; [exact L|]. apply Z.mod_divide; lia.
  - intros (p & P & L & D). exists p. split; [now apply small_iff|]. apply Z.eqb_eq. apply Z.mod_divide; [pose proof (prime_ge_2 p P); lia|exact D].
Qed.
Lemma no_small_big num : 2 <= num -> (forall p, prime p -> p < 1000 -> ~ (p | num)) -> 1009 <= num /\ num mod 2 = 1 /\
  (num < 1009 * 1009 -> prime num).
Proof.
  intros N NS.
  assert (BIG : forall d, 2 <= d -> (d | num) -> 1009 <= d).
  { intros d D DV. destruct (Z.le_gt_cases 1009 d); [assumption|]. destruct (small_cover d ltac:(lia)) as (p & I & PD). apply small_iff in I as (P & L).
    exfalso. apply (NS p P L). eapply Z.divide_trans; eauto. }
  split; [apply BIG; [lia|apply Z.divide_refl]|]. split.
  - pose proof (Z.mod_pos_bound num 2 ltac:(lia)). destruct (Z.eq_dec (num mod 2) 0) as [E|]; [|lia]. apply Z.mod_divide in E; [|lia]. apply BIG in E; lia.
  - intros LT. destruct (prime_dec num) as [P|NP]; [exact P|exfalso]. destruct (prime_div_exists num ltac:(lia) NP) as (d & PD & (m & E) & DL).
    pose proof (prime_ge_2 d PD). assert (1009 <= d) by (apply BIG; [lia|exists m; exact E]).
    assert (1009 <= m) by (apply BIG; [nia|exists d; lia]). nia.
Qed.

(** What a strong probable prime is, in the words of the textbook. *)
Definition strong_probable_prime (n a : Z) : Prop :=
  exists s t, n - 1 = 2 ^ t * s /\ Z.odd s = true /\ 0 <= t /\
  (a ^ s mod n = 1 \/ exists r, 0 <= r < t /\ a ^ (2 ^ r * s) mod n = n - 1).
Lemma passes_spp n s t a : 2 < n -> odd_part n s t -> (passes n s t a <-> strong_probable_prime n a).
Proof.
  intros N OP. pose proof OP as (E & SO & T0 & S0). split.
  - intros P. exists s, t. repeat split; auto. rewrite Zodd_mod, SO. reflexivity.
  - intros (s' & t' & E' & SO' & T' & P). assert (OP' : odd_part n s' t').
    { rewrite Zodd_mod in SO'. apply Zeq_bool_eq in SO'. repeat split; auto. pose proof (Z.pow_nonneg 2 t' ltac:(lia)). nia. }
    destruct (odd_part_unique _ _ _ _ _ OP OP') as (-> & ->). exact P.
Qed.

Lemma is_prime_spec num draws : (5 <= length draws)%nat ->
  exists b, is_prime num draws = Ok b /\
  (b = true <-> (prime num /\ num < 1000) \/
     (2 <= num /\ (forall p, prime p -> p < 1000 -> ~ (p | num)) /\ Forall (strong_probable_prime num) (firstn 5 draws))).
Proof.
  intros L. unfold is_prime. destruct (Z.ltb_spec num 2).
  { exists false. split; [reflexivity|]. split; [discriminate|]. intros [(P & _)|(X & _)]; [pose proof (prime_ge_2 num P)|]; lia. }
  destruct (existsb (Z.eqb num) small_primes) eqn:E1.
  { exists true. split; [reflexivity|]. split; [|reflexivity]. intros _. left. now apply in_small. }
  destruct (existsb (fun p => num mod p =? 0) small_primes) eqn:E2.
  { exists false. split; [reflexivity|]. split; [discriminate|]. apply small_factor in E2 as (p & P & PL & D); [|lia]. intros [X|(_ & X & _)].
    - apply in_small in X. congruence.
    - exfalso. now apply (X p). }
  assert (NS : forall p, prime p -> p < 1000 -> ~ (p | num)).
  { intros p P PL D. assert (existsb (fun p => num mod p =? 0) small_primes = true) by (apply small_factor; [lia|eauto]). congruence. }
  destruct (no_small_big num ltac:(lia) NS) as (B & O & _).
  destruct (rabin_ok num draws ltac:(lia) O L) as (s & t & b & OP & T & R & RB). exists b. split; [exact R|]. rewrite RB.
  assert (EQ : Forall (passes num s t) (firstn 5 draws) <-> Forall (strong_probable_prime num) (firstn 5 draws)).
  { split; apply Forall_impl; intros a; apply passes_spp; auto; lia. }
  rewrite EQ. split.
  - intros F. right. auto.
  - intros [X|(_ & _ & F)]; [apply in_small in X; congruence|exact F].
Qed.

Lemma is_prime_complete num draws : (5 <= length draws)%nat -> Forall (fun a => 2 <= a <= num - 2) (firstn 5 draws) \/ num < 1000 -> prime num -> is_prime num draws = Ok true.
Proof.
  intros L F P. destruct (is_prime_spec num draws L) as (b & E & B). rewrite E. f_equal. apply B.
  destruct (Z.le_gt_cases 1000 num) as [G|]; [|left; auto]. right. destruct F as [F|]; [|lia]. split; [lia|].
  assert (NS : forall p, prime p -> p < 1000 -> ~ (p | num)).
  { intros p PP PL D. apply prime_divisors in D; [|exact P]. pose proof (prime_ge_2 p PP). lia. }
  split; [exact NS|]. destruct (no_small_big num ltac:(lia) NS) as (Big & O & _).
  destruct (rabin_ok num draws ltac:(lia) O L) as (s & t & b' & OP & T & _).
  eapply Forall_impl; [|exact F]. cbn. intros a A. apply (passes_spp num s t); [lia|exact OP|]. apply prime_passes; auto.
  intros D. apply Z.divide_pos_le in D; lia.
Qed.

(** * Counting the draws that let a composite through *)
Fixpoint tuples (k : nat) (l : list Z) : list (list Z) :=
  match k with O => [[]] | S k' => flat_map (fun a => map (cons a) (tuples k' l)) l end.
Lemma tuples_length k l : length (tuples k l) = (length l ^ k)%nat.
Proof.
  induction k as [|k IH]; [reflexivity|]. cbn [tuples Nat.pow]. rewrite <- IH. generalize (tuples k l). intros q. clear IH.
  induction l as [|a l IH]; cbn [flat_map length]; [reflexivity|]. rewrite app_length, map_length, IH. lia.
Qed.
Lemma tuples_in k l : forall d, length d = k -> (forall a, In a d -> In a l) -> In d (tuples k l).
Proof.
  induction k as [|k IH]; intros d L I; [destruct d; [now left|discriminate]|]. destruct d as [|a d]; [discriminate|]. cbn [tuples].
  apply in_flat_map. exists a. split; [apply I; now left|]. apply in_map. apply IH; [now injection L|]. intros; apply I; now right.
Qed.


(** * The exponentiation benchmark *)
Lemma to_53_small t : 0 <= t < 2 ^ 53 -> to_53_bits t = t.
Proof.
  intros T. unfold to_53_bits. destruct (Z.leb_spec (Z.log2 t - 52) 0); [reflexivity|exfalso].
  assert (Z.log2 t < 53); [|lia]. destruct (Z.eq_dec t 0) as [->|]; [reflexivity|]. apply Z.log2_lt_pow2; lia.
Qed.
Lemma to_53_pow2 t k : 0 < t < 2 ^ k -> 0 <= k -> to_53_bits t <= 2 ^ k.
Proof.
  intros T K. unfold to_53_bits. destruct (Z.leb_spec (Z.log2 t - 52) 0); [lia|]. set (e := Z.log2 t - 52) in *.
  assert (LK : Z.log2 t < k) by (apply Z.log2_lt_pow2; lia). pose proof (Z.pow_pos_nonneg 2 e ltac:(lia) ltac:(lia)).
  assert (QB : t / 2 ^ e < 2 ^ (k - e)). { apply Z.div_lt_upper_bound; [lia|]. rewrite <- Z.pow_add_r by lia. now replace (e + (k - e)) with k by lia. }
  replace (2 ^ k) with (2 ^ (k - e) * 2 ^ e) by (rewrite <- Z.pow_add_r by lia; f_equal; lia).
  apply Z.mul_le_mono_nonneg_r; [lia|]. destruct (_ || _); lia.
Qed.
Lemma float_half_small t : 0 <= t < 2 ^ 53 -> float_half t = Ok (t / 2).
Proof.
  intros T. unfold float_half. rewrite to_53_small by exact T. destruct (Z.leb_spec (2 ^ 1025) t); [exfalso|reflexivity].
  pose proof (Z.pow_lt_mono_r 2 53 1025 ltac:(lia) ltac:(lia) ltac:(lia)). lia.
Qed.
Lemma py_loop fuel : forall x t p r, 0 <= t < 2 ^ 53 -> t < 2 ^ Z.of_nat fuel -> 1 < p -> 0 <= r < p ->
  py_modpow_loop (S fuel) x t p r = Ok ((r * x ^ t) mod p).
Proof.
  induction fuel as [|fuel IH]; intros x t p r T F P R.
  - change (2 ^ Z.of_nat 0) with 1 in F. assert (t = 0) as -> by lia. cbn [py_modpow_loop]. change (0 <? 0) with false. cbv iota.
    rewrite Z.pow_0_r, Z.mul_1_r, Z.mod_small by lia. reflexivity.
  - change (py_modpow_loop (S (S fuel)) x t p r) with
      (if 0 <? t then let* t' := float_half t in py_modpow_loop (S fuel) (x * x mod p) t' p (if Z.land t 1 =? 1 then r * x mod p else r) else Ok r).
    destruct (Z.ltb_spec 0 t) as [C|C].
    + rewrite float_half_small by exact T. cbn [bind]. change 1 with (Z.ones 1) at 1. rewrite Z.land_ones by lia. change (2 ^ 1) with 2.
      assert (ET : t = 2 * (t / 2) + t mod 2) by (apply Z.div_mod; lia). pose proof (Z.mod_pos_bound t 2 ltac:(lia)).
      rewrite Nat2Z.inj_succ, Z.pow_succ_r in F by lia. assert (Q0 : 0 <= t / 2) by (apply Z.div_pos; lia).
      assert (PW : (x * x mod p) ^ (t / 2) mod p = x ^ (2 * (t / 2)) mod p) by (rewrite <- Zpower_mod by lia; rewrite <- Z.pow_2_r, <- Z.pow_mul_r by lia; reflexivity).
      rewrite IH; [|lia|lia|lia|destruct (_ =? _); [apply Z.mod_pos_bound; lia|lia]].
      f_equal. rewrite <- Zmult_mod_idemp_r, PW, Zmult_mod_idemp_r. destruct (Z.eqb_spec (t mod 2) 1) as [E|E].
      * rewrite Zmult_mod_idemp_l. f_equal. rewrite ET at 2. rewrite E, Z.pow_add_r, Z.pow_1_r by lia. ring.
      * do 2 f_equal. f_equal. lia.
    + assert (t = 0) as -> by lia. rewrite Z.pow_0_r, Z.mul_1_r, Z.mod_small by lia. reflexivity.
Qed.
Theorem py_modpow_small x t p : 0 <= t < 2 ^ 53 -> 1 < p -> py_modpow x t p = Ok (x ^ t mod p).
Proof.
  intros T P. unfold py_modpow. replace (Z.to_nat (Z.log2 t) + 3)%nat with (S (Z.to_nat (Z.log2 t) + 2)) by lia.
  rewrite py_loop; [now rewrite Z.mul_1_l|exact T| |exact P|lia].
  destruct (Z.eq_dec t 0) as [->|]; [apply Z.pow_pos_nonneg; lia|]. pose proof (Z.log2_spec t ltac:(lia)). pose proof (Z.log2_nonneg t).
  eapply Z.lt_le_trans; [apply (proj2 H)|]. apply Z.pow_le_mono_r; lia.
Qed.
Lemma to_53_ge t k : 0 <= k -> 2 ^ k <= t -> 2 ^ k <= to_53_bits t.
Proof.
  intros K T. unfold to_53_bits. destruct (Z.leb_spec (Z.log2 t - 52) 0); [exact T|]. set (e := Z.log2 t - 52) in *.
  pose proof (Z.pow_pos_nonneg 2 e ltac:(lia) ltac:(lia)) as EP. pose proof (Z.pow_pos_nonneg 2 k ltac:(lia) ltac:(lia)) as KP.
  assert (Q : 2 ^ k <= t / 2 ^ e * 2 ^ e).
  { assert (L : 2 ^ Z.log2 t <= t) by (apply Z.log2_spec; lia). assert (KL : 2 ^ k <= 2 ^ Z.log2 t) by (apply Z.pow_le_mono_r; [lia|]; apply Z.log2_le_pow2; lia).
    assert (D : 2 ^ 52 <= t / 2 ^ e). { apply Z.div_le_lower_bound; [lia|]. rewrite <- Z.pow_add_r by lia. now replace (e + 52) with (Z.log2 t) by lia. }
    assert (2 ^ Z.log2 t = 2 ^ 52 * 2 ^ e) by (rewrite <- Z.pow_add_r by lia; f_equal; lia). nia. }
  destruct (_ || _); nia.
Qed.
Lemma to_53_le t k : 0 <= k -> 0 < t <= 2 ^ k -> to_53_bits t <= 2 ^ k.
Proof.
  intros K T. destruct (Z.eq_dec t (2 ^ k)) as [->|]; [|apply to_53_pow2; lia]. unfold to_53_bits. rewrite Z.log2_pow2 by lia.
  destruct (Z.leb_spec (k - 52) 0); [lia|]. set (e := k - 52). pose proof (Z.pow_pos_nonneg 2 e ltac:(lia) ltac:(lia)) as EP.
  replace (2 ^ k) with (2 ^ 52 * 2 ^ e) by (rewrite <- Z.pow_add_r by lia; f_equal; lia). rewrite Z.mod_mul, Z.div_mul by lia.
  pose proof (Z.pow_pos_nonneg 2 (e - 1) ltac:(lia) ltac:(lia)). destruct (Z.ltb_spec (2 ^ (e - 1)) 0); [lia|]. destruct (Z.eqb_spec 0 (2 ^ (e - 1))); [lia|]. reflexivity.
Qed.
Lemma to_53_nonneg t : 0 <= t -> 0 <= to_53_bits t.
Proof. intros T. destruct (Z.eq_dec t 0) as [->|]; [reflexivity|]. pose proof (to_53_ge t 0 ltac:(lia) ltac:(cbn; lia)). cbn in H. lia. Qed.
Lemma py_loop_ends fuel : forall x t p r j, 0 <= t <= 2 ^ j -> 0 <= j < 1025 -> j + 2 <= Z.of_nat fuel -> exists v, py_modpow_loop fuel x t p r = Ok v.
Proof.
  induction fuel as [|fuel IH]; intros x t p r j T J F; [lia|]. cbn [py_modpow_loop]. destruct (Z.ltb_spec 0 t); [|eauto].
  unfold float_half. pose proof (to_53_le t j ltac:(lia) ltac:(lia)) as UB. pose proof (to_53_nonneg t ltac:(lia)).
  pose proof (Z.pow_lt_mono_r 2 j 1025 ltac:(lia) ltac:(lia) ltac:(lia)). destruct (Z.leb_spec (2 ^ 1025) (to_53_bits t)); [lia|]. cbn [bind].
  destruct (Z.eq_dec j 0) as [->|J0].
  - rewrite Z.pow_0_r in *. assert (t = 1) as -> by lia. destruct fuel; [lia|]. change (to_53_bits 1 / 2) with 0. cbn [py_modpow_loop]. change (0 <? 0) with false. cbv iota. eauto.
  - apply (IH _ _ _ _ (j - 1)); [|lia|lia]. split; [apply Z.div_pos; lia|]. apply Z.div_le_upper_bound; [lia|]. rewrite <- Z.pow_succ_r by lia. now replace (Z.succ (j - 1)) with j by lia.
Qed.
Theorem py_modpow_overflow x t p : 0 <= t -> (2 ^ 1025 <= t -> py_modpow x t p = Panic) /\ (t <= 2 ^ 1024 -> exists v, py_modpow x t p = Ok v).
Proof.
  intros T0. split; intros T.
  - unfold py_modpow. replace (Z.to_nat (Z.log2 t) + 3)%nat with (S (Z.to_nat (Z.log2 t) + 2)) by lia. cbn [py_modpow_loop].
    assert (0 < 2 ^ 1025) by (apply Z.pow_pos_nonneg; lia). destruct (Z.ltb_spec 0 t); [|lia].
    unfold float_half. pose proof (to_53_ge t 1025 ltac:(lia) T). destruct (Z.leb_spec (2 ^ 1025) (to_53_bits t)); [reflexivity|lia].
  - unfold py_modpow. destruct (Z.eq_dec t 0) as [->|]; [eexists; reflexivity|]. destruct (Z.eq_dec t (2 ^ 1024)) as [->|].
    + rewrite Z.log2_pow2 by lia. apply (py_loop_ends _ _ _ _ _ 1024); lia.
    + pose proof (Z.log2_spec t ltac:(lia)). pose proof (Z.log2_nonneg t). assert (Z.log2 t < 1024) by (apply Z.log2_lt_pow2; lia).
      apply (py_loop_ends _ _ _ _ _ (Z.log2 t + 1)); lia.
Qed.
