(** Properties C76-C79: the Python scripts.  Vocabulary: [strong_probable_prime] from
    ScriptFacts, [prime] from the standard library. *)
From Coq Require Import Znumtheory.
From Verif Require Import Base Scripts NumTheory Primality ScriptFacts RabinMonier.
Local Open Scope Z_scope.

(** C76: the file comparison reports the two lengths, whether the files agree up to the
    length of the shorter one, and at how many positions they do not. *)
Theorem C76_compare : forall a b la lb right wrong, file_compare a b = (la, lb, right, wrong) ->
  la = Z.of_nat (length a) /\ lb = Z.of_nat (length b) /\
  (right = true <-> firstn (length b) a = firstn (length a) b) /\
  (wrong = 0 <-> right = true) /\
  exists positions, NoDup positions /\ wrong = Z.of_nat (length positions) /\
    forall i, In i positions <-> (i < length a /\ i < length b)%nat /\ nth i a x00 <> nth i b x00.
Proof.
  intros a b la lb right wrong E. unfold file_compare in E. rewrite compare_fold in E. injection E as <- <- <- <-.
  split; [reflexivity|]. split; [reflexivity|].
  set (m := Nat.min (length a) (length b)). set (eqat := fun i => Byte.eqb (nth i a x00) (nth i b x00)).
  assert (EQ : forall i, eqat i = true <-> nth i a x00 = nth i b x00) by (intros i; unfold eqat; split; [apply Byte.byte_dec_bl|intros ->; apply Byte.byte_dec_lb; reflexivity]).
  assert (R : forallb eqat (seq 0 m) = true <-> firstn (length b) a = firstn (length a) b).
  { rewrite forallb_forall. split.
    - intros X. apply (nth_ext _ _ x00 x00); [rewrite !firstn_length; lia|]. intros i I. rewrite firstn_length in I.
      assert (N1 : nth i (firstn (length b) a) x00 = nth i a x00) by (rewrite <- (firstn_skipn (length b) a) at 2; rewrite app_nth1; [reflexivity|rewrite firstn_length; lia]).
      assert (N2 : nth i (firstn (length a) b) x00 = nth i b x00) by (rewrite <- (firstn_skipn (length a) b) at 2; rewrite app_nth1; [reflexivity|rewrite firstn_length; lia]).
      rewrite N1, N2. apply EQ, X, in_seq. unfold m. lia.
    - intros X i I. apply in_seq in I. unfold m in I. apply EQ.
      assert (N1 : nth i (firstn (length b) a) x00 = nth i a x00) by (rewrite <- (firstn_skipn (length b) a) at 2; rewrite app_nth1; [reflexivity|rewrite firstn_length; lia]).
      assert (N2 : nth i (firstn (length a) b) x00 = nth i b x00) by (rewrite <- (firstn_skipn (length a) b) at 2; rewrite app_nth1; [reflexivity|rewrite firstn_length; lia]).
      congruence. }
  change (fun i : nat => negb (Byte.eqb (nth i a x00) (nth i b x00))) with (fun i : nat => negb (eqat i)).
  cbn [andb]. split; [exact R|]. split.
  - rewrite forallb_forall. split.
    + intros X i I. destruct (eqat i) eqn:Q; [reflexivity|exfalso]. assert (In i (filter (fun i => negb (eqat i)) (seq 0 m))) by (apply filter_In; split; [exact I|now rewrite Q]).
      destruct (filter _ _); [contradiction|]. cbn [length] in X. lia.
    + intros X. destruct (filter (fun i => negb (eqat i)) (seq 0 m)) as [|i l] eqn:F; [reflexivity|exfalso].
      assert (I : In i (filter (fun i => negb (eqat i)) (seq 0 m))) by (rewrite F; now left). apply filter_In in I as (I & Q). now rewrite (X i I) in Q.
  - exists (filter (fun i => negb (eqat i)) (seq 0 m)). split; [apply NoDup_filter, seq_NoDup|]. split; [reflexivity|].
    intros i. rewrite filter_In, in_seq. unfold m. destruct (eqat i) eqn:Q; cbn [negb].
    + apply EQ in Q. split; [intros (_ & X); discriminate|tauto].
    + assert (NE : nth i a x00 <> nth i b x00) by (intros X; apply EQ in X; congruence). split; [intros (X & _); split; [lia|exact NE]|intros (X & _); split; [lia|reflexivity]].
Qed.
Print Assumptions C76_compare.
Example C76_ex : file_compare [x01; x02; x03] [x01; x05] = (3, 2, false, 1). Proof. reflexivity. Qed.
(** "That's good" does not mean equal files: a file that lost its end passes. *)
Theorem C76_truncated_refuted : forall a k, file_compare a (firstn k a) = (Z.of_nat (length a), Z.of_nat (Nat.min k (length a)), true, 0).
Proof.
  intros a k. destruct (file_compare a (firstn k a)) as [[[la lb] r] w] eqn:E. destruct (C76_compare _ _ _ _ _ _ E) as (-> & -> & R & W & _).
  assert (r = true) as -> by (apply R; rewrite firstn_length, firstn_firstn; f_equal; lia).
  destruct W as (_ & W). rewrite (W eq_refl). now rewrite firstn_length.
Qed.
Print Assumptions C76_truncated_refuted.

(** C77: the primality test of prime.py.  [draws] are the bases randrange returns. *)
Theorem C77_verdict : forall num draws, (5 <= length draws)%nat ->
  exists b, is_prime num draws = Ok b /\
  (b = true <-> (prime num /\ num < 1000) \/
     (2 <= num /\ (forall p, prime p -> p < 1000 -> ~ (p | num)) /\ Forall (strong_probable_prime num) (firstn 5 draws))).
Proof. exact is_prime_spec. Qed.
Print Assumptions C77_verdict.
(** A prime is never rejected, whatever is drawn. *)
Theorem C77_primes_accepted : forall num draws, prime num -> (5 <= length draws)%nat -> Forall (fun a => 2 <= a <= num - 2) draws \/ num < 1000 ->
  is_prime num draws = Ok true.
Proof. intros num draws P L F. apply is_prime_complete; auto. destruct F as [F|]; [left|now right]. rewrite <- (firstn_skipn 5 draws) in F. now apply Forall_app in F. Qed.
Print Assumptions C77_primes_accepted.
(** Below 1009^2 the verdict is exact, whatever is drawn. *)
Theorem C77_exact_below : forall num draws, num < 1009 ^ 2 -> (5 <= length draws)%nat -> Forall (fun a => 2 <= a <= num - 2) draws \/ num < 1000 ->
  exists b, is_prime num draws = Ok b /\ (b = true <-> prime num).
Proof.
  intros num draws LT L F. destruct (is_prime_spec num draws L) as (b & E & B). exists b. split; [exact E|]. split.
  - intros Q. apply B in Q as [(P & _)|(N & NS & _)]; [exact P|]. apply (no_small_big num N NS). exact LT.
  - intros P. assert (X : is_prime num draws = Ok true) by now apply C77_primes_accepted. congruence.
Qed.
Print Assumptions C77_exact_below.
(** At most one in 4^5 ways to draw the five bases lets a composite through. *)
Theorem C77_error_bound : forall num accepted, 3 <= num -> ~ prime num -> NoDup accepted ->
  (forall d, In d accepted -> length d = 5%nat /\ Forall (fun a => 2 <= a <= num - 2) d /\ is_prime num d = Ok true) ->
  4 ^ 5 * Z.of_nat (length accepted) <= (num - 3) ^ 5.
Proof. exact accepted_draws_quarter. Qed.
Print Assumptions C77_error_bound.
(** Some draws do: the first number the previous theorem leaves open is not prime. *)
Theorem C77_composite_refuted : exists num draws, num = 1009 ^ 2 /\ length draws = 5%nat /\ Forall (fun a => 2 <= a <= num - 2) draws /\ is_prime num draws = Ok true /\ ~ prime num.
Proof.
  exists (1009 ^ 2), (repeat 990 5). split; [reflexivity|]. split; [reflexivity|].
  split; [cbn [repeat]; repeat constructor; cbn; lia|]. split; [vm_compute; reflexivity|].
  intros P. assert (D : (1009 | 1009 ^ 2)) by (exists 1009; reflexivity). apply prime_divisors in D; [|exact P]. cbn in D. lia.
Qed.
Print Assumptions C77_composite_refuted.
Example C77_ex : is_prime 1009 [2; 3; 4; 5; 6] = Ok true /\ is_prime (1009 * 1013) [2; 3; 4; 5; 6] = Ok false /\ is_prime 997 [0; 0; 0; 0; 0] = Ok true.
Proof. repeat split; vm_compute; reflexivity. Qed.

(** C78: the search for a modulus.  [rounds] are the candidates drawn, each with the
    bases of its test. *)
Theorem C78_modulus : forall key_size rounds num, 1 <= key_size ->
  (forall c d, In (c, d) rounds -> 2 ^ (key_size - 1) <= c < 2 ^ key_size /\ (5 <= length d)%nat) ->
  get_prime rounds = Ok (Some num) ->
  2 ^ (key_size - 1) <= num < 2 ^ key_size /\ num mod 4 = 3 /\
  (forall p, prime p -> p < 1000 -> (p | num) -> p = num) /\
  (key_size <= 19 -> prime num) /\
  exists before d after, rounds = before ++ (num, d) :: after /\
    forall c d, In (c, d) before -> c mod 4 = 3 -> Forall (fun a => 2 <= a <= c - 2) d \/ c < 1000 -> ~ prime c.
Proof.
  intros key_size rounds. induction rounds as [|(c, d) rounds IH]; intros num K R E; [discriminate|].
  cbn [get_prime] in E. destruct (R c d (or_introl eq_refl)) as (RC & LD). destruct (is_prime_spec c d LD) as (b & EB & B). rewrite EB in E. cbn [bind] in E.
  destruct (b && (c mod 4 =? 3)) eqn:Q.
  - injection E as <-. apply andb_true_iff in Q as (-> & M). apply Z.eqb_eq in M. split; [exact RC|]. split; [exact M|].
    pose proof (proj1 B eq_refl) as V. split; [|split].
    + intros p P PL D. destruct V as [(PC & _)|(_ & NS & _)]; [|exfalso; now apply (NS p)]. apply prime_divisors in D; [|exact PC]. pose proof (prime_ge_2 p P). pose proof (prime_ge_2 c PC). lia.
    + intros KS. destruct V as [(PC & _)|(N & NS & _)]; [exact PC|]. apply (no_small_big c N NS).
      assert (2 ^ key_size <= 2 ^ 19) by (apply Z.pow_le_mono_r; lia). cbn in H. lia.
    + exists [], d, rounds. split; [reflexivity|]. contradiction.
  - destruct (IH num K ltac:(intros; apply R; now right) E) as (A1 & A2 & A3 & A4 & before & d' & after & -> & NB).
    split; [exact A1|]. split; [exact A2|]. split; [exact A3|]. split; [exact A4|]. exists ((c, d) :: before), d', after. split; [reflexivity|].
    intros c' d'' [X|I] M F P; [|now apply (NB c' d'' I)]. injection X as <- <-.
    rewrite (C77_primes_accepted c d P LD F) in EB. injection EB as <-. rewrite M in Q. discriminate.
Qed.
Print Assumptions C78_modulus.
(** It stops at the latest at the first prime that is 3 modulo 4. *)
Theorem C78_terminates : forall before c d after, (forall c d, In (c, d) before -> (5 <= length d)%nat) -> prime c -> c mod 4 = 3 -> (5 <= length d)%nat -> Forall (fun a => 2 <= a <= c - 2) d \/ c < 1000 ->
  exists num, get_prime (before ++ (c, d) :: after) = Ok (Some num).
Proof.
  induction before as [|(c0, d0) before IH]; intros c d after LB P M L F; cbn [app get_prime].
  - rewrite (C77_primes_accepted c d P L F). cbn [bind]. rewrite M. cbn. eauto.
  - destruct (is_prime_spec c0 d0 (LB c0 d0 (or_introl eq_refl))) as (b & -> & _). cbn [bind]. destruct (b && _); [eauto|]. apply IH; auto. intros; eapply LB; right; eauto.
Qed.
Print Assumptions C78_terminates.
Example C78_ex : get_prime [(1013, [2; 3; 4; 5; 6]); (1019, [2; 3; 4; 5; 6]); (1021, [])] = Ok (Some 1019). Proof. vm_compute. reflexivity. Qed.

(** C79: the exponentiation of the benchmark is right for exponents below 2^53, raises
    an OverflowError for exponents of 2^1025 and more, and always ends up to 2^1024. *)
Theorem C79_modpow : forall x t p, 0 <= t < 2 ^ 53 -> 1 < p -> py_modpow x t p = Ok (x ^ t mod p).
Proof. exact py_modpow_small. Qed.
Print Assumptions C79_modpow.
Theorem C79_overflow : forall x t p, 0 <= t -> (2 ^ 1025 <= t -> py_modpow x t p = Panic) /\ (t <= 2 ^ 1024 -> exists v, py_modpow x t p = Ok v).
Proof. exact py_modpow_overflow. Qed.
Print Assumptions C79_overflow.
(** For the 64-bit modulus of the script and the exponent it uses, (p - 1) / 2, the
    result for the square 4 is not 1. *)
Theorem C79_wrong_refuted : exists p x v, p = 13758676365741467507 /\ x = 4 /\ py_modpow x ((p - 1) / 2) p = Ok v /\ v <> x ^ ((p - 1) / 2) mod p.
Proof.
  exists 13758676365741467507, 4, 3100011229723821875. split; [reflexivity|]. split; [reflexivity|]. split; [vm_compute; reflexivity|].
  rewrite <- Zpow_facts.Zpow_mod_correct by lia. vm_compute. discriminate.
Qed.
Print Assumptions C79_wrong_refuted.
Example C79_ex : py_modpow 3 200 1000 = Ok 1. Proof. vm_compute. reflexivity. Qed.
