(** Properties C01-C09: the delay function and the unit arithmetic.
    Each theorem is closed by a lemma proved elsewhere; the Examples show that the
    hypotheses are met by concrete, non-trivial cases. *)
From Verif Require Import Base Legendre LegendreSpec Sloth SlothFacts Common BytesFacts VdeFacts CommonFacts SealZero Primes ParamFacts SealWitness.
From Coq Require Import Znumtheory Strings.String.
From Coq Require Import List.
Local Open Scope Z_scope.

(** C01: with enough fuel the recursion always delivers a value, for all integers. *)
Theorem C01_legendre_terminates : forall x p : Z,
  exists bound v, forall fuel, (bound <= fuel)%nat -> legendre_fuel fuel x p = Some v.
Proof. exact legendre_terminates_all. Qed.
Print Assumptions C01_legendre_terminates.
Theorem C01_fuel_never_exhausted : forall x p : Z,
  exists v, legendre_fuel (legendre_depth x p) x p = Some v /\ legendre x p = v.
Proof. exact LegendreFacts.legendre_terminates. Qed.
Print Assumptions C01_fuel_never_exhausted.
Example C01_ex : legendre 1000003 P_256 = -1 /\ legendre (-17) 23 = 0.
Proof. vm_compute. split; reflexivity. Qed.

(** C02 *)
Theorem C02_legendre_is_the_symbol : forall x p : Z, prime p -> p <> 2 -> 0 <= x -> legendre_symbol x p (legendre x p).
Proof. exact legendre_correct. Qed.
Print Assumptions C02_legendre_is_the_symbol.
Example C02_ex : prime ex_key /\ ex_key <> 2 /\ legendre 5 ex_key = 1 /\ legendre (ex_key - 25) ex_key = -1 /\ legendre (2 * ex_key) ex_key = 0.
Proof. split; [apply ex_key_prime|]. split; [discriminate|]. vm_compute. repeat split. Qed.

(** C03 *)
Theorem C03_sloth_inverse : forall p, prime p -> p mod 4 = 3 -> forall (t : nat) x, 1 <= x <= p - 1 ->
  1 <= sloth x p t <= p - 1 /\ sloth_inv (sloth x p t) p t = x.
Proof. intros p P M t x X. split; [apply sloth_range|apply sloth_round_trip]; assumption. Qed.
Print Assumptions C03_sloth_inverse.
Theorem C03_sloth_surjective : forall p, prime p -> p mod 4 = 3 -> forall (t : nat) y, 1 <= y <= p - 1 ->
  1 <= sloth_inv y p t <= p - 1 /\ sloth (sloth_inv y p t) p t = y.
Proof. intros p P M t y Y. split; [apply sloth_inv_range|apply sloth_round_trip']; assumption. Qed.
Print Assumptions C03_sloth_surjective.
(** Rounds compose, and every input returns to itself after at most p - 1 rounds. *)
Theorem C03_rounds : forall p s t x, sloth x p (s + t) = sloth (sloth x p s) p t.
Proof. intros p s. induction s as [|s IH]; intros t x; [reflexivity|]. cbn [Nat.add sloth]. apply IH. Qed.
Print Assumptions C03_rounds.
Lemma repeats {A} (dec : forall a b : A, {a = b} + {a <> b}) (f : nat -> A) n : ~ NoDup (map f (seq 0 n)) -> exists i j, (i < j < n)%nat /\ f i = f j.
Proof.
  induction n as [|n IH]; [intros X; exfalso; apply X; constructor|]. intros ND. rewrite seq_S, map_app in ND. cbn [Nat.add map] in ND.
  destruct (in_dec dec (f n) (map f (seq 0 n))) as [I|I].
  - apply in_map_iff in I as (i & E & S). apply in_seq in S. exists i, n. split; [lia|exact E].
  - destruct (ListDec.NoDup_dec dec (map f (seq 0 n))) as [N|N].
    + exfalso. apply ND. apply NoDup_Add with (a := f n) (l := map f (seq 0 n)); [|split; assumption].
      pose proof (Add_app (f n) (map f (seq 0 n)) []) as A1. now rewrite app_nil_r in A1.
    + destruct (IH N) as (i & j & L & E). exists i, j. split; [lia|exact E].
Qed.
Theorem C03_cycle : forall p, prime p -> p mod 4 = 3 -> forall x, 1 <= x <= p - 1 ->
  exists r, (0 < r)%nat /\ Z.of_nat r <= p - 1 /\ forall t, sloth x p (r + t) = sloth x p t.
Proof.
  intros p P M x X. set (n := Z.to_nat (p - 1)). set (f := fun i => sloth x p i).
  assert (R : forall i, 1 <= f i <= p - 1) by (intros i; apply sloth_range; assumption).
  destruct (repeats Z.eq_dec f (S n)) as (i & j & L & E).
  { intros ND. assert (I : incl (map f (seq 0 (S n))) (map Z.of_nat (seq 1 n))).
    { intros y Y. apply in_map_iff in Y as (i & <- & _). apply in_map_iff. exists (Z.to_nat (f i)). specialize (R i). split; [lia|]. apply in_seq. lia. }
    apply NoDup_incl_length in I; [|exact ND]. rewrite !map_length, !seq_length in I. lia. }
  exists (j - i)%nat. split; [lia|]. split; [lia|]. intros t. unfold f. rewrite (C03_rounds p (j - i) t x). f_equal. change (f (j - i)%nat = x).
  transitivity (sloth_inv (f i) p i); [|now apply sloth_round_trip]. change (f (j - i)%nat = sloth_inv (f i) p i). rewrite E. unfold f. assert (J : j = ((j - i) + i)%nat) by lia. rewrite J at 2.
  rewrite (C03_rounds p (j - i) i x). symmetry. apply sloth_round_trip; auto.
Qed.
Print Assumptions C03_cycle.
Example C03_ex : prime P_256 /\ P_256 mod 4 = 3 /\ 1 <= 12345 <= P_256 - 1.
Proof. split; [apply P_256_prime|]. split; [reflexivity|]. unfold P_256. lia. Qed.
Example C03_run : sloth 12345 ex_key 10 <> 12345 /\ sloth_inv (sloth 12345 ex_key 10) ex_key 10 = 12345.
Proof. vm_compute. split; [discriminate|reflexivity]. Qed.

(** C04: the remaining residue 0. *)
Theorem C04_sloth_at_zero : forall p, prime p -> p mod 4 = 3 -> 7 <= p ->
  sloth 0 p 1 = -1 /\ sloth_inv (-1) p 1 = 4 /\
  (forall t, (2 <= t)%nat -> sloth_inv (sloth 0 p t) p t = p - 4) /\
  (forall t, (1 <= t)%nat -> sloth_inv (sloth 0 p t) p t <> 0).
Proof.
  intros p P M G. assert (Z1 : sloth 0 p 1 = -1) by now apply sloth_zero_1.
  assert (I1 : sloth_inv (-1) p 1 = 4) by now apply sloth_inv_m1.
  assert (G2 : forall t, (2 <= t)%nat -> sloth_inv (sloth 0 p t) p t = p - 4).
  { intros [|[|t]] T; try (exfalso; lia). now apply sloth_inv_zero_ge2. }
  repeat split; auto. intros [|[|t]] T; [lia| |].
  - rewrite Z1, I1. discriminate.
  - rewrite G2 by lia. lia.
Qed.
Print Assumptions C04_sloth_at_zero.
(** After the first round the result is back in the range and is that of another input. *)
Theorem C04_zero_collides : forall p t, prime p -> p mod 4 = 3 -> 7 <= p -> (2 <= t)%nat ->
  1 <= sloth 0 p t <= p - 1 /\ sloth (p - 4) p t = sloth 0 p t.
Proof.
  intros p t P M G T. destruct t as [|[|t]]; [lia|lia|]. assert (R : 1 <= sloth 0 p (S (S t)) <= p - 1) by (rewrite sloth_zero_ge2 by assumption; apply sloth_range; auto; lia).
  split; [exact R|]. rewrite <- (sloth_inv_zero_ge2 p P M t G). now apply sloth_round_trip'.
Qed.
Print Assumptions C04_zero_collides.
Theorem C04_vde_collides : forall p t, prime p -> p mod 4 = 3 -> 7 <= p -> t <> 0%nat ->
  forall mode mode' l x, p <= 256 ^ Z.of_nat l -> List.length x = l -> le2z x = (if (t =? 1)%nat then 4 else p - 4) ->
  x <> zeros l /\ vde x p t mode l = vde (zeros l) p t mode' l.
Proof.
  intros p t P M G T mode mode' l x L LX V. assert (B : 1 <= le2z x <= p - 1) by (rewrite V; destruct (t =? 1)%nat; lia). split.
  - intros ->. rewrite le2z_zeros in B. lia.
  - apply le2z_inj; [rewrite !vde_len; auto; rewrite ?le2z_zeros; lia|]. rewrite !vde_val, le2z_zeros, V. destruct (Nat.eqb_spec t 1) as [->|N].
    + rewrite sloth_zero_1 by assumption. rewrite <- (sloth_inv_1 p P M G). change (single_sloth_inv 1 p) with (sloth_inv 1 p 1). rewrite sloth_round_trip'; auto; lia.
    + f_equal. apply C04_zero_collides; auto. lia.
Qed.
Print Assumptions C04_vde_collides.
(** The same through the byte encoding, which drops the sign. *)
Theorem C04_vde_at_zero : forall p t, prime p -> p mod 4 = 3 -> 7 <= p -> t <> 0%nat ->
  forall mode mode' l, p <= 256 ^ Z.of_nat l ->
  le2z (vde_inv (vde (zeros l) p t mode l) p t mode' l) = 4 \/
  le2z (vde_inv (vde (zeros l) p t mode l) p t mode' l) = p - 4.
Proof.
  intros p t P M G T mode mode' l L. rewrite vde_inv_val, vde_val, le2z_zeros.
  destruct (inv_of_zero p t P M G T) as [-> | ->]; [left|right]; [reflexivity|]. apply Z.abs_eq. lia.
Qed.
Print Assumptions C04_vde_at_zero.
Example C04_ex : prime P_128 /\ P_128 mod 4 = 3 /\ 7 <= P_128 /\ P_128 <= 256 ^ Z.of_nat 16.
Proof. split; [apply P_128_prime|]. repeat split; discriminate. Qed.

(** C05 *)
Theorem C05_vde_round_trip : forall (x : list byte) p t mode mode' l, prime p -> p mod 4 = 3 ->
  p <= 256 ^ Z.of_nat l -> 0 < le2z x < p ->
  List.length (vde x p t mode l) = l /\
  List.length (vde_inv (vde x p t mode l) p t mode' l) = l /\
  le2z (vde_inv (vde x p t mode l) p t mode' l) = le2z x.
Proof. exact vde_round_trip. Qed.
Print Assumptions C05_vde_round_trip.
Theorem C05_vde_round_trip_bytes : forall (x : list byte) p t mode mode' l, prime p -> p mod 4 = 3 ->
  p <= 256 ^ Z.of_nat l -> 0 < le2z x < p -> List.length x = l ->
  vde_inv (vde x p t mode l) p t mode' l = x.
Proof. exact vde_inv_vde. Qed.
Print Assumptions C05_vde_round_trip_bytes.
Example C05_ex : prime ex_key /\ ex_key mod 4 = 3 /\ ex_key <= 256 ^ Z.of_nat 3 /\ 0 < le2z [x01; x07; x02] < ex_key.
Proof. split; [apply ex_key_prime|]. repeat split; try discriminate; reflexivity. Qed.

(** C06 *)
Theorem C06_same_forward : forall t x p, big_sloth x p t = sloth x p t.
Proof. exact big_sloth_eq. Qed.
Print Assumptions C06_same_forward.
Theorem C06_same_inverse : forall t y p, prime p -> p mod 2 = 1 -> 0 <= y < p -> big_sloth_inv y p t = sloth_inv y p t.
Proof. exact big_inv_eq. Qed.
Print Assumptions C06_same_inverse.
Theorem C06_chunked_round_trip : forall x p t l k, prime p -> p mod 4 = 3 -> p <= 256 ^ Z.of_nat l -> (0 < l)%nat ->
  List.length x = (k * l)%nat ->
  Forall (fun i => 0 < le2z (firstn l (skipn (i * l) x)) < p) (seq 0 k) ->
  exists y, big_vde x p t l = Ok y /\ List.length y = List.length x /\ big_vde_inv y p t l = Ok x.
Proof. intros x p t l k P M B L E F. apply (big_vde_round_trip x p t l k); auto. apply Forall_map. exact F. Qed.
Print Assumptions C06_chunked_round_trip.
(** The two inverses differ for a composite odd modulus. *)
Example C06_needs_prime : big_sloth_inv 4 9 1 = 0 /\ sloth_inv 4 9 1 = 9.
Proof. vm_compute. split; reflexivity. Qed.
Example C06_ex : (let* y := big_vde [x01; x07; x02; x05; x00; x00] ex_key 3 3 in big_vde_inv y ex_key 3 3) = Ok [x01; x07; x02; x05; x00; x00].
Proof. vm_compute. reflexivity. Qed.

(** C07 *)
Theorem C07_fast_modpow : forall x t p, 1 < p -> 0 <= x -> 0 <= t -> fast_modpow x t p = Some (x ^ t mod p).
Proof. exact fast_modpow_correct. Qed.
Print Assumptions C07_fast_modpow.
Example C07_ex : fast_modpow 7 100 P_64 = Some (7 ^ 100 mod P_64) /\ fast_modpow 5 0 9 = Some 1.
Proof. vm_compute. split; reflexivity. Qed.

(** C08: congruence and size of all six moduli; primality of the first four.
    Missing: primality of P_1024 and P_2048 (not used by the shipped parameter sets). *)
Theorem C08_moduli_partial :
  (forall p b, In (p, b) [(P_64, 64); (P_128, 128); (P_256, 256); (P_512, 512); (P_1024, 1024); (P_2048, 2048)] ->
     p mod 4 = 3 /\ 2 ^ (b - 1) <= p < 2 ^ b) /\
  prime P_64 /\ prime P_128 /\ prime P_256 /\ prime P_512.
Proof. exact moduli_partial. Qed.
Print Assumptions C08_moduli_partial.

(** C09 *)
Theorem C09_modadd_modsub : forall u h p, 1 < p -> p <= 256 ^ Z.of_nat (List.length u) -> le2z u < p -> le2z h < p ->
  exists a, modadd u h p = Ok a /\ List.length a = List.length u /\ modsub a h p = Ok u.
Proof.
  intros u h p P B U Hh. destruct (modadd_ok u h p P B) as (a & E & L & _). exists a. repeat split; auto.
  apply (modsub_modadd u h p a); auto. lia.
Qed.
Print Assumptions C09_modadd_modsub.
Theorem C09_modadd_panics_exactly : forall u h p, 0 < p ->
  (modadd u h p = Panic <-> 256 ^ Z.of_nat (List.length u) <= (le2z u + le2z h) mod p).
Proof. exact modadd_panics. Qed.
Print Assumptions C09_modadd_panics_exactly.
Example C09_ex : modadd [xff; x01; x00] [x05; x00; x10; x00] ex_key = Ok [x04; x02; x10] /\
  modsub [x04; x02; x10] [x05; x00; x10; x00] ex_key = Ok [xff; x01; x00] /\ modadd [xff] [xff] 1000 = Panic.
Proof. vm_compute. repeat split. Qed.
