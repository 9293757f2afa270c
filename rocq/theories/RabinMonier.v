(** At most one base in four passes the Miller-Rabin test of a composite number without
    prime factors below 5 (Rabin, Monier). *)
From Coq Require Import Znumtheory Zpow_facts.
From Verif Require Import Base Scripts NumTheory Euler Primality ScriptFacts.
Local Open Scope Z_scope.

Lemma nodup_app (l l' : list Z) : NoDup l -> NoDup l' -> (forall x, In x l -> ~ In x l') -> NoDup (l ++ l').
Proof.
  revert l'. induction l as [|x l IH]; intros l' N1 N2 D; [exact N2|]. inversion N1; subst. cbn. constructor.
  - rewrite in_app_iff. intros [I|I]; [contradiction|]. apply (D x); [now left|exact I].
  - apply IH; auto. intros z Z1. apply D. now right.
Qed.
Lemma mul_cancel n y y' : 1 < n -> (y * y') mod n = 1 -> forall x x', (x * y) mod n = (x' * y) mod n -> x mod n = x' mod n.
Proof.
  intros N INV x x' Q.
  assert (W : forall z, z mod n = ((z * y) mod n * y') mod n).
  { intros z. rewrite Zmult_mod_idemp_l. replace (z * y * y') with (z * (y * y')) by ring.
    rewrite <- Zmult_mod_idemp_r, INV, Z.mul_1_r. reflexivity. }
  rewrite (W x), (W x'), Q. reflexivity.
Qed.

(** The elements of L multiplied by each of the ys are all different. *)
Lemma coset_bound n (P : Z -> Prop) ys L : 1 < n -> (forall y, In y ys -> exists y', (y * y') mod n = 1) ->
  ForallOrdPairs (fun y z => forall a b, P a -> P b -> (a * y) mod n <> (b * z) mod n) ys ->
  NoDup L -> (forall a, In a L -> 1 <= a <= n - 1 /\ P a) -> Z.of_nat (length ys) * Z.of_nat (length L) <= n - 1.
Proof.
  intros N INV SEP ND PL. set (f := fun y => map (fun a => (a * y) mod n) L).
  assert (A : NoDup (flat_map f ys) /\ incl (flat_map f ys) (zrange (n - 1)) /\ length (flat_map f ys) = (length ys * length L)%nat).
  { revert INV. induction SEP as [|y ys FO SEP IH]; intros INV; [split; [constructor|]; split; [intros x []|reflexivity]|].
    destruct (IH ltac:(intros; apply INV; now right)) as (N1 & I1 & L1). destruct (INV y (or_introl eq_refl)) as (y' & IY).
    pose proof (mul_cancel n y y' N IY) as CAN. cbn [flat_map]. split; [|split].
    - apply nodup_app; [|exact N1|].
      + unfold f. clear -ND PL CAN. induction ND as [|a l NI _ IH]; cbn [map]; [constructor|]. constructor; [|apply IH; intros; apply PL; now right].
        intros I. apply in_map_iff in I as (b & Q & I). apply NI. apply CAN in Q.
        pose proof (PL a (or_introl eq_refl)) as (RA & _). pose proof (PL b (or_intror I)) as (RB & _). rewrite !Z.mod_small in Q by lia. now subst.
      + intros x I I'. apply in_map_iff in I as (a & <- & I). apply in_flat_map in I' as (z & IZ & I'). apply in_map_iff in I' as (b & Q & I').
        rewrite Forall_forall in FO. apply (FO z IZ a b); [now apply PL|now apply PL|now symmetry].
    - intros x I. apply in_app_iff in I as [I|I]; [|now apply I1]. apply in_map_iff in I as (a & <- & I). apply zrange_in.
      pose proof (Z.mod_pos_bound (a * y) n ltac:(lia)). destruct (Z.eq_dec ((a * y) mod n) 0) as [Q|]; [|lia]. exfalso.
      assert (a mod n = 0 mod n) as Q' by (apply CAN; rewrite Q; now rewrite Z.mod_0_l by lia). destruct (PL a I). rewrite Z.mod_0_l, Z.mod_small in Q'; lia.
    - rewrite app_length, L1. unfold f. rewrite map_length. cbn [length]. lia. }
  destruct A as (N1 & I1 & L1). pose proof (NoDup_incl_length N1 I1) as X. rewrite L1, zrange_length in X. lia.
Qed.

Definition quarter (n s t : Z) : Prop :=
  forall L, NoDup L -> (forall a, In a L -> 1 <= a <= n - 1 /\ passes n s t a) -> 4 * Z.of_nat (length L) <= n - 1.

(** * A square divides n *)
Lemma quarter_square n s t p m : prime p -> 5 <= p -> odd_part n s t -> n = p * m -> (p | m) -> 0 < m -> quarter n s t.
Proof.
  intros PP P5 OP EN (c & EC) MP L ND PL. assert (MN : m < n) by nia.
  assert (PW : forall k, 0 <= k -> (1 + m) ^ k mod n = (1 + k * m) mod n).
  { apply natlike_ind; [now rewrite Z.pow_0_r, Z.mul_0_l|]. intros k K IH. rewrite Z.pow_succ_r, <- Zmult_mod_idemp_r, IH, Zmult_mod_idemp_r by lia.
    apply mod_eq_div; [lia|]. exists (k * c). unfold Z.succ. rewrite EN. transitivity (k * m * m); [ring|]. rewrite EC at 2. ring. }
  apply (coset_bound n (passes n s t) [(1 + m) ^ 0; (1 + m) ^ 1; (1 + m) ^ 2; (1 + m) ^ 3] L); auto; [lia| |].
  - intros y I. assert (X : exists i, 0 <= i <= 3 /\ y = (1 + m) ^ i) by (cbn [In] in I; clear EC; destruct I as [<-|[<-|[<-|[<-|[]]]]]; [exists 0|exists 1|exists 2|exists 3]; (split; [lia|reflexivity])).
    destruct X as (i & I3 & ->). exists ((1 + m) ^ (n - i)). rewrite <- Z.pow_add_r by lia. replace (i + (n - i)) with n by lia. rewrite PW by lia.
    rewrite Z.mul_comm, Z.mod_add by lia. apply Z.mod_small. lia.
  - assert (SEP : forall i j a b, 0 <= i < j -> j <= 3 -> passes n s t a -> passes n s t b -> (a * (1 + m) ^ i) mod n <> (b * (1 + m) ^ j) mod n).
    { intros i j a b IJ J3 PA PB Q. apply passes_fermat in PA, PB; try assumption; try lia.
      apply (pow_mod n _ _ (n - 1)) in Q; [|lia]. rewrite !Z.pow_mul_l, <- !Z.pow_mul_r in Q by lia.
      rewrite <- (Zmult_mod_idemp_l (a ^ _)), <- (Zmult_mod_idemp_l (b ^ _)), PA, PB, !Z.mul_1_l in Q.
      rewrite (PW (i * (n - 1))), (PW (j * (n - 1))) in Q by (apply Z.mul_nonneg_nonneg; lia).
      apply mod_eq_div in Q; [|lia]. destruct Q as (q & Q).
      assert (Q' : (i - j) * (n - 1) = q * p). { apply (Z.mul_reg_r _ _ m); [lia|]. assert (QM : q * n = q * p * m) by (rewrite EN; ring). lia. }
      assert (D : (p | (i - j) * (n - 1))) by (exists q; exact Q').
      apply prime_mult in D as [D|D]; [replace (i - j) with (- (j - i)) in D by lia; apply (proj1 (Z.divide_opp_r _ _)) in D; apply Z.divide_pos_le in D; lia| |exact PP].
      apply (Z.divide_sub_r _ n) in D; [|exists m; lia]. replace (n - (n - 1)) with 1 in D by lia. apply Z.divide_pos_le in D; lia. }
    repeat constructor; intros a b; apply SEP; lia.
Qed.

(** * Coprime factors *)
Lemma sign_odd d x : 1 < d -> d mod 2 = 1 -> x = 2 \/ x = -2 -> ~ (d | x).
Proof.
  intros D O X Q. assert (Q2 : (d | 2)) by (destruct X as [->| ->]; [exact Q|exact (proj1 (Z.divide_opp_r d 2) Q)]).
  apply Z.divide_pos_le in Q2 as L; [|lia]. assert (d = 2) by lia. subst d. discriminate.
Qed.
Lemma mod_down n d x y : 0 < d -> 0 < n -> (d | n) -> x mod n = y mod n -> x mod d = y mod d.
Proof. intros D0 N0 D Q. apply mod_eq_div in Q; [|lia]. apply mod_eq_div; [lia|]. eapply Z.divide_trans; eauto. Qed.
(** y and z have powers of opposite sign modulo d1 and of the same sign modulo d2. *)
Lemma separated n e d1 d2 y z c a b : 1 < n -> 1 < d1 -> d1 mod 2 = 1 -> 1 < d2 -> d2 mod 2 = 1 -> (d1 | n) -> (d2 | n) ->
  y ^ e mod d1 = c mod d1 -> z ^ e mod d1 = (- c) mod d1 -> c = 1 \/ c = -1 -> y ^ e mod d2 = 1 mod d2 -> z ^ e mod d2 = 1 mod d2 ->
  pm1 n (a ^ e) -> pm1 n (b ^ e) -> (a * y) mod n <> (b * z) mod n.
Proof.
  intros N D1 O1 D2 O2 DN1 DN2 Y1 Z1 C Y2 Z2 PA PB Q. apply (pow_mod n _ _ e) in Q; [|lia]. rewrite !Z.pow_mul_l in Q.
  assert (SA : exists u, (u = 1 \/ u = -1) /\ a ^ e mod n = u mod n) by (destruct PA; [exists 1|exists (-1)]; auto).
  assert (SB : exists u, (u = 1 \/ u = -1) /\ b ^ e mod n = u mod n) by (destruct PB; [exists 1|exists (-1)]; auto).
  destruct SA as (u & U & A), SB as (v & V & B).
  assert (R : forall d cy cz, 1 < d -> (d | n) -> y ^ e mod d = cy mod d -> z ^ e mod d = cz mod d -> (d | u * cy - v * cz)).
  { intros d cy cz D DN CY CZ. apply mod_eq_div; [lia|]. apply (mod_down n d) in Q; [|lia|lia|exact DN].
    apply (mod_down n d) in A; [|lia|lia|exact DN]. apply (mod_down n d) in B; [|lia|lia|exact DN].
    rewrite (Zmult_mod (a ^ e)), (Zmult_mod (b ^ e)), A, B, CY, CZ, <- !Zmult_mod in Q. exact Q. }
  pose proof (R d2 1 1 D2 DN2 Y2 Z2) as R2. pose proof (R d1 c (- c) D1 DN1 Y1 Z1) as R1.
  assert (UV : u = v). { destruct (Z.eq_dec u v) as [|NE]; [assumption|]. exfalso. apply (sign_odd d2 (u * 1 - v * 1) D2 O2); [destruct U, V; subst; lia|exact R2]. }
  apply (sign_odd d1 (u * c - v * - c) D1 O1); [destruct U, C; subst; lia|exact R1].
Qed.

Lemma odd_factor n d : n mod 2 = 1 -> (d | n) -> d mod 2 = 1.
Proof.
  intros O (q & ->). rewrite Zmult_mod in O. pose proof (Z.mod_pos_bound d 2 ltac:(lia)). destruct (Z.eq_dec (d mod 2) 0) as [E|]; [|lia].
  rewrite E, Z.mul_0_r in O. discriminate.
Qed.
(** An exponent that sends every passing base to 1 or -1, and a number it sends to -1. *)
Lemma sign_exponent n s t : 3 < n -> odd_part n s t -> 0 < t ->
  exists e x, 0 < e /\ (exists k, n - 1 = 2 * e * k /\ 0 < k) /\ x ^ e mod n = (-1) mod n /\ forall a, passes n s t a -> pm1 n (a ^ e).
Proof.
  intros N OP T. pose proof OP as (E & SO & T0 & S0).
  destruct (max_root n s ltac:(lia) SO S0 (Z.to_nat (t - 1))) as (j & x & J & X & M). rewrite Z2Nat.id in * by lia.
  exists (2 ^ j * s), x. assert (EP : 0 < 2 ^ j) by (apply Z.pow_pos_nonneg; lia). split; [nia|]. split; [|split].
  - exists (2 ^ (t - 1 - j)). split; [|apply Z.pow_pos_nonneg; lia]. rewrite E. replace t with (1 + j + (t - 1 - j)) at 1 by lia. rewrite !Z.pow_add_r by lia. change (2 ^ 1) with 2. ring.
  - rewrite X. symmetry. apply minus_one. lia.
  - intros c [PC|(r & R & PC)].
    + left. rewrite Z.mul_comm, Z.pow_mul_r by lia. rewrite (pow_mod n _ 1) by (rewrite ?(Z.mod_small 1 n); lia). now rewrite Z.pow_1_l by lia.
    + assert (r <= j) by (apply M; [lia|eauto]). destruct (Z.eq_dec r j) as [->|].
      * right. rewrite PC. symmetry. apply minus_one. lia.
      * left. rewrite (pow_square n c s r j) by (auto; lia). symmetry. apply Z.mod_small. lia.
Qed.
(** Chinese remainders: x modulo a and 1 modulo b. *)
Lemma crt a b x x' : 1 < a -> 1 < b -> rel_prime a b -> exists y, y mod a = x mod a /\ y mod b = x' mod b.
Proof.
  intros A B RP. destruct (rel_prime_bezout _ _ RP) as [u v UV]. exists (x * (v * b) + x' * (u * a)). split; apply mod_eq_div; try lia.
  - exists (x' * u - x * u). replace (v * b) with (1 - u * a) by lia. ring.
  - exists (x * v - x' * v). replace (u * a) with (1 - v * b) by lia. ring.
Qed.
Lemma crt_one a b x : rel_prime a b -> 0 < a -> 0 < b -> x mod a = 1 mod a -> x mod b = 1 mod b -> x mod (a * b) = 1 mod (a * b).
Proof.
  intros RP A B QA QB. apply mod_eq_div in QA, QB; try lia. apply mod_eq_div; [nia|]. destruct QB as (q & Q). rewrite Q in QA |- *.
  rewrite Z.mul_comm in QA. apply Gauss in QA; [|exact RP]. destruct QA as (q' & ->). exists q'. ring.
Qed.

(** Three factors. *)
Lemma quarter_three n s t a b c : 3 < n -> n mod 2 = 1 -> odd_part n s t -> 0 < t -> n = a * b * c -> 1 < a -> 1 < b -> 1 < c ->
  rel_prime a b -> rel_prime a c -> rel_prime b c -> quarter n s t.
Proof.
  intros N O OP T EN A1 B1 C1 RAB RAC RBC L ND PL.
  destruct (sign_exponent n s t N OP T) as (e & x & EP & _ & XE & G).
  assert (DA : (a | n)) by (exists (b * c); lia). assert (DB : (b | n)) by (exists (a * c); lia). assert (DC : (c | n)) by (exists (a * b); lia).
  pose proof (odd_factor n a O DA) as OA. pose proof (odd_factor n b O DB) as OB. pose proof (odd_factor n c O DC) as OC.
  assert (RA : rel_prime a (b * c)) by now apply rel_prime_mult. assert (RB : rel_prime b (a * c)) by (apply rel_prime_mult; [apply rel_prime_sym|]; assumption).
  assert (RC : rel_prime c (a * b)) by (apply rel_prime_mult; apply rel_prime_sym; assumption).
  destruct (crt a (b * c) x 1 A1 ltac:(nia) RA) as (y1 & Y1 & Y1'). destruct (crt b (a * c) x 1 B1 ltac:(nia) RB) as (y2 & Y2 & Y2').
  destruct (crt c (a * b) x 1 C1 ltac:(nia) RC) as (y3 & Y3 & Y3').
  assert (PWX : forall d y, 1 < d -> (d | n) -> y mod d = x mod d -> y ^ e mod d = (-1) mod d).
  { intros d y D DN Y. rewrite (pow_mod d y x) by (auto; lia). apply (mod_down n); auto; lia. }
  assert (PW1 : forall d d' y, 1 < d -> 0 < d' -> (d | d') -> y mod d' = 1 mod d' -> y ^ e mod d = 1 mod d).
  { intros d d' y D D' DN Y. rewrite (pow_mod d y 1); [now rewrite Z.pow_1_l by lia|lia|]. apply (mod_down d'); auto; lia. }
  assert (Y1a : y1 ^ e mod a = (-1) mod a) by now apply PWX. assert (Y2b : y2 ^ e mod b = (-1) mod b) by now apply PWX. assert (Y3c : y3 ^ e mod c = (-1) mod c) by now apply PWX.
  assert (Y1b : y1 ^ e mod b = 1 mod b) by (apply (PW1 b (b * c)); auto; [nia|exists c; lia]). assert (Y1c : y1 ^ e mod c = 1 mod c) by (apply (PW1 c (b * c)); auto; [nia|exists b; lia]).
  assert (Y2a : y2 ^ e mod a = 1 mod a) by (apply (PW1 a (a * c)); auto; [nia|exists c; lia]). assert (Y2c : y2 ^ e mod c = 1 mod c) by (apply (PW1 c (a * c)); auto; [nia|exists a; lia]).
  assert (Y3a : y3 ^ e mod a = 1 mod a) by (apply (PW1 a (a * b)); auto; [nia|exists b; lia]). assert (Y3b : y3 ^ e mod b = 1 mod b) by (apply (PW1 b (a * b)); auto; [nia|exists a; lia]).
  assert (SQ : forall d y, 1 < d -> (y ^ e mod d = 1 mod d \/ y ^ e mod d = (-1) mod d) -> (y ^ e) ^ 2 mod d = 1 mod d).
  { intros d y D [Q|Q]; rewrite (pow_mod d _ _ 2 ltac:(lia) Q); reflexivity. }
  assert (INV : forall y, (y ^ e) ^ 2 mod a = 1 mod a -> (y ^ e) ^ 2 mod b = 1 mod b -> (y ^ e) ^ 2 mod c = 1 mod c -> exists y', (y * y') mod n = 1).
  { intros y QA QB QC. exists (y ^ (2 * e - 1)). rewrite <- Z.pow_succ_r by lia. replace (Z.succ (2 * e - 1)) with (e * 2) by lia. rewrite Z.pow_mul_r by lia.
    rewrite <- (Z.mod_small 1 n) by lia. rewrite EN. apply crt_one; auto; [apply rel_prime_sym; exact RC|nia|lia|]. apply crt_one; auto; lia. }
  assert (O1 : forall d, 1 ^ e mod d = 1 mod d) by (intros d; now rewrite Z.pow_1_l by lia).
  apply (coset_bound n (passes n s t) [1; y1; y2; y3] L); auto; [lia| |].
  - intros y I. cbn in I. destruct I as [<-|[<-|[<-|[<-|[]]]]]; [exists 1; apply Z.mod_small; lia|..]; apply INV; apply SQ; auto.
  - repeat constructor; intros u v PU PV; apply G in PU, PV.
    + apply (separated n e a b 1 y1 1); auto. lia.
    + apply (separated n e b a 1 y2 1); auto. lia.
    + apply (separated n e c a 1 y3 1); auto. lia.
    + apply (separated n e a c y1 y2 (-1)); auto. lia.
    + apply (separated n e a b y1 y3 (-1)); auto. lia.
    + apply (separated n e b a y2 y3 (-1)); auto. lia.
Qed.

(** Two primes. *)
Lemma not_fermat p q : prime p -> prime q -> 2 < p -> p < q -> q mod 2 = 1 -> exists g, 1 <= g <= q - 1 /\ g ^ (p * q - 1) mod q <> 1.
Proof.
  intros PP PQ P2 LT OQ.
  assert (X : exists g, In g (zrange (q - 1)) /\ ~ (q | g ^ (p - 1) - 1)).
  { destruct (existsb (fun g => negb ((g ^ (p - 1) - 1) mod q =? 0)) (zrange (q - 1))) eqn:B.
    - apply existsb_exists in B as (g & I & B). exists g. split; [exact I|]. intros D. apply Z.mod_divide in D; [|lia]. rewrite D in B. discriminate.
    - exfalso. assert (L : (length (zrange (q - 1)) <= Z.to_nat (p - 1))%nat); [|rewrite zrange_length in L; lia].
      apply (roots_bound q PQ (Z.to_nat (p - 1)) (xn_minus_1 (Z.to_nat (p - 2)))).
      + unfold xn_minus_1. cbn [length]. rewrite app_length, repeat_length. cbn [length]. lia.
      + unfold xn_minus_1. change ((-1) :: repeat 0 (Z.to_nat (p - 2)) ++ [1]) with (((-1) :: repeat 0 (Z.to_nat (p - 2))) ++ [1]).
        rewrite last_last. intros D. apply Z.divide_pos_le in D; lia.
      + apply zrange_nodup.
      + intros g I. apply zrange_in in I as R. split; [lia|]. rewrite xn_eval. replace (Z.of_nat (Z.to_nat (p - 2)) + 1) with (p - 1) by lia.
        apply Z.mod_divide; [lia|]. destruct (Z.eq_dec ((g ^ (p - 1) - 1) mod q) 0) as [Z0|NZ]; [exact Z0|]. exfalso.
        assert (C : existsb (fun g => negb ((g ^ (p - 1) - 1) mod q =? 0)) (zrange (q - 1)) = true); [|congruence].
        apply existsb_exists. exists g. split; [exact I|]. apply negb_true_iff. now apply Z.eqb_neq. }
  destruct X as (g & I & ND). apply zrange_in in I. exists g. split; [lia|]. intros Q. apply ND. apply mod_eq_div; [lia|]. transitivity (g ^ (p * q - 1) mod q); [symmetry|rewrite Q; symmetry; apply Z.mod_small; lia].
  assert (F : g ^ (q - 1) mod q = 1) by (apply fermat; [exact PQ|exact OQ|apply rel_prime_le_prime; [exact PQ|lia]]).
  replace (p * q - 1) with ((q - 1) * p + (p - 1)) by ring. rewrite Z.pow_add_r, Z.pow_mul_r by nia. rewrite <- Zmult_mod_idemp_l.
  rewrite (pow_mod q (g ^ (q - 1)) 1); [|lia|rewrite F; symmetry; apply Z.mod_small; lia]. rewrite Z.pow_1_l by lia. rewrite Zmult_mod_idemp_l. now rewrite Z.mul_1_l.
Qed.
Lemma quarter_two n s t p q : 3 < n -> n mod 2 = 1 -> odd_part n s t -> 0 < t -> n = p * q -> prime p -> prime q -> 2 < p -> p < q -> quarter n s t.
Proof.
  intros N O OP T EN PP PQ P2 LT L ND PL.
  destruct (sign_exponent n s t N OP T) as (e & x & EP & (k & EK & KP) & XE & G).
  assert (DP : (p | n)) by (exists q; lia). assert (DQ : (q | n)) by (exists p; lia).
  pose proof (odd_factor n p O DP) as OPP. pose proof (odd_factor n q O DQ) as OQ.
  assert (RP : rel_prime p q) by (apply prime_rel_prime; [exact PP|]; intros D; apply prime_divisors in D; [lia|exact PQ]).
  destruct (crt p q x 1 ltac:(lia) ltac:(lia) RP) as (y & YP & YQ).
  destruct (not_fermat p q PP PQ P2 LT OQ) as (g & GR & GF). rewrite <- EN in GF.
  destruct (crt p q 1 g ltac:(lia) ltac:(lia) RP) as (w & WP & WQ).
  assert (YEP : y ^ e mod p = (-1) mod p) by (rewrite (pow_mod p y x) by (auto; lia); apply (mod_down n); auto; lia).
  assert (YEQ : y ^ e mod q = 1 mod q) by (rewrite (pow_mod q y 1) by (auto; lia); now rewrite Z.pow_1_l by lia).
  assert (Y2 : y ^ (2 * e) mod n = 1 mod n).
  { rewrite EN. rewrite (Z.mul_comm 2 e), Z.pow_mul_r by lia. apply crt_one; auto; try lia.
    - rewrite (pow_mod p _ _ 2 ltac:(lia) YEP). reflexivity.
    - rewrite (pow_mod q _ _ 2 ltac:(lia) YEQ). reflexivity. }
  assert (YF : y ^ (n - 1) mod n = 1).
  { rewrite EK, Z.pow_mul_r by lia. rewrite (pow_mod n _ 1 k ltac:(lia) Y2). rewrite Z.pow_1_l by lia. apply Z.mod_small. lia. }
  assert (IY : (y * y ^ (2 * e - 1)) mod n = 1) by (rewrite <- Z.pow_succ_r by lia; replace (Z.succ (2 * e - 1)) with (2 * e) by lia; rewrite Y2; apply Z.mod_small; lia).
  assert (WF : w ^ (n - 1) mod n <> 1).
  { intros Q. apply GF. assert (Q0 : w ^ (n - 1) mod n = 1 mod n) by (rewrite Q; symmetry; apply Z.mod_small; (clear -N P2 LT GR; lia)). clear Q. rename Q0 into Q. apply (mod_down n q) in Q; [|(clear -N P2 LT GR; lia)|(clear -N P2 LT GR; lia)|exact DQ]. rewrite (pow_mod q w g) in Q by (auto; (clear -N P2 LT GR; lia)). rewrite Q. apply Z.mod_small. (clear -N P2 LT GR; lia). }
  assert (IW : (w * w ^ (q - 2)) mod n = 1).
  { rewrite <- Z.pow_succ_r by (clear -N P2 LT GR; lia). replace (Z.succ (q - 2)) with (q - 1) by (clear -N P2 LT GR; lia). transitivity (1 mod n); [|apply Z.mod_small; (clear -N P2 LT GR; lia)]. rewrite EN. apply crt_one; [exact RP|(clear -N P2 LT GR; lia)|(clear -N P2 LT GR; lia)| |].
    - rewrite (pow_mod p w 1 (q - 1) ltac:((clear -N P2 LT GR; lia)) WP). now rewrite Z.pow_1_l by (clear -N P2 LT GR; lia).
    - rewrite (pow_mod q w g (q - 1) ltac:((clear -N P2 LT GR; lia)) WQ). rewrite (Z.mod_small 1 q) by (clear -N P2 LT GR; lia). apply fermat; [exact PQ|exact OQ|apply rel_prime_le_prime; [exact PQ|(clear -N P2 LT GR; lia)]]. }
  assert (OE : forall d, 1 ^ e mod d = 1 mod d) by (intros d; now rewrite Z.pow_1_l by (clear -EP; lia)).
  assert (S1 : forall a b, passes n s t a -> passes n s t b -> (a * 1) mod n <> (b * y) mod n).
  { intros a b PA PB. apply G in PA, PB. apply (separated n e p q 1 y 1 a b); try assumption; try apply OE; [clear -N; lia|clear -P2; lia|clear -P2 LT; lia|now left]. }
  (* one side with w, the other without *)
  assert (SW : forall a b z z', passes n s t a -> passes n s t b -> z ^ (n - 1) mod n = 1 -> z' ^ (n - 1) mod n = 1 -> (a * z) mod n <> (b * (z' * w)) mod n).
  { intros a b z z' PA PB Z1 Z2 Q. apply passes_fermat in PA, PB; try assumption; try (clear -N; lia). apply (pow_mod n _ _ (n - 1)) in Q; [|clear -N; lia]. rewrite !Z.pow_mul_l in Q.
    rewrite <- (Zmult_mod_idemp_l (a ^ _)), <- (Zmult_mod_idemp_l (b ^ _)), PA, PB, !Z.mul_1_l, Z1 in Q.
    rewrite <- (Zmult_mod_idemp_l (z' ^ _)), Z2, Z.mul_1_l in Q. congruence. }
  assert (F1 : 1 ^ (n - 1) mod n = 1) by (rewrite Z.pow_1_l by (clear -N; lia); apply Z.mod_small; clear -N; lia).
  apply (coset_bound n (passes n s t) [1; y; 1 * w; y * w] L); [clear -N; lia| | |exact ND|exact PL].
  - intros z I. cbn [In] in I. destruct I as [<-|[<-|[<-|[<-|[]]]]]; [exists 1; apply Z.mod_small; clear -N; lia|exists (y ^ (2 * e - 1)); exact IY|exists (w ^ (q - 2)); now rewrite Z.mul_1_l|].
    exists (y ^ (2 * e - 1) * w ^ (q - 2)). replace (y * w * (y ^ (2 * e - 1) * w ^ (q - 2))) with ((y * y ^ (2 * e - 1)) * (w * w ^ (q - 2))) by ring.
    rewrite Zmult_mod, IY, IW. apply Z.mod_small. clear -N. lia.
  - repeat constructor; intros a b PA PB; [apply S1; assumption|apply SW; assumption|apply SW; assumption|apply SW; assumption|apply SW; assumption|].
    rewrite !Z.mul_assoc. intros Q. apply (mul_cancel n w _ ltac:(clear -N; lia) IW) in Q. revert Q. apply S1; assumption.
Qed.

Theorem quarter_bound n s t : 3 < n -> n mod 2 = 1 -> ~ prime n -> (forall p, prime p -> (p | n) -> 5 <= p) -> odd_part n s t -> 0 < t -> quarter n s t.
Proof.
  intros N O NP BIG OP T. destruct (prime_div_exists n ltac:(lia) NP) as (p & PP & (m & EN) & LT). rewrite Z.mul_comm in EN. pose proof (prime_ge_2 p PP) as P2.
  assert (P5 : 5 <= p) by (apply BIG; [exact PP|exists m; lia]). assert (MP : 1 < m) by nia.
  destruct (Zdivide_dec p m) as [D|ND]; [apply (quarter_square n s t p m); auto; lia|].
  destruct (prime_dec m) as [PM|NPM].
  - assert (M5 : 5 <= m) by (apply BIG; [exact PM|exists p; lia]). assert (m <> p) by (intros ->; apply ND, Z.divide_refl).
    destruct (Z.lt_ge_cases p m); [apply (quarter_two n s t p m)|apply (quarter_two n s t m p)]; auto; try lia.
  - destruct (prime_div_exists m ltac:(lia) NPM) as (q & PQ & (c & EC) & LQ). rewrite Z.mul_comm in EC. pose proof (prime_ge_2 q PQ) as Q2.
    assert (Q5 : 5 <= q) by (apply BIG; [exact PQ|exists (p * c); lia]). assert (CP : 1 < c) by nia.
    destruct (Zdivide_dec q c) as [DC|NDC].
    + apply (quarter_square n s t q (p * c)); auto; [lia|now apply Z.divide_mul_r|nia].
    + assert (RPM : rel_prime p m) by now apply prime_rel_prime.
      assert (RD : forall d, (d | m) -> rel_prime p d) by (intros d D; apply rel_prime_sym; apply (rel_prime_div m); [apply rel_prime_sym; exact RPM|exact D]).
      apply (quarter_three n s t p q c); auto; try lia; [apply RD; exists c; lia|apply RD; exists q; lia|now apply prime_rel_prime].
Qed.

Theorem accepted_draws_quarter num D : 3 <= num -> ~ prime num -> NoDup D ->
  (forall d, In d D -> length d = 5%nat /\ Forall (fun a => 2 <= a <= num - 2) d /\ is_prime num d = Ok true) ->
  4 ^ 5 * Z.of_nat (length D) <= (num - 3) ^ 5.
Proof.
  intros N3 NP ND A. destruct D as [|d0 D'].
  { cbn [length]. rewrite Z.mul_0_r. apply Z.pow_nonneg. lia. }
  set (D := d0 :: D') in *. destruct (A d0 (or_introl eq_refl)) as (L0 & F0 & E0).
  destruct (is_prime_spec num d0 ltac:(lia)) as (b & Eb & B). rewrite E0 in Eb. injection Eb as <-.
  destruct (proj1 B eq_refl) as [(P & _)|(N2 & NS & _)]; [contradiction|]. destruct (no_small_big num N2 NS) as (Big & O & _).
  destruct (rabin_ok num d0 ltac:(lia) O ltac:(lia)) as (s & t & _ & OP & T & _).
  set (l := filter (fun a => match trial_base num s t a with Ok b => b | Panic => false end) (map (fun a => a + 1) (zrange (num - 3)))).
  assert (LI : forall a, In a l <-> 2 <= a <= num - 2 /\ passes num s t a).
  { intros a. unfold l. rewrite filter_In, in_map_iff. destruct (trial_ok num s t a ltac:(lia) OP T) as (b & -> & Bb). rewrite Bb. split.
    - intros ((x & <- & X) & P). apply zrange_in in X. split; [lia|exact P].
    - intros (R & P). split; [|exact P]. exists (a - 1). split; [lia|]. apply zrange_in. lia. }
  assert (LN : NoDup l).
  { apply NoDup_filter. apply FinFun.Injective_map_NoDup; [intros x y; lia|apply zrange_nodup]. }
  assert (LB : 4 * Z.of_nat (length l) <= num - 3).
  { assert (P1 : passes num s t 1) by (left; destruct OP as (_ & _ & _ & S0); rewrite Z.pow_1_l by lia; apply Z.mod_small; lia).
    assert (Q : quarter num s t).
    { apply quarter_bound; [lia|exact O|exact NP| |exact OP|exact T]. intros p PP DP. destruct (Z.le_gt_cases 5 p) as [|LT]; [assumption|]. exfalso. apply (NS p PP); [clear -LT; lia|exact DP]. }
    pose proof (Q (1 :: l)) as X. cbn [length] in X. rewrite Nat2Z.inj_succ in X.
    assert (4 * Z.succ (Z.of_nat (length l)) <= num - 1); [|lia]. apply X.
    - constructor; [|exact LN]. intros I. apply LI in I. lia.
    - intros a [<-|I]; [split; [lia|exact P1]|]. apply LI in I as (? & ?). split; [lia|assumption]. }
  assert (INC : incl D (tuples 5 l)).
  { intros d I. destruct (A d I) as (L & F & E). apply tuples_in; [exact L|]. intros a Ia. apply LI. rewrite Forall_forall in F. split; [now apply F|].
    destruct (is_prime_spec num d ltac:(lia)) as (b & Eb & Bd). rewrite E in Eb. injection Eb as <-.
    destruct (proj1 Bd eq_refl) as [(P & _)|(_ & _ & FS)]; [contradiction|]. rewrite firstn_all2 in FS by lia. rewrite Forall_forall in FS. apply passes_spp; [lia|exact OP|now apply FS]. }
  pose proof (NoDup_incl_length ND INC) as X. rewrite tuples_length in X. apply Nat2Z.inj_le in X. rewrite Nat2Z.inj_pow in X. change (Z.of_nat 5) with 5 in X.
  transitivity (4 ^ 5 * Z.of_nat (length l) ^ 5); [apply Z.mul_le_mono_nonneg_l; [now compute|exact X]|]. rewrite <- Z.pow_mul_l. apply Z.pow_le_mono_l. clear -LB. lia.
Qed.
