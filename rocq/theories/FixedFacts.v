(** How many numbers a given number of rounds of the delay function leaves as they are:
    the inverse of d rounds is one of 2^d polynomials of degree 2^d. *)
From Verif Require Import Base NumTheory Reciprocity Legendre LegendreFacts Euler Sloth SlothFacts SealRareFacts.
From Coq Require Import Znumtheory Lia.
Import ListNotations.
Local Open Scope Z_scope.

Ltac Zify.zify_post_hook ::= Z.div_mod_to_equations.

(** * Polynomials as lists of coefficients *)
Fixpoint plus (f g : list Z) : list Z :=
  match f, g with
  | [], _ => g
  | _, [] => f
  | c :: f', d :: g' => (c + d) :: plus f' g'
  end.
Lemma plus_eval f : forall g x, peval (plus f g) x = peval f x + peval g x.
Proof. induction f as [|c f IH]; intros [|d g] x; cbn [plus peval]; try rewrite IH; ring. Qed.
Lemma plus_length f : forall g, (length (plus f g) <= Nat.max (length f) (length g))%nat.
Proof. induction f as [|c f IH]; intros [|d g]; cbn [plus length]; try lia. specialize (IH g). lia. Qed.
Lemma scale_eval c f x : peval (map (Z.mul c) f) x = c * peval f x.
Proof. induction f as [|d f IH]; cbn [map peval]; [ring|]. rewrite IH. ring. Qed.
Fixpoint times (f g : list Z) : list Z :=
  match f with [] => [] | c :: f' => plus (map (Z.mul c) g) (0 :: times f' g) end.
Lemma times_eval f g x : peval (times f g) x = peval f x * peval g x.
Proof. induction f as [|c f IH]; cbn [times peval]; [ring|]. rewrite plus_eval, scale_eval. cbn [peval]. rewrite IH. ring. Qed.
Lemma times_length f g : (length (times f g) <= length f + length g)%nat.
Proof.
  induction f as [|c f IH]; cbn [times length]; [lia|]. pose proof (plus_length (map (Z.mul c) g) (0 :: times f g)) as L.
  rewrite map_length in L. cbn [length] in L. lia.
Qed.
Lemma shift_eval k f x : peval (repeat 0 k ++ f) x = x ^ Z.of_nat k * peval f x.
Proof.
  induction k as [|k IH]; cbn [repeat app peval]; [change (x ^ Z.of_nat 0) with 1; ring|].
  rewrite IH, Nat2Z.inj_succ, Z.pow_succ_r by lia. ring.
Qed.
Lemma pad_eval k f x : peval (f ++ repeat 0 k) x = peval f x.
Proof. induction f as [|c f IH]; cbn [app peval]; [|now rewrite IH]. induction k as [|k IH]; cbn [repeat peval]; [reflexivity|]. rewrite IH. ring. Qed.
Lemma snoc_eval f c x : peval (f ++ [c]) x = peval f x + c * x ^ Z.of_nat (length f).
Proof.
  induction f as [|d f IH]; cbn [app peval length]; [change (x ^ Z.of_nat 0) with 1; ring|].
  rewrite IH, Nat2Z.inj_succ, Z.pow_succ_r by lia. ring.
Qed.

(** g is a polynomial of degree D with leading coefficient 1 or -1. *)
Definition degree (D : nat) (g : Z -> Z) : Prop :=
  exists e r, (e = 1 \/ e = -1) /\ (length r <= D)%nat /\ forall x, g x = e * x ^ Z.of_nat D + peval r x.
Lemma degree_square D g s a : degree D g -> (1 <= D)%nat -> s = 1 \/ s = -1 -> degree (2 * D) (fun x => s * ((g x + a) * (g x + a))).
Proof.
  intros (e & r & E & L & G) D1 S. pose (r' := plus r [a]).
  assert (L' : (length r' <= D)%nat) by (pose proof (plus_length r [a]); cbn [length] in *; subst r'; lia).
  assert (R' : forall x, peval r' x = peval r x + a) by (intros x; subst r'; rewrite plus_eval; cbn [peval]; ring).
  exists s, (map (Z.mul s) (plus (repeat 0 D ++ map (Z.mul (2 * e)) r') (times r' r'))). split; [exact S|]. split.
  - rewrite map_length. pose proof (plus_length (repeat 0 D ++ map (Z.mul (2 * e)) r') (times r' r')) as A. pose proof (times_length r' r') as B.
    rewrite app_length, repeat_length, map_length in A. lia.
  - intros x. rewrite scale_eval, plus_eval, shift_eval, scale_eval, times_eval, G.
    replace (2 * D)%nat with (D + D)%nat by lia. rewrite Nat2Z.inj_add, Z.pow_add_r by lia. rewrite !R'.
    destruct E as [-> | ->]; ring.
Qed.
Lemma degree_roots p D g : prime p -> degree D g -> (2 <= D)%nat -> forall L, NoDup L -> (forall x, In x L -> 0 <= x < p /\ (p | g x - x)) -> (length L <= D)%nat.
Proof.
  intros PP (e & r & E & L & G) D2 l ND HL. pose (r' := plus r [0; -1]).
  assert (L' : (length r' <= D)%nat) by (pose proof (plus_length r [0; -1]); cbn [length] in *; subst r'; lia).
  pose (q := r' ++ repeat 0 (D - length r')). assert (LQ : length q = D) by (subst q; rewrite app_length, repeat_length; lia).
  apply (roots_bound p PP D (q ++ [e])); [rewrite app_length, LQ; cbn; lia| |exact ND|].
  - rewrite last_last. intros DV. pose proof (prime_ge_2 p PP). destruct E as [-> | ->].
    + apply Z.divide_1_r in DV. lia.
    + apply Z.divide_opp_r in DV. cbn in DV. apply Z.divide_1_r in DV. lia.
  - intros x I. destruct (HL x I) as [R DV]. split; [exact R|]. rewrite snoc_eval, LQ. subst q. rewrite pad_eval. subst r'. rewrite plus_eval. cbn [peval].
    replace (peval r x + (0 + x * (-1 + x * 0)) + e * x ^ Z.of_nat D) with (g x - x) by (rewrite G; ring). exact DV.
Qed.
Lemma degree_roots_off p D g c : prime p -> degree D g -> (2 <= D)%nat -> forall L, NoDup L -> (forall x, In x L -> 0 <= x < p /\ (p | g x - (x + c))) -> (length L <= D)%nat.
Proof.
  intros PP (e & r & E & L & G) D2 l ND HL. apply (degree_roots p D (fun x => g x - c) PP); [|exact D2|exact ND|].
  - exists e, (plus r [- c]). split; [exact E|]. split; [pose proof (plus_length r [- c]); cbn [length] in *; lia|]. intros x. rewrite plus_eval, G. cbn [peval]. ring.
  - intros x I. destruct (HL x I) as [A B]. split; [exact A|]. replace (g x - c - x) with (g x - (x + c)) by ring. exact B.
Qed.
Lemma cover (R : (Z -> Z) -> Z -> bool) B : forall Q,
  (forall g L, In g Q -> NoDup L -> (forall x, In x L -> R g x = true) -> (length L <= B)%nat) ->
  forall L, NoDup L -> (forall x, In x L -> exists g, In g Q /\ R g x = true) -> (length L <= length Q * B)%nat.
Proof.
  induction Q as [|g Q IH]; intros HB L ND HL.
  - destruct L as [|x L]; [cbn; lia|]. destruct (HL x (or_introl eq_refl)) as (g & [] & _).
  - rewrite (filter_split (R g) L). cbn [length]. rewrite Nat.mul_succ_l, Nat.add_comm.
    assert (A : (length (filter (R g) L) <= B)%nat).
    { apply (HB g); [now left|now apply NoDup_filter|]. intros x I. apply filter_In in I. tauto. }
    assert (C : (length (filter (fun x => negb (R g x)) L) <= length Q * B)%nat); [|lia].
    apply IH; [|now apply NoDup_filter|].
    + intros h L' I. apply HB. now right.
    + intros x I. apply filter_In in I as [I N]. destruct (HL x I) as (h & [<-|IQ] & T); [rewrite T in N; discriminate|eauto].
Qed.

(** * The inverse of d rounds *)
Fixpoint branches (d : nat) : list (Z -> Z) :=
  match d with
  | O => [fun x => x]
  | S d' => flat_map (fun g => [(fun x => 1 * ((g x + 1) * (g x + 1))); (fun x => -1 * ((g x + -1) * (g x + -1)))]) (branches d')
  end.
Lemma branches_count d : length (branches d) = (2 ^ d)%nat.
Proof.
  induction d as [|d IH]; [reflexivity|]. cbn [branches]. rewrite Nat.pow_succ_r', <- IH. generalize (branches d) as l.
  induction l as [|g l IL]; [reflexivity|]. cbn [flat_map app length]. rewrite IL. lia.
Qed.
Lemma branches_degree d : forall g, In g (branches d) -> degree (2 ^ d) g.
Proof.
  induction d as [|d IH]; intros g I.
  - destruct I as [<-|[]]. exists 1, []. split; [now left|]. split; [cbn; lia|]. intros x. cbn [peval Nat.pow]. change (Z.of_nat 1) with 1. ring.
  - cbn [branches] in I. apply in_flat_map in I as (h & IH' & I). rewrite Nat.pow_succ_r'.
    assert (P : (1 <= 2 ^ d)%nat) by (pose proof (Nat.pow_nonzero 2 d ltac:(lia)); lia).
    destruct I as [<-|[<-|[]]]; (apply degree_square; [now apply IH|exact P|auto]).
Qed.

Section Fixed.
Variable p : Z.
Hypothesis Hp : prime p.
Hypothesis H34 : p mod 4 = 3.

Lemma inv_branch d : forall x, 1 <= x <= p - 1 -> exists g, In g (branches d) /\ (p | g x - sloth_inv x p d).
Proof.
  induction d as [|d IH]; intros x X.
  - exists (fun x => x). split; [now left|]. cbn [sloth_inv]. rewrite Z.sub_diag. apply Z.divide_0_r.
  - destruct (IH x X) as (g & IG & (c & EC)). rewrite (sloth_inv_snoc p d x). pose proof (sloth_inv_range p Hp H34 d x X) as RY. set (y := sloth_inv x p d) in *.
    assert (Ho : p mod 2 = 1) by lia. destruct (Z.eq_dec (y mod 2) 1) as [O|O].
    + exists (fun x => 1 * ((g x + 1) * (g x + 1))). split; [cbn [branches]; apply in_flat_map; exists g; split; [exact IG|now left]|].
      replace (single_sloth_inv y p) with (((y + 1) * (y + 1)) mod p).
      * rewrite Z.mod_eq by lia. replace (g x) with (y + c * p) by lia. exists (2 * (y + 1) * c + c * c * p + (y + 1) * (y + 1) / p). ring.
      * replace y with (y + 1 - 1) at 3 by ring. rewrite (single_sloth_inv_even p Hp H34) by lia. reflexivity.
    + exists (fun x => -1 * ((g x + -1) * (g x + -1))). split; [cbn [branches]; apply in_flat_map; exists g; split; [exact IG|right; now left]|].
      replace (single_sloth_inv y p) with (p - ((y - 1) * (y - 1)) mod p).
      * rewrite Z.mod_eq by lia. replace (g x) with (y + c * p) by lia. exists (-(2 * (y - 1) * c + c * c * p) - 1 - (y - 1) * (y - 1) / p). ring.
      * replace y with (y - 1 + 1) at 3 by ring. rewrite (single_sloth_inv_odd p Hp H34) by lia. reflexivity.
Qed.
(** At most 4^d of the numbers 1 .. p - 1 come out of d rounds as they went in. *)
Theorem fixed_count d : (1 <= d)%nat -> forall L, NoDup L -> (forall x, In x L -> 1 <= x <= p - 1 /\ sloth x p d = x) -> (length L <= 4 ^ d)%nat.
Proof.
  intros D1 L ND HL. replace (4 ^ d)%nat with (length (branches d) * 2 ^ d)%nat.
  - apply (cover (fun g x => (0 <=? x) && (x <? p) && ((g x - x) mod p =? 0))); [|exact ND|].
    + intros g L' IG ND' HL'. apply (degree_roots p _ g Hp (branches_degree d g IG)).
      * destruct d as [|d]; [lia|]. rewrite Nat.pow_succ_r'. pose proof (Nat.pow_nonzero 2 d ltac:(lia)). lia.
      * exact ND'.
      * intros x I. specialize (HL' x I). apply andb_prop in HL' as [A C]. apply andb_prop in A as [A B].
        apply Z.leb_le in A. apply Z.ltb_lt in B. apply Z.eqb_eq in C. split; [lia|]. apply Z.mod_divide in C; [exact C|lia].
    + intros x I. destruct (HL x I) as [X E]. destruct (inv_branch d x X) as (g & IG & DV). exists g. split; [exact IG|].
      replace (sloth_inv x p d) with x in DV by (rewrite <- E at 2; symmetry; now apply sloth_round_trip).
      rewrite (proj2 (Z.leb_le 0 x)), (proj2 (Z.ltb_lt x p)) by lia. apply Z.eqb_eq. apply Z.mod_divide; [lia|exact DV].
  - rewrite branches_count, <- Nat.pow_mul_l. reflexivity.
Qed.
(** The same if a constant is added first. *)
Theorem fixed_count_off d c : (1 <= d)%nat -> forall L, NoDup L -> (forall x, In x L -> 1 <= x <= p - 1 /\ (x + c) mod p <> 0 /\ sloth ((x + c) mod p) p d = x) -> (length L <= 4 ^ d)%nat.
Proof.
  intros D1 L ND HL. replace (4 ^ d)%nat with (length (branches d) * 2 ^ d)%nat.
  - apply (cover (fun g x => (0 <=? x) && (x <? p) && ((g x - (x + c)) mod p =? 0))); [|exact ND|].
    + intros g L' IG ND' HL'. apply (degree_roots_off p _ g c Hp (branches_degree d g IG)).
      * destruct d as [|d]; [lia|]. rewrite Nat.pow_succ_r'. pose proof (Nat.pow_nonzero 2 d ltac:(lia)). lia.
      * exact ND'.
      * intros x I. specialize (HL' x I). apply andb_prop in HL' as [A C]. apply andb_prop in A as [A B].
        apply Z.leb_le in A. apply Z.ltb_lt in B. apply Z.eqb_eq in C. split; [lia|]. apply Z.mod_divide in C; [exact C|lia].
    + intros x I. destruct (HL x I) as (X & NZ & E). destruct (inv_branch d x X) as (g & IG & DV). exists g. split; [exact IG|].
      pose proof (prime_ge_2 p Hp) as P2. pose proof (Z.mod_pos_bound (x + c) p ltac:(lia)) as RB.
      replace (sloth_inv x p d) with ((x + c) mod p) in DV by (rewrite <- E at 2; symmetry; apply sloth_round_trip; [exact Hp|exact H34|lia]).
      rewrite (proj2 (Z.leb_le 0 x)), (proj2 (Z.ltb_lt x p)) by lia. apply Z.eqb_eq. apply Z.mod_divide; [lia|].
      replace (g x - (x + c)) with (g x - (x + c) mod p + - ((x + c) / p) * p) by (rewrite (Z.mod_eq (x + c) p) by lia; ring).
      apply Z.divide_add_r; [exact DV|]. now exists (- ((x + c) / p)).
  - rewrite branches_count, <- Nat.pow_mul_l. reflexivity.
Qed.
(** Two different numbers of rounds agree exactly where the difference of them changes nothing. *)
Lemma agree_fixed t d x : 1 <= x <= p - 1 -> sloth x p (t + d) = sloth x p t <-> sloth x p d = x.
Proof.
  intros X. assert (C : forall s u y, sloth y p (s + u) = sloth (sloth y p s) p u).
  { induction s as [|s IH]; intros u y; [reflexivity|]. cbn [sloth Nat.add]. apply IH. }
  rewrite Nat.add_comm, C. split; intros E; [|now rewrite E].
  rewrite <- (sloth_round_trip p Hp H34 t (sloth x p d)) by (now apply sloth_range). rewrite E. now apply sloth_round_trip.
Qed.
End Fixed.
