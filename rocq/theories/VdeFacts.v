(** Byte-level facts about the delay function. *)
From Verif Require Import Base Legendre Sloth Common NumTheory SlothFacts BytesFacts.
From Coq Require Import Znumtheory Zpow_facts String.
From Coq Require Import List.
Local Open Scope Z_scope.

Lemma rem_abs_lt a p : 0 < p -> Z.abs (Z.rem a p) < p.
Proof. intros Hp. pose proof (Z.rem_bound_abs a p ltac:(lia)). lia. Qed.

Lemma single_sloth_abs x p : 1 < p -> Z.abs (single_sloth x p) < p.
Proof.
  intros Hp. unfold single_sloth. set (y := if legendre x p =? 1 then _ else _).
  destruct (Z.rem y 2 =? 1); apply rem_abs_lt; lia.
Qed.
Lemma sloth_abs p t : 1 < p -> forall x, 0 <= x < p -> Z.abs (sloth x p t) < p.
Proof.
  intros Hp. destruct t as [|t]; intros x Hx; [cbn; lia|]. rewrite sloth_snoc. apply single_sloth_abs, Hp.
Qed.

Lemma vde_len x p t mode l : 1 < p -> 0 <= le2z x < p -> p <= 256 ^ Z.of_nat l -> length (vde x p t mode l) = l.
Proof.
  intros Hp Hx Hl. unfold vde. assert (E : (if String.eqb mode "sloth"%string then sloth (le2z x) p t else sloth (le2z x) p t) = sloth (le2z x) p t) by now destruct (String.eqb mode "sloth"%string).
  rewrite E. apply pad_to_len. pose proof (sloth_abs p t Hp (le2z x) Hx). lia.
Qed.
Lemma vde_val x p t mode l : le2z (vde x p t mode l) = Z.abs (sloth (le2z x) p t).
Proof.
  unfold vde. assert (E : (if String.eqb mode "sloth"%string then sloth (le2z x) p t else sloth (le2z x) p t) = sloth (le2z x) p t) by now destruct (String.eqb mode "sloth"%string).
  rewrite E, le2z_pad_to. apply le2z_z2le.
Qed.
Lemma vde_inv_val x p t mode l : le2z (vde_inv x p t mode l) = Z.abs (sloth_inv (le2z x) p t).
Proof.
  unfold vde_inv. assert (E : (if String.eqb mode "sloth"%string then sloth_inv (le2z x) p t else sloth_inv (le2z x) p t) = sloth_inv (le2z x) p t) by now destruct (String.eqb mode "sloth"%string).
  rewrite E, le2z_pad_to. apply le2z_z2le.
Qed.
Lemma vde_inv_len x p t mode l : Z.abs (sloth_inv (le2z x) p t) < 256 ^ Z.of_nat l -> length (vde_inv x p t mode l) = l.
Proof.
  unfold vde_inv. assert (E : (if String.eqb mode "sloth"%string then sloth_inv (le2z x) p t else sloth_inv (le2z x) p t) = sloth_inv (le2z x) p t) by now destruct (String.eqb mode "sloth"%string).
  rewrite E. apply pad_to_len.
Qed.

Lemma vde_round_trip x p t mode mode' l : prime p -> p mod 4 = 3 -> p <= 256 ^ Z.of_nat l -> 0 < le2z x < p ->
  length (vde x p t mode l) = l /\ length (vde_inv (vde x p t mode l) p t mode' l) = l
  /\ le2z (vde_inv (vde x p t mode l) p t mode' l) = le2z x.
Proof.
  intros Hp H34 Hl Hx. pose proof (prime_ge_2 p Hp).
  assert (R : 1 <= sloth (le2z x) p t <= p - 1) by (apply sloth_range; auto; lia).
  assert (V : sloth_inv (le2z (vde x p t mode l)) p t = le2z x).
  { rewrite vde_val, Z.abs_eq by lia. apply sloth_round_trip; auto; lia. }
  split; [apply vde_len; lia|]. split.
  - apply vde_inv_len. rewrite V. lia.
  - rewrite vde_inv_val, V. lia.
Qed.
Lemma vde_inv_vde x p t mode mode' l : prime p -> p mod 4 = 3 -> p <= 256 ^ Z.of_nat l -> 0 < le2z x < p -> length x = l ->
  vde_inv (vde x p t mode l) p t mode' l = x.
Proof.
  intros Hp H34 Hl Hx L. destruct (vde_round_trip x p t mode mode' l Hp H34 Hl Hx) as (_ & L2 & V).
  apply le2z_inj; [congruence|exact V].
Qed.

(** The inverse on arbitrary (adversarial) units. *)
Lemma single_sloth_inv_bound y p : 1 < p -> 0 <= single_sloth_inv y p <= p.
Proof.
  intros Hp. unfold single_sloth_inv. set (x := if Z.rem y 2 =? 1 then _ else _).
  rewrite Zpow_mod_correct by lia. pose proof (Z.mod_pos_bound (x ^ 2) p ltac:(lia)) as B.
  rewrite (Z.rem_small (x ^ 2 mod p) p) by lia. destruct (Z.rem x 2 =? 1); lia.
Qed.
Lemma sloth_inv_bound p t : 1 < p -> forall y, 0 <= sloth_inv y p t <= Z.max p y \/ t = O.
Proof.
  intros Hp y. destruct t as [|t]; [now right|]. left. rewrite sloth_inv_snoc.
  pose proof (single_sloth_inv_bound (sloth_inv y p t) p Hp). lia.
Qed.
Lemma vde_inv_len_any y p t mode l : 1 < p -> p < 256 ^ Z.of_nat l -> length y = l -> length (vde_inv y p t mode l) = l.
Proof.
  intros Hp Hl L. apply vde_inv_len. pose proof (le2z_range y) as B. rewrite L in B.
  destruct (sloth_inv_bound p t Hp (le2z y)) as [E| ->]; [lia|]. cbn [sloth_inv]. lia.
Qed.
