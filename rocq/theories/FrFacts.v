(** BLS12-381's scalar field is a field. *)
From Coq Require Import Znumtheory Zpow_facts Eqdep_dec.
From Verif Require Import Base NumTheory Euler Primality Field FrField.
Local Open Scope Z_scope.

(** A primality certificate: 2^32 * 254760293^2 divides r - 1 and 5 generates enough.
    All powers are obtained from one, c = 5^((r-1)/(2 * 254760293)). *)
Definition cert_e : Z := 102912181795783596620859084402501385562644474781883764403198536712192.
Definition cert_c : Z := 17787834878459167865343342605229115218047729389086170616813820364069946834906.
Lemma cert_c_ok : Zpow_mod 5 cert_e r_bls = cert_c.
Proof. vm_compute. reflexivity. Qed.
Lemma pow_split a m k : 0 <= m -> 0 <= k -> Zpow_mod a (m * k) r_bls = Zpow_mod (Zpow_mod a m r_bls) k r_bls.
Proof.
  intros M L. rewrite !Zpow_mod_correct by discriminate. rewrite Z.pow_mul_r by assumption. apply Zpower_mod. reflexivity.
Qed.
Lemma cert_2 : entry_ok r_bls (2, 32, 5) = true.
Proof.
  unfold entry_ok. replace (r_bls - 1) with (cert_e * (2 * 254760293)) at 2 by reflexivity.
  replace ((r_bls - 1) / 2) with (cert_e * 254760293) by (vm_compute; reflexivity). rewrite !pow_split by discriminate. rewrite cert_c_ok. vm_compute. reflexivity.
Qed.
Lemma cert_q : entry_ok r_bls (254760293, 2, 5) = true.
Proof.
  unfold entry_ok. replace (r_bls - 1) with (cert_e * (2 * 254760293)) at 2 by reflexivity.
  replace ((r_bls - 1) / 254760293) with (cert_e * 2) by (vm_compute; reflexivity). rewrite !pow_split by discriminate. rewrite cert_c_ok. vm_compute. reflexivity.
Qed.
Lemma r_bls_prime : prime r_bls.
Proof.
  apply (pocklington r_bls [(2, 32, 5); (254760293, 2, 5)]).
  - unfold pock_ok. cbn [forallb]. rewrite cert_2, cert_q. vm_compute. reflexivity.
  - cbn [map fst]. apply Forall_cons; [exact prime_2|]. repeat (apply Forall_cons; [apply (small_prime_ok 10000); vm_compute; reflexivity|]). constructor.
  - cbn [map fst]. repeat constructor; cbn [In]; intros H; repeat destruct H as [H|H]; discriminate || contradiction.
Qed.

Lemma fr_val_fr z : fr_val (fr z) = z mod r_bls.
Proof. reflexivity. Qed.
Lemma fr_val_mod x : fr_val x mod r_bls = fr_val x.
Proof. destruct x as [z H]. cbn. now apply Z.eqb_eq. Qed.
Lemma fr_val_range x : 0 <= fr_val x < r_bls.
Proof. rewrite <- fr_val_mod. apply Z.mod_pos_bound. reflexivity. Qed.
Lemma fr_ext x y : fr_val x = fr_val y -> x = y.
Proof.
  destruct x as [a A], y as [b B]. cbn [fr_val proj1_sig]. intros E. subst b. f_equal. apply UIP_dec. apply Bool.bool_dec.
Qed.
Lemma fr_mod a b : a mod r_bls = b mod r_bls -> fr a = fr b.
Proof. intros E. now apply fr_ext. Qed.
Lemma fr_fr_val x : fr (fr_val x) = x.
Proof. apply fr_ext. rewrite fr_val_fr. apply fr_val_mod. Qed.

Ltac frring := apply fr_ext; cbn [fadd fmul fsub fopp f0 f1 FrOps]; rewrite ?fr_val_fr;
  repeat (rewrite ?Zplus_mod_idemp_l, ?Zplus_mod_idemp_r, ?Zmult_mod_idemp_l, ?Zmult_mod_idemp_r, ?Zminus_mod_idemp_l, ?Zminus_mod_idemp_r);
  try (f_equal; ring).

Lemma FrBls_ring : is_ring FrOps.
Proof.
  constructor; intros.
  - rewrite <- (fr_fr_val x) at 2. frring.
  - frring.
  - frring.
  - rewrite <- (fr_fr_val x) at 2. frring.
  - frring.
  - frring.
  - frring.
  - frring.
  - frring.
Qed.

Lemma fr_inv_l (x : FrT) : x <> fr 0 -> fr (fr_val (fr_inv x) * fr_val x) = fr 1.
Proof.
  intros N. apply fr_mod. unfold fr_inv. rewrite fr_val_fr, Zmult_mod_idemp_l. pose proof (fr_val_range x) as R.
  assert (X0 : fr_val x <> 0). { intros E. apply N. apply fr_ext. now rewrite E. }
  rewrite Zpow_mod_correct by discriminate. rewrite Zmult_mod_idemp_l. rewrite Z.mul_comm, <- Z.pow_succ_r by discriminate.
  change (Z.succ (r_bls - 2)) with (r_bls - 1). change (1 mod r_bls) with 1. apply fermat; [exact r_bls_prime|reflexivity|].
  apply rel_prime_sym. apply prime_rel_prime; [exact r_bls_prime|]. intros D. apply Z.divide_pos_le in D; lia.
Qed.
Theorem FrBls_field : is_field FrOps.
Proof.
  constructor.
  - exact FrBls_ring.
  - intros E. apply (f_equal fr_val) in E. discriminate.
  - reflexivity.
  - intros x N. cbn [fmul finv FrOps]. apply fr_inv_l. exact N.
Qed.
Theorem FrBls_prime_field : is_prime_field FrBls.
Proof.
  constructor.
  - exact FrBls_field.
  - split; reflexivity.
  - exact fr_val_range.
  - exact fr_fr_val.
  - intros z. apply fr_val_fr.
  - reflexivity.
  - reflexivity.
  - intros a b. cbn [fadd base_ops of_Z FrBls FrOps]. apply fr_mod. rewrite !fr_val_fr, Zplus_mod_idemp_l, Zplus_mod_idemp_r. reflexivity.
  - intros a b. cbn [fmul base_ops of_Z FrBls FrOps]. apply fr_mod. rewrite !fr_val_fr, Zmult_mod_idemp_l, Zmult_mod_idemp_r. reflexivity.
Qed.
