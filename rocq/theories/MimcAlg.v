(** Algebra of the MiMC hashes: prefixes of the constants, powers that are permutations. *)
From Coq Require Import Ring Znumtheory Zpow_facts.
From Verif Require Import Base NumTheory Euler Primality Field FrField FrFacts Mimc MimcFacts.

Local Open Scope nat_scope.

(** * Which constants are used *)
Lemma foldM_ext {A S} (f g : S -> A -> res S) l : (forall s x, In x l -> f s x = g s x) -> forall s, foldM f l s = foldM g l s.
Proof.
  induction l as [|x l IH]; intros E s; [reflexivity|]. cbn [foldM]. rewrite E by now left. destruct (g s x); cbn [bind]; [|reflexivity]. apply IH. intros t y Y. apply E. now right.
Qed.
Lemma foldM_panic {A S} (f : S -> A -> res S) l x : In x l -> (forall s, f s x = Panic) -> forall s, foldM f l s = Panic.
Proof.
  induction l as [|y l IH]; intros I P s; [destruct I|]. cbn [foldM]. destruct I as [->|I]; [now rewrite P|]. destruct (f s y); cbn [bind]; [now apply IH|reflexivity].
Qed.
Section Alg.
Context {K : ops} (HK : is_ring K).
Add Ring kring : (HK : ring_theory f0 f1 fadd fmul fsub fopp (@eq K)).
Lemma input_prefix (x k h : K) cs n i : i < n -> hash_input x k h (firstn n cs) i = hash_input x k h cs i.
Proof.
  intros I. unfold hash_input. destruct (i =? 0); [reflexivity|]. unfold index. assert (E : nth_error (firstn n cs) i = nth_error cs i); [|now rewrite E].
  revert cs i I. induction n as [|n IH]; intros cs i I; [lia|]. destruct cs as [|c cs]; [reflexivity|]. destruct i as [|i]; [reflexivity|]. cbn. apply IH. lia.
Qed.
Lemma input_panic (x k h : K) cs i : 0 < i -> length cs <= i -> hash_input x k h cs i = Panic.
Proof.
  intros I L. unfold hash_input, index. destruct (Nat.eqb_spec i 0); [lia|]. now rewrite (proj2 (nth_error_None cs i)) by exact L.
Qed.
Lemma hash5_any x k cs : mimc5_hash x k cs = if 10 <=? length cs then Ok (mimc_perm (K := K) 5 (firstn 10 cs) x k) else Panic.
Proof.
  destruct (Nat.leb_spec 10 (length cs)) as [L|L].
  - rewrite <- (mimc5_hash_ok HK) by (rewrite firstn_length; unfold MIMC5_HASH_ROUNDS, MIMC7_HASH_ROUNDS; lia). unfold mimc5_hash. match goal with |- bind ?a _ = bind ?b _ => assert (E : a = b); [apply foldM_ext|now rewrite E] end.
    intros s i I. apply in_seq in I. now rewrite input_prefix by (unfold MIMC5_HASH_ROUNDS, MIMC7_HASH_ROUNDS in I; lia).
  - unfold mimc5_hash. rewrite (foldM_panic _ _ 9); [reflexivity|apply in_seq; unfold MIMC5_HASH_ROUNDS, MIMC7_HASH_ROUNDS; lia|]. intros s. now rewrite input_panic by lia.
Qed.
Lemma hash7_any x k cs : mimc7_hash x k cs = if 91 <=? length cs then Ok (mimc_perm (K := K) 7 (firstn 91 cs) x k) else Panic.
Proof.
  destruct (Nat.leb_spec 91 (length cs)) as [L|L].
  - rewrite <- (mimc7_hash_ok HK) by (rewrite firstn_length; unfold MIMC5_HASH_ROUNDS, MIMC7_HASH_ROUNDS; lia). unfold mimc7_hash. match goal with |- bind ?a _ = bind ?b _ => assert (E : a = b); [apply foldM_ext|now rewrite E] end.
    intros s i I. apply in_seq in I. now rewrite input_prefix by (unfold MIMC5_HASH_ROUNDS, MIMC7_HASH_ROUNDS in I; lia).
  - unfold mimc7_hash. rewrite (foldM_panic _ _ 90); [reflexivity|apply in_seq; unfold MIMC5_HASH_ROUNDS, MIMC7_HASH_ROUNDS; lia|]. intros s. now rewrite input_panic by lia.
Qed.

Lemma hash5_long x k (cs : list K) : 10 <= length cs -> mimc5_hash x k cs = Ok (mimc_perm 5 (firstn 10 cs) x k).
Proof. intros L. rewrite hash5_any. now rewrite (proj2 (Nat.leb_le _ _) L). Qed.
Lemma hash7_long x k (cs : list K) : 91 <= length cs -> mimc7_hash x k cs = Ok (mimc_perm 7 (firstn 91 cs) x k).
Proof. intros L. rewrite hash7_any. now rewrite (proj2 (Nat.leb_le _ _) L). Qed.

(** * Inverting *)
Section Root.
Context (e : nat) (root : K -> K).
Hypothesis R1 : forall x, root (fpow x e) = x.
Hypothesis R2 : forall x, fpow (root x) e = x.
Definition unround (k : K) (c : K) (h : K) : K := fsub (fsub (root h) c) k.
Definition unperm (cs : list K) (y k : K) : K := fsub (root (fold_right (unround k) (fsub y k) (tl cs))) k.
Lemma fold_unround k cs : forall h, fold_right (unround k) (fold_left (fun h c => fpow (fadd (fadd h k) c) e) cs h) cs = h.
Proof.
  induction cs as [|c cs IH]; intros h; [reflexivity|]. cbn [fold_left fold_right]. rewrite IH. unfold unround. rewrite R1. ring.
Qed.
Lemma fold_round k cs : forall h, fold_left (fun h c => fpow (fadd (fadd h k) c) e) cs (fold_right (unround k) h cs) = h.
Proof.
  induction cs as [|c cs IH]; intros h; [reflexivity|]. cbn [fold_left fold_right].
  replace (fadd (fadd (unround k c (fold_right (unround k) h cs)) k) c) with (root (fold_right (unround k) h cs)) by (unfold unround; ring). rewrite R2. apply IH.
Qed.
Lemma unperm_perm cs x k : unperm cs (mimc_perm e cs x k) k = x.
Proof.
  unfold unperm, mimc_perm. match goal with |- context [fsub (fadd ?a k) k] => replace (fsub (fadd a k) k) with a by ring end. rewrite fold_unround, R1. ring.
Qed.
Lemma perm_unperm cs y k : mimc_perm e cs (unperm cs y k) k = y.
Proof.
  unfold unperm, mimc_perm. match goal with |- context [fadd (fsub ?a k) k] => replace (fadd (fsub a k) k) with a by ring end. rewrite R2, fold_round. ring.
Qed.
End Root.
End Alg.

(** * Roots in the BLS12-381 scalar field *)
Local Open Scope Z_scope.
Lemma fpow_val (x : FrT) n : fr_val (fpow (K := FrOps) x n) = fr_val x ^ Z.of_nat n mod r_bls.
Proof.
  induction n as [|n IH]; [cbn [fpow f1 FrOps]; apply fr_val_fr|]. cbn [fpow fmul FrOps]. rewrite fr_val_fr, IH, Zmult_mod_idemp_r. rewrite Nat2Z.inj_succ, Z.pow_succ_r by lia. reflexivity.
Qed.
Definition fr_root (d : Z) (x : FrT) : FrT := fr (Zpow_mod (fr_val x) d r_bls).
Lemma r_bls_1 : 1 < r_bls. Proof. reflexivity. Qed.
Lemma pow_turn a e d k : 0 <= e -> 0 <= d -> 0 <= k -> e * d = 1 + k * (r_bls - 1) -> (a ^ (e * d)) mod r_bls = a mod r_bls.
Proof.
  intros E D KP ED. rewrite ED. pose proof r_bls_1 as R. assert (Q : 0 <= k * (r_bls - 1)) by (apply Z.mul_nonneg_nonneg; lia). destruct (Zdivide_dec r_bls a) as [DV|ND].
  - destruct DV as [q ->]. rewrite Z.pow_add_r by lia. rewrite Z.pow_1_r, <- Z.mul_assoc, (Z.mul_comm r_bls), Z.mul_assoc, !Z_mod_mult. reflexivity.
  - assert (RP : rel_prime a r_bls) by (apply rel_prime_sym, prime_rel_prime; [exact r_bls_prime|exact ND]).
    rewrite Z.pow_add_r, Z.pow_1_r, (Z.mul_comm k), Z.pow_mul_r by lia. rewrite <- Zmult_mod_idemp_r. rewrite (Zpower_mod (a ^ (r_bls - 1))) by lia. rewrite fermat; [|exact r_bls_prime|reflexivity|exact RP].
    rewrite Z.pow_1_l by lia. rewrite (Z.mod_small 1) by lia. now rewrite Z.mul_1_r.
Qed.
Section Roots.
Context (e : nat) (d k : Z).
Hypothesis D : 0 <= d.
Hypothesis KP : 0 <= k.
Hypothesis ED : Z.of_nat e * d = 1 + k * (r_bls - 1).
Lemma root_pow x : fr_root d (fpow (K := FrOps) x e) = x.
Proof.
  apply fr_ext. unfold fr_root. rewrite fr_val_fr, Zpow_mod_correct, fpow_val by (pose proof r_bls_1; lia). rewrite Z.mod_mod by (pose proof r_bls_1; lia).
  rewrite <- Zpower_mod by (pose proof r_bls_1; lia). rewrite <- Z.pow_mul_r by lia. rewrite (pow_turn _ _ _ k) by (auto; lia). apply fr_val_mod.
Qed.
Lemma pow_root x : fpow (K := FrOps) (fr_root d x) e = x.
Proof.
  apply fr_ext. unfold fr_root. rewrite fpow_val, fr_val_fr, Zpow_mod_correct by (pose proof r_bls_1; lia). rewrite Z.mod_mod by (pose proof r_bls_1; lia).
  rewrite <- Zpower_mod by (pose proof r_bls_1; lia). rewrite <- Z.pow_mul_r by lia. rewrite Z.mul_comm, (pow_turn _ _ _ k) by (auto; lia). apply fr_val_mod.
Qed.
End Roots.
Definition d5 : Z := 20974350070050476191779096203274386335076221000211055129041463479975432473805.
Definition d7 : Z := 22472517932196938776906174503508271073295951071654701923972996585687963364791.
Lemma d5_ok : Z.of_nat 5 * d5 = 1 + 2 * (r_bls - 1). Proof. reflexivity. Qed.
Lemma d7_ok : Z.of_nat 7 * d7 = 1 + 3 * (r_bls - 1). Proof. reflexivity. Qed.
