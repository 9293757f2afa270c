(** Facts about the MiMC functions. *)
From Coq Require Import Ring.
From Verif Require Import Base Field Mimc.

Lemma foldM_index {A S : Type} (l : list A) (step : S -> A -> S) (body : S -> nat -> res S) :
  (forall s i c, nth_error l i = Some c -> body s i = Ok (step s c)) ->
  forall pre post s, l = pre ++ post -> foldM body (seq (length pre) (length post)) s = Ok (fold_left step post s).
Proof.
  intros B pre post. revert pre. induction post as [|c post IH]; intros pre s E; [reflexivity|]. cbn [length seq foldM fold_left].
  rewrite (B s (length pre) c) by (rewrite E, nth_error_app2, Nat.sub_diag by lia; reflexivity). cbn [bind].
  specialize (IH (pre ++ [c]) (step s c)). rewrite app_length, Nat.add_1_r in IH. apply IH. now rewrite <- app_assoc.
Qed.
Lemma foldM_index0 {A S : Type} (l : list A) (step : S -> A -> S) (body : S -> nat -> res S) s :
  (forall s i c, nth_error l i = Some c -> body s i = Ok (step s c)) -> foldM body (seq 0 (length l)) s = Ok (fold_left step l s).
Proof. intros B. exact (foldM_index l step body B [] l s eq_refl). Qed.

Section Facts.
Context {K : ops} (HK : is_ring K).
Add Ring kring : (HK : ring_theory f0 f1 fadd fmul fsub fopp (@eq K)).

(** The Feistel network with round function l -> (l + c)^e, its halves swapped. *)
Definition feistel_round (e : nat) (s : K * K) (c : K) : K * K := (fadd (fpow (fadd (fst s) c) e) (snd s), fst s).
Definition feistel (e : nat) (cs : list K) (s : K * K) : K * K := fold_left (feistel_round e) cs s.
Definition unfeistel_round (e : nat) (s : K * K) (c : K) : K * K := (snd s, fsub (fst s) (fpow (fadd (snd s) c) e)).
Definition unfeistel (e : nat) (cs : list K) (s : K * K) : K * K := fold_left (unfeistel_round e) (rev cs) s.

Lemma unfeistel_feistel e cs : forall s, unfeistel e cs (feistel e cs s) = s.
Proof.
  unfold unfeistel, feistel. induction cs as [|c cs IH]; intros [l r]; [reflexivity|]. cbn [rev fold_left]. rewrite fold_left_app, IH.
  cbn [fold_left]. unfold unfeistel_round, feistel_round; cbn [fst snd]. f_equal. ring.
Qed.
Lemma feistel_unfeistel e cs : forall s, feistel e cs (unfeistel e cs s) = s.
Proof.
  unfold unfeistel, feistel. induction cs as [|c cs IH] using rev_ind; intros [l r]; [reflexivity|]. rewrite rev_app_distr. cbn [rev app fold_left].
  rewrite fold_left_app. cbn [fold_left]. rewrite IH. unfold unfeistel_round, feistel_round; cbn [fst snd]. f_equal. ring.
Qed.

Lemma mimc3_df_ok xl xr cs : length cs = MIMC3_DF_ROUNDS -> mimc3_df xl xr cs = Ok (fst (feistel 3 cs (xl, xr))).
Proof.
  intros L. unfold mimc3_df. rewrite (proj2 (Nat.eqb_eq _ _) L), <- L. rewrite (foldM_index0 cs (feistel_round 3)).
  - cbn [bind]. unfold feistel. now destruct (fold_left _ cs _).
  - intros [l r] i c E. unfold mimc3_df_round, index. rewrite E. cbn [bind]. unfold feistel_round, fsquare; cbn [fst snd fpow]. do 2 f_equal. ring.
Qed.
Lemma mimc5_df_ok xl xr cs : length cs = MIMC5_DF_ROUNDS -> mimc5_df xl xr cs = Ok (fst (feistel 5 cs (xl, xr))).
Proof.
  intros L. unfold mimc5_df. rewrite (proj2 (Nat.eqb_eq _ _) L), <- L. rewrite (foldM_index0 cs (feistel_round 5)).
  - cbn [bind]. unfold feistel. now destruct (fold_left _ cs _).
  - intros [l r] i c E. unfold mimc5_df_round, index. rewrite E. cbn [bind]. unfold feistel_round, fsquare; cbn [fst snd fpow]. do 2 f_equal. ring.
Qed.
Lemma mimc3_df_panic xl xr (cs : list K) : length cs <> MIMC3_DF_ROUNDS -> mimc3_df xl xr cs = Panic.
Proof. intros L. unfold mimc3_df. now rewrite (proj2 (Nat.eqb_neq _ _) L). Qed.
Lemma mimc5_df_panic xl xr (cs : list K) : length cs <> MIMC5_DF_ROUNDS -> mimc5_df xl xr cs = Panic.
Proof. intros L. unfold mimc5_df. now rewrite (proj2 (Nat.eqb_neq _ _) L). Qed.

(** The keyed permutation: the first constant is not used. *)
Definition mimc_perm (e : nat) (cs : list K) (x k : K) : K :=
  fadd (fold_left (fun h c => fpow (fadd (fadd h k) c) e) (tl cs) (fpow (fadd x k) e)) k.
(** Miyaguchi-Preneel style chaining. *)
Definition mimc_chain (e : nat) (cs : list K) (key : K) (xs : list K) : K :=
  fold_left (fun r x => fadd (fadd r x) (mimc_perm e cs x r)) xs key.

Lemma hash_loop e x k (cs : list K) (body : K -> nat -> res K) rounds :
  length cs = S rounds ->
  (forall h i t, hash_input x k h cs i = Ok t -> body h i = Ok (fpow t e)) ->
  (let* h := foldM body (seq 0 (S rounds)) f0 in Ok (fadd h k)) = Ok (mimc_perm e cs x k).
Proof.
  intros L B. destruct cs as [|c0 cs]; [discriminate|]. cbn [length] in L. injection L as L. cbn [seq foldM].
  rewrite (B f0 0 (fadd x k)) by reflexivity. cbn [bind].
  rewrite <- L. pose proof (foldM_index (c0 :: cs) (fun h c => fpow (fadd (fadd h k) c) e)
    (fun h i => if i =? 0 then Ok (match nth_error (c0 :: cs) 0 with Some c => fpow (fadd (fadd h k) c) e | None => h end) else body h i)) as F.
  assert (F1 : forall s i c, nth_error (c0 :: cs) i = Some c -> (if i =? 0 then Ok (match nth_error (c0 :: cs) 0 with Some c => fpow (fadd (fadd s k) c) e | None => s end) else body s i) = Ok (fpow (fadd (fadd s k) c) e)).
  { intros s i c E. destruct i as [|i]; cbn [Nat.eqb]; [cbn [nth_error] in *; congruence|]. apply B. unfold hash_input, index. rewrite E. reflexivity. }
  specialize (F F1 [c0] cs (fpow (fadd x k) e) eq_refl). cbn [length] in F.
  assert (EX : forall l s, (forall i, In i l -> i <> 0) -> foldM (fun h i => if i =? 0 then Ok (match nth_error (c0 :: cs) 0 with Some c => fpow (fadd (fadd h k) c) e | None => h end) else body h i) l s = foldM body l s).
  { induction l as [|i l IH]; intros s NZ; [reflexivity|]. cbn [foldM]. rewrite (proj2 (Nat.eqb_neq i 0) (NZ i (or_introl eq_refl))).
    destruct (body s i); cbn [bind]; [|reflexivity]. apply IH. intros j J. apply NZ. now right. }
  rewrite EX in F by (intros i I; apply in_seq in I; lia). rewrite F. reflexivity.
Qed.
Lemma mimc5_hash_ok x k cs : length cs = MIMC5_HASH_ROUNDS -> mimc5_hash x k cs = Ok (mimc_perm 5 cs x k).
Proof.
  intros L. unfold mimc5_hash. change MIMC5_HASH_ROUNDS with (S 9). apply hash_loop; [exact L|]. intros h i t E. rewrite E. cbn [bind]. f_equal. unfold fsquare. cbn [fpow]. ring.
Qed.
Lemma mimc7_hash_ok x k cs : length cs = MIMC7_HASH_ROUNDS -> mimc7_hash x k cs = Ok (mimc_perm 7 cs x k).
Proof.
  intros L. unfold mimc7_hash. change MIMC7_HASH_ROUNDS with (S 90). apply hash_loop; [exact L|]. intros h i t E. rewrite E. cbn [bind]. f_equal. unfold fsquare. cbn [fpow]. ring.
Qed.
Lemma multi_mimc5_ok xs : forall k cs, length cs = MIMC5_HASH_ROUNDS -> multi_mimc5_hash xs k cs = Ok (mimc_chain 5 cs k xs).
Proof.
  unfold multi_mimc5_hash, mimc_chain. induction xs as [|x xs IH]; intros k cs L; [reflexivity|]. cbn [foldM fold_left]. rewrite mimc5_hash_ok by exact L. cbn [bind]. now apply IH.
Qed.
Lemma multi_mimc7_ok xs : forall k cs, length cs = MIMC7_HASH_ROUNDS -> multi_mimc7_hash xs k cs = Ok (mimc_chain 7 cs k xs).
Proof.
  unfold multi_mimc7_hash, mimc_chain. induction xs as [|x xs IH]; intros k cs L; [reflexivity|]. cbn [foldM fold_left]. rewrite mimc7_hash_ok by exact L. cbn [bind]. now apply IH.
Qed.
End Facts.
