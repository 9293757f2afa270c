(** Facts for C94: which part of a Merkle proof is read. *)
From Coq Require Import Strings.Byte Sorted Permutation.
From Verif Require Import Base Common Merkle CommonFacts MerkleFacts.
Local Open Scope nat_scope.

Section WithHash.
Context (H : list byte -> list byte).
Hypothesis H32 : forall d, length (H d) = 32.

Lemma override_ext w hs a b : firstn (length hs) a = firstn (length hs) b -> override w hs a = override w hs b.
Proof. intros E. unfold override. now rewrite <- (combine_firstn hs a), <- (combine_firstn hs b), E. Qed.
Lemma final_firstn d : forall n l w ph, final H d n l w (firstn (needed d n l) ph) = final H d n l w ph.
Proof.
  induction d as [|d IH]; intros n l w ph; [reflexivity|]. cbn [final needed] in *.
  rewrite (override_ext w (helpers n l) (firstn (length (helpers n l) + needed d (half n) (parent_indices l)) ph) ph).
  - rewrite skipn_firstn_comm. replace (length (helpers n l) + needed d (half n) (parent_indices l) - length (helpers n l)) with (needed d (half n) (parent_indices l)) by lia. apply IH.
  - rewrite firstn_firstn. f_equal. lia.
Qed.
Lemma helper_count d : forall n w l, StronglySorted lt l -> Forall (fun i => i < n) l -> l <> [] -> halves d n = 1 ->
  length (helper_nodes (full_tree H d n w) l) = needed d n l.
Proof.
  induction d as [|d IH]; intros n w l S F N E.
  - cbn in E. subst n. rewrite (sorted_below_one l S F N). reflexivity.
  - cbn [full_tree helper_nodes needed halves] in *. rewrite helper_hashes, app_length, map_length. f_equal. apply IH; auto using par_sorted, par_lt, par_nonempty.
Qed.
(** The verdict depends on the first hashes only, as many as an honest proof has. *)
Theorem verify_first leaves claimed idx proof q root : Forall (fun h => length h = 32) leaves -> length claimed = length leaves ->
  StronglySorted lt idx -> Forall (fun i => i < length leaves) idx -> idx <> [] ->
  generate_merkle_proof idx (from_leaves H leaves) = Ok proof ->
  verify_merkle_proof H q root idx claimed = if length q <? length proof then Panic else verify_merkle_proof H (firstn (length proof) q) root idx claimed.
Proof.
  intros L32 LL S F N GP. assert (NL : leaves <> []) by (intros ->; destruct idx; [congruence|inversion F; subst; cbn in *; lia]).
  assert (L0 : length leaves <> 0) by (destruct leaves; [congruence|discriminate]).
  destruct (from_leaves_full H leaves NL) as [FT RT]. destruct (depth_halves _ L0) as [DH D0].
  assert (LP : length proof = needed (tree_depth (length leaves)) (length leaves) idx).
  { unfold generate_merkle_proof in GP. rewrite FT, proof_round in GP.
    - injection GP as <-. now apply helper_count.
    - apply helper_len; [exact H32|]. intros i I. unfold at_. rewrite Forall_forall in L32. apply L32, nth_In. exact I. }
  unfold verify_merkle_proof. rewrite leaves_to_prove by (rewrite LL; exact F). cbn [bind]. rewrite LL.
  pose proof (verify_char H (length leaves) idx (at_ claimed) q root S F N) as V.
  pose proof (verify_char H (length leaves) idx (at_ claimed) (firstn (length proof) q) root S F N) as V'. cbv zeta in V, V'. 
  rewrite <- LP in V.
  rewrite LP, final_firstn, <- LP, firstn_length in V'.
  destruct (proof_verify H q root idx _ _), (proof_verify H (firstn _ q) root idx _ _); destruct (Nat.ltb_spec (length q) (length proof)) as [C|C]; auto.
  - destruct (proj1 V eq_refl). lia.
  - destruct (proj1 V eq_refl). lia.
  - destruct (proj1 V eq_refl) as [X Y]. assert (Z : false = true) by (apply V'; split; [lia|exact Y]). discriminate.
  - destruct (proj1 V' eq_refl) as [X Y]. assert (Z : false = true) by (apply V; split; [lia|exact Y]). discriminate.
Qed.
End WithHash.
Lemma dedup_len l : length (dedup l) <= length l.
Proof. induction l as [|a l IH]; [cbn; lia|]. destruct l as [|b l]; [cbn; lia|]. change (length (if a =? b then dedup (b :: l) else a :: dedup (b :: l)) <= S (length (b :: l))). destruct (a =? b); cbn [length] in *; lia. Qed.
Lemma parents_len l : length (parent_indices l) <= length l.
Proof. unfold parent_indices. rewrite dedup_len, map_length. lia. Qed.
Lemma filter_len {A} (f : A -> bool) l : length (filter f l) <= length l.
Proof. induction l as [|a l IH]; cbn; [lia|]. destruct (f a); cbn; lia. Qed.
Lemma helpers_len n l : length (helpers n l) <= length l.
Proof. unfold helpers, difference. rewrite !filter_len, map_length. lia. Qed.
Lemma needed_bound d : forall n l, needed d n l <= d * length l.
Proof. induction d as [|d IH]; intros n l; [cbn; lia|]. cbn [needed]. pose proof (helpers_len n l). pose proof (IH (half n) (parent_indices l)). pose proof (parents_len l). nia. Qed.

(** No leaf is asked for. *)
Theorem verify_no_index H proof root leaves : verify_merkle_proof H proof root [] leaves = Panic.
Proof.
  unfold verify_merkle_proof. cbn [mapM bind]. unfold proof_verify, proof_tree. cbn [length Nat.eqb negb combine sort_nodes fold_right].
  set (d := tree_depth (length leaves)).
  assert (PI : forall d n, proof_indices_by_layers d n [] = repeat [] d).
  { clear. induction d as [|d IH]; intros n; [reflexivity|]. cbn [proof_indices_by_layers map length Nat.eqb negb repeat]. rewrite andb_false_r. cbn [difference filter]. now rewrite IH. }
  assert (PL : forall d p, proof_layers (repeat [] d) p = Some (repeat [] d)).
  { clear. induction d as [|d IH]; intros p; [reflexivity|]. cbn [repeat proof_layers length]. cbn [Nat.ltb Nat.leb]. cbn [skipn firstn combine]. now rewrite IH. }
  assert (BT : forall d k, build_tree H d (repeat [] k) [] = Some (repeat [] (S d))).
  { clear. induction d as [|d IH]; intros k; [reflexivity|]. cbn [build_tree app].
    replace (hd [] (repeat (@nil (nat * hash)) k)) with (@nil (nat * hash)) by (destruct k; reflexivity). cbn [sort_nodes fold_right map parent_indices dedup hash_parents].
    replace (tl (repeat (@nil (nat * hash)) k)) with (repeat (@nil (nat * hash)) (k - 1)) by (destruct k; [reflexivity|cbn; f_equal; lia]).
    now rewrite IH. }
  assert (LR : forall d, tree_root (repeat [] (S d)) = None).
  { clear. intros d. unfold tree_root. replace (last (repeat (@nil (nat * hash)) (S d)) []) with (@nil (nat * hash)); [reflexivity|]. induction d as [|d IH]; [reflexivity|]. cbn [repeat last] in *. destruct d; auto. }
  rewrite PI, PL. destruct d as [|d]; [reflexivity|]. cbn [repeat app sort_nodes fold_right].
  change ([] :: repeat [] d) with (repeat (@nil (nat * hash)) (S d)). rewrite BT, LR. reflexivity.
Qed.
