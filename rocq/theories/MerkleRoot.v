(** The Merkle root: a short description, and what equal roots imply. *)
From Verif Require Import Base Common BytesFacts CommonFacts Merkle MerkleFacts.
From Coq Require Import Sorted Permutation Strings.Byte.
Local Open Scope nat_scope.

(** One layer up: neighbours are hashed together, a last odd node is passed on. *)
Fixpoint pair_up (H : list byte -> list byte) (l : list (list byte)) : list (list byte) :=
  match l with
  | a :: b :: t => H (a ++ b) :: pair_up H t
  | [a] => [a]
  | [] => []
  end.

(** k layers up. *)
Fixpoint layers_up (H : list byte -> list byte) (k : nat) (l : list (list byte)) : list (list byte) :=
  match k with
  | O => l
  | S k' => layers_up H k' (pair_up H l)
  end.

Section Root.
Context (H : list byte -> list byte).

Lemma pair_ind (P : list (list byte) -> Prop) : P [] -> (forall a, P [a]) -> (forall a b t, P t -> P (a :: b :: t)) -> forall l, P l.
Proof.
  intros P0 P1 P2 l. enough (P l /\ forall a, P (a :: l)) by tauto. induction l as [|b l [IH1 IH2]]; [auto|]. split; [apply IH2|]. intros a. auto.
Qed.
Lemma pair_up_layer l : pair_up H l = map (up H (length l) (at_ l)) (seq 0 (half (length l))).
Proof.
  induction l as [|a|a b t IH] using pair_ind; [reflexivity|reflexivity|].
  cbn [pair_up]. rewrite IH. replace (half (length (a :: b :: t))) with (S (half (length t))).
  - cbn [seq map]. f_equal. rewrite <- seq_shift, map_map. apply map_ext_in. intros p I. apply in_seq in I. unfold up.
    replace (2 * S p + 1) with (S (S (2 * p + 1))) by lia. replace (2 * S p) with (S (S (2 * p))) by lia. cbn [length at_ nth]. reflexivity.
  - pose proof (half_spec (length t)). cbn [length]. pose proof (half_spec (S (S (length t)))). lia.
Qed.
Lemma map_at_seq l : map (at_ l) (seq 0 (length l)) = l.
Proof.
  apply list_ext. intros i. rewrite nth_error_map. unfold at_. destruct (Nat.lt_ge_cases i (length l)) as [C|C].
  - rewrite (nth_error_nth' (seq 0 (length l)) 0) by now rewrite seq_length. rewrite seq_nth by lia. cbn. symmetry. now apply nth_error_nth'.
  - rewrite (proj2 (nth_error_None (seq 0 (length l)) i)) by now rewrite seq_length. symmetry. now apply nth_error_None.
Qed.
Lemma up_ext n w w' p : (forall i, i < n -> w i = w' i) -> p < half n -> up H n w p = up H n w' p.
Proof. intros E P. pose proof (half_spec n). unfold up. destruct (Nat.ltb_spec (2 * p + 1) n); [|apply E; lia]. now rewrite !E by lia. Qed.
Lemma lift_ext d : forall n w w', halves d n = 1 -> (forall i, i < n -> w i = w' i) -> lift H d n w 0 = lift H d n w' 0.
Proof.
  induction d as [|d IH]; intros n w w' HV E; [cbn in HV; apply E; lia|]. cbn [lift halves] in *. apply IH; [exact HV|]. intros p P. now apply up_ext.
Qed.
Lemma lift_iter d : forall l, halves d (length l) = 1 -> layers_up H d l = [lift H d (length l) (at_ l) 0].
Proof.
  induction d as [|d IH]; intros l HV.
  - cbn in *. destruct l as [|a [|b t]]; [discriminate|reflexivity|discriminate].
  - cbn [layers_up]. assert (LU : length (pair_up H l) = half (length l)) by now rewrite pair_up_layer, map_length, seq_length.
    cbn [halves] in HV. rewrite IH by now rewrite LU. rewrite LU. f_equal. cbn [lift]. apply lift_ext; [exact HV|].
    intros p P. unfold at_ at 1. rewrite pair_up_layer. rewrite (nth_indep _ _ (up H (length l) (at_ l) 0)) by now rewrite map_length, seq_length.
    rewrite map_nth, seq_nth by exact P. reflexivity.
Qed.
Lemma pair_up_one r k : layers_up H k [r] = [r].
Proof. induction k as [|k IH]; [reflexivity|]. exact IH. Qed.
Lemma layers_up_add j : forall k l, layers_up H (j + k) l = layers_up H k (layers_up H j l).
Proof. induction j as [|j IH]; intros k l; [reflexivity|]. cbn. apply IH. Qed.
Lemma iter_one l r s j k : layers_up H j l = [r] -> layers_up H k l = [s] -> r = s.
Proof.
  intros A B. destruct (Nat.le_ge_cases j k) as [C|C].
  - assert (E : layers_up H k l = [r]) by (replace k with (j + (k - j)) by lia; rewrite layers_up_add, A; apply pair_up_one). congruence.
  - assert (E : layers_up H j l = [s]) by (replace j with (k + (j - k)) by lia; rewrite layers_up_add, B; apply pair_up_one). congruence.
Qed.
Theorem root_spec leaves r : tree_root (from_leaves H leaves) = Some r <-> exists k, layers_up H k leaves = [r].
Proof.
  destruct leaves as [|a t].
  - split; [discriminate|]. intros (k & E). exfalso. assert (X : layers_up H k [] = []) by (clear; induction k as [|k IH]; [reflexivity|]; exact IH).
    congruence.
  - remember (a :: t) as leaves. assert (NL : leaves <> []) by (subst; discriminate). clear Heqleaves.
    assert (L0 : length leaves <> 0) by (destruct leaves; [congruence|discriminate]).
    destruct (from_leaves_full H leaves NL) as [_ RT]. destruct (depth_halves _ L0) as [DH _]. pose proof (lift_iter _ _ DH) as LI. rewrite RT. split.
    + intros [= <-]. eauto.
    + intros (k & E). f_equal. exact (iter_one _ _ _ _ _ LI E).
Qed.
Theorem root_total leaves : leaves <> [] -> exists r, tree_root (from_leaves H leaves) = Some r.
Proof. intros N. destruct (from_leaves_full H leaves N) as [_ R]. eauto. Qed.
Lemma pair_up_len l : length (pair_up H l) = half (length l).
Proof. now rewrite pair_up_layer, map_length, seq_length. Qed.

(** Equal roots of trees of the same size. *)
Lemma helpers_all n : helpers n (seq 0 n) = [].
Proof.
  destruct (helpers n (seq 0 n)) as [|i t] eqn:E; [reflexivity|]. assert (I : In i (helpers n (seq 0 n))) by (rewrite E; now left).
  apply in_helpers in I. destruct I as (L & N & _). exfalso. apply N. apply in_seq. lia.
Qed.
Lemma all_final d : forall n w, needed d n (seq 0 n) = 0 /\ final H d n (seq 0 n) w [] = lift H d n w 0 /\ partial_tree H d n (seq 0 n) w [] = full_tree H d n w.
Proof.
  induction d as [|d IH]; intros n w; [auto|]. cbn [needed final lift partial_tree full_tree]. cbv zeta. destruct (closure_seq n) as [C P].
  rewrite helpers_all, C, P. cbn [length plus skipn]. destruct (IH (half n) (up H n (override w [] []))) as (A & B & D).
  split; [exact A|]. split; [exact B|]. f_equal. exact D.
Qed.
Theorem root_binding a b r : (forall d, length (H d) = 32) -> Forall (fun h => length h = 32) a -> Forall (fun h => length h = 32) b ->
  length a = length b -> tree_root (from_leaves H a) = Some r -> tree_root (from_leaves H b) = Some r ->
  a = b \/ exists x y, In x (tree_inputs (from_leaves H a)) /\ In y (tree_inputs (from_leaves H b)) /\ x <> y /\ H x = H y.
Proof.
  intros H32 FA FB L RA RB. destruct a as [|a0 a']; [left; destruct b; [reflexivity|discriminate]|]. remember (a0 :: a') as a.
  assert (NA : a <> []) by (subst; discriminate). clear Heqa a0 a'. assert (L0 : length a <> 0) by (destruct a; [congruence|discriminate]).
  assert (NB : b <> []) by (intros ->; cbn in L; lia).
  destruct (from_leaves_full H a NA) as [FTA RTA]. destruct (from_leaves_full H b NB) as [FTB RTB]. rewrite FTA, FTB. rewrite RA in RTA. rewrite RB in RTB.
  injection RTA as RTA. injection RTB as RTB. rewrite <- L in *. set (n := length a) in *. set (d := tree_depth n) in *.
  destruct (depth_halves n L0) as [DH _]. destruct (all_final d n (at_ a)) as (ND & FN & PT).
  assert (AT : forall l, Forall (fun h => length h = 32) l -> length l = n -> forall i, i < n -> length (at_ l i) = 32).
  { intros l F32 LN i I. unfold at_. rewrite Forall_forall in F32. apply F32, nth_In. lia. }
  destruct (binding H H32 d n (seq 0 n) (at_ a) [] (at_ b)) as [A|(x & y & X & Y & Z)]; auto.
  - apply strict_seq.
  - apply Forall_forall. intros x I. apply in_seq in I. lia.
  - intros Z. apply (f_equal (@length nat)) in Z. rewrite seq_length in Z. cbn in Z. lia.
  - intros i I. apply in_seq in I. apply AT; auto. lia.
  - rewrite ND. apply Nat.le_0_l.
  - rewrite FN, <- RTA. exact RTB.
  - left. rewrite <- (map_at_seq a), <- (map_at_seq b). fold n. rewrite <- L. apply map_ext_in. exact A.
  - right. exists x, y. rewrite PT in X. auto.
Qed.

(** Presenting the inner nodes of a tree as leaf values gives the same root. *)
Lemma inputs_hash l : Nat.even (length l) = true -> map H (layer_inputs l) = pair_up H l.
Proof.
  induction l as [|a|a b t IH] using pair_ind; intros E; [reflexivity|discriminate|]. cbn [layer_inputs map pair_up]. now rewrite IH.
Qed.
Theorem second_preimage vals r : Nat.even (length vals) = true -> vals <> [] -> 
  tree_root (from_leaves H (map H vals)) = Some r ->
  tree_root (from_leaves H (map H (layer_inputs (map H vals)))) = Some r.
Proof.
  intros E N R. apply root_spec in R. apply root_spec. destruct R as (k & R). rewrite inputs_hash by now rewrite map_length.
  destruct k as [|k].
  - exfalso. cbn in R. apply (f_equal (@length (list byte))) in R. rewrite map_length in R. rewrite R in E. discriminate.
  - exists k. exact R.
Qed.

(** * Trees of files *)
Definition leaf_of (f : file) (leaf_len i : nat) : list byte := read_file f ((i + 1) * leaf_len) leaf_len.
Lemma file_leaves f data_len leaf_len : leaf_len <> 0 ->
  generate_merkle_tree_from_file H f data_len leaf_len
  = generate_merkle_tree_from_data H (map (leaf_of f leaf_len) (seq 0 (ceil_div data_len leaf_len))).
Proof.
  intros N. unfold generate_merkle_tree_from_file, generate_merkle_tree_from_data, step_by. destruct leaf_len as [|k]; [congruence|]. cbn [bind].
  rewrite !map_map. replace (map (fun x => H (leaf_of f (S k) x)) (seq 0 (ceil_div data_len (S k))))
    with (map (fun x => H (read_file f (x * S k + S k) (S k))) (seq 0 (ceil_div data_len (S k)))); [reflexivity|].
  apply map_ext. intros i. unfold leaf_of. replace ((i + 1) * S k) with (i * S k + S k) by lia. reflexivity.
Qed.
Lemma skip_skip {A} a b (l : list A) : skipn a (skipn b l) = skipn (a + b) l.
Proof. revert l. induction b as [|b IH]; intros l; [now rewrite Nat.add_0_r|]. rewrite Nat.add_succ_r. destruct l; [now rewrite !skipn_nil|]. cbn. apply IH. Qed.
Lemma read_file_suffix f g k pos len : skipn k f = skipn k g -> k <= pos -> read_file f pos len = read_file g pos len.
Proof.
  intros E L. unfold read_file. replace (skipn pos f) with (skipn pos g); [reflexivity|].
  replace pos with ((pos - k) + k) by lia. now rewrite <- !skip_skip, E.
Qed.
Theorem file_root_suffix f g data_len leaf_len : skipn leaf_len f = skipn leaf_len g ->
  generate_merkle_tree_from_file H f data_len leaf_len = generate_merkle_tree_from_file H g data_len leaf_len.
Proof.
  intros E. destruct (Nat.eq_dec leaf_len 0) as [->|N]; [reflexivity|]. rewrite !file_leaves by exact N. f_equal. apply map_ext. intros i.
  unfold leaf_of. apply (read_file_suffix f g leaf_len); [exact E|]. nia.
Qed.
Theorem file_last_leaf f n leaf_len : leaf_len <> 0 -> n <> 0 -> length f = n * leaf_len ->
  exists pre, forall ls t r, generate_merkle_tree_from_file H f (n * leaf_len) leaf_len = Ok (ls, t, r) -> length pre = n - 1 /\ ls = pre ++ [H (zeros leaf_len)].
Proof.
  intros N NN L. exists (map H (map (leaf_of f leaf_len) (seq 0 (n - 1)))). intros ls t r E. rewrite file_leaves in E by exact N.
  unfold generate_merkle_tree_from_data in E. destruct (tree_root _); [|discriminate]. injection E as <- _ _. split; [now rewrite !map_length, seq_length|].
  assert (C : ceil_div (n * leaf_len) leaf_len = n).
  { unfold ceil_div. symmetry. apply (Nat.div_unique _ _ _ (leaf_len - 1)); lia. }
  rewrite C. replace n with (n - 1 + 1) at 1 by lia. rewrite seq_app, !map_app. cbn [seq map plus]. do 2 f_equal.
  unfold leaf_of, read_file. rewrite skipn_all2 by (rewrite L; nia). rewrite firstn_nil. cbn [app length]. f_equal. f_equal. lia.
Qed.
Theorem file_root_binding f g data_len leaf_len lf tf lg tg r : (forall d, length (H d) = 32) ->
  generate_merkle_tree_from_file H f data_len leaf_len = Ok (lf, tf, r) ->
  generate_merkle_tree_from_file H g data_len leaf_len = Ok (lg, tg, r) ->
  (forall i, i * leaf_len < data_len -> read_file f ((i + 1) * leaf_len) leaf_len = read_file g ((i + 1) * leaf_len) leaf_len) \/
  (exists i, i * leaf_len < data_len /\ leaf_of f leaf_len i <> leaf_of g leaf_len i /\ H (leaf_of f leaf_len i) = H (leaf_of g leaf_len i)) \/
  exists x y, In x (tree_inputs tf) /\ In y (tree_inputs tg) /\ x <> y /\ H x = H y.
Proof.
  intros H32 EF EG. destruct (Nat.eq_dec leaf_len 0) as [->|N]; [discriminate|]. rewrite file_leaves in EF, EG by exact N.
  set (n := ceil_div data_len leaf_len) in *.
  assert (NI : forall i, i < n <-> i * leaf_len < data_len).
  { intros i. unfold n, ceil_div. pose proof (Nat.div_mod (data_len + (leaf_len - 1)) leaf_len N). pose proof (Nat.mod_upper_bound (data_len + (leaf_len - 1)) leaf_len N). nia. }
  unfold generate_merkle_tree_from_data in EF, EG. destruct (tree_root (from_leaves H (map H (map (leaf_of f leaf_len) (seq 0 n))))) eqn:RF; [|discriminate].
  destruct (tree_root (from_leaves H (map H (map (leaf_of g leaf_len) (seq 0 n))))) eqn:RG; [|discriminate]. injection EF as _ <- ->. injection EG as _ <- ->.
  assert (F32 : forall l, Forall (fun h => length h = 32) (map H l)) by (intros l; apply Forall_forall; intros x I; apply in_map_iff in I; destruct I as (y & <- & _); apply H32).
  assert (LL : length (map H (map (leaf_of f leaf_len) (seq 0 n))) = length (map H (map (leaf_of g leaf_len) (seq 0 n)))) by now rewrite !map_length.
  destruct (root_binding _ _ r H32 (F32 _) (F32 _) LL RF RG) as [E|X]; [|auto].
  assert (A : (forall i, i < n -> leaf_of f leaf_len i = leaf_of g leaf_len i) \/ exists i, i < n /\ leaf_of f leaf_len i <> leaf_of g leaf_len i).
  { clear. induction n as [|n [IH|(i & I & D)]]; [left; intros; lia| |right; exists i; split; [lia|exact D]].
    destruct (list_eq_dec Byte.byte_eq_dec (leaf_of f leaf_len n) (leaf_of g leaf_len n)) as [Q|Q]; [|right; exists n; split; [lia|exact Q]].
    left. intros i I. destruct (Nat.eq_dec i n) as [->|]; [exact Q|apply IH; lia]. }
  destruct A as [A|(i & I & D)]; [left; intros i I; apply A; now apply NI|]. right. left. exists i. split; [now apply NI|]. split; [exact D|].
  rewrite !map_map in E. apply (f_equal (fun l => nth_error l i)) in E. rewrite !nth_error_map in E.
  rewrite (nth_error_nth' (seq 0 n) 0) in E by now rewrite seq_length. rewrite seq_nth in E by exact I. cbn in E. now injection E.
Qed.
End Root.
