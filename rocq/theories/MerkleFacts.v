(** Correctness and binding of the Merkle tree model. *)
From Verif Require Import Base Common BytesFacts Merkle.
From Coq Require Import Sorted Permutation Strings.Byte.
Local Open Scope nat_scope.

(** The byte strings hashed while building the inner nodes of a tree: neighbours two by
    two in every layer. *)
Fixpoint layer_inputs (l : list hash) : list (list byte) :=
  match l with
  | a :: b :: t => (a ++ b) :: layer_inputs t
  | _ => []
  end.
Definition tree_inputs (t : list (list (nat * hash))) : list (list byte) :=
  flat_map (fun layer => layer_inputs (map snd layer)) t.

Lemma app_inj_len {A} (a b c d : list A) : length a = length c -> a ++ b = c ++ d -> a = c /\ b = d.
Proof.
  revert c. induction a as [|x a IH]; intros [|y c] L E; cbn in *; try discriminate; [auto|].
  injection E as -> E. destruct (IH c ltac:(lia) E) as [-> ->]. auto.
Qed.

Lemma mapM_index_inv {A} (l : list A) idx : forall ls, mapM (fun i => index l i) idx = Ok ls -> Forall (fun i => i < length l) idx.
Proof.
  induction idx as [|i idx IH]; intros ls M; [constructor|]. cbn [mapM] in M. unfold index at 1 in M.
  destruct (nth_error l i) eqn:E; [|discriminate]. cbn [bind] in M. destruct (mapM _ idx) as [ls'|]; [|discriminate].
  constructor; [apply nth_error_Some; congruence|]. now apply (IH ls').
Qed.

(** * Sorted lists of indices *)
Lemma strict_ext (l l' : list nat) : StronglySorted lt l -> StronglySorted lt l' -> (forall x, In x l <-> In x l') -> l = l'.
Proof.
  revert l'. induction l as [|a l IH]; intros [|b l'] S1 S2 E.
  - reflexivity.
  - destruct (proj2 (E b) (or_introl eq_refl)).
  - destruct (proj1 (E a) (or_introl eq_refl)).
  - inversion S1 as [|? ? S1' F1]; subst. inversion S2 as [|? ? S2' F2]; subst. rewrite Forall_forall in F1, F2.
    assert (AB : a = b).
    { destruct (proj1 (E a) (or_introl eq_refl)) as [->|A]; [reflexivity|].
      destruct (proj2 (E b) (or_introl eq_refl)) as [->|B]; [reflexivity|]. specialize (F1 _ B). specialize (F2 _ A). lia. }
    subst b. f_equal. apply IH; auto. intros x. specialize (E x). cbn in E. split; intros I.
    + pose proof (F1 x I). destruct (proj1 E (or_intror I)); [lia|assumption].
    + pose proof (F2 x I). destruct (proj2 E (or_intror I)); [lia|assumption].
Qed.
Lemma strict_nodup (l : list nat) : StronglySorted lt l -> NoDup l.
Proof.
  induction 1 as [|a l S IH F]; constructor; auto. intros I. rewrite Forall_forall in F. specialize (F _ I). lia.
Qed.
Lemma strict_app (a b : list nat) : StronglySorted lt a -> StronglySorted lt b -> (forall x y, In x a -> In y b -> x < y) -> StronglySorted lt (a ++ b).
Proof.
  intros SA SB L. induction SA as [|x a SA IH F]; [exact SB|]. cbn. constructor.
  - apply IH. intros; apply L; [now right|assumption].
  - apply Forall_app. split; [exact F|]. apply Forall_forall. intros y I. apply L; [now left|exact I].
Qed.
Lemma strict_seq a n : StronglySorted lt (seq a n).
Proof.
  revert a. induction n as [|n IH]; intros a; cbn; constructor; auto. apply Forall_forall. intros x I. apply in_seq in I. lia.
Qed.

Lemma in_dedup x l : In x (dedup l) <-> In x l.
Proof.
  induction l as [|a [|b t] IH]; [reflexivity|reflexivity|].
  change (dedup (a :: b :: t)) with (if a =? b then dedup (b :: t) else a :: dedup (b :: t)).
  destruct (Nat.eqb_spec a b) as [->|N].
  - rewrite IH. cbn. tauto.
  - change (In x (a :: dedup (b :: t))) with (a = x \/ In x (dedup (b :: t))). rewrite IH. reflexivity.
Qed.
Lemma dedup_sorted l : StronglySorted le l -> StronglySorted lt (dedup l).
Proof.
  induction l as [|a [|b t] IH]; intros S; [constructor|repeat constructor|].
  inversion S as [|? ? S' F]; subst.
  change (dedup (a :: b :: t)) with (if a =? b then dedup (b :: t) else a :: dedup (b :: t)).
  destruct (Nat.eqb_spec a b) as [->|N]; [now apply IH|]. constructor; [now apply IH|].
  apply Forall_forall. intros x I. apply (proj1 (in_dedup x _)) in I. inversion S' as [|? ? _ F']; subst.
  rewrite Forall_forall in F'. inversion F as [|? ? AB _]; subst. destruct I as [<-|I]; [lia|]. specialize (F' _ I). lia.
Qed.

Definition par (l : list nat) := parent_indices l.
Lemma in_par p l : In p (parent_indices l) <-> exists i, In i l /\ Nat.div2 i = p.
Proof.
  unfold parent_indices. rewrite in_dedup, in_map_iff. split; intros (i & A & B); exists i; auto.
Qed.
Lemma div2_mono a b : a <= b -> Nat.div2 a <= Nat.div2 b.
Proof. intros L. rewrite !Nat.div2_div. apply Nat.div_le_mono; lia. Qed.
Lemma par_sorted l : StronglySorted lt l -> StronglySorted lt (parent_indices l).
Proof.
  intros S. apply dedup_sorted. induction S as [|a l S IH F]; [constructor|]. cbn [map]. constructor; [exact IH|].
  apply Forall_forall. intros x I. apply in_map_iff in I. destruct I as (y & <- & I). rewrite Forall_forall in F. specialize (F _ I).
  apply div2_mono. lia.
Qed.
Lemma par_nonempty l : l <> [] -> parent_indices l <> [].
Proof.
  destruct l as [|a l]; [congruence|]. intros _ E. apply (proj2 (in_par (Nat.div2 a) (a :: l))) with (1 := ex_intro _ a (conj (or_introl eq_refl) eq_refl)) || idtac.
  assert (I : In (Nat.div2 a) (parent_indices (a :: l))) by (apply in_par; exists a; split; [now left|reflexivity]).
  rewrite E in I. destruct I.
Qed.

Definition half (n : nat) : nat := ceil_div n 2.
Lemma half_spec n : n <= 2 * half n <= n + 1.
Proof.
  unfold half, ceil_div. change (2 - 1) with 1.
  pose proof (Nat.div_mod (n + 1) 2 ltac:(lia)). pose proof (Nat.mod_upper_bound (n + 1) 2 ltac:(lia)). lia.
Qed.
Lemma div2_spec i : i = 2 * Nat.div2 i \/ i = 2 * Nat.div2 i + 1.
Proof.
  destruct (Nat.Even_Odd_dec i) as [[k ->]|[k ->]].
  - left. now rewrite Nat.div2_double.
  - right. rewrite Nat.add_1_r, Nat.div2_succ_double. lia.
Qed.
Lemma par_lt n l : Forall (fun i => i < n) l -> Forall (fun i => i < half n) (parent_indices l).
Proof.
  rewrite !Forall_forall. intros F p I. apply in_par in I. destruct I as (i & I & <-). specialize (F _ I).
  pose proof (half_spec n). pose proof (div2_spec i). lia.
Qed.

(** The two children of p in a layer of n nodes. *)
Definition kids (n p : nat) : list nat := 2 * p :: if 2 * p + 1 <? n then [2 * p + 1] else [].
Definition closure (n : nat) (l : list nat) : list nat := flat_map (kids n) (parent_indices l).
Lemma in_kids n p i : p < half n -> In i (kids n p) <-> i < n /\ Nat.div2 i = p.
Proof.
  intros P. unfold kids. pose proof (half_spec n). pose proof (div2_spec i). destruct (Nat.ltb_spec (2 * p + 1) n); cbn [In]; split.
  - intros [<-|[<-|[]]]; (split; [lia|]); [apply Nat.div2_double|rewrite Nat.add_1_r; apply Nat.div2_succ_double].
  - intros [A <-]. lia.
  - intros [<-|[]]. split; [lia|apply Nat.div2_double].
  - intros [A <-]. lia.
Qed.
Lemma in_kids_list n P i : Forall (fun p => p < half n) P -> In i (flat_map (kids n) P) <-> i < n /\ In (Nat.div2 i) P.
Proof.
  intros F. rewrite Forall_forall in F. rewrite in_flat_map. split.
  - intros (p & I & K). apply in_kids in K; [|now apply F]. destruct K as [A <-]. auto.
  - intros [A I]. exists (Nat.div2 i). split; [exact I|]. apply in_kids; [now apply F|auto].
Qed.
Lemma kids_sorted n P : StronglySorted lt P -> Forall (fun p => p < half n) P -> StronglySorted lt (flat_map (kids n) P).
Proof.
  intros S F. induction S as [|p P S IH FP]; [constructor|]. inversion F; subst. cbn [flat_map]. apply strict_app.
  - unfold kids. destruct (_ <? _); repeat constructor. lia.
  - now apply IH.
  - intros x y X Y. apply in_kids in X; [|assumption]. apply in_kids_list in Y; [|assumption]. destruct Y as [_ Y].
    rewrite Forall_forall in FP. specialize (FP _ Y). destruct X as [_ <-].
    pose proof (div2_spec x). pose proof (div2_spec y). lia.
Qed.
Lemma parents_of_kids n P : StronglySorted lt P -> Forall (fun p => p < half n) P -> parent_indices (flat_map (kids n) P) = P.
Proof.
  intros S F. apply strict_ext; [apply par_sorted, kids_sorted; assumption|exact S|]. intros x. rewrite in_par. split.
  - intros (i & I & <-). apply in_kids_list in I; tauto.
  - intros I. exists (2 * x). pose proof (Nat.div2_double x) as D. split; [|exact D]. apply in_kids_list; [exact F|]. rewrite D.
    split; [|exact I]. rewrite Forall_forall in F. specialize (F _ I). pose proof (half_spec n). lia.
Qed.

(** * Sorting *)
Definition ann (w : nat -> hash) (i : nat) : nat * hash := (i, w i).
Lemma insert_node_perm x l : Permutation (insert_node x l) (x :: l).
Proof.
  induction l as [|y l IH]; [reflexivity|]. cbn. destruct (_ <=? _); [reflexivity|]. rewrite IH. apply perm_swap.
Qed.
Lemma sort_nodes_perm l : Permutation (sort_nodes l) l.
Proof. induction l as [|x l IH]; [reflexivity|]. cbn. rewrite insert_node_perm. now constructor. Qed.
Lemma insert_node_sorted x l : StronglySorted le (map fst l) -> StronglySorted le (map fst (insert_node x l)).
Proof.
  induction l as [|y l IH]; intros S; [repeat constructor|]. cbn [insert_node]. destruct (Nat.leb_spec (fst x) (fst y)) as [L|L].
  - cbn [map]. constructor; [exact S|]. cbn [map] in S. inversion S as [|? ? _ F]; subst. constructor; [exact L|].
    rewrite Forall_forall in *. intros z I. specialize (F _ I). lia.
  - cbn [map] in *. inversion S as [|? ? S' F]; subst. constructor; [now apply IH|]. rewrite Forall_forall in *. intros z I.
    apply in_map_iff in I. destruct I as (q & <- & I). apply (Permutation_in _ (insert_node_perm x l)) in I.
    destruct I as [<-|I]; [lia|]. apply F. now apply in_map.
Qed.
Lemma sort_nodes_sorted l : StronglySorted le (map fst (sort_nodes l)).
Proof. induction l as [|x l IH]; [constructor|]. cbn [sort_nodes fold_right]. now apply insert_node_sorted. Qed.
Lemma le_nodup_lt l : StronglySorted le l -> NoDup l -> StronglySorted lt l.
Proof.
  induction 1 as [|a l S IH F]; intros N; [constructor|]. inversion N; subst. constructor; [now apply IH|].
  rewrite Forall_forall in *. intros x I. specialize (F _ I). assert (a <> x) by (intros ->; auto). lia.
Qed.
Lemma map_fst_ann w l : map fst (map (ann w) l) = l.
Proof. rewrite map_map. cbn. apply map_id. Qed.
Lemma map_snd_ann w l : map snd (map (ann w) l) = map w l.
Proof. rewrite map_map. reflexivity. Qed.
Lemma sort_ann l w C : StronglySorted lt C -> Permutation l (map (ann w) C) -> sort_nodes l = map (ann w) C.
Proof.
  intros S P. pose proof (Permutation_trans (sort_nodes_perm l) P) as Q.
  assert (K : map fst (sort_nodes l) = C).
  { pose proof (Permutation_map fst Q) as QK. rewrite map_fst_ann in QK. apply strict_ext; [|exact S|].
    - apply le_nodup_lt; [apply sort_nodes_sorted|]. eapply Permutation_NoDup; [symmetry; exact QK|]. now apply strict_nodup.
    - intros x. split; apply Permutation_in; [exact QK|now symmetry]. }
  rewrite <- K. clear K.
  assert (F : Forall (fun e => snd e = w (fst e)) (sort_nodes l)).
  { apply Forall_forall. intros e I. apply (Permutation_in _ Q) in I. apply in_map_iff in I. now destruct I as (i & <- & _). }
  revert F. generalize (sort_nodes l). clear. intros s F.
  induction F as [|[i h] t E F IH]; [reflexivity|]. cbn [map fst] in *. rewrite <- IH. unfold ann. cbn in E. now rewrite E.
Qed.

Section WithHash.
Context (H : list byte -> hash).

(** Value of node p of the next layer, from the values w of a layer of n nodes. *)
Definition up (n : nat) (w : nat -> hash) (p : nat) : hash :=
  if 2 * p + 1 <? n then H (w (2 * p) ++ w (2 * p + 1)) else w (2 * p).

Lemma hash_parents_shift a b nodes ps : forall i,
  hash_parents H (a :: b :: nodes) (S i) ps = hash_parents H nodes i ps.
Proof.
  induction ps as [|p ps IH]; intros i; [reflexivity|]. cbn [hash_parents].
  replace (2 * S i + 1) with (S (S (2 * i + 1))) by lia. replace (2 * S i) with (S (S (2 * i))) by lia. cbn [nth_error].
  change (S i + 1) with (S (i + 1)). now rewrite IH.
Qed.
Lemma hash_parents_ann n w P : StronglySorted lt P -> Forall (fun p => p < half n) P ->
  hash_parents H (map w (flat_map (kids n) P)) 0 P = Some (map (ann (up n w)) P).
Proof.
  intros S F. induction S as [|p P S IH FP]; [reflexivity|]. inversion F as [|? ? PH F']; subst. specialize (IH F').
  destruct P as [|q P].
  - cbn [flat_map app map hash_parents]. rewrite app_nil_r. unfold kids. cbn [map Nat.mul]. change (nth_error (w (2 * p) :: ?t) 0) with (Some (w (2 * p))).
    cbn [nth_error]. unfold ann, up. destruct (_ <? _); reflexivity.
  - assert (L : 2 * p + 1 < n).
    { inversion FP as [|? ? PQ _]; subst. inversion F' as [|? ? QH _]; subst. pose proof (half_spec n). lia. }
    apply Nat.ltb_lt in L. set (Q := q :: P) in *. change (flat_map (kids n) (p :: Q)) with (kids n p ++ flat_map (kids n) Q).
    unfold kids at 1. rewrite L. cbn [app map hash_parents]. cbn [nth_error Nat.mul Nat.add]. rewrite hash_parents_shift, IH.
    unfold ann at 2. unfold up at 2. rewrite L. reflexivity.
Qed.

Lemma build_step d layers cur n l w : StronglySorted lt l -> Forall (fun i => i < n) l ->
  Permutation (cur ++ hd [] layers) (map (ann w) (closure n l)) ->
  build_tree H (S d) layers cur =
  match build_tree H d (tl layers) (map (ann (up n w)) (parent_indices l)) with
  | Some u => Some (map (ann w) (closure n l) :: u)
  | None => None
  end.
Proof.
  intros S F P. cbn [build_tree]. pose proof (par_sorted l S) as SP. pose proof (par_lt n l F) as FP.
  rewrite (sort_ann _ w (closure n l)); [|apply kids_sorted; assumption|exact P].
  rewrite map_fst_ann, map_snd_ann. unfold closure. rewrite parents_of_kids by assumption.
  rewrite hash_parents_ann by assumption. reflexivity.
Qed.

(** * The whole tree *)
Fixpoint full_tree (d n : nat) (w : nat -> hash) : list (list (nat * hash)) :=
  map (ann w) (seq 0 n) :: match d with O => [] | S d' => full_tree d' (half n) (up n w) end.
Fixpoint lift (d n : nat) (w : nat -> hash) : nat -> hash :=
  match d with O => w | S d' => lift d' (half n) (up n w) end.
Fixpoint halves (d n : nat) : nat := match d with O => n | S d' => halves d' (half n) end.

Lemma closure_seq n : closure n (seq 0 n) = seq 0 n /\ parent_indices (seq 0 n) = seq 0 (half n).
Proof.
  assert (F : Forall (fun i => i < n) (seq 0 n)) by (apply Forall_forall; intros x I; apply in_seq in I; lia).
  split; apply strict_ext.
  - apply kids_sorted; [apply par_sorted, strict_seq|now apply par_lt].
  - apply strict_seq.
  - intros x. unfold closure. rewrite in_kids_list by now apply par_lt. rewrite in_par, in_seq. split.
    + intros [A _]. lia.
    + intros A. split; [lia|]. exists x. rewrite in_seq. auto.
  - apply par_sorted, strict_seq.
  - apply strict_seq.
  - intros x. rewrite in_par, in_seq. split.
    + intros (i & I & <-). apply in_seq in I. pose proof (half_spec n). pose proof (div2_spec i). lia.
    + intros A. exists (2 * x). rewrite in_seq, Nat.div2_double. pose proof (half_spec n). split; [lia|reflexivity].
Qed.
Lemma build_full d : forall n w layers cur, tl layers = [] -> Permutation (cur ++ hd [] layers) (map (ann w) (seq 0 n)) ->
  d <> 0 \/ (cur = map (ann w) (seq 0 n) /\ layers = []) ->
  build_tree H d layers cur = Some (full_tree d n w).
Proof.
  induction d as [|d IH]; intros n w layers cur T P Z.
  - destruct Z as [[]|[-> ->]]; reflexivity.
  - destruct (closure_seq n) as [C PI]. rewrite (build_step d layers cur n (seq 0 n) w).
    + rewrite T, PI. rewrite (IH (half n) (up n w) []); [now rewrite C|reflexivity| |right; auto]. cbn. now rewrite app_nil_r.
    + apply strict_seq.
    + apply Forall_forall. intros x I. apply in_seq in I. lia.
    + now rewrite C.
Qed.
Lemma full_tree_root d : forall n w, halves d n = 1 -> tree_root (full_tree d n w) = Some (lift d n w 0).
Proof.
  induction d as [|d IH]; intros n w E.
  - cbn in E. subst n. reflexivity.
  - cbn [halves] in E. specialize (IH _ (up n w) E). cbn [full_tree lift]. unfold tree_root in *.
    destruct (full_tree d (half n) (up n w)) eqn:FT; [destruct d; discriminate|]. exact IH.
Qed.

Lemma half_pow d n : n <= 2 ^ S d -> half n <= 2 ^ d.
Proof. rewrite Nat.pow_succ_r'. pose proof (half_spec n). lia. Qed.
Lemma halves_one d : forall n, 1 <= n <= 2 ^ d -> halves d n = 1.
Proof.
  induction d as [|d IH]; intros n L; [cbn in *; lia|]. cbn [halves]. apply IH. split; [pose proof (half_spec n); lia|apply half_pow; lia].
Qed.
Lemma depth_halves n : n <> 0 -> halves (tree_depth n) n = 1 /\ (tree_depth n <> 0).
Proof.
  intros N. unfold tree_depth. destruct (Nat.eqb_spec n 1) as [->|N1]; [split; [reflexivity|lia]|].
  split.
  - apply halves_one. split; [lia|]. apply Nat.log2_log2_up_spec. lia.
  - pose proof (Nat.log2_up_pos n ltac:(lia)). lia.
Qed.
Definition at_ (l : list hash) (i : nat) : hash := nth i l [].
Lemma combine_seq (l : list hash) : combine (seq 0 (length l)) l = map (ann (at_ l)) (seq 0 (length l)).
Proof.
  unfold at_. induction l as [|a l IH] using rev_ind; [reflexivity|].
  rewrite app_length, seq_app, map_app. cbn [length plus seq map Nat.add].
  assert (X : forall (A B : Type) (u u' : list A) (v v' : list B), length u = length v -> combine (u ++ u') (v ++ v') = combine u v ++ combine u' v').
  { clear. induction u as [|x u IH]; intros u' [|y v] v' E; cbn in *; try discriminate; [reflexivity|]. now rewrite IH by lia. }
  rewrite X by now rewrite seq_length. rewrite IH. f_equal.
  - apply map_ext_in. intros i I. apply in_seq in I. unfold ann. now rewrite app_nth1 by lia.
  - cbn. unfold ann. rewrite app_nth2 by lia. now rewrite Nat.sub_diag.
Qed.
Theorem from_leaves_full leaves : leaves <> [] ->
  from_leaves H leaves = full_tree (tree_depth (length leaves)) (length leaves) (at_ leaves) /\
  tree_root (from_leaves H leaves) = Some (lift (tree_depth (length leaves)) (length leaves) (at_ leaves) 0).
Proof.
  intros N. assert (L : length leaves <> 0) by (destruct leaves; [congruence|discriminate]).
  destruct (depth_halves _ L) as [DH D0].
  assert (E : from_leaves H leaves = full_tree (tree_depth (length leaves)) (length leaves) (at_ leaves)).
  { unfold from_leaves. destruct leaves as [|a t]; [congruence|]. remember (a :: t) as leaves. 
    rewrite (build_full (tree_depth (length leaves)) (length leaves) (at_ leaves)); [reflexivity|reflexivity| |now left].
    cbn [app hd]. now rewrite combine_seq. }
  split; [exact E|]. rewrite E. now apply full_tree_root.
Qed.

(** * Helper nodes *)
Definition helpers (n : nat) (l : list nat) : list nat :=
  filter (fun i => i <? n) (difference (map sibling l) l).
Lemma mem_spec x l : mem x l = true <-> In x l.
Proof. unfold mem. rewrite existsb_exists. split; [intros (y & I & E); apply Nat.eqb_eq in E; now subst|intros I; exists x; split; [exact I|apply Nat.eqb_refl]]. Qed.
Lemma sibling_spec i : sibling i = if Nat.even i then 2 * Nat.div2 i + 1 else 2 * Nat.div2 i.
Proof.
  unfold sibling. destruct (Nat.even i) eqn:E.
  - apply Nat.even_spec in E. destruct E as [k ->]. rewrite Nat.div2_double. lia.
  - assert (O : Nat.odd i = true) by (unfold Nat.odd; now rewrite E). apply Nat.odd_spec in O. destruct O as [k ->].
    rewrite Nat.add_1_r, Nat.div2_succ_double. lia.
Qed.
Lemma sibling_inj i j : sibling i = sibling j -> i = j.
Proof.
  rewrite !sibling_spec. destruct (Nat.even i) eqn:E1, (Nat.even j) eqn:E2; intros E; try lia.
  - apply Nat.even_spec in E1, E2. destruct E1 as [a ->], E2 as [b ->]. rewrite !Nat.div2_double in E. lia.
  - assert (O1 : Nat.odd i = true) by (unfold Nat.odd; now rewrite E1). assert (O2 : Nat.odd j = true) by (unfold Nat.odd; now rewrite E2).
    apply Nat.odd_spec in O1, O2. destruct O1 as [a ->], O2 as [b ->]. rewrite !Nat.add_1_r, !Nat.div2_succ_double in E. lia.
Qed.
Lemma div2_sibling i : Nat.div2 (sibling i) = Nat.div2 i.
Proof. rewrite sibling_spec. destruct (Nat.even i); [rewrite Nat.add_1_r; apply Nat.div2_succ_double|apply Nat.div2_double]. Qed.
Lemma same_parent i j : Nat.div2 i = Nat.div2 j -> i = j \/ i = sibling j.
Proof.
  intros E. rewrite sibling_spec. pose proof (div2_spec i). pose proof (div2_spec j). destruct (Nat.even j) eqn:EV.
  - apply Nat.even_spec in EV. destruct EV as [k ->]. rewrite Nat.div2_double in *. lia.
  - assert (O : Nat.odd j = true) by (unfold Nat.odd; now rewrite EV). apply Nat.odd_spec in O. destruct O as [k ->].
    rewrite Nat.add_1_r, Nat.div2_succ_double in *. lia.
Qed.
Lemma in_helpers n l i : In i (helpers n l) <-> i < n /\ ~ In i l /\ exists j, In j l /\ sibling j = i.
Proof.
  unfold helpers, difference. rewrite !filter_In, in_map_iff, Nat.ltb_lt, negb_true_iff. split.
  - intros [[(j & E & I) M] L]. repeat split; auto; [|exists j; auto]. intros X. apply mem_spec in X. congruence.
  - intros (L & N & j & I & E). repeat split; auto; [exists j; auto|]. destruct (mem i l) eqn:M; [|reflexivity]. apply mem_spec in M. tauto.
Qed.
Lemma helpers_nodup n l : NoDup l -> NoDup (helpers n l).
Proof.
  intros N. apply NoDup_filter, NoDup_filter. induction N as [|a l I N IH]; [constructor|]. cbn. constructor; [|exact IH].
  rewrite in_map_iff. intros (b & E & B). apply sibling_inj in E. now subst.
Qed.
Lemma closure_perm n l : StronglySorted lt l -> Forall (fun i => i < n) l -> Permutation (helpers n l ++ l) (closure n l).
Proof.
  intros S F. apply NoDup_Permutation.
  - assert (NL := strict_nodup l S). apply NoDup_app_intro || idtac.
    assert (X : forall (a b : list nat), NoDup a -> NoDup b -> (forall x, In x a -> ~ In x b) -> NoDup (a ++ b)).
    { clear. intros a b NA. induction NA as [|x a I N IH]; intros NB D; [exact NB|]. cbn. constructor.
      - rewrite in_app_iff. intros [A|A]; [tauto|]. apply (D x); [now left|exact A].
      - apply IH; [exact NB|]. intros y Y. apply D. now right. }
    apply X; [now apply helpers_nodup|exact NL|]. intros x I. apply in_helpers in I. tauto.
  - apply strict_nodup, kids_sorted; [now apply par_sorted|now apply par_lt].
  - intros i. unfold closure. rewrite in_kids_list by now apply par_lt. rewrite in_app_iff, in_helpers, in_par.
    rewrite Forall_forall in F. split.
    + intros [(L & N & j & I & <-)|I]; [|split; [now apply F|exists i; auto]]. split; [exact L|]. exists j. split; [exact I|]. symmetry. apply div2_sibling.
    + intros (L & j & I & E). symmetry in E. destruct (same_parent i j E) as [->|SB]; [now right|].
      destruct (in_dec Nat.eq_dec i l) as [Y|Y]; [now right|]. left. repeat split; auto. exists j. auto.
Qed.

(** The verifier expects exactly the helpers that exist. *)
Lemma removelast_map {A B} (f : A -> B) l : removelast (map f l) = map f (removelast l).
Proof. induction l as [|a [|b l] IH]; [reflexivity|reflexivity|]. cbn [map removelast] in *. now rewrite IH. Qed.
Lemma expected_helpers n l : StronglySorted lt l -> Forall (fun i => i < n) l ->
  difference (if Nat.odd n && (last l 0 =? n - 1) && negb (length l =? 0) then removelast (map sibling l) else map sibling l) l = helpers n l.
Proof.
  intros S F. unfold helpers.
  assert (SB : forall i, i < n -> sibling i < n \/ (Nat.odd n = true /\ i = n - 1)).
  { intros i I. rewrite sibling_spec. pose proof (div2_spec i). destruct (Nat.even i) eqn:E; [|left; lia].
    apply Nat.even_spec in E. destruct E as [k ->]. rewrite Nat.div2_double in *. destruct (Nat.eq_dec (2 * k + 1) n) as [<-|Q]; [|left; lia].
    right. split; [rewrite Nat.odd_spec; exists k; lia|lia]. }
  assert (NF : forall s, Forall (fun i => i < n) s -> filter (fun i => i <? n) s = s).
  { clear. intros s FS. induction FS as [|a s A FS IH]; [reflexivity|]. cbn [filter]. apply Nat.ltb_lt in A. now rewrite A, IH. }
  assert (FD : forall s, Forall (fun i => i < n) s -> Forall (fun i => i < n) (difference s l)).
  { intros s FS. apply Forall_forall. intros x I. apply filter_In in I. rewrite Forall_forall in FS. now apply FS. }
  destruct l as [|a0 l0] using rev_ind; [now destruct (_ && _)|]. clear IHl0. rename l0 into l, a0 into a.
  rewrite last_last, app_length. cbn [length]. replace (length l + 1 =? 0) with false by (symmetry; apply Nat.eqb_neq; lia).
  rewrite andb_true_r. apply Forall_app in F. destruct F as [FL FA]. inversion FA as [|? ? AN _]; subst.
  assert (LA : Forall (fun i => i < a) l).
  { clear -S. induction l as [|x l IH]; [constructor|]. cbn in S. inversion S as [|? ? S' F]; subst. constructor; [|now apply IH].
    apply Forall_app in F. destruct F as [_ F]. now inversion F. }
  assert (SL : Forall (fun i => i < n) (map sibling l)).
  { apply Forall_forall. intros x I. apply in_map_iff in I. destruct I as (y & <- & I). rewrite Forall_forall in *. specialize (FL _ I). specialize (LA _ I).
    destruct (SB y FL) as [B|[_ ->]]; lia. }
  destruct (Nat.odd n && (a =? n - 1)) eqn:C.
  - apply andb_true_iff in C. destruct C as [O C]. apply Nat.eqb_eq in C. subst a.
    rewrite map_app. cbn [map]. rewrite removelast_last.
    assert (SN : sibling (n - 1) = n).
    { unfold sibling. apply Nat.odd_spec in O. destruct O as [k ->]. rewrite Nat.add_sub. replace (Nat.even (2 * k)) with true by (symmetry; apply Nat.even_spec; now exists k). lia. }
    rewrite SN. rewrite <- (NF (difference (map sibling l) (l ++ [n - 1]))) by now apply FD. unfold difference. rewrite filter_app, filter_app.
    cbn [filter]. destruct (negb (mem n (l ++ [n - 1]))); cbn [filter]; [rewrite Nat.ltb_irrefl|]; now rewrite app_nil_r.
  - rewrite NF; [reflexivity|]. apply FD. rewrite map_app. apply Forall_app. split; [exact SL|]. cbn. constructor; [|constructor].
    destruct (SB a AN) as [B|[O ->]]; [exact B|]. rewrite O, Nat.eqb_refl in C. discriminate.
Qed.

(** * What the verifier computes *)
Definition override (w : nat -> hash) (hs : list nat) (vals : list hash) (i : nat) : hash :=
  match find (fun e => fst e =? i) (combine hs vals) with
  | Some e => snd e
  | None => w i
  end.
Lemma override_out w hs vals i : ~ In i hs -> override w hs vals i = w i.
Proof.
  intros N. unfold override. destruct (find _ _) as [e|] eqn:E; [|reflexivity]. apply find_some in E. destruct E as [I E].
  apply Nat.eqb_eq in E. destruct e as [a b]. apply in_combine_l in I. cbn in E. congruence.
Qed.
Lemma override_in w hs vals : NoDup hs -> length hs <= length vals -> combine hs vals = map (ann (override w hs vals)) hs.
Proof.
  intros N L. unfold override. revert vals L. induction N as [|a hs I N IH]; intros [|v vals] L; cbn in *; try lia; [reflexivity|reflexivity|].
  unfold ann at 1. cbn. rewrite Nat.eqb_refl. f_equal. etransitivity; [apply IH; lia|]. apply map_ext_in. intros b B. unfold ann. cbn.
  destruct (Nat.eqb_spec a b) as [->|]; [tauto|reflexivity].
Qed.
Lemma combine_firstn {A B} (a : list A) (b : list B) : combine a (firstn (length a) b) = combine a b.
Proof. revert b. induction a as [|x a IH]; intros [|y b]; cbn; [reflexivity..|]. now rewrite IH. Qed.
Fixpoint partial_tree (d n : nat) (l : list nat) (w : nat -> hash) (ph : list hash) : list (list (nat * hash)) :=
  match d with
  | O => [map (ann w) l]
  | S d' => let w' := override w (helpers n l) ph in
            map (ann w') (closure n l) :: partial_tree d' (half n) (parent_indices l) (up n w') (skipn (length (helpers n l)) ph)
  end.
Fixpoint final (d n : nat) (l : list nat) (w : nat -> hash) (ph : list hash) : hash :=
  match d with
  | O => w 0
  | S d' => final d' (half n) (parent_indices l) (up n (override w (helpers n l) ph)) (skipn (length (helpers n l)) ph)
  end.
(** Length of the proof hashes consumed. *)
Fixpoint needed (d n : nat) (l : list nat) : nat :=
  match d with O => 0 | S d' => length (helpers n l) + needed d' (half n) (parent_indices l) end.

Lemma layers_len d : forall n l ph, StronglySorted lt l -> Forall (fun i => i < n) l ->
  (exists ls, proof_layers (proof_indices_by_layers d n l) ph = Some ls) <-> needed d n l <= length ph.
Proof.
  induction d as [|d IH]; intros n l ph S F; [cbn; split; [lia|eauto]|].
  cbn [proof_indices_by_layers proof_layers needed]. cbv zeta. rewrite expected_helpers by assumption. fold (half n).
  specialize (IH (half n) (parent_indices l) (skipn (length (helpers n l)) ph) (par_sorted l S) (par_lt n l F)). rewrite skipn_length in IH.
  destruct (Nat.ltb_spec (length ph) (length (helpers n l))) as [C|C].
  - split; [intros [? [=]]|lia].
  - destruct (proof_layers _ (skipn _ _)) as [ls|]; split; intros X; eauto.
    + pose proof (proj1 IH (ex_intro _ ls eq_refl)). lia.
    + destruct X as [? [=]].
    + destruct (proj2 IH ltac:(lia)) as [? [=]].
Qed.
Lemma layers_nil n l ph ls d : proof_layers (proof_indices_by_layers (S d) n l) ph = Some ls -> ls <> [].
Proof. cbn [proof_indices_by_layers proof_layers]. cbv zeta. destruct (_ <? _); [discriminate|]. destruct (proof_layers _ _); [|discriminate]. intros [= <-]. discriminate. Qed.

(** [first] is any arrangement of the first layer of helpers and the known nodes. *)
Lemma build_partial d : forall n l w ph ls first cur, StronglySorted lt l -> Forall (fun i => i < n) l ->
  proof_layers (proof_indices_by_layers d n l) ph = Some ls ->
  (d = 0 -> cur = map (ann w) l) -> Permutation (cur ++ first) (hd [] ls ++ map (ann w) l) ->
  build_tree H d (match ls with [] => [] | _ :: t => first :: t end) cur = Some (partial_tree d n l w ph).
Proof.
  induction d as [|d IH]; intros n l w ph ls first cur S F E Z P.
  - cbn in E. injection E as <-. cbn. now rewrite Z.
  - cbn [proof_indices_by_layers proof_layers] in E. cbv zeta in E. rewrite expected_helpers in E by assumption. fold (half n) in E.
    destruct (Nat.ltb_spec (length ph) (length (helpers n l))) as [C|C]; [discriminate|].
    destruct (proof_layers _ (skipn _ _)) as [ls'|] eqn:E'; [|discriminate]. injection E as <-. cbn [hd] in P.
    rewrite combine_firstn in P. set (w' := override w (helpers n l) ph).
    assert (PP : Permutation (cur ++ first) (map (ann w') (closure n l))).
    { eapply Permutation_trans; [exact P|]. eapply Permutation_trans; [|apply Permutation_map, closure_perm; assumption]. rewrite map_app.
      rewrite (override_in w) by (try (apply helpers_nodup, strict_nodup); assumption || lia). fold w'.
      apply Permutation_app_head. erewrite map_ext_in; [apply Permutation_refl|]. intros i I. unfold ann, w'. rewrite override_out; [reflexivity|].
      rewrite in_helpers. tauto. }
    rewrite (build_step d (first :: ls') cur n l w' S F PP). cbn [tl partial_tree]. cbv zeta. fold w'.
    set (cur' := map (ann (up n w')) (parent_indices l)).
    assert (Q : build_tree H d ls' cur' = Some (partial_tree d (half n) (parent_indices l) (up n w') (skipn (length (helpers n l)) ph))).
    { specialize (IH (half n) (parent_indices l) (up n w') (skipn (length (helpers n l)) ph) ls' (hd [] ls') cur' (par_sorted l S) (par_lt n l F) E').
      assert (X : match ls' with [] => [] | _ :: t => hd [] ls' :: t end = ls') by now destruct ls'. rewrite X in IH. apply IH; [reflexivity|].
      apply Permutation_app_comm. }
    rewrite Q. reflexivity.
Qed.

Lemma sorted_below_one l : StronglySorted lt l -> Forall (fun i => i < 1) l -> l <> [] -> l = [0].
Proof.
  intros S F N. destruct l as [|a [|b l]]; [congruence| |].
  - inversion F; subst. f_equal. lia.
  - inversion S as [|? ? _ G]; subst. inversion G; subst. inversion F as [|? ? _ F']; subst. inversion F'; subst. lia.
Qed.
Lemma partial_root d : forall n l w ph, StronglySorted lt l -> Forall (fun i => i < n) l -> l <> [] -> halves d n = 1 ->
  tree_root (partial_tree d n l w ph) = Some (final d n l w ph).
Proof.
  induction d as [|d IH]; intros n l w ph S F N E.
  - cbn in E. subst n. rewrite (sorted_below_one l S F N). reflexivity.
  - cbn [partial_tree final]. cbv zeta. cbn [halves] in E.
    specialize (IH (half n) (parent_indices l) (up n (override w (helpers n l) ph)) (skipn (length (helpers n l)) ph) (par_sorted l S) (par_lt n l F) (par_nonempty l N) E).
    unfold tree_root in *. destruct (partial_tree d _ _ _ _) eqn:PT; [destruct d; discriminate|]. exact IH.
Qed.

(** [leaf]: the claimed value of an index. *)
Theorem verify_char leaves_count indices (leaf : nat -> hash) proof root :
  StronglySorted lt indices -> Forall (fun i => i < leaves_count) indices -> indices <> [] ->
  let d := tree_depth leaves_count in
  proof_verify H proof root indices (map leaf indices) leaves_count = true <->
  needed d leaves_count indices <= length proof /\ final d leaves_count indices leaf proof = root.
Proof.
  intros S F N d. assert (L : leaves_count <> 0).
  { destruct indices as [|i t]; [congruence|]. inversion F; subst. lia. }
  destruct (depth_halves _ L) as [DH D0]. fold d in DH, D0.
  unfold proof_verify, proof_tree. rewrite map_length, Nat.eqb_refl. cbn [negb]. fold d.
  pose proof (layers_len d leaves_count indices proof S F) as LL.
  destruct (proof_layers (proof_indices_by_layers d leaves_count indices) proof) as [ls|] eqn:E.
  - assert (NE : needed d leaves_count indices <= length proof) by (apply LL; eauto).
    destruct ls as [|first ls]; [exfalso; destruct d; [lia|now apply layers_nil in E]|].
    assert (CM : combine indices (map leaf indices) = map (ann leaf) indices).
    { clear. induction indices as [|i t IH]; [reflexivity|]. cbn. now rewrite IH. }
    rewrite CM. pose proof (build_partial d leaves_count indices leaf proof (first :: ls) (sort_nodes (first ++ sort_nodes (map (ann leaf) indices))) [] S F E) as B.
    cbn iota in B. rewrite B; [|intros Z; congruence|].
    + rewrite partial_root by assumption. destruct (list_eq_dec _ _ _) as [Q|Q]; split; auto; try discriminate. intros [_ Q']. tauto.
    + cbn [app hd]. rewrite sort_nodes_perm. apply Permutation_app_head. apply sort_nodes_perm.
  - split; [discriminate|]. intros [NE _]. apply LL in NE. destruct NE as [? [=]].
Qed.

(** * Completeness *)
Lemma helper_hashes n w l : flat_map (fun i => match nth_error (map (ann w) (seq 0 n)) i with Some (_, h) => [h] | None => [] end)
    (difference (map sibling l) l) = map w (helpers n l).
Proof.
  unfold helpers. induction (difference (map sibling l) l) as [|i t IH]; [reflexivity|]. cbn [flat_map filter]. rewrite IH.
  rewrite nth_error_map. destruct (Nat.ltb_spec i n) as [C|C].
  - rewrite (nth_error_nth' (seq 0 n) 0) by now rewrite seq_length. rewrite seq_nth by lia. reflexivity.
  - rewrite (proj2 (nth_error_None (seq 0 n) i)) by (rewrite seq_length; lia). reflexivity.
Qed.
Lemma override_map n w l rest i : In i (helpers n l) -> NoDup l -> override w (helpers n l) (map w (helpers n l) ++ rest) i = w i.
Proof.
  intros I N. pose proof (override_in w (helpers n l) (map w (helpers n l) ++ rest) (helpers_nodup n l N)) as E.
  rewrite app_length, map_length in E. specialize (E ltac:(lia)). set (o := override _ _ _) in *.
  assert (X : forall hs, combine hs (map w hs ++ rest) = map (ann o) hs -> In i hs -> o i = w i).
  { clear. induction hs as [|a hs IH]; intros E I; [destruct I|]. cbn in E. unfold ann at 1 in E. injection E as E1 E2. destruct I as [<-|I]; [now symmetry|auto]. }
  exact (X _ E I).
Qed.
Lemma honest_final d : forall n l R w ph, StronglySorted lt l -> Forall (fun i => i < n) l -> l <> [] -> halves d n = 1 ->
  (forall i, In i l -> w i = R i) -> ph = helper_nodes (full_tree d n R) l ->
  needed d n l <= length ph /\ final d n l w ph = lift d n R 0.
Proof.
  induction d as [|d IH]; intros n l R w ph S F N E A ->.
  - cbn in E. subst n. rewrite (sorted_below_one l S F N) in A. cbn. split; [lia|]. apply A. now left.
  - cbn [full_tree helper_nodes needed final lift halves] in *. rewrite helper_hashes.
    set (rest := helper_nodes (full_tree d (half n) (up n R)) (parent_indices l)).
    set (ph := map R (helpers n l) ++ rest). set (w' := override w (helpers n l) ph).
    assert (LH : length (helpers n l) = length (map R (helpers n l))) by now rewrite map_length.
    assert (SK : skipn (length (helpers n l)) ph = rest) by (unfold ph; rewrite LH, skipn_app, skipn_all, Nat.sub_diag; reflexivity).
    assert (AG : forall i, In i (closure n l) -> w' i = R i).
    { intros i I. apply (Permutation_in _ (Permutation_sym (closure_perm n l S F))) in I. apply in_app_iff in I. destruct I as [I|I].
      - unfold w'. rewrite <- (override_map n R l rest i I (strict_nodup l S)). fold ph. unfold override.
        destruct (find _ _) eqn:FD; [reflexivity|]. exfalso.
        pose proof (override_in w (helpers n l) ph (helpers_nodup n l (strict_nodup l S))) as OI. unfold ph in OI. rewrite app_length, map_length in OI.
        specialize (OI ltac:(lia)). fold ph in OI. assert (II : In (ann (override w (helpers n l) ph) i) (combine (helpers n l) ph)) by (rewrite OI; now apply in_map).
        apply (find_none _ _ FD) in II. cbn in II. now rewrite Nat.eqb_refl in II.
      - unfold w'. rewrite override_out; [auto|]. rewrite in_helpers. tauto. }
    destruct (IH (half n) (parent_indices l) (up n R) (up n w') rest (par_sorted l S) (par_lt n l F) (par_nonempty l N) E) as [IN IF].
    + intros p I. pose proof (par_lt n l F) as FP. rewrite Forall_forall in FP. pose proof (FP _ I) as PL. pose proof (half_spec n).
      assert (K : forall i, In i (kids n p) -> w' i = R i) by (intros i K; apply AG; unfold closure; apply in_flat_map; eauto).
      unfold up. unfold kids in K. destruct (2 * p + 1 <? n); [rewrite (K (2 * p)), (K (2 * p + 1)); cbn; auto|apply K; now left].
    + reflexivity.
    + split; [unfold ph; rewrite app_length, map_length; lia|]. rewrite SK. exact IF.
Qed.

Lemma chunks32_concat p : Forall (fun h => length h = 32) p -> forall fuel, length p <= fuel -> chunks32 fuel (concat p) = p.
Proof.
  induction 1 as [|h p E F IH]; intros fuel L; [destruct fuel; reflexivity|]. destruct fuel as [|fuel]; [cbn in L; lia|].
  cbn [concat chunks32]. destruct (h ++ concat p) as [|b t] eqn:A; [apply (f_equal (@length byte)) in A; rewrite app_length in A; cbn in A; lia|].
  rewrite <- A. clear A b t. rewrite <- E at 1 2. rewrite firstn_app, firstn_all, Nat.sub_diag, app_nil_r, skipn_app, skipn_all, Nat.sub_diag. cbn [app skipn].
  f_equal. apply IH. cbn in L. lia.
Qed.
Lemma proof_round p : Forall (fun h => length h = 32) p -> proof_try_from (proof_to_bytes p) = Some p.
Proof.
  intros F. unfold proof_try_from, proof_to_bytes. assert (L : length (concat p) = length p * 32).
  { clear -F. induction F as [|h p E F IH]; [reflexivity|]. cbn [concat]. rewrite app_length, IH, E. reflexivity. }
  rewrite L, Nat.mod_mul by lia. cbn. now rewrite chunks32_concat by (assumption || lia).
Qed.

Context (H32 : forall d, length (H d) = 32).
Lemma up_len n w p : (forall i, i < n -> length (w i) = 32) -> p < half n -> length (up n w p) = 32.
Proof. intros L P. unfold up. pose proof (half_spec n). destruct (_ <? _); [apply H32|apply L; lia]. Qed.
Lemma helper_len d : forall n w l, (forall i, i < n -> length (w i) = 32) -> Forall (fun h => length h = 32) (helper_nodes (full_tree d n w) l).
Proof.
  induction d as [|d IH]; intros n w l L; cbn [full_tree helper_nodes]; rewrite helper_hashes; apply Forall_app.
  - split; [|constructor]. apply Forall_forall. intros x I. apply in_map_iff in I. destruct I as (i & <- & I). apply in_helpers in I. now apply L.
  - split; [|apply IH; intros; now apply up_len]. apply Forall_forall. intros x I. apply in_map_iff in I. destruct I as (i & <- & I). apply in_helpers in I. now apply L.
Qed.

Lemma leaves_to_prove (leaves : list hash) idx : Forall (fun i => i < length leaves) idx -> mapM (fun i => index leaves i) idx = Ok (map (at_ leaves) idx).
Proof.
  induction 1 as [|i idx L F IH]; [reflexivity|]. cbn [mapM map]. unfold index at 1. rewrite (nth_error_nth' leaves []) by exact L. cbn [bind]. now rewrite IH.
Qed.
Theorem proof_complete leaves idx : Forall (fun h => length h = 32) leaves ->
  StronglySorted lt idx -> Forall (fun i => i < length leaves) idx -> idx <> [] ->
  exists proof root, generate_merkle_proof idx (from_leaves H leaves) = Ok proof /\ tree_root (from_leaves H leaves) = Some root /\
  verify_merkle_proof H proof root idx leaves = Ok tt.
Proof.
  intros L32 S F N. assert (NL : leaves <> []) by (intros ->; destruct idx; [congruence|inversion F; subst; cbn in *; lia]).
  assert (L0 : length leaves <> 0) by (destruct leaves; [congruence|discriminate]).
  destruct (from_leaves_full leaves NL) as [FT RT]. destruct (depth_halves _ L0) as [DH D0].
  set (d := tree_depth (length leaves)) in *. set (n := length leaves) in *.
  assert (LW : forall i, i < n -> length (at_ leaves i) = 32).
  { intros i I. unfold at_. rewrite Forall_forall in L32. apply L32. now apply nth_In. }
  exists (helper_nodes (full_tree d n (at_ leaves)) idx), (lift d n (at_ leaves) 0).
  unfold generate_merkle_proof. rewrite FT, proof_round by now apply helper_len. split; [reflexivity|]. split; [now rewrite <- FT|].
  unfold verify_merkle_proof. rewrite leaves_to_prove by exact F. cbn [bind]. fold n.
  rewrite (proj2 (verify_char n idx (at_ leaves) _ _ S F N)); [reflexivity|]. fold d.
  apply (honest_final d n idx (at_ leaves) (at_ leaves)); auto.
Qed.

(** * Binding *)
Lemma inputs_kids n w P p : StronglySorted lt P -> Forall (fun p => p < half n) P -> In p P -> 2 * p + 1 < n ->
  In (w (2 * p) ++ w (2 * p + 1)) (layer_inputs (map w (flat_map (kids n) P))).
Proof.
  intros S F. induction S as [|q P S IH FP]; intros I L; [destruct I|]. inversion F as [|? ? QH F']; subst. cbn [flat_map].
  assert (LQ : 2 * q + 1 < n).
  { destruct I as [<-|I]; [exact L|]. rewrite Forall_forall in FP. specialize (FP _ I). lia. }
  unfold kids at 1. rewrite (proj2 (Nat.ltb_lt _ _) LQ). cbn [app map layer_inputs]. destruct I as [<-|I]; [now left|right; auto].
Qed.
Lemma binding_all d : forall n l w ph R, StronglySorted lt l -> Forall (fun i => i < n) l -> l <> [] -> halves d n = 1 ->
  (forall i, In i l -> length (w i) = 32) -> (forall i, i < n -> length (R i) = 32) -> Forall (fun h => length h = 32) ph ->
  needed d n l <= length ph -> final d n l w ph = lift d n R 0 ->
  (forall i, In i l -> w i = R i) /\ firstn (needed d n l) ph = helper_nodes (full_tree d n R) l \/
  exists x y, In x (tree_inputs (partial_tree d n l w ph)) /\ In y (tree_inputs (full_tree d n R)) /\ x <> y /\ H x = H y.
Proof.
  induction d as [|d IH]; intros n l w ph R S F N E LW LR LP NE FE.
  - left. cbn in E. subst n. rewrite (sorted_below_one l S F N). split; [|reflexivity]. intros i [<-|[]]. exact FE.
  - cbn [halves needed final lift partial_tree full_tree] in *. cbv zeta. set (w' := override w (helpers n l) ph) in *.
    assert (LE : length (helpers n l) <= length ph) by (eapply Nat.le_trans; [apply Nat.le_add_r|exact NE]).
    assert (LC : forall i, In i (closure n l) -> length (w' i) = 32).
    { intros i I. apply (Permutation_in _ (Permutation_sym (closure_perm n l S F))) in I. apply in_app_iff in I. destruct I as [I|I].
      - pose proof (override_in w (helpers n l) ph (helpers_nodup n l (strict_nodup l S)) LE) as OI. fold w' in OI.
        pose proof (in_map (ann w') _ _ I) as II. rewrite <- OI in II.
        apply in_combine_r in II. rewrite Forall_forall in LP. now apply LP.
      - unfold w'. rewrite override_out by (rewrite in_helpers; tauto). now apply LW. }
    pose proof (par_sorted l S) as SP. pose proof (par_lt n l F) as FP. rewrite Forall_forall in FP.
    assert (KC : forall p i, In p (parent_indices l) -> In i (kids n p) -> In i (closure n l)) by (intros p i P I; unfold closure; apply in_flat_map; eauto).
    destruct (IH (half n) (parent_indices l) (up n w') (skipn (length (helpers n l)) ph) (up n R) SP ltac:(now apply par_lt) (par_nonempty l N) E) as [(AG & PH)|(x & y & X & Y & NQ & HH)].
    + intros p I. unfold up. specialize (FP _ I). unfold kids in KC. destruct (2 * p + 1 <? n) eqn:C; [apply H32|].
      apply LC. apply (KC p); [exact I|]. now left.
    + intros p P. now apply up_len.
    + apply Forall_forall. intros h I. rewrite Forall_forall in LP. apply LP. rewrite <- (firstn_skipn (length (helpers n l)) ph). apply in_or_app. now right.
    + rewrite skipn_length. lia.
    + exact FE.
    + assert (DEC : (forall i, In i (closure n l) -> w' i = R i) \/
         exists p, In p (parent_indices l) /\ 2 * p + 1 < n /\ w' (2 * p) ++ w' (2 * p + 1) <> R (2 * p) ++ R (2 * p + 1)).
      { unfold closure. clear - AG LC LR FP KC. assert (SUB : forall P, incl P (parent_indices l) ->
          (forall i, In i (flat_map (kids n) P) -> w' i = R i) \/ exists p, In p P /\ 2 * p + 1 < n /\ w' (2 * p) ++ w' (2 * p + 1) <> R (2 * p) ++ R (2 * p + 1)).
        { induction P as [|p P IHP]; intros IC; [left; intros i []|].
          assert (IPp : In p (parent_indices l)) by (apply IC; now left).
          destruct IHP as [A|(q & Q & L & D)]; [intros z Z; apply IC; now right| |right; exists q; split; [now right|auto]].
          pose proof (AG p IPp) as U. unfold up in U. specialize (FP p IPp). pose proof (half_spec n) as HS.
          destruct (Nat.ltb_spec (2 * p + 1) n) as [C|C].
          - destruct (list_eq_dec Byte.byte_eq_dec (w' (2 * p) ++ w' (2 * p + 1)) (R (2 * p) ++ R (2 * p + 1))) as [Q|Q].
            + left. intros i I. cbn [flat_map] in I. apply in_app_iff in I. destruct I as [I|I]; [|auto].
              assert (L1 : length (w' (2 * p)) = length (R (2 * p))).
              { rewrite LR by lia. apply LC. apply (KC p); [exact IPp|now left]. }
              apply app_inj_len in Q; [|exact L1]. destruct Q as [Q1 Q2]. unfold kids in I. destruct (2 * p + 1 <? n); cbn in I; destruct I as [<-|I]; auto.
              * destruct I as [<-|[]]. exact Q2.
              * destruct I.
            + right. exists p. split; [now left|auto].
          - left. intros i I. cbn [flat_map] in I. apply in_app_iff in I. destruct I as [I|I]; [|auto].
            unfold kids in I. destruct (Nat.ltb_spec (2 * p + 1) n); [lia|]. destruct I as [<-|[]]. exact U. }
        apply SUB. apply incl_refl. }
      destruct DEC as [A|(p & P & L & D)].
      * left. split.
        -- intros i I. assert (IC : In i (closure n l)).
           { apply (Permutation_in _ (closure_perm n l S F)). apply in_or_app. now right. }
           rewrite <- (A i IC). unfold w'. rewrite override_out; [reflexivity|]. rewrite in_helpers. tauto.
        -- cbn [helper_nodes]. rewrite helper_hashes, <- PH.
           rewrite <- (firstn_skipn (length (helpers n l)) ph) at 1. rewrite firstn_app, firstn_firstn, firstn_length, Nat.min_r, Nat.min_l by lia.
           replace (length (helpers n l) + needed d (half n) (parent_indices l) - length (helpers n l)) with (needed d (half n) (parent_indices l)) by lia.
           f_equal. pose proof (override_in w (helpers n l) ph (helpers_nodup n l (strict_nodup l S)) LE) as OI. fold w' in OI.
           rewrite (map_ext_in R w' (helpers n l)).
           ++ rewrite <- (map_snd_ann w' (helpers n l)), <- OI, <- combine_firstn. clear - LE. revert ph LE. induction (helpers n l) as [|h hs IHh]; intros [|p ph] L; cbn in *; try lia; [reflexivity..|].
              f_equal. apply IHh. lia.
           ++ intros i I. symmetry. apply A. apply (Permutation_in _ (closure_perm n l S F)). apply in_or_app. now left.
      * right. exists (w' (2 * p) ++ w' (2 * p + 1)), (R (2 * p) ++ R (2 * p + 1)). split; [|split; [|split; [exact D|]]].
        -- unfold tree_inputs. cbn [flat_map]. apply in_or_app. left. rewrite map_snd_ann. unfold closure.
           apply inputs_kids; auto. now apply par_lt.
        -- unfold tree_inputs. cbn [flat_map]. apply in_or_app. left. rewrite map_snd_ann. destruct (closure_seq n) as [CS PS].
           rewrite <- CS. unfold closure. rewrite PS. apply inputs_kids; auto.
           ++ apply strict_seq.
           ++ apply Forall_forall. intros z Z. apply in_seq in Z. lia.
           ++ apply in_seq. specialize (FP _ P). lia.
        -- specialize (AG p P). unfold up in AG. apply Nat.ltb_lt in L. now rewrite L in AG.
    + right. exists x, y. unfold tree_inputs. cbn [flat_map]. repeat split; auto; apply in_or_app; now right.
Qed.
Lemma binding d n l w ph R : StronglySorted lt l -> Forall (fun i => i < n) l -> l <> [] -> halves d n = 1 ->
  (forall i, In i l -> length (w i) = 32) -> (forall i, i < n -> length (R i) = 32) -> Forall (fun h => length h = 32) ph ->
  needed d n l <= length ph -> final d n l w ph = lift d n R 0 ->
  (forall i, In i l -> w i = R i) \/
  exists x y, In x (tree_inputs (partial_tree d n l w ph)) /\ In y (tree_inputs (full_tree d n R)) /\ x <> y /\ H x = H y.
Proof. intros S F N E LW LR LP NE FE. destruct (binding_all d n l w ph R S F N E LW LR LP NE FE) as [(A & _)|C]; [now left|now right]. Qed.

Lemma helper_none t : helper_nodes t [] = [].
Proof. induction t as [|a t IH]; [reflexivity|]. cbn. exact IH. Qed.
Theorem proof_binding_all leaves claimed idx proof root :
  Forall (fun h => length h = 32) leaves -> Forall (fun h => length h = 32) claimed -> Forall (fun h => length h = 32) proof ->
  length claimed = length leaves -> StronglySorted lt idx ->
  tree_root (from_leaves H leaves) = Some root -> verify_merkle_proof H proof root idx claimed = Ok tt ->
  (forall i, In i idx -> nth_error claimed i = nth_error leaves i) /\
  (exists p, generate_merkle_proof idx (from_leaves H leaves) = Ok p /\ firstn (length p) proof = p) \/
  exists t x y, proof_tree H proof idx (map (at_ claimed) idx) (length claimed) = Some t /\
  In x (tree_inputs t) /\ In y (tree_inputs (from_leaves H leaves)) /\ x <> y /\ H x = H y.
Proof.
  intros L32 C32 P32 LL S RT V. destruct idx as [|i0 idx0]; [left; split; [intros i []|exists []; unfold generate_merkle_proof; now rewrite helper_none]|]. remember (i0 :: idx0) as idx.
  assert (N : idx <> []) by (subst; discriminate). clear Heqidx i0 idx0.
  unfold verify_merkle_proof in V. assert (F : Forall (fun i => i < length claimed) idx).
  { destruct (mapM _ idx) as [ls|] eqn:M; [|discriminate]. exact (mapM_index_inv claimed idx ls M). }
  rewrite leaves_to_prove in V by exact F. cbn [bind] in V. destruct (proof_verify _ _ _ _ _ _) eqn:PV; [|discriminate].
  apply (verify_char (length claimed) idx (at_ claimed) proof root S F N) in PV. destruct PV as [NE FE].
  assert (NL : leaves <> []) by (intros ->; destruct idx; [congruence|inversion F; subst; cbn in LL; lia]).
  assert (L0 : length leaves <> 0) by (destruct leaves; [congruence|discriminate]).
  destruct (from_leaves_full leaves NL) as [FT RT']. rewrite RT in RT'. injection RT' as ->. destruct (depth_halves _ L0) as [DH D0].
  rewrite LL in *. set (d := tree_depth (length leaves)) in *. set (n := length leaves) in *.
  assert (AT : forall l, Forall (fun h => length h = 32) l -> length l = n -> forall i, i < n -> length (at_ l i) = 32).
  { intros l F32 LN i I. unfold at_. rewrite Forall_forall in F32. apply F32, nth_In. lia. }
  destruct (binding_all d n idx (at_ claimed) proof (at_ leaves) S F N DH) as [(A & PH)|(x & y & X & Y & NQ & HH)]; auto.
  - intros i I. apply AT; auto. rewrite Forall_forall in F. now apply F.
  - left. split; [intros i I; rewrite Forall_forall in F; specialize (F _ I); rewrite !(nth_error_nth' _ []) by lia; f_equal; exact (A i I)|].
    exists (helper_nodes (full_tree d n (at_ leaves)) idx). unfold generate_merkle_proof. rewrite FT, proof_round by (apply helper_len; now apply AT). split; [reflexivity|].
    rewrite <- PH, firstn_length, Nat.min_l by exact NE. reflexivity.
  - right. exists (partial_tree d n idx (at_ claimed) proof), x, y. split; [|split; [exact X|split; [now rewrite FT|auto]]].
    unfold proof_tree. rewrite map_length, Nat.eqb_refl. cbn [negb]. fold d.
    pose proof (proj2 (layers_len d n idx proof S F) NE) as [ls E]. rewrite E. destruct ls as [|first ls]; [exfalso; destruct d; [lia|now apply layers_nil in E]|].
    assert (CM : combine idx (map (at_ claimed) idx) = map (ann (at_ claimed)) idx).
    { clear. induction idx as [|i t IH]; [reflexivity|]. cbn. now rewrite IH. }
    rewrite CM. pose proof (build_partial d n idx (at_ claimed) proof (first :: ls) (sort_nodes (first ++ sort_nodes (map (ann (at_ claimed)) idx))) [] S F E) as B.
    cbn iota in B. rewrite B; [reflexivity|intros Z; congruence|]. cbn [app hd]. rewrite sort_nodes_perm. apply Permutation_app_head. apply sort_nodes_perm.
Qed.
Theorem proof_binding leaves claimed idx proof root :
  Forall (fun h => length h = 32) leaves -> Forall (fun h => length h = 32) claimed -> Forall (fun h => length h = 32) proof ->
  length claimed = length leaves -> StronglySorted lt idx ->
  tree_root (from_leaves H leaves) = Some root -> verify_merkle_proof H proof root idx claimed = Ok tt ->
  (forall i, In i idx -> nth_error claimed i = nth_error leaves i) \/
  exists t x y, proof_tree H proof idx (map (at_ claimed) idx) (length claimed) = Some t /\
  In x (tree_inputs t) /\ In y (tree_inputs (from_leaves H leaves)) /\ x <> y /\ H x = H y.
Proof. intros L32 C32 P32 LL S RT V. destruct (proof_binding_all leaves claimed idx proof root L32 C32 P32 LL S RT V) as [(A & _)|C]; [now left|now right]. Qed.
End WithHash.
