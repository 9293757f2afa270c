(** Facts about challenges, block selection and unit comparison (verifier.rs). *)
From Verif Require Import Base Common Depend Prover Verifier DependSpec BytesFacts DependFacts CommonFacts.
From Coq Require Import Sorted.
Local Open Scope nat_scope.

(** * create_challenges *)
Lemma insert_uniq_length x l : length (insert_uniq x l) = length l \/ length (insert_uniq x l) = S (length l).
Proof.
  induction l as [|y l IH]; cbn [insert_uniq length]; [auto|].
  destruct (x <? y); cbn [length]; [auto|]. destruct (x =? y); cbn [length]; [auto|]. destruct IH; lia.
Qed.

Section Loop.
Context (n a b : nat) (draw : nat -> nat).
Notation v i := (a + draw i mod (b - a)).
Definition seen (i : nat) : list nat := map (fun k => v k) (seq 0 i).

Definition inv (i : nat) (s : list nat) : Prop :=
  StronglySorted lt s /\ (forall x, In x s <-> In x (seen i)) /\ length s <= n.

Lemma inv_step i s : inv i s -> length s < n -> inv (i + 1) (insert_uniq (v i) s).
Proof.
  intros (S & I & L) LT. split; [now apply insert_uniq_sorted|]. split.
  - intros x. rewrite insert_uniq_In, I. unfold seen. rewrite Nat.add_1_r, seq_S, map_app, in_app_iff. cbn. intuition.
  - destruct (insert_uniq_length (v i) s); lia.
Qed.
Lemma inv_len i s : inv i s -> length s = length (nodup Nat.eq_dec (seen i)).
Proof.
  intros (S & I & L). apply ssorted_lt_NoDup in S. apply Nat.le_antisymm; apply NoDup_incl_length; auto using NoDup_nodup.
  - intros x X. apply nodup_In. now apply I.
  - intros x X. apply nodup_In in X. now apply I.
Qed.
Lemma seen_range x i : a < b -> In x (seen i) -> a <= x < b.
Proof.
  intros LT X. apply in_map_iff in X as (k & <- & _). pose proof (Nat.mod_upper_bound (draw k) (b - a)). lia.
Qed.
Lemma seen_mono i j : i <= j -> length (nodup Nat.eq_dec (seen i)) <= length (nodup Nat.eq_dec (seen j)).
Proof.
  intros L. apply NoDup_incl_length; [apply NoDup_nodup|]. intros x X. apply nodup_In. apply nodup_In in X.
  apply in_map_iff in X as (k & <- & K). apply in_map_iff. exists k. split; [reflexivity|]. apply in_seq. apply in_seq in K. lia.
Qed.

Lemma loop_sound fuel : forall i s l, inv i s -> challenge_loop fuel n a b draw i s = Some (Ok l) ->
  exists j, i <= j < i + fuel /\ inv j l /\ length l = n /\ (i < j -> a < b).
Proof.
  induction fuel as [|fuel IH]; intros i s l I E; [discriminate|]. cbn [challenge_loop] in E.
  destruct (Nat.ltb_spec (length s) n) as [C|C].
  - destruct (Nat.leb_spec b a); [discriminate|]. apply IH in E as (j & J & X & Y & _); [|now apply inv_step].
    exists j. split; [lia|auto].
  - injection E as <-. exists i. destruct I as (S & I & L). split; [lia|]. split; [split; auto|]. split; lia.
Qed.
Lemma loop_complete fuel : forall i s, a < b -> inv i s ->
  n <= length (nodup Nat.eq_dec (seen (i + fuel))) -> exists l, challenge_loop (S fuel) n a b draw i s = Some (Ok l).
Proof.
  induction fuel as [|fuel IH]; intros i s LT I E.
  - rewrite Nat.add_0_r, <- (inv_len i s I) in E. cbn [challenge_loop]. destruct (Nat.ltb_spec (length s) n); [lia|eauto].
  - remember (S fuel) as f1 eqn:F1. cbn [challenge_loop]. destruct (Nat.ltb_spec (length s) n) as [C|C]; [|eauto].
    destruct (Nat.leb_spec b a); [lia|]. subst f1. apply IH; auto; [now apply inv_step|]. now rewrite <- Nat.add_assoc.
Qed.
Lemma loop_no_panic fuel : forall i s, a < b -> challenge_loop fuel n a b draw i s <> Some Panic.
Proof.
  induction fuel as [|fuel IH]; intros i s LT; [discriminate|]. cbn [challenge_loop]. destruct (length s <? n); [|discriminate].
  destruct (Nat.leb_spec b a); [lia|]. now apply IH.
Qed.
End Loop.

Lemma inv_0 n a b draw : inv n a b draw 0 [].
Proof. split; [constructor|]. split; [|cbn; lia]. cbn. tauto. Qed.

Theorem challenges_sound fuel n a b draw l : create_challenges fuel n (a, b) draw = Some (Ok l) ->
  StronglySorted lt l /\ length l = n /\ Forall (fun x => a <= x < b) l.
Proof.
  intros E. apply loop_sound in E as (j & _ & (S & I & _) & L & LT); [|apply inv_0]. repeat split; auto.
  apply Forall_forall. intros x X. apply I in X. assert (j <> 0) by (intros ->; destruct X). eapply seen_range, X. apply LT. lia.
Qed.
Theorem challenges_return k n a b draw : a < b ->
  (exists l, create_challenges (S k) n (a, b) draw = Some (Ok l)) <->
  n <= length (nodup Nat.eq_dec (map (fun i => a + draw i mod (b - a)) (seq 0 k))).
Proof.
  intros LT. split.
  - intros (l & E). apply loop_sound in E as (j & J & I & L & _); [|apply inv_0].
    rewrite <- L, (inv_len _ _ _ _ _ _ I). apply seen_mono. lia.
  - intros L. apply loop_complete; [exact LT|apply inv_0|exact L].
Qed.
Theorem challenges_diverge fuel n a b draw : a < b -> b - a < n -> create_challenges fuel n (a, b) draw = None.
Proof.
  intros LT L. destruct (create_challenges fuel n (a, b) draw) as [[l|]|] eqn:E; [| |reflexivity].
  - apply challenges_sound in E as (S & Len & F). apply ssorted_lt_NoDup in S.
    assert (incl l (seq a (b - a))) by (intros x X; rewrite Forall_forall in F; apply in_seq; specialize (F x X); lia).
    apply NoDup_incl_length in H; [|exact S]. rewrite seq_length in H. lia.
  - now apply loop_no_panic in E.
Qed.
Theorem challenges_empty fuel n a b draw : b <= a -> 0 < n -> create_challenges (S fuel) n (a, b) draw = Some Panic.
Proof.
  intros LE P. unfold create_challenges. cbn [fst snd challenge_loop length].
  destruct (Nat.ltb_spec 0 n); [|lia]. destruct (Nat.leb_spec b a); [reflexivity|lia].
Qed.

(** * blocks_in_range *)
Lemma blocks_loop fuel : forall i ib ie bp acc, 0 < bp -> ie < fuel + (i * bp + ib) -> 0 < fuel ->
  exists c, blocks_idx_loop fuel i ib ie bp acc = Some (Ok (acc ++ map (fun k => k + ib / bp) (seq i c)))
   /\ (forall k, i <= k -> (k < i + c <-> k * bp + ib < ie)).
Proof.
  induction fuel as [|fuel IH]; intros i ib ie bp acc P F F0; [lia|].
  cbn [blocks_idx_loop]. destruct (Nat.ltb_spec (i * bp + ib) ie) as [C|C].
  - destruct (Nat.eqb_spec bp 0); [lia|].
    destruct (IH (i + 1) ib ie bp (acc ++ [i + ib / bp]) P ltac:(nia) ltac:(lia)) as (c & E & R).
    exists (S c). rewrite E, <- app_assoc. split.
    + cbn [seq map app]. now rewrite Nat.add_1_r.
    + intros k K. destruct (Nat.eq_dec k i) as [->|N]; [lia|]. rewrite <- R by lia. lia.
  - exists 0. cbn [seq map]. rewrite app_nil_r. split; [reflexivity|]. intros k K. split; [lia|]. intros X.
    assert (i * bp <= k * bp) by (apply Nat.mul_le_mono_r; lia). lia.
Qed.
Lemma blocks_in_range_eq ib ie bp : 0 < bp ->
  exists c, blocks_in_range ib ie bp = Ok (map (fun k => k + ib / bp) (seq 0 c)) /\ (forall k, k < c <-> k * bp + ib < ie).
Proof.
  intros P. unfold blocks_in_range.
  destruct (blocks_loop (ie - ib + 1) 0 ib ie bp [] P ltac:(lia) ltac:(lia)) as (c & -> & R).
  exists c. split; [reflexivity|]. intros k. apply (R k). lia.
Qed.
Lemma map_plus_sorted c d : StronglySorted lt (map (fun k => k + d) (seq 0 c)).
Proof.
  generalize 0. induction c as [|c IH]; intros s; cbn [seq map]; constructor; [apply IH|].
  apply Forall_forall. intros x X. apply in_map_iff in X as (k & <- & K). apply in_seq in K. lia.
Qed.
Theorem blocks_general ib ie bp : 0 < bp -> exists l, blocks_in_range ib ie bp = Ok l /\ StronglySorted lt l /\
  forall k, In k l <-> ib / bp <= k /\ (k - ib / bp) * bp + ib < ie.
Proof.
  intros P. destruct (blocks_in_range_eq ib ie bp P) as (c & E & R). eexists. split; [exact E|].
  split; [apply map_plus_sorted|]. intros k. rewrite in_map_iff. split.
  - intros (i & <- & I). apply in_seq in I. split; [lia|]. replace (i + ib / bp - ib / bp) with i by lia. apply R. lia.
  - intros (L & X). exists (k - ib / bp). split; [lia|]. apply R in X. apply in_seq. lia.
Qed.
Theorem blocks_aligned q ie bp : 0 < bp -> exists l, blocks_in_range (q * bp) ie bp = Ok l /\ StronglySorted lt l /\
  forall k, In k l <-> exists x, q * bp <= x < ie /\ k * bp <= x < (k + 1) * bp.
Proof.
  intros P. destruct (blocks_general (q * bp) ie bp P) as (l & E & S & R). exists l. repeat split; auto.
  - intros K. apply R in K as (L & X). rewrite Nat.div_mul in * by lia.
    exists (k * bp). rewrite Nat.mul_sub_distr_r in X. assert (q * bp <= k * bp) by (apply Nat.mul_le_mono_r; exact L). nia.
  - intros (x & X1 & X2). apply R. rewrite Nat.div_mul by lia.
    assert (q <= k). { destruct (Nat.le_gt_cases q k); [assumption|]. assert ((k + 1) * bp <= q * bp) by (apply Nat.mul_le_mono_r; lia). lia. }
    split; [assumption|]. rewrite Nat.mul_sub_distr_r. assert (q * bp <= k * bp) by (apply Nat.mul_le_mono_r; lia). lia.
Qed.
Theorem blocks_never_extra ib ie bp : 0 < bp -> exists l, blocks_in_range ib ie bp = Ok l /\
  (forall k, In k l -> exists x, ib <= x < ie /\ k * bp <= x < (k + 1) * bp) /\
  (forall k, ~ In k l -> (exists x, ib <= x < ie /\ k * bp <= x < (k + 1) * bp) -> k = (ie - 1) / bp).
Proof.
  intros P. destruct (blocks_general ib ie bp P) as (l & E & _ & R). exists l. split; [exact E|].
  pose proof (Nat.div_mod ib bp ltac:(lia)) as D. pose proof (Nat.mod_upper_bound ib bp ltac:(lia)) as M.
  set (q := ib / bp) in *. set (r := ib mod bp) in *. split; intros k K.
  - apply R in K as (L & X). rewrite Nat.mul_sub_distr_r in X. assert (q * bp <= k * bp) by (apply Nat.mul_le_mono_r; exact L).
    exists (k * bp + r). nia.
  - intros (x & X1 & X2).
    assert (L : q <= k). { destruct (Nat.le_gt_cases q k); [assumption|]. assert ((k + 1) * bp <= q * bp) by (apply Nat.mul_le_mono_r; lia). lia. }
    assert (Y : ie <= (k - q) * bp + ib). { destruct (Nat.le_gt_cases ie ((k - q) * bp + ib)); [assumption|]. exfalso. apply K, R. auto. }
    rewrite Nat.mul_sub_distr_r in Y. assert (q * bp <= k * bp) by (apply Nat.mul_le_mono_r; exact L).
    apply (Nat.div_unique (ie - 1) bp k (ie - 1 - k * bp)); lia.
Qed.
Theorem blocks_zero ib ie : ib < ie -> blocks_in_range ib ie 0 = Panic.
Proof.
  intros L. unfold blocks_in_range. rewrite Nat.add_1_r. cbn [blocks_idx_loop]. rewrite Nat.mul_0_l. cbn [plus].
  destruct (Nat.ltb_spec ib ie); [reflexivity|lia].
Qed.

(** * batch_verify *)
Lemma byte_eqb_spec x y : Byte.eqb x y = true <-> x = y.
Proof. destruct (Byte.eqb x y) eqn:E; split; try congruence; intros; [now apply Byte.byte_dec_bl|apply Byte.byte_dec_lb in H; congruence]. Qed.

Lemma verify_unit_loop_ok fuel : forall ori cur k, length ori < fuel + k -> k < length ori ->
  verify_unit_loop fuel ori cur (length ori) k k k = Some (Ok tt) <->
  (forall i, k <= i < length ori -> nth_error cur i = nth_error ori i).
Proof.
  induction fuel as [|fuel IH]; intros ori cur k F K; [lia|]. cbn [verify_unit_loop].
  destruct (Nat.ltb_spec k (length ori)); [|lia].
  destruct (index_ok ori k K) as (x & Ex). rewrite Ex. cbn [bind].
  unfold index in Ex. destruct (nth_error ori k) as [x'|] eqn:Nx; [|discriminate]. injection Ex as ->.
  unfold index. destruct (nth_error cur k) as [y|] eqn:Ny; cbn [bind].
  - destruct (Byte.eqb x y) eqn:EB.
    + apply byte_eqb_spec in EB as <-. destruct (Nat.eqb_spec (k + 1) (length ori)) as [E|NE].
      * destruct fuel as [|fuel]; [lia|]. cbn [verify_unit_loop]. destruct (Nat.ltb_spec (k + 1) (length ori)); [lia|].
        split; [|reflexivity]. intros _ i I. assert (i = k) by lia. subst. congruence.
      * rewrite IH by lia. split.
        -- intros A i I. destruct (Nat.eq_dec i k) as [->|]; [congruence|]. apply A. lia.
        -- intros A i I. apply A. lia.
    + split; [discriminate|]. intros A. specialize (A k ltac:(lia)). rewrite Nx, Ny in A. injection A as ->.
      assert (Byte.eqb x x = true) by now apply byte_eqb_spec. congruence.
  - split; [discriminate|]. intros A. specialize (A k ltac:(lia)). congruence.
Qed.
Lemma nth_error_firstn {A} (l : list A) n i : nth_error (firstn n l) i = if i <? n then nth_error l i else None.
Proof.
  revert l i. induction n as [|n IH]; intros l i; [destruct i; reflexivity|].
  destruct l as [|a l]; [destruct (i <? S n); now destruct i|]. destruct i as [|i]; [reflexivity|].
  cbn [firstn nth_error]. rewrite IH. reflexivity.
Qed.
Lemma verify_unit_ok ori cur : ori <> [] ->
  verify_unit ori cur (length ori) = Ok tt <-> firstn (length ori) cur = ori.
Proof.
  intros NE. assert (L : 0 < length ori) by (destruct ori; cbn; [congruence|lia]).
  pose proof (verify_unit_loop_ok (length ori + 1) ori cur 0 ltac:(lia) L) as V. unfold verify_unit.
  transitivity (verify_unit_loop (length ori + 1) ori cur (length ori) 0 0 0 = Some (Ok tt)).
  { destruct (verify_unit_loop _ _ _ _ _ _ _) as [r|] eqn:E; [split; [congruence|now intros [= ->]]|].
    split; discriminate. }
  rewrite V. split.
  - intros A. apply list_ext. intros i. rewrite nth_error_firstn. destruct (Nat.ltb_spec i (length ori)) as [C|C]; [apply A; lia|].
    symmetry. now apply nth_error_None.
  - intros E i I. rewrite <- E. rewrite nth_error_firstn. destruct (Nat.ltb_spec i (length ori)); [reflexivity|lia].
Qed.

Lemma foldM_unit {A} (f : A -> res unit) l : foldM (fun _ a => f a) l tt = Ok tt <-> Forall (fun a => f a = Ok tt) l.
Proof.
  induction l as [|a l IH]; cbn [foldM]; [split; auto|]. destruct (f a) as [[]|] eqn:E; cbn [bind].
  - rewrite IH. split; [intros; constructor; auto|now inversion 1].
  - split; [discriminate|]. inversion 1. congruence.
Qed.

Lemma verify_block_units_ok ori cur ul : 0 < ul -> Forall (fun u => length u = ul) ori ->
  verify_block_units ori cur ul = Ok tt <->
  (forall j u, nth_error ori j = Some u -> exists c, nth_error cur j = Some c /\ firstn ul c = u).
Proof.
  intros P F. unfold verify_block_units. rewrite foldM_unit. rewrite Forall_forall.
  rewrite Forall_forall in F. split.
  - intros A j u N. assert (J : j < length ori) by (apply nth_error_Some; congruence).
    specialize (A j ltac:(apply in_seq; lia)). unfold index in A. rewrite N in A. cbn [bind] in A.
    pose proof (F u (nth_error_In _ _ N)) as Lu. destruct (Nat.eqb_spec (length u) 0); [lia|].
    destruct (nth_error cur j) as [c|]; [|discriminate]. cbn [bind] in A. exists c. split; [reflexivity|].
    rewrite <- Lu in A |- *. apply verify_unit_ok in A; [exact A|]. intros ->. cbn in Lu. lia.
  - intros A j J. apply in_seq in J. destruct (index_ok ori j ltac:(lia)) as (u & E). rewrite E. cbn [bind].
    unfold index in E. destruct (nth_error ori j) as [u'|] eqn:N; [|discriminate]. injection E as ->.
    pose proof (F u (nth_error_In _ _ N)) as Lu. destruct (Nat.eqb_spec (length u) 0); [lia|].
    destruct (A j u N) as (c & C1 & C2). unfold index. rewrite C1. cbn [bind].
    rewrite <- Lu. apply verify_unit_ok; [|now rewrite Lu]. intros ->. cbn in Lu. lia.
Qed.

Theorem batch_verify_iff origin idx2 us bl ul :
  batch_verify origin idx2 us bl ul = Ok tt <->
  0 < ul /\ Nat.divide ul bl /\
  forall j, j < bl / ul -> exists c, nth_error us j = Some c /\
     firstn ul c = read_file origin (idx2 * bl + j * ul) ul.
Proof.
  unfold batch_verify.
  assert (RL : length (read_file origin (idx2 * bl) bl) = bl) by apply read_file_length.
  destruct (to_units (read_file origin (idx2 * bl) bl) ul) as [ori|] eqn:E; cbn [bind].
  - assert (X : 0 < ul /\ Nat.divide ul (length (read_file origin (idx2 * bl) bl))) by (apply to_units_iff; eauto).
    rewrite RL in X. destruct X as (P & (q & ->)). rewrite Nat.div_mul by lia.
    rewrite (to_units_ok ul q) in E by (auto). injection E as <-.
    rewrite verify_block_units_ok; [|exact P|now apply chunks_each].
    assert (Y : forall j, j < q -> nth_error (chunks ul q (read_file origin (idx2 * (q * ul)) (q * ul))) j
              = Some (read_file origin (idx2 * (q * ul) + j * ul) ul)).
    { intros j J. unfold chunks. rewrite nth_error_map. rewrite nth_error_nth' with (d := 0) by (rewrite seq_length; exact J).
      rewrite seq_nth by exact J. cbn [option_map plus]. f_equal. unfold chunk. apply list_ext. intros i.
      assert (JU : j * ul + ul <= q * ul) by nia.
      rewrite nth_error_firstn. destruct (Nat.ltb_spec i ul) as [C|C].
      - rewrite read_file_nth by exact C.
        transitivity (nth_error (read_file origin (idx2 * (q * ul)) (q * ul)) (j * ul + i)).
        + clear. generalize (j * ul) as s, (read_file origin (idx2 * (q * ul)) (q * ul)) as l. 
          induction s as [|s IH]; intros [|x l]; cbn; auto. now destruct i.
        + rewrite read_file_nth by lia. f_equal. f_equal. lia.
      - symmetry. apply nth_error_None. rewrite read_file_length. exact C. }
    split.
    + intros A. split; [exact P|]. split; [now exists q|]. intros j J. apply A. now apply Y.
    + intros (_ & _ & A) j u N. assert (J : j < q).
      { rewrite <- (chunks_length ul q (read_file origin (idx2 * (q * ul)) (q * ul))). apply nth_error_Some. congruence. }
      rewrite Y in N by exact J. injection N as <-. now apply A.
  - split; [discriminate|]. intros (P & D & _). exfalso.
    assert (exists u, to_units (read_file origin (idx2 * bl) bl) ul = Ok u) as (u & U) by (apply to_units_iff; rewrite RL; auto).
    congruence.
Qed.
