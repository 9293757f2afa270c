(** The thread pool of batch_unseal_parallel: every schedule. *)
From Verif Require Import Base Common Depend Prover Verifier BytesFacts DependDet SealCore VerifierFacts.
From Coq Require Import Wellfounded.
Local Open Scope nat_scope.

Lemma concat_repeat_length {A} (l : list A) k : length (concat (repeat l k)) = k * length l.
Proof. induction k as [|k IH]; [reflexivity|]. cbn [repeat concat]. rewrite app_length, IH. lia. Qed.

Section Par.
Context (H : list byte -> list byte) (pr : profile) (params : PosPara) (key : Z) (iv : list byte).
Context (blocks_idx : list nat) (before : list (list byte)) (deps : list (list (list (list byte)))).
Context (threads : nat) (t : list (list nat)) (blocks : list (list (list byte))).
Notation Step := (step H params key iv blocks_idx before deps threads t).
Notation Steps := (steps H params key iv blocks_idx before deps threads t).
Notation Job := (bjob H params key iv blocks_idx before deps t blocks).
Notation unit_step i idx2 n := (bp_unit H params key iv before deps t i idx2 n).
Definition start : pool := mkPool blocks (repeat Waiting (length blocks)).

(** What is known about job i whenever it is in state [j] and its slot holds [b]. *)
Definition job_inv (i : nat) (j : job) (b : list (list byte)) : Prop :=
  match j with
  | Waiting => nth_error blocks i = Some b
  | Running idx2 n todo cur =>
      nth_error blocks i = Some b /\ index blocks_idx i = Ok idx2 /\ n = length b /\
      exists done, done ++ todo = concat (repeat (seq 0 n) (seal_rounds params)) /\
                   foldM (unit_step i idx2 n) done b = Ok cur
  | Done => Job i = Ok b
  | Dead => nth_error blocks i = Some b /\ Job i = Panic
  end.
Definition pool_inv (p : pool) : Prop :=
  length (p_blocks p) = length blocks /\ length (p_jobs p) = length blocks /\
  forall i j b, nth_error (p_jobs p) i = Some j -> nth_error (p_blocks p) i = Some b -> job_inv i j b.

Lemma start_inv : pool_inv start.
Proof.
  split; [reflexivity|]. split; [apply repeat_length|]. intros i j b Nj Nb. cbn in *.
  apply nth_error_In, repeat_spec in Nj. subst j. exact Nb.
Qed.
Lemma nth_upd {A} (l : list A) i k a x : nth_error (upd l i a) k = Some x -> (k = i /\ i < length l /\ x = a) \/ (k <> i /\ nth_error l k = Some x).
Proof.
  intros N. destruct (Nat.eq_dec k i) as [->|NE].
  - left. assert (i < length l) by (rewrite <- (upd_length l i a); apply nth_error_Some; congruence).
    rewrite nth_error_upd_eq in N by assumption. injection N as <-. auto.
  - right. split; [exact NE|]. now rewrite nth_error_upd_neq in N by auto.
Qed.
Lemma Job_unfold i idx2 b : nth_error blocks i = Some b -> index blocks_idx i = Ok idx2 ->
  Job i = foldM (unit_step i idx2 (length b)) (concat (repeat (seq 0 (length b)) (seal_rounds params))) b.
Proof. intros N I. unfold bjob. rewrite I. cbn [bind]. apply index_nth in N. rewrite N. reflexivity. Qed.

Lemma step_inv p q : Step p q -> pool_inv p -> pool_inv q.
Proof.
  intros S (LB & LJ & J). destruct S as [bs js i idx2 cur NW FIRST TH EI EB|bs js i NW FIRST TH EI|bs js i idx2 n j todo cur cur' NR EU
    |bs js i idx2 n j todo cur NR EU|bs js i idx2 n cur NR]; cbn [p_blocks p_jobs] in *.
  - split; [exact LB|]. split; [cbn [p_jobs]; now rewrite upd_length|]. cbn [p_blocks p_jobs]. intros k jj b Nj Nb.
    apply nth_upd in Nj as [(-> & L & ->)|(NE & Nj)]; [|now apply (J k)].
    apply index_nth in EB. rewrite Nb in EB. injection EB as ->. specialize (J i _ _ NW Nb). cbn [job_inv] in *.
    split; [exact J|]. split; [exact EI|]. split; [reflexivity|]. exists []. split; reflexivity.
  - split; [exact LB|]. split; [cbn [p_jobs]; now rewrite upd_length|]. cbn [p_blocks p_jobs]. intros k jj b Nj Nb.
    apply nth_upd in Nj as [(-> & L & ->)|(NE & Nj)]; [|now apply (J k)]. specialize (J i _ _ NW Nb). cbn [job_inv] in *.
    split; [exact J|]. unfold bjob. rewrite EI. reflexivity.
  - split; [exact LB|]. split; [cbn [p_jobs]; now rewrite upd_length|]. cbn [p_blocks p_jobs]. intros k jj b Nj Nb.
    apply nth_upd in Nj as [(-> & L & ->)|(NE & Nj)]; [|now apply (J k)]. specialize (J i _ _ NR Nb). cbn [job_inv] in *.
    destruct J as (N & EI & EN & dn & ED & EF). repeat split; auto. exists (dn ++ [j]). split; [now rewrite <- app_assoc|].
    rewrite foldM_app, EF. cbn [bind foldM]. rewrite EU. reflexivity.
  - split; [exact LB|]. split; [cbn [p_jobs]; now rewrite upd_length|]. cbn [p_blocks p_jobs]. intros k jj b Nj Nb.
    apply nth_upd in Nj as [(-> & L & ->)|(NE & Nj)]; [|now apply (J k)]. specialize (J i _ _ NR Nb). cbn [job_inv] in *.
    destruct J as (N & EI & EN & dn & ED & EF). split; [exact N|]. rewrite (Job_unfold i idx2 b N EI). rewrite <- EN, <- ED.
    rewrite foldM_app, EF. cbn [bind foldM]. rewrite EU. reflexivity.
  - split; [cbn [p_blocks]; now rewrite upd_length|]. split; [cbn [p_jobs]; now rewrite upd_length|]. cbn [p_blocks p_jobs].
    intros k jj b Nj Nb. apply nth_upd in Nj as [(-> & L & ->)|(NE & Nj)].
    + apply nth_upd in Nb as [(_ & LBi & ->)|(X & _)]; [|congruence].
      destruct (nth_error bs i) as [b0|] eqn:N0; [|apply nth_error_None in N0; lia].
      specialize (J i _ _ NR N0). cbn [job_inv] in *. destruct J as (N & EI & EN & dn & ED & EF).
      rewrite app_nil_r in ED. rewrite (Job_unfold i idx2 b0 N EI). rewrite <- EN, <- ED. exact EF.
    + apply nth_upd in Nb as [(X & _)|(_ & Nb)]; [congruence|]. now apply (J k).
Qed.
Lemma steps_inv p q : Steps p q -> pool_inv p -> pool_inv q.
Proof. induction 1 as [|p q r S _ IH]; intros I; [exact I|]. apply IH. eapply step_inv; eauto. Qed.

(** The result block by block. *)
Definition result (i : nat) : list (list byte) := match Job i with Ok c => c | Panic => nth i blocks [] end.
Lemma finished_result p : pool_inv p -> finished p -> p_blocks p = map result (seq 0 (length blocks)).
Proof.
  intros (LB & LJ & J) F. apply list_ext. intros i. rewrite nth_error_map. destruct (Nat.lt_ge_cases i (length blocks)) as [C|C].
  - rewrite (proj2 (nth_seq (length blocks) i i)) by auto. cbn [option_map].
    destruct (nth_error (p_blocks p) i) as [b|] eqn:Nb; [|apply nth_error_None in Nb; lia].
    destruct (nth_error (p_jobs p) i) as [j|] eqn:Nj; [|apply nth_error_None in Nj; lia].
    specialize (J i j b Nj Nb). unfold finished in F. rewrite Forall_forall in F.
    destruct (F j (nth_error_In _ _ Nj)) as [->| ->]; cbn [job_inv] in J.
    + unfold result. now rewrite J.
    + destruct J as [N JP]. unfold result. rewrite JP. f_equal. symmetry. apply nth_error_nth with (d := []) in N. exact N.
  - rewrite (proj2 (nth_error_None (seq 0 (length blocks)) i)) by (rewrite seq_length; exact C).
    cbn. apply nth_error_None. lia.
Qed.

(** * No deadlock *)
Definition is_waiting (j : job) : bool := match j with Waiting => true | _ => false end.
Lemma first_waiting js : (exists i, nth_error js i = Some Waiting) ->
  exists i, nth_error js i = Some Waiting /\ forall k, k < i -> nth_error js k <> Some Waiting.
Proof.
  induction js as [|j js IH]; intros (i & N); [destruct i; discriminate|]. destruct (is_waiting j) eqn:W.
  - destruct j; try discriminate. exists 0. split; [reflexivity|]. intros; lia.
  - destruct i as [|i]; [injection N as ->; discriminate|]. destruct IH as (q & Nq & F); [eauto|]. exists (S q). split; [exact Nq|].
    intros [|k] K; cbn; [intros [= ->]; discriminate|]. apply F. lia.
Qed.
Lemma progress p : threads <> 0 -> pool_inv p -> finished p \/ exists q, Step p q.
Proof.
  intros TH (LB & LJ & J). destruct p as [bs js]. cbn [p_blocks p_jobs] in *.
  destruct (existsb is_running js) eqn:ER.
  - right. apply existsb_exists in ER as (j & I & R). apply In_nth_error in I as (i & N).
    destruct j as [|idx2 n [|k todo] cur| |]; try discriminate.
    + eexists. eapply step_finish, N.
    + destruct (unit_step i idx2 n cur k) as [c|] eqn:U; eexists; [eapply step_work|eapply step_panic]; eauto.
  - destruct (existsb is_waiting js) eqn:EW.
    + right. apply existsb_exists in EW as (j & I & R). apply In_nth_error in I as (i0 & N0).
      destruct j; try discriminate. destruct (first_waiting js) as (i & N & F); [eauto|].
      assert (FR : length (filter is_running js) = 0).
      { clear - ER. induction js as [|j js IH]; [reflexivity|]. cbn in *. destruct (is_running j); [discriminate|]. now apply IH. }
      assert (L : i < length bs) by (rewrite LB, <- LJ; apply nth_error_Some; congruence).
      destruct (index_ok bs i L) as (cur & EC).
      destruct (index blocks_idx i) as [idx2|] eqn:EI; eexists; [eapply step_start|eapply step_start_panic]; eauto; lia.
    + left. apply Forall_forall. intros j I.
      assert (R : is_running j = false). { destruct (is_running j) eqn:X; [|reflexivity]. rewrite <- ER. symmetry. apply existsb_exists. eauto. }
      assert (W : is_waiting j = false). { destruct (is_waiting j) eqn:X; [|reflexivity]. rewrite <- EW. symmetry. apply existsb_exists. eauto. }
      destruct j; try discriminate; auto.
Qed.

(** * Termination *)
Definition work (j : job) (b : list (list byte)) : nat :=
  match j with
  | Waiting => 2 + length (concat (repeat (seq 0 (length b)) (seal_rounds params)))
  | Running _ _ todo _ => 1 + length todo
  | Done | Dead => 0
  end.
Fixpoint total (js : list job) (bs : list (list (list byte))) : nat :=
  match js, bs with j :: js', b :: bs' => work j b + total js' bs' | _, _ => 0 end.
Definition todo_left (p : pool) : nat := total (p_jobs p) (p_blocks p).

Lemma total_upd js : forall bs i j b j', nth_error js i = Some j -> nth_error bs i = Some b ->
  total (upd js i j') bs + work j b = total js bs + work j' b.
Proof.
  induction js as [|j0 js IH]; intros [|b0 bs] [|i] j b j' Nj Nb; try discriminate; cbn [nth_error upd total] in *.
  - injection Nj as ->. injection Nb as ->. lia.
  - specialize (IH bs i j b j' Nj Nb). lia.
Qed.
Lemma total_upd_done js : forall bs i j b b', nth_error js i = Some j -> nth_error bs i = Some b ->
  total (upd js i Done) (upd bs i b') + work j b = total js bs.
Proof.
  induction js as [|j0 js IH]; intros [|b0 bs] [|i] j b b' Nj Nb; try discriminate; cbn [nth_error upd total] in *.
  - injection Nj as ->. injection Nb as ->. cbn [work]. lia.
  - specialize (IH bs i j b b' Nj Nb). lia.
Qed.
Lemma step_decreases p q : Step p q -> pool_inv p -> todo_left q < todo_left p.
Proof.
  intros S (LB & LJ & _). unfold todo_left. destruct S as [bs js i idx2 cur NW FIRST TH EI EB|bs js i NW FIRST TH EI|bs js i idx2 n j todo cur cur' NR EU
    |bs js i idx2 n j todo cur NR EU|bs js i idx2 n cur NR]; cbn [p_blocks p_jobs] in *.
  - apply index_nth in EB. pose proof (total_upd js bs i _ _ (Running idx2 (length cur) (concat (repeat (seq 0 (length cur)) (seal_rounds params))) cur) NW EB) as X.
    cbn [work] in X. lia.
  - destruct (nth_error bs i) as [b|] eqn:N; [|apply nth_error_None in N; assert (i < length js) by (apply nth_error_Some; congruence); lia].
    pose proof (total_upd js bs i _ _ Dead NW N) as X. cbn [work] in X. lia.
  - destruct (nth_error bs i) as [b|] eqn:N; [|apply nth_error_None in N; assert (i < length js) by (apply nth_error_Some; congruence); lia].
    pose proof (total_upd js bs i _ _ (Running idx2 n todo cur') NR N) as X. cbn [work length] in X. lia.
  - destruct (nth_error bs i) as [b|] eqn:N; [|apply nth_error_None in N; assert (i < length js) by (apply nth_error_Some; congruence); lia].
    pose proof (total_upd js bs i _ _ Dead NR N) as X. cbn [work length] in X. lia.
  - destruct (nth_error bs i) as [b|] eqn:N; [|apply nth_error_None in N; assert (i < length js) by (apply nth_error_Some; congruence); lia].
    pose proof (total_upd_done js bs i _ _ cur NR N) as X. cbn [work length] in X. lia.
Qed.

(** From every reachable state some schedule finishes, and no schedule is infinite. *)
Lemma completes p : threads <> 0 -> pool_inv p -> exists q, Steps p q /\ finished q.
Proof.
  intros TH. induction p as [p IH] using (well_founded_induction (wf_inverse_image _ _ _ todo_left lt_wf)). intros I.
  destruct (progress p TH I) as [F|(q & S)]; [exists p; split; [constructor|exact F]|].
  destruct (IH q (step_decreases p q S I) (step_inv p q S I)) as (r & R & F). exists r. split; [|exact F].
  econstructor; eauto.
Qed.
Lemma steps_snoc p q r : Steps p q -> Step q r -> Steps p r.
Proof. induction 1 as [|p q s S _ IH]; intros X; [econstructor; [exact X|constructor]|]. econstructor; [exact S|]. now apply IH. Qed.
Lemma bounded_run (run : nat -> pool) k : run 0 = start -> (forall i, i < k -> Step (run i) (run (S i))) ->
  pool_inv (run k) /\ k + todo_left (run k) <= todo_left start.
Proof.
  intros R0 RS. induction k as [|k IH]; [rewrite R0; split; [apply start_inv|lia]|].
  destruct IH as [I L]; [intros; apply RS; lia|]. pose proof (RS k ltac:(lia)) as S. split; [eapply step_inv; eauto|].
  pose proof (step_decreases _ _ S I). lia.
Qed.
Lemma start_work : todo_left start = fold_right (fun b acc => 2 + seal_rounds params * length b + acc) 0 blocks.
Proof.
  clear. unfold todo_left, start. cbn [p_jobs p_blocks]. induction blocks as [|b bs IH]; [reflexivity|].
  cbn [length repeat total fold_right work]. rewrite IH, concat_repeat_length, seq_length. lia.
Qed.
End Par.

Section Top.
Context (H : list byte -> list byte) (pr : profile) (params : PosPara) (key : Z) (iv : list byte).
Context (blocks_idx : list nat) (before : list (list byte)) (deps : list (list (list (list byte)))).
Notation par := (batch_unseal_parallel H pr params key iv blocks_idx before deps).
Notation seqn := (batch_unseal H pr params key iv blocks_idx before deps).

Lemma par_result threads blocks t r : threads <> 0 -> bp_idxs_s pr params = Ok t ->
  par threads blocks r <-> r = Ok (map (result H params key iv blocks_idx before deps t blocks) (seq 0 (length blocks))).
Proof.
  intros TH ET. split.
  - intros P. destruct P as [X|t' X Y|t' p X Y S F]; try congruence. rewrite ET in X. injection X as <-. f_equal.
    eapply finished_result; [|exact F]. eapply steps_inv; [exact S|]. apply start_inv.
  - intros ->. destruct (completes H params key iv blocks_idx before deps threads t blocks (start blocks) TH
      (start_inv H params key iv blocks_idx before deps t blocks)) as (q & S & F).
    rewrite <- (finished_result H params key iv blocks_idx before deps t blocks q); [|eapply steps_inv; [exact S|]; apply start_inv|exact F].
    eapply bp_returns; eauto.
Qed.

(** Whatever table the sequential code would have used, if the jobs come out the same. *)
Lemma par_table threads blocks t out : threads <> 0 -> bp_idxs_s pr params = Ok t ->
  mapM (bjob H params key iv blocks_idx before deps t blocks) (seq 0 (length blocks)) = Ok out -> forall r, par threads blocks r <-> r = Ok out.
Proof.
  intros TH ET E r. rewrite (par_result threads blocks t r TH ET).
  assert (X : map (result H params key iv blocks_idx before deps t blocks) (seq 0 (length blocks)) = out).
  { apply list_ext. intros i. rewrite nth_error_map. apply mapM_length in E as EL. rewrite seq_length in EL.
    destruct (Nat.lt_ge_cases i (length blocks)) as [C|C].
    - assert (N : nth_error (seq 0 (length blocks)) i = Some i) by (now apply nth_seq). rewrite N. cbn [option_map].
      destruct (mapM_index _ _ _ _ _ E N) as (c & Ec & I). apply index_nth in I. rewrite I. unfold result. now rewrite Ec.
    - rewrite (proj2 (nth_error_None (seq 0 (length blocks)) i)) by (rewrite seq_length; exact C). symmetry. apply nth_error_None. lia. }
  now rewrite X.
Qed.
Theorem par_eq_seq threads blocks out : threads <> 0 -> same_tables params -> seqn blocks = Ok out ->
  forall r, par threads blocks r <-> r = Ok out.
Proof.
  intros TH ST E. rewrite batch_unseal_map in E. rewrite <- (same_tables_bp pr params ST) in E.
  destruct (bp_idxs_s pr params) as [t|] eqn:ET; [|discriminate]. cbn [bind] in E. now apply par_table with (t := t).
Qed.

(** The batch that consists of element i only. *)
Definition only {A} (i : nat) (l : list A) : list A := firstn 1 (skipn i l).
Lemma only_0 {A} i (l : list A) : nth_error (only i l) 0 = nth_error l i.
Proof. unfold only. revert l. induction i as [|i IH]; intros [|x l]; try reflexivity. cbn [skipn nth_error]. apply IH. Qed.
Lemma bjob_only t blocks i b : nth_error blocks i = Some b ->
  bjob H params key iv (only i blocks_idx) (only i before) (only i deps) t [b] 0 =
  bjob H params key iv blocks_idx before deps t blocks i.
Proof.
  intros N. unfold bjob. unfold index at 1. rewrite only_0. fold (index blocks_idx i).
  destruct (index blocks_idx i) as [idx2|]; [|reflexivity]. cbn [bind]. apply index_nth in N. rewrite N. cbn [bind index nth_error].
  apply foldM_ext. intros j cur _. unfold bu_unit, bu_depend_data. unfold index at 1. rewrite only_0. fold (index deps i).
  destruct (index deps i) as [ds|]; [|reflexivity]. cbn [bind].
  assert (E : index (only i before) 0 = index before i) by (unfold index; now rewrite only_0). rewrite E. reflexivity.
Qed.
Lemma seqn_only t i b blocks : nth_error blocks i = Some b -> bu_idxs_s pr params = Ok t ->
  batch_unseal H pr params key iv (only i blocks_idx) (only i before) (only i deps) [b] =
  (let* c := bjob H params key iv blocks_idx before deps t blocks i in Ok [c]).
Proof.
  intros N ET. rewrite batch_unseal_map, ET. cbn [bind length seq mapM]. rewrite (bjob_only t blocks i b N). destruct (bjob _ _ _ _ _ _ _ _ _ _); reflexivity.
Qed.

(** Every block is treated on its own; a panicking one is left as it was. *)
Theorem par_blockwise threads blocks out : threads <> 0 -> same_tables params -> par threads blocks (Ok out) ->
  length out = length blocks /\
  forall i b, nth_error blocks i = Some b ->
    nth_error out i = Some (match batch_unseal H pr params key iv (only i blocks_idx) (only i before) (only i deps) [b] with
                            | Ok [c] => c
                            | _ => b
                            end).
Proof.
  intros TH ST P. destruct (bp_idxs_s pr params) as [t|] eqn:ET; [|inversion P; congruence].
  apply (par_result threads blocks t _ TH ET) in P. injection P as ->. rewrite map_length, seq_length. split; [reflexivity|].
  intros i b N. rewrite nth_error_map. assert (L : i < length blocks) by (apply nth_error_Some; congruence).
  rewrite (proj2 (nth_seq (length blocks) i i)) by auto. cbn [option_map]. f_equal.
  rewrite (same_tables_bp pr params ST) in ET. rewrite (seqn_only t i b blocks N ET). unfold result.
  destruct (bjob _ _ _ _ _ _ _ _ _ _); cbn [bind]; [reflexivity|]. now apply nth_error_nth.
Qed.
Theorem seq_panics_iff blocks : bu_idxs_s pr params <> Panic ->
  seqn blocks = Panic <->
  exists i b, nth_error blocks i = Some b /\ batch_unseal H pr params key iv (only i blocks_idx) (only i before) (only i deps) [b] = Panic.
Proof.
  intros NP. destruct (bu_idxs_s pr params) as [t|] eqn:ET; [|congruence]. rewrite batch_unseal_map, ET. cbn [bind]. split.
  - intros E. destruct (existsb (fun i => match bjob H params key iv blocks_idx before deps t blocks i with Panic => true | _ => false end) (seq 0 (length blocks))) eqn:X.
    + apply existsb_exists in X as (i & I & P). apply in_seq in I. destruct (index_ok blocks i ltac:(lia)) as (b & B). apply index_nth in B.
      exists i, b. split; [exact B|]. rewrite (seqn_only t i b blocks B ET). destruct (bjob _ _ _ _ _ _ _ _ _ _); [discriminate|reflexivity].
    + exfalso. destruct (mapM_exists (bjob H params key iv blocks_idx before deps t blocks) (fun _ _ => True) (seq 0 (length blocks))) as (r & R & _).
      * intros i I. destruct (bjob H params key iv blocks_idx before deps t blocks i) eqn:B; [eauto|]. exfalso.
        assert (true = false); [|discriminate]. rewrite <- X. symmetry. apply existsb_exists. exists i. split; [exact I|]. now rewrite B.
      * congruence.
  - intros (i & b & N & P). rewrite (seqn_only t i b blocks N ET) in P.
    apply mapM_panic with (a := i); [apply in_seq; assert (i < length blocks) by (apply nth_error_Some; congruence); lia|].
    destruct (bjob _ _ _ _ _ _ _ _ _ _); [discriminate|reflexivity].
Qed.
(** The call panics only for zero threads or a failed table. *)
Theorem par_panics threads blocks : par threads blocks Panic <-> threads = 0 \/ bp_idxs_s pr params = Panic.
Proof.
  split.
  - intros P. inversion P; auto.
  - intros [->|E]; [|now apply bp_table_panic]. destruct (bp_idxs_s pr params) as [t|] eqn:ET; [|now apply bp_table_panic].
    eapply bp_pool_panic; eauto.
Qed.

Theorem par_no_deadlock threads blocks t p : threads <> 0 ->
  steps H params key iv blocks_idx before deps threads t (mkPool blocks (repeat Waiting (length blocks))) p ->
  finished p \/ exists q, step H params key iv blocks_idx before deps threads t p q.
Proof. intros TH S. eapply progress; [exact TH|]. eapply steps_inv; [exact S|]. apply start_inv. Qed.
Theorem par_bounded threads blocks t (run : nat -> pool) k : run 0 = mkPool blocks (repeat Waiting (length blocks)) ->
  (forall i, i < k -> step H params key iv blocks_idx before deps threads t (run i) (run (S i))) ->
  k <= fold_right (fun b acc => 2 + seal_rounds params * length b + acc) 0 blocks.
Proof.
  intros R0 RS. pose proof (bounded_run H params key iv blocks_idx before deps threads t blocks run k R0 RS) as [_ L].
  rewrite (start_work params blocks) in L. lia.
Qed.
End Top.
