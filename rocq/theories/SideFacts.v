(** Facts about Side: a run alone is the call of Paths.v, schedules end, and runs that
    share no written file do not see each other. *)
From Verif Require Import Base Sloth Common Depend Prover Postorage BytesFacts CommonFacts SealTop PostorageFacts LocalFacts AnyLength Paths PathFacts Side.
Local Open Scope nat_scope.

(** * Alone *)
Lemma run_next {A B} (m : proc A) (k : A -> proc B) : forall d, run (next m k) d = andThen (run m) (fun a => run (k a)) d.
Proof.
  unfold andThen. induction m as [r|p c IH|p w m IH]; intros d; cbn [next run].
  - destruct r; reflexivity.
  - apply IH.
  - apply IH.
Qed.
Lemma next_ok {A B} (m : proc A) (k : A -> proc B) d d' a : run m d = (d', Ok a) -> run (next m k) d = run (k a) d'.
Proof. intros E. rewrite run_next. unfold andThen. now rewrite E. Qed.
Lemma next_panic {A B} (m : proc A) (k : A -> proc B) d d' : run m d = (d', Panic) -> run (next m k) d = (d', Panic).
Proof. intros E. rewrite run_next. unfold andThen. now rewrite E. Qed.
Lemma andThen_ext {A B} (c c' : call A) (k k' : A -> call B) d : c d = c' d -> (forall a d, k a d = k' a d) -> andThen c k d = andThen c' k' d.
Proof. intros E K. unfold andThen. rewrite E. destruct (c' d) as [d' [a|]]; [apply K|reflexivity]. Qed.
Lemma run_each {A S} (f : S -> A -> proc S) (g : S -> A -> call S) : (forall s a d, run (f s a) d = g s a d) -> forall l s d, run (each f l s) d = loop g l s d.
Proof.
  intros E. induction l as [|a l IH]; intros s d; cbn [each loop]; [reflexivity|]. rewrite run_next. apply andThen_ext; [apply E|intros; apply IH].
Qed.
Lemma data_content d p : data (d p) = content d p.
Proof. reflexivity. Qed.

(** A part of a run that only looks, and computes what it would from the disk. *)
Definition looks {A} (m : proc A) (r : disk -> res A) : Prop := forall d, run m d = (d, r d).
Lemma looks_next {A B} (m : proc A) r (k : A -> proc B) d : looks m r -> run (next m k) d = match r d with Ok a => run (k a) d | Panic => (d, Panic) end.
Proof. intros L. rewrite run_next. unfold andThen. rewrite (L d). reflexivity. Qed.
Lemma looks_calc {A} (r : res A) : looks (calc r) (fun _ => r).
Proof. intros d. reflexivity. Qed.
Lemma looks_read p b l : looks (p_read p b l) (fun d => Ok (read_file (content d p) b l)).
Proof. intros d. reflexivity. Qed.
Lemma looks_bind {A B} (m : proc A) r (k : A -> proc B) r' : looks m r -> (forall a, looks (k a) (r' a)) -> looks (next m k) (fun d => let* a := r d in r' a d).
Proof. intros L K d. rewrite (looks_next _ _ _ _ L). destruct (r d) as [a|]; [apply K|reflexivity]. Qed.
Lemma looks_all {A B} (f : A -> proc B) r l : (forall a, looks (f a) (fun d => r d a)) -> looks (all f l) (fun d => mapM (r d) l).
Proof.
  intros L. induction l as [|a l IH]; intros d; cbn [all mapM]; [reflexivity|]. rewrite (looks_next _ _ _ _ (L a)). destruct (r d a) as [b|]; [|reflexivity]. cbn [bind].
  rewrite (looks_next _ _ _ _ IH). destruct (mapM (r d) l); reflexivity.
Qed.
Lemma looks_block params p i : looks (read_block_p params p i) (fun d => read_block params (content d p) i).
Proof. intros d. reflexivity. Qed.
Lemma looks_seal_depend H params p il n ids idx2 : looks (seal_depend_p H params p il n ids idx2) (fun d => seal_depend_blocks H params il n (content d p) ids idx2).
Proof.
  intros d. unfold seal_depend_p, seal_depend_blocks. rewrite (looks_next _ _ _ _ (looks_calc _)).
  pose proof (fun l => looks_all (read_block_p params p) (fun d => read_block params (content d p)) l (looks_block params p)) as L.
  destruct (mode_l params =? 0).
  - destruct (idx2 =? 0); [cbn [bind]; apply L|]. destruct (cnt_l params =? 0).
    + destruct (index ids (idx2 - 1)) as [w|]; [|reflexivity]. cbn [bind]. destruct (long_mode_random H n w idx2 (idx2 / 10 + 1)); [apply L|reflexivity].
    + destruct (index ids (idx2 - 1)) as [w|]; [|reflexivity]. cbn [bind]. destruct (long_mode_random H n w idx2 (cnt_l params)); [apply L|reflexivity].
  - destruct (index il idx2); [apply L|reflexivity].
Qed.
Lemma looks_before H params p idx2 : looks (before_id_p H params p idx2) (fun d => Ok (unseal_before_id H params (content d p) idx2)).
Proof. intros d. unfold before_id_p, unseal_before_id. destruct (negb (idx2 =? 0)); reflexivity. Qed.
Lemma looks_unseal_depend H params p il n b idx2 : looks (unseal_depend_p H params p il n b idx2) (fun d => unseal_depend_blocks H params il n (content d p) b idx2).
Proof.
  intros d. unfold unseal_depend_p, unseal_depend_blocks. destruct (mode_l params =? 0).
  - rewrite (looks_next _ _ _ _ (looks_calc _)).
    assert (L : forall l, looks (all (fun i => go k <- calc (index l i); read_block_p params p k) (seq 0 (length l))) (fun d => mapM (fun i => let* k := index l i in read_block params (content d p) k) (seq 0 (length l)))).
    { intros l. apply looks_all. intros i. apply looks_bind; [apply looks_calc|intros k; apply looks_block]. }
    destruct (idx2 =? 0); [cbn [bind]; apply L|]. destruct (cnt_l params =? 0).
    + destruct (long_mode_random H n b idx2 (idx2 / 10 + 1)); [apply L|reflexivity].
    + destruct (long_mode_random H n b idx2 (cnt_l params)); [apply L|reflexivity].
  - rewrite (looks_next _ _ _ _ (looks_calc _)). destruct (index il idx2); [|reflexivity].
    apply (looks_all (read_block_p params p) (fun d => read_block params (content d p)) _ (looks_block params p)).
Qed.

Theorem run_pad o n dl ul d : run (pad_p o n dl ul) d = copy_and_pad_at o n dl ul d.
Proof.
  unfold pad_p, copy_and_pad_at. rewrite run_next. apply andThen_ext; [unfold p_existing, open_existing; cbn; now destruct (d o)|]. intros _ d1.
  rewrite run_next. apply andThen_ext; [reflexivity|]. intros _ d2. rewrite run_next. apply andThen_ext; [reflexivity|]. intros cnt d3.
  rewrite run_next. apply andThen_ext; [|reflexivity]. apply run_each. intros; reflexivity.
Qed.
Theorem run_compress o n dl ul upl d : run (compress_p o n dl ul upl) d = copy_and_compress_at o n dl ul upl d.
Proof.
  unfold compress_p, copy_and_compress_at. rewrite run_next. apply andThen_ext; [unfold p_existing, open_existing; cbn; now destruct (d o)|]. intros _ d1.
  rewrite run_next. apply andThen_ext; [reflexivity|]. intros _ d2. rewrite run_next. apply andThen_ext; [reflexivity|]. intros cnt d3.
  rewrite run_next. apply andThen_ext; [|reflexivity]. apply run_each. intros s a d4. rewrite (looks_next _ _ _ _ (looks_read _ _ _)). 
  unfold andThen at 1. cbn [look]. rewrite (looks_next _ _ _ _ (looks_calc _)). unfold andThen at 1, pure. unfold content. destruct (slice _ 0 ul); reflexivity.
Qed.
Theorem run_seal H pr params p key iv d : run (seal_p H pr params p key iv) d = seal_at H pr params p key iv d.
Proof.
  unfold seal_p, seal_at. rewrite run_next. apply andThen_ext; [unfold p_existing, open_existing; cbn; now destruct (d p)|]. intros _ d1.
  rewrite run_next. apply andThen_ext; [reflexivity|]. intros n d2. rewrite run_next. apply andThen_ext; [reflexivity|]. intros il d3. rewrite run_next. apply andThen_ext; [reflexivity|]. intros is' d4.
  rewrite run_next. apply andThen_ext; [|reflexivity]. apply run_each. intros st idx2 d5. unfold andThen at 1, look. rewrite (looks_next _ _ _ _ (looks_block _ _ _)).
  unfold seal_block. cbn [s_file s_ids s_log]. unfold andThen at 1, pure. destruct (read_block params (content d5 p) idx2) as [cur|]; [|reflexivity]. cbn [bind].
  rewrite (looks_next _ _ _ _ (looks_seal_depend _ _ _ _ _ _ _)). destruct (seal_depend_blocks H params il n (content d5 p) (fst st) idx2) as [deps|]; [|reflexivity]. cbn [bind].
  rewrite (looks_next _ _ _ _ (looks_calc _)). destruct (seal_block_rounds H params key iv is' deps (fst st) idx2 (cur, snd st)) as [[cur' log']|]; [|reflexivity]. cbn [bind].
  rewrite (looks_next _ _ _ _ (looks_calc _)). destruct (set_index (fst st) idx2 (H (com_units cur'))) as [ids'|]; reflexivity.
Qed.
Theorem run_unseal H pr params p key iv d : run (unseal_p H pr params p key iv) d = unseal_at H pr params p key iv d.
Proof.
  unfold unseal_p, unseal_at. rewrite run_next. apply andThen_ext; [unfold p_existing, open_existing; cbn; now destruct (d p)|]. intros _ d1.
  rewrite run_next. apply andThen_ext; [reflexivity|]. intros n d2. rewrite run_next. apply andThen_ext; [reflexivity|]. intros il d3. rewrite run_next. apply andThen_ext; [reflexivity|]. intros is' d4.
  apply run_each. intros [] i d5. cbv zeta. unfold andThen at 1, look. rewrite (looks_next _ _ _ _ (looks_before _ _ _ _)).
  rewrite (looks_next _ _ _ _ (looks_block _ _ _)). unfold unseal_block. unfold andThen at 1, pure. destruct (read_block params (content d5 p) (n - 1 - i)) as [cur|]; [|reflexivity]. cbn [bind].
  rewrite (looks_next _ _ _ _ (looks_unseal_depend _ _ _ _ _ _ _)). destruct (unseal_depend_blocks _ _ _ _ _ _ _) as [deps|]; [|reflexivity]. cbn [bind].
  rewrite (looks_next _ _ _ _ (looks_calc _)). destruct (unseal_block_rounds _ _ _ _ _ _ _ _ _) as [cur'|]; reflexivity.
Qed.

(** Saving in pieces. *)
Lemma write_twice (f : file) pos a b : pos <= length f -> write_at (write_at f pos a) (pos + length a) b = write_at f pos (a ++ b).
Proof.
  intros P. destruct a as [|x a]; [cbn [app length write_at]; now rewrite Nat.add_0_r|]. destruct b as [|y b]; [now rewrite app_nil_r|].
  apply file_ext.
  - rewrite !write_at_length_any by discriminate. rewrite app_length. lia.
  - intros k _. rewrite !write_at_nth_any, app_length.
    destruct (Nat.leb_spec pos k), (Nat.leb_spec (pos + length (x :: a)) k), (Nat.ltb_spec k (pos + length (x :: a) + length (y :: b))), (Nat.ltb_spec k (pos + length (x :: a))),
      (Nat.ltb_spec k (pos + (length (x :: a) + length (y :: b)))); cbn [andb]; try lia; try reflexivity.
    + rewrite app_nth2 by lia. f_equal. lia.
    + now rewrite app_nth1 by lia.
Qed.
Lemma put_put d p f g : same_disk (put (put d p f) p g) (put d p g).
Proof. intros q. unfold put. destruct (q =? p); reflexivity. Qed.
Lemma put_id d p f : d p = Some f -> same_disk (put d p f) d.
Proof. intros E q. unfold put. destruct (Nat.eqb_spec q p) as [->|]; [now symmetry|reflexivity]. Qed.
Lemma same_trans a b c : same_disk a b -> same_disk b c -> same_disk a c.
Proof. intros A B q. now rewrite A. Qed.
Lemma write_le (f : file) pos b : pos <= length f -> pos + length b <= length (write_at f pos b).
Proof. intros P. destruct b as [|x b]; [cbn; lia|]. rewrite write_at_length_any by discriminate. lia. Qed.
Lemma run_pieces p l : forall pos d f, d p = Some f -> pos <= length f ->
  same_disk (fst (run (pieces_p p pos l) d)) (put d p (write_at f pos (concat l))) /\ snd (run (pieces_p p pos l) d) = Ok tt.
Proof.
  induction l as [|b l IH]; intros pos d f E P; cbn [pieces_p].
  - split; [|reflexivity]. intros q. symmetry. now apply put_id.
  - rewrite run_next. unfold andThen. cbn [p_write run]. rewrite E. cbn [data].
    destruct (IH (pos + length b) (put d p (write_at f pos b)) (write_at f pos b)) as (S & R); [apply put_same|now apply write_le|].
    split; [|exact R]. eapply same_trans; [exact S|]. rewrite write_twice by exact P. cbn [concat]. apply put_put.
Qed.
Lemma pieces_all key iv : concat (pub_pieces key iv) = enc_bytes (decimal key) ++ enc_bytes iv.
Proof.
  unfold pub_pieces. cbn [concat]. rewrite app_assoc, firstn_skipn. f_equal. rewrite <- (firstn_skipn 8 (enc_bytes iv)) at 3. f_equal.
  induction (skipn 8 (enc_bytes iv)); [reflexivity|]. cbn. now f_equal.
Qed.
Theorem run_save p key iv d : same_disk (fst (run (save_p p key iv) d)) (fst (save_data_at p key iv d)) /\ snd (run (save_p p key iv) d) = snd (save_data_at p key iv d).
Proof.
  unfold save_p. rewrite run_next. unfold andThen. cbn [p_create run]. rewrite data_content.
  destruct (run_pieces p (pub_pieces key iv) 0 (put d p (content d p)) (content d p)) as (S & R); [apply put_same|lia|].
  rewrite R. split; [|reflexivity]. eapply same_trans; [exact S|]. rewrite pieces_all. unfold save_data_at, andThen. cbn [open_create look store fst]. rewrite content_put. apply same_put. intros q. reflexivity.
Qed.

Lemma alike_bind {A B} (m : proc A) (c : call A) (k : A -> proc B) (k' : A -> call B) :
  (forall d, same_disk (fst (run m d)) (fst (c d)) /\ snd (run m d) = snd (c d)) -> (forall a, respects (k' a)) ->
  (forall a d, same_disk (fst (run (k a) d)) (fst (k' a d)) /\ snd (run (k a) d) = snd (k' a d)) ->
  forall d, same_disk (fst (run (next m k) d)) (fst (andThen c k' d)) /\ snd (run (next m k) d) = snd (andThen c k' d).
Proof.
  intros M R K d. rewrite run_next. unfold andThen. destruct (M d) as (S & E). destruct (run m d) as [d1 r1], (c d) as [d2 r2]. cbn [fst snd] in *. subst r2.
  destruct r1 as [a|]; [|auto]. destruct (K a d1) as (S1 & E1). destruct (R a d1 d2 S) as (S2 & E2). split; [|congruence]. eapply same_trans; eauto.
Qed.
Theorem run_run H pr params rnd o s u p b d :
  same_disk (fst (run (seal_and_unseal_p H pr params rnd o s u p b) d)) (fst (seal_and_unseal_at H pr params rnd o s u p b d)) /\
  snd (run (seal_and_unseal_p H pr params rnd o s u p b) d) = snd (seal_and_unseal_at H pr params rnd o s u p b d).
Proof.
  assert (EX : forall A (m : proc A) (c : call A), (forall d, run m d = c d) -> forall d, same_disk (fst (run m d)) (fst (c d)) /\ snd (run m d) = snd (c d)).
  { intros A m c E d'. rewrite E. split; [intros q|]; reflexivity. }
  assert (RT : forall key iv, respects (if b then do _ <- unseal_at H pr params s key iv; copy_and_compress_at s u (data_l params) (unit_l params) (unit_pl params) else done tt)).
  { intros key iv. destruct b; [apply respects_bind; [apply respects_unseal|intros _; apply respects_compress]|apply respects_done]. }
  unfold seal_and_unseal_p, seal_and_unseal_at. apply alike_bind.
  - apply EX. intros d'. apply run_pad.
  - intros _. apply respects_bind; [apply respects_pure|]. intros [key iv]. apply respects_bind; [apply respects_seal|]. intros _. apply respects_bind; [apply respects_save|]. intros _. apply RT.
  - intros _. apply alike_bind; [now apply EX|intros [key iv]; apply respects_bind; [apply respects_seal|]; intros _; apply respects_bind; [apply respects_save|]; intros _; apply RT|].
    intros [key iv]. apply alike_bind; [apply EX; intros d'; apply run_seal|intros _; apply respects_bind; [apply respects_save|]; intros _; apply RT|].
    intros _. apply alike_bind; [intros d'; apply run_save|intros _; apply RT|]. intros _ d'. destruct b; [|split; [intros q|]; reflexivity].
    revert d'. apply alike_bind; [apply EX; intros d'; apply run_unseal|intros _; apply respects_compress|]. intros _. apply EX. intros d'. apply run_compress.
Qed.

(** * Footprints *)
Fixpoint uses {A} (rd wr : place -> Prop) (m : proc A) : Prop :=
  match m with
  | Halt _ => True
  | See p k => rd p /\ forall c, uses rd wr (k c)
  | Change p _ m' => rd p /\ wr p /\ uses rd wr m'
  end.
Lemma uses_next {A B} rd wr (m : proc A) (k : A -> proc B) : uses rd wr m -> (forall a, uses rd wr (k a)) -> uses rd wr (next m k).
Proof.
  intros U K. induction m as [r|p c IH|p w m IH]; cbn in *.
  - destruct r; [apply K|exact I].
  - destruct U as (R & U). split; [exact R|]. intros f. now apply IH.
  - destruct U as (R & W & U). auto.
Qed.
Lemma uses_each {A S} rd wr (f : S -> A -> proc S) : (forall s a, uses rd wr (f s a)) -> forall l s, uses rd wr (each f l s).
Proof. intros U. induction l as [|a l IH]; intros s; cbn [each]; [exact I|]. apply uses_next; auto. Qed.
Lemma uses_all {A B} rd wr (f : A -> proc B) : (forall a, uses rd wr (f a)) -> forall l, uses rd wr (all f l).
Proof. intros U. induction l as [|a l IH]; cbn [all]; [exact I|]. apply uses_next; [apply U|]. intros b. apply uses_next; [exact IH|]. intros; exact I. Qed.
Lemma uses_calc {A} rd wr (r : res A) : uses rd wr (calc r).
Proof. exact I. Qed.
Lemma uses_existing (rd wr : place -> Prop) p : rd p -> uses rd wr (p_existing p).
Proof. intros R. split; [exact R|]. intros [f|]; exact I. Qed.
Lemma uses_read (rd wr : place -> Prop) p b l : rd p -> uses rd wr (p_read p b l).
Proof. intros R. split; [exact R|]. intros f; exact I. Qed.
Lemma uses_write (rd wr : place -> Prop) p pos b : rd p -> wr p -> uses rd wr (p_write p pos b).
Proof. intros R W. repeat split; auto. Qed.
Lemma uses_truncate (rd wr : place -> Prop) p : rd p -> wr p -> uses rd wr (p_truncate p).
Proof. intros R W. repeat split; auto. Qed.
Lemma uses_create (rd wr : place -> Prop) p : rd p -> wr p -> uses rd wr (p_create p).
Proof. intros R W. repeat split; auto. Qed.
Lemma uses_pieces (rd wr : place -> Prop) p l : rd p -> wr p -> forall pos, uses rd wr (pieces_p p pos l).
Proof. intros R W. induction l as [|b l IH]; intros pos; cbn [pieces_p]; [exact I|]. apply uses_next; [now apply uses_write|intros _; apply IH]. Qed.
Ltac foot := repeat first
  [ apply uses_calc | apply uses_existing; auto; fail | apply uses_read; auto; fail | apply uses_write; auto; fail | apply uses_truncate; auto; fail | apply uses_create; auto; fail
  | apply uses_pieces; auto; fail | apply uses_next; [|intros ?] | apply uses_each; intros ? ? | apply uses_all; intros ? ].
Lemma uses_pad (rd wr : place -> Prop) o n dl ul : rd o -> rd n -> wr n -> uses rd wr (pad_p o n dl ul).
Proof. intros. unfold pad_p. foot. Qed.
Lemma uses_compress (rd wr : place -> Prop) o n dl ul upl : rd o -> rd n -> wr n -> uses rd wr (compress_p o n dl ul upl).
Proof. intros. unfold compress_p. foot. Qed.
Lemma uses_save (rd wr : place -> Prop) p key iv : rd p -> wr p -> uses rd wr (save_p p key iv).
Proof. intros. unfold save_p. foot. Qed.
Lemma uses_seal H pr params (rd wr : place -> Prop) p key iv : rd p -> wr p -> uses rd wr (seal_p H pr params p key iv).
Proof. intros. unfold seal_p, read_block_p, seal_depend_p, read_block_p. foot. match goal with |- uses _ _ (let (_, _) := ?a in _) => destruct a end. foot. Qed.
Lemma uses_unseal H pr params (rd wr : place -> Prop) p key iv : rd p -> wr p -> uses rd wr (unseal_p H pr params p key iv).
Proof.
  intros. unfold unseal_p. foot.
  all: unfold before_id_p, unseal_depend_p, read_block_p; repeat match goal with |- uses _ _ (if ?b then _ else _) => destruct b end; foot.
Qed.
Theorem uses_run H pr params (rd wr : place -> Prop) rnd o s u p (b : bool) : rd o -> rd s -> wr s -> rd p -> wr p -> (b = true -> rd u /\ wr u) ->
  uses rd wr (seal_and_unseal_p H pr params rnd o s u p b).
Proof.
  intros RO RS WS RP WP U. unfold seal_and_unseal_p. apply uses_next; [now apply uses_pad|intros _]. apply uses_next; [exact I|intros [key iv]].
  apply uses_next; [now apply uses_seal|intros _]. apply uses_next; [now apply uses_save|intros _]. destruct b; [|exact I].
  destruct (U eq_refl). apply uses_next; [now apply uses_unseal|intros _]. now apply uses_compress.
Qed.

(** A run depends on the files it uses and leaves all it does not write alone. *)
Lemma run_local {A} rd wr (m : proc A) : uses rd wr m -> forall d e, (forall q, rd q -> d q = e q) -> (forall q, wr q -> rd q) ->
  snd (run m d) = snd (run m e) /\ forall q, rd q -> fst (run m d) q = fst (run m e) q.
Proof.
  induction m as [r|p c IH|p w m IH]; intros U d e E WR; cbn in *.
  - auto.
  - destruct U as (R & U). rewrite (E p R). apply IH; auto.
  - destruct U as (R & W & U). rewrite (E p R). apply IH; auto. intros q Q. unfold put. destruct (q =? p); auto.
Qed.
Lemma run_frame {A} rd wr (m : proc A) : uses rd wr m -> forall d q, ~ wr q -> fst (run m d) q = d q.
Proof.
  induction m as [r|p c IH|p w m IH]; intros U d q N; cbn in *; [reflexivity| |].
  - apply IH; [apply U|exact N].
  - destruct U as (R & W & U). rewrite IH by assumption. apply put_other. now intros ->.
Qed.

(** * Schedules end *)
Section Ends.
Context {A : Type}.
Inductive later : option (proc A) -> option (proc A) -> Prop :=
| L_see : forall p k c, later (Some (k c)) (Some (See p k))
| L_change : forall p w m, later (Some m) (Some (Change p w m))
| L_kill : forall m, later None (Some m).
Lemma later_none : Acc later None.
Proof. constructor. intros y L. inversion L. Qed.
Lemma later_wf m : Acc later (Some m).
Proof.
  induction m as [r|p k IH|p w m IH]; constructor; intros y L; inversion L; subst; auto using later_none.
Qed.
Inductive later_list : list (option (proc A)) -> list (option (proc A)) -> Prop :=
| LL_here : forall x y l, later x y -> later_list (x :: l) (y :: l)
| LL_there : forall x l l', later_list l l' -> later_list (x :: l) (x :: l').
Lemma later_list_wf l : Acc later_list l.
Proof.
  induction l as [|x l IH]; [constructor; intros y L; inversion L|].
  assert (AX : Acc later x) by (destruct x as [m|]; [apply later_wf|apply later_none]).
  revert l IH. induction AX as [x _ IX]. intros l AL. induction AL as [l AL IL]. constructor. intros y L. inversion L; subst.
  - apply IX; [assumption|]. constructor. exact AL.
  - now apply IL.
Qed.
Lemma later_upd ps : forall i x y, nth_error ps i = Some y -> later x y -> later_list (upd ps i x) ps.
Proof.
  induction ps as [|z ps IH]; intros [|i] x y E L; try discriminate; cbn in *.
  - injection E as ->. now constructor.
  - constructor. eauto.
Qed.
Theorem turn_wf : forall s : shared A, Acc (fun y x => turn x y) s.
Proof.
  intros [d ps]. pose proof (later_list_wf ps) as W. revert d. induction W as [ps _ IH]. intros d. constructor. intros y T. inversion T; subst; apply IH; eapply later_upd; eauto; constructor.
Qed.
Definition over (x : option (proc A)) : Prop := match x with None => True | Some (Halt _) => True | _ => False end.
Theorem turn_progress (d : disk) ps : ~ Forall over ps -> exists s, turn (d, ps) s.
Proof.
  intros N. assert (E : exists i x, nth_error ps i = Some x /\ ~ over x).
  { clear d. induction ps as [|x ps IH]; [exfalso; apply N; constructor|].
    destruct x as [[r|p k|p w m]|]; try (exists 0; eexists; split; [reflexivity|]; cbn; tauto);
      (destruct IH as (i & y & E & O); [intros F; apply N; constructor; [exact I|exact F]|exists (S i), y; auto]). }
  destruct E as (i & x & E & O). destruct x as [[r|p k|p w m]|]; cbn in O; try tauto.
  - eexists. eapply T_see; eauto.
  - eexists. eapply T_change; eauto.
Qed.
End Ends.

(** * Runs that share no written file *)
Section Apart.
Context {A : Type} (ms : list (proc A)) (rd wr : nat -> place -> Prop).
Hypothesis WR : forall i q, wr i q -> rd i q.
Hypothesis U : forall i m, nth_error ms i = Some m -> uses (rd i) (wr i) m.
Hypothesis AP : forall i j q, i < length ms -> j < length ms -> i <> j -> wr i q -> rd j q -> False.
Context (d0 : disk).
Definition sound (s : shared A) : Prop :=
  length (snd s) = length ms /\
  (forall i m m0, nth_error (snd s) i = Some (Some m) -> nth_error ms i = Some m0 ->
    uses (rd i) (wr i) m /\ snd (run m (fst s)) = snd (run m0 d0) /\ forall q, rd i q -> fst (run m (fst s)) q = fst (run m0 d0) q) /\
  (forall q, (forall i, i < length ms -> ~ wr i q) -> fst s q = d0 q).
Lemma sound_start : sound (d0, map Some ms).
Proof.
  split; [cbn; now rewrite map_length|]. split; [|reflexivity]. intros i m m0 E E0. cbn in E. rewrite nth_error_map, E0 in E. cbn in E. injection E as <-.
  split; [now apply U|]. auto.
Qed.
Lemma upd_nth (l : list (option (proc A))) : forall i j x y, nth_error (upd l i x) j = Some y -> i = j /\ y = x \/ i <> j /\ nth_error l j = Some y.
Proof.
  induction l as [|a l IH]; intros [|i] [|j] x y E; cbn in E; try discriminate; auto.
  - injection E as <-. auto.
  - destruct (IH i j x y E) as [(-> & ->)|(N & E')]; auto.
Qed.
Lemma upd_len (l : list (option (proc A))) : forall i x, length (upd l i x) = length l.
Proof. induction l as [|a l IH]; intros [|i] x; cbn; auto. Qed.
Lemma sound_turn s s' : sound s -> turn s s' -> sound s'.
Proof.
  intros (LS & SI & SO) T. destruct T as [d ps i p k E|d ps i p w m E|d ps i m E E']; unfold sound; cbn [fst snd] in *; rewrite upd_len; (split; [exact LS|]); (split; [|]).
  - intros j m m0 E1 E2. destruct (upd_nth _ _ _ _ _ E1) as [(<- & X)|(N & X)]; [|eauto]. injection X as ->. destruct (SI i _ m0 E E2) as (UU & R & F). cbn in *. destruct UU. auto.
  - exact SO.
  - assert (IL : i < length ms) by (rewrite <- LS; apply nth_error_Some; congruence). destruct (nth_error ms i) as [mi|] eqn:EI; [|apply nth_error_None in EI; lia].
    destruct (SI i _ mi E EI) as (UU & _ & _). cbn in UU. destruct UU as (RP & WP & UM).
    intros j m1 m0 E1 E2. destruct (upd_nth _ _ _ _ _ E1) as [(<- & X)|(N & X)].
    + injection X as ->. destruct (SI i _ m0 E E2) as (_ & R & F). cbn in *. auto.
    + destruct (SI j _ m0 X E2) as (UJ & R & F). assert (JL : j < length ms) by (apply nth_error_Some; congruence).
      destruct (run_local (rd j) (wr j) m1 UJ (put d p (w (d p))) d) as (R1 & F1); [|apply WR|].
      { intros q Q. apply put_other. intros ->. apply (AP i j p); auto. }
      split; [exact UJ|]. split; [congruence|]. intros q Q. rewrite F1 by exact Q. now apply F.
  - assert (IL : i < length ms) by (rewrite <- LS; apply nth_error_Some; congruence). destruct (nth_error ms i) as [mi|] eqn:EI; [|apply nth_error_None in EI; lia].
    destruct (SI i _ mi E EI) as (UU & _ & _). cbn in UU. destruct UU as (RP & WP & UM).
    intros q N. rewrite put_other; [now apply SO|]. intros ->. now apply (N i IL).
  - intros j m1 m0 E1 E2. destruct (upd_nth _ _ _ _ _ E1) as [(<- & X)|(N & X)]; [discriminate|eauto].
  - exact SO.
Qed.
Theorem sound_turns s : turns (d0, map Some ms) s -> sound s.
Proof.
  assert (G : forall a b : shared A, turns a b -> sound a -> sound b) by (induction 1; intros; auto; apply IHturns; eapply sound_turn; eauto).
  intros T. eapply G; [exact T|apply sound_start].
Qed.
Theorem apart_run d ps i m r : turns (d0, map Some ms) (d, ps) -> nth_error ms i = Some m -> nth_error ps i = Some (Some (Halt r)) ->
  r = snd (run m d0) /\ forall q, rd i q -> d q = fst (run m d0) q.
Proof. intros T E E'. destruct (sound_turns _ T) as (_ & SI & _). destruct (SI i _ m E' E) as (_ & R & F). cbn in *. auto. Qed.
Theorem apart_rest d ps : turns (d0, map Some ms) (d, ps) -> forall q, (forall i, i < length ms -> ~ wr i q) -> d q = d0 q.
Proof. intros T. now destruct (sound_turns _ T) as (_ & _ & SO). Qed.
(** A run under way or killed has done a part of what it does alone. *)
Lemma turns_snoc (a b c : shared A) : turns a b -> turn b c -> turns a c.
Proof. induction 1; intros; [econstructor; eauto; constructor|econstructor; eauto]. Qed.
Definition tracked (s : shared A) : Prop :=
  length (snd s) = length ms /\
  forall i x m0, nth_error (snd s) i = Some x -> nth_error ms i = Some m0 ->
    (forall m, x = Some m -> uses (rd i) (wr i) m) /\ exists e, turns (d0, [Some m0]) (e, [x]) /\ forall q, rd i q -> fst s q = e q.
Lemma tracked_turn s s' : tracked s -> turn s s' -> tracked s'.
Proof.
  intros (LS & SI) T. destruct T as [d ps i p k E|d ps i p w m E|d ps i m E E']; unfold tracked; cbn [fst snd] in *; rewrite upd_len; (split; [exact LS|]); intros j x m0 E1 E2;
    destruct (upd_nth _ _ _ _ _ E1) as [(<- & ->)|(N & X)].
  - destruct (SI i _ m0 E E2) as (UU & e & TE & F). specialize (UU _ eq_refl). cbn in UU. destruct UU as (RP & UK). split; [intros m X; now injection X as <-|].
    exists e. split; [|exact F]. rewrite (F p RP). eapply turns_snoc; [exact TE|]. apply (@T_see A e [Some (See p k)] 0 p k eq_refl).
  - eauto.
  - destruct (SI i _ m0 E E2) as (UU & e & TE & F). specialize (UU _ eq_refl). cbn in UU. destruct UU as (RP & WP & UM). split; [intros m' X; now injection X as <-|].
    exists (put e p (w (e p))). split; [eapply turns_snoc; [exact TE|]; apply (@T_change A e [Some (Change p w m)] 0 p w m eq_refl)|].
    intros q Q. rewrite (F p RP). unfold put. destruct (q =? p); auto.
  - assert (IL : i < length ms) by (rewrite <- LS; apply nth_error_Some; congruence). destruct (nth_error ms i) as [mi|] eqn:EI; [|apply nth_error_None in EI; lia].
    destruct (SI i _ mi E EI) as (UU & _). specialize (UU _ eq_refl). cbn in UU. destruct UU as (RP & WP & UM).
    destruct (SI j _ m0 X E2) as (UJ & e & TE & F). split; [exact UJ|]. exists e. split; [exact TE|]. intros q Q. assert (JL : j < length ms) by (apply nth_error_Some; congruence).
    rewrite put_other; [now apply F|]. intros ->. apply (AP i j p); auto.
  - destruct (SI i _ m0 E E2) as (UU & e & TE & F). split; [intros m' X; discriminate|]. exists e. split; [|exact F].
    eapply turns_snoc; [exact TE|]. apply (@T_kill A e [Some m] 0 m eq_refl E').
  - eauto.
Qed.
Theorem apart_part d ps i m x : turns (d0, map Some ms) (d, ps) -> nth_error ms i = Some m -> nth_error ps i = Some x ->
  exists e, turns (d0, [Some m]) (e, [x]) /\ forall q, rd i q -> d q = e q.
Proof.
  intros T E E'. assert (G : forall a b : shared A, turns a b -> tracked a -> tracked b) by (induction 1; intros; auto; apply IHturns; eapply tracked_turn; eauto).
  destruct (G _ _ T) as (_ & SI).
  - split; [cbn; now rewrite map_length|]. intros j y m0 X X0. cbn in X. rewrite nth_error_map, X0 in X. cbn in X. injection X as <-.
    split; [intros m' Y; injection Y as <-; now apply U|]. exists d0. split; [constructor|auto].
  - destruct (SI i x m E' E) as (_ & e & TE & F). eauto.
Qed.
End Apart.

(** * Several savers of one file *)
Inductive saver (p : place) (e : list byte) : proc unit -> nat -> Prop :=
| Sv_start : forall l, concat l = e -> saver p e (Change p data (pieces_p p 0 l)) 0
| Sv_on : forall c l, c <= length e -> skipn c e = concat l -> saver p e (pieces_p p c l) c.
Lemma saver_end p e r c : saver p e (Halt r) c -> r = Ok tt /\ c = length e.
Proof.
  intros S. inversion S as [|c' l L E M]. subst. destruct l as [|b l]; [|discriminate]. cbn in M. injection M as <-. split; [reflexivity|].
  cbn in E. apply (f_equal (@length _)) in E. rewrite skipn_length in E. cbn in E. lia.
Qed.
Lemma saver_see p e q k c : saver p e (See q k) c -> False.
Proof. intros S. inversion S as [|c' l L E M]. destruct l; discriminate. Qed.
Lemma saver_change p e q w m c : saver p e (Change q w m) c -> q = p /\
  (c = 0 /\ w = data /\ saver p e m 0 \/ exists b, w = (fun o => write_at (data o) c b) /\ saver p e m (c + length b) /\ c + length b <= length e /\ b = firstn (length b) (skipn c e)).
Proof.
  intros S. inversion S as [l E M|c' l L E M]; subst.
  - split; [reflexivity|]. left. split; [reflexivity|]. split; [reflexivity|]. apply Sv_on; [lia|reflexivity].
  - destruct l as [|b l]; [discriminate|]. cbn in M. injection M as <- <- <-. split; [reflexivity|]. right. exists b. split; [reflexivity|].
    cbn [concat] in E. assert (LB : c + length b <= length e) by (apply (f_equal (@length _)) in E; rewrite skipn_length, app_length in E; lia).
    split; [|split; [exact LB|rewrite E; rewrite firstn_app, Nat.sub_diag, firstn_all; cbn; now rewrite app_nil_r]].
    apply Sv_on; [exact LB|]. rewrite <- skipn_skipn', E, skipn_app, skipn_all, Nat.sub_diag. reflexivity.
Qed.

Definition mixed (f0 : file) (es : list (list byte)) (cs : list nat) (f : file) : Prop :=
  (length f = fold_right Nat.max (length f0) cs) /\
  (forall x, (forall i c, nth_error cs i = Some c -> c <= x) -> nth x f x00 = nth x f0 x00) /\
  (forall x i c, nth_error cs i = Some c -> x < c -> exists j e, nth_error es j = Some e /\ nth x f x00 = nth x e x00).
Lemma max_in l c0 : forall i c, nth_error l i = Some c -> c <= fold_right Nat.max c0 l.
Proof. induction l as [|a l IH]; intros [|i] c E; try discriminate; cbn in *; [injection E as ->; lia|]. specialize (IH i c E). lia. Qed.
Lemma max_upd l c0 : forall i c c', nth_error l i = Some c -> c <= c' -> fold_right Nat.max c0 (upd l i c') = Nat.max (fold_right Nat.max c0 l) c'.
Proof. induction l as [|a l IH]; intros [|i] c c' E L; try discriminate; cbn in *; [injection E as ->; lia|]. rewrite (IH i c c' E L). lia. Qed.
Lemma upd_nth_any {B} (l : list B) : forall i j x y, nth_error (upd l i x) j = Some y -> i = j /\ y = x \/ i <> j /\ nth_error l j = Some y.
Proof.
  induction l as [|a l IH]; intros [|i] [|j] x y E; cbn in E; try discriminate; auto.
  - injection E as <-. auto.
  - destruct (IH i j x y E) as [(-> & ->)|(N & E')]; auto.
Qed.
Lemma upd_same {B} (l : list B) : forall i x y, nth_error l i = Some y -> nth_error (upd l i x) i = Some x.
Proof. induction l as [|a l IH]; intros [|i] x y E; try discriminate; cbn in *; eauto. Qed.
Lemma upd_ne {B} (l : list B) : forall i j x, i <> j -> nth_error (upd l i x) j = nth_error l j.
Proof. induction l as [|a l IH]; intros [|i] [|j] x N; cbn; auto; try congruence. Qed.
Lemma upd_id {B} (l : list B) : forall i x, nth_error l i = Some x -> upd l i x = l.
Proof. induction l as [|a l IH]; intros [|i] x E; try discriminate; cbn in *; [now injection E as ->|]. now rewrite IH. Qed.
Lemma mixed_write f0 es cs f i c e b : mixed f0 es cs f -> nth_error cs i = Some c -> nth_error es i = Some e -> c + length b <= length e -> b = firstn (length b) (skipn c e) ->
  mixed f0 es (upd cs i (c + length b)) (write_at f c b).
Proof.
  intros (ML & MO & MI) EC EE LB EB. pose proof (max_in cs (length f0) i c EC) as CM. rewrite <- ML in CM.
  assert (LW : length (write_at f c b) = Nat.max (length f) (c + length b)) by (destruct b as [|z b]; [cbn [write_at length]; lia|apply write_at_length_any; discriminate]).
  split; [|split].
  - rewrite LW, ML. symmetry. eapply max_upd; [exact EC|lia].
  - intros x X. rewrite write_at_nth_any. pose proof (X i (c + length b) (upd_same cs i _ _ EC)) as XI. destruct (Nat.ltb_spec x (c + length b)); [lia|]. rewrite andb_false_r. apply MO.
    intros j c' EJ. destruct (Nat.eq_dec i j) as [<-|N]; [rewrite EC in EJ; injection EJ as <-; lia|]. apply (X j). now rewrite upd_ne.
  - intros x j c' EJ XL. rewrite write_at_nth_any. destruct (Nat.leb_spec c x), (Nat.ltb_spec x (c + length b)); cbn [andb].
    + exists i, e. split; [exact EE|]. rewrite EB. rewrite nth_firstn by lia. rewrite nth_skipn. f_equal. lia.
    + destruct (upd_nth_any _ _ _ _ _ EJ) as [(<- & ->)|(N & EJ')]; [lia|]. eapply MI; eauto.
    + destruct (upd_nth_any _ _ _ _ _ EJ) as [(<- & ->)|(N & EJ')]; [apply (MI x i c EC); lia|eapply MI; eauto].
    + destruct (upd_nth_any _ _ _ _ _ EJ) as [(<- & ->)|(N & EJ')]; [apply (MI x i c EC); lia|eapply MI; eauto].
Qed.

Section Savers.
Context (p : place) (es : list (list byte)) (f0 : file).
Definition saving (s : shared unit) : Prop := exists cs, length cs = length es /\ length (snd s) = length es /\
  (forall i e c, nth_error es i = Some e -> nth_error cs i = Some c -> c <= length e) /\
  (forall i m e c, nth_error (snd s) i = Some (Some m) -> nth_error es i = Some e -> nth_error cs i = Some c -> saver p e m c) /\
  mixed f0 es cs (content (fst s) p).
Lemma saving_turn s s' : saving s -> turn s s' -> saving s'.
Proof.
  intros (cs & LC & LS & LE & SV & MX) T. 
  destruct T as [d ps i q k E|d ps i q w m E|d ps i m E NE]; cbn [fst snd] in *; assert (IL : i < length es) by (rewrite <- LS; apply nth_error_Some; congruence);
    (destruct (nth_error es i) as [e|] eqn:EE; [|apply nth_error_None in EE; lia]); (destruct (nth_error cs i) as [c|] eqn:EC; [|apply nth_error_None in EC; lia]).
  - destruct (saver_see _ _ _ _ _ (SV _ _ _ _ E EE EC)).
  - destruct (saver_change _ _ _ _ _ _ (SV _ _ _ _ E EE EC)) as (-> & [(-> & -> & SM)|(b & -> & SM & LB & EB)]).
    + exists cs. cbn [fst snd]. rewrite upd_len. split; [exact LC|]. split; [exact LS|]. split; [exact LE|]. split.
      * intros j m' e' c' EJ EE' EC'. destruct (upd_nth_any _ _ _ _ _ EJ) as [(<- & X)|(N & X)]; [|eauto]. injection X as ->. rewrite EE in EE'. injection EE' as <-. rewrite EC in EC'. injection EC' as <-. exact SM.
      * rewrite content_put. exact MX.
    + exists (upd cs i (c + length b)). cbn [fst snd]. rewrite upd_len.
      assert (LU : length (upd cs i (c + length b)) = length cs) by (clear; revert i; induction cs as [|a l IH]; intros [|i]; cbn; auto).
      split; [congruence|]. split; [exact LS|]. split; [|split].
      * intros j e' c' EE' EC'. destruct (upd_nth_any _ _ _ _ _ EC') as [(<- & ->)|(N & X)]; [|eauto]. rewrite EE in EE'. injection EE' as <-. exact LB.
      * intros j m' e' c' EJ EE' EC'. destruct (upd_nth_any _ _ _ _ _ EJ) as [(<- & X)|(N & X)].
        -- injection X as ->. rewrite EE in EE'. injection EE' as <-. rewrite (upd_same _ _ _ _ EC) in EC'. injection EC' as <-. exact SM.
        -- rewrite upd_ne in EC' by exact N. eauto.
      * rewrite content_put. now apply (mixed_write f0 es cs (content d p) i c e b).
  - exists cs. cbn [fst snd]. rewrite upd_len. split; [exact LC|]. split; [exact LS|]. split; [exact LE|]. split; [|exact MX].
    intros j m' e' c' EJ EE' EC'. destruct (upd_nth_any _ _ _ _ _ EJ) as [(<- & X)|(N & X)]; [discriminate|eauto].
Qed.
Lemma saving_turns s s' : turns s s' -> saving s -> saving s'.
Proof. induction 1; intros; auto. apply IHturns. eapply saving_turn; eauto. Qed.
(** As soon as one has finished. *)
Lemma saving_done d ps E : saving (d, ps) -> (forall i e, nth_error es i = Some e -> length e = E) -> forall i r, nth_error ps i = Some (Some (Halt r)) ->
  r = Ok tt /\ length (content d p) = Nat.max (length f0) E /\ (forall x, x < E -> exists j e, nth_error es j = Some e /\ nth x (content d p) x00 = nth x e x00) /\
  (forall x, E <= x -> nth x (content d p) x00 = nth x f0 x00).
Proof.
  intros (cs & LC & LS & LEE & SV & (ML & MO & MI)) UE i r EI. cbn [fst snd] in *. assert (IL : i < length es) by (rewrite <- LS; apply nth_error_Some; congruence).
  destruct (nth_error es i) as [e|] eqn:EE; [|apply nth_error_None in EE; lia]. destruct (nth_error cs i) as [c|] eqn:EC; [|apply nth_error_None in EC; lia].
  destruct (saver_end _ _ _ _ (SV _ _ _ _ EI EE EC)) as (-> & ->). pose proof (UE _ _ EE) as LE. rewrite LE in EC. split; [reflexivity|].
  assert (CE : forall j c, nth_error cs j = Some c -> c <= E).
  { intros j c EJ. destruct (nth_error es j) as [e'|] eqn:EE'; [|apply nth_error_None in EE'; assert (j < length cs) by (apply nth_error_Some; congruence); lia].
    pose proof (LEE j e' c EE' EJ). now rewrite (UE _ _ EE') in *. }
  split; [|split].
  - rewrite ML. apply Nat.le_antisymm.
    + clear - CE. assert (G : forall l, (forall j c, nth_error l j = Some c -> c <= E) -> fold_right Nat.max (length f0) l <= Nat.max (length f0) E).
      { induction l as [|a l IH]; intros C; cbn; [lia|]. pose proof (C 0 a eq_refl). specialize (IH (fun j c X => C (S j) c X)). lia. }
      now apply G.
    + pose proof (max_in cs (length f0) i E EC). assert (G : forall l c0, c0 <= fold_right Nat.max c0 l) by (induction l as [|a l IH]; intros c0; cbn; [lia|specialize (IH c0); lia]). specialize (G cs (length f0)). lia.
  - intros x X. apply (MI x i E EC X).
  - intros x X. apply MO. intros j c EJ. pose proof (CE j c EJ). lia.
Qed.
End Savers.
Lemma saving_start p d (l : list (Z * list byte)) : saving p (map (fun x => enc_bytes (decimal (fst x)) ++ enc_bytes (snd x)) l) (content d p) (d, map Some (map (fun x => save_p p (fst x) (snd x)) l)).
Proof.
  exists (repeat 0 (length l)). rewrite repeat_length. cbn [fst snd]. rewrite !map_length. split; [reflexivity|]. split; [reflexivity|].
  assert (Z0 : forall n i c, nth_error (repeat 0 n) i = Some c -> c = 0) by (intros n i c E; apply nth_error_In, repeat_spec in E; auto).
  split; [intros i e c _ E; apply Z0 in E; lia|]. split.
  - intros i m e c E1 E2 E3. apply Z0 in E3 as ->. rewrite !nth_error_map in *. destruct (nth_error l i) as [[key iv]|]; [|discriminate]. cbn in E1, E2. injection E1 as <-. injection E2 as <-.
    cbn [fst snd]. apply (Sv_start p _ (pub_pieces key iv)). apply pieces_all.
  - split; [|split].
    + assert (G : forall n c0, fold_right Nat.max c0 (repeat 0 n) = c0) by (induction n as [|n IH]; intros c0; cbn; [reflexivity|now rewrite IH]). now rewrite G.
    + reflexivity.
    + intros x i c E L. apply Z0 in E. lia.
Qed.
