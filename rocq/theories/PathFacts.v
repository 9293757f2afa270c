(** Calls on paths: what they touch, that they only depend on the contents of the files,
    and how they relate to the functions on contents. *)
From Coq Require Import Lia.
From Verif Require Import Base Sloth Common Depend Prover Merkle Postorage BytesFacts CommonFacts Paths.
Local Open Scope nat_scope.

(** Equal disks: the same files with the same contents. *)
Definition same_disk (a b : disk) : Prop := forall q, a q = b q.
(** Two disks that differ at most in the files of [P]. *)
Definition elsewhere (P : place -> Prop) (a b : disk) : Prop := forall q, ~ P q -> a q = b q.

Lemma put_same d p f : put d p f p = Some f.
Proof. unfold put. now rewrite Nat.eqb_refl. Qed.
Lemma put_other d p f q : q <> p -> put d p f q = d q.
Proof. intros N. unfold put. now apply Nat.eqb_neq in N as ->. Qed.
Lemma content_put d p f : content (put d p f) p = f.
Proof. unfold content. now rewrite put_same. Qed.
Lemma content_some d p f : d p = Some f -> content d p = f.
Proof. unfold content. now intros ->. Qed.
Lemma same_put a b p f : same_disk a b -> same_disk (put a p f) (put b p f).
Proof. intros E q. unfold put. destruct (q =? p); [reflexivity|apply E]. Qed.
Lemma same_content a b p : same_disk a b -> content a p = content b p.
Proof. intros E. unfold content. now rewrite E. Qed.

(** * What a call leaves alone *)
Definition touches {A} (P : place -> Prop) (c : call A) : Prop := forall d, elsewhere P (fst (c d)) d.

Lemma touches_weaken {A} (P Q : place -> Prop) (c : call A) : (forall q, P q -> Q q) -> touches P c -> touches Q c.
Proof. intros PQ T d q N. apply T. auto. Qed.
Lemma touches_done {A} P (a : A) : touches P (done a).
Proof. intros d q _. reflexivity. Qed.
Lemma touches_pure {A} P (r : res A) : touches P (pure r).
Proof. intros d q _. reflexivity. Qed.
Lemma touches_bind {A B} P (c : call A) (k : A -> call B) : touches P c -> (forall a, touches P (k a)) -> touches P (andThen c k).
Proof.
  intros T K d q N. unfold andThen. specialize (T d q N). destruct (c d) as [d' [a|]]; cbn in *; [|exact T].
  now rewrite (K a d' q N).
Qed.
Lemma touches_loop {A S} P (f : S -> A -> call S) l s : (forall s a, touches P (f s a)) -> touches P (loop f l s).
Proof.
  intros K. revert s. induction l as [|a l IH]; intros s; cbn; [apply touches_done|].
  apply touches_bind; [apply K|exact IH].
Qed.
Lemma touches_existing P p : touches P (open_existing p).
Proof. intros d q _. unfold open_existing. now destruct (d p). Qed.
Lemma touches_look P p : touches P (look p).
Proof. intros d q _. reflexivity. Qed.
Lemma touches_store (P : place -> Prop) p f : P p -> touches P (store p f).
Proof. intros I d q N. cbn. apply put_other. now intros ->. Qed.
Lemma touches_truncate (P : place -> Prop) p : P p -> touches P (open_truncate p).
Proof. intros I d q N. cbn. apply put_other. now intros ->. Qed.
Lemma touches_create (P : place -> Prop) p : P p -> touches P (open_create p).
Proof. intros I d q N. cbn. apply put_other. now intros ->. Qed.
Lemma touches_write (P : place -> Prop) p pos buf : P p -> touches P (write p pos buf).
Proof. intros I d q N. cbn. apply put_other. now intros ->. Qed.

Ltac touch := repeat first
  [ apply touches_done | apply touches_pure | apply touches_existing | apply touches_look
  | apply touches_store; auto; fail | apply touches_truncate; auto; fail | apply touches_create; auto; fail | apply touches_write; auto; fail
  | apply touches_bind; [|intros ?] | apply touches_loop; intros ? ? ].

Lemma touches_pad (P : place -> Prop) o n dl ul : P n -> touches P (copy_and_pad_at o n dl ul).
Proof. intros I. unfold copy_and_pad_at. touch. Qed.
Lemma touches_compress (P : place -> Prop) o n dl ul upl : P n -> touches P (copy_and_compress_at o n dl ul upl).
Proof. intros I. unfold copy_and_compress_at. touch. Qed.
Lemma touches_save (P : place -> Prop) p key iv : P p -> touches P (save_data_at p key iv).
Proof. intros I. unfold save_data_at. touch. Qed.
Lemma touches_load P p : touches P (load_data_at p).
Proof. unfold load_data_at. touch. Qed.
Lemma touches_seal H pr params (P : place -> Prop) p key iv : P p -> touches P (seal_at H pr params p key iv).
Proof. intros I. unfold seal_at. touch. Qed.
Lemma touches_unseal H pr params (P : place -> Prop) p key iv : P p -> touches P (unseal_at H pr params p key iv).
Proof. intros I. unfold unseal_at. touch. Qed.
Lemma touches_proof H2 params P o u idx : touches P (merkle_tree_proof_at H2 params o u idx).
Proof. unfold merkle_tree_proof_at. touch. destruct a1 as [[? ?] ?]. touch. destruct a3 as [[? ?] ?]. touch. Qed.
Lemma touches_run H pr params (P : place -> Prop) rnd o s u p b : P s -> P p -> (b = true -> P u) ->
  touches P (seal_and_unseal_at H pr params rnd o s u p b).
Proof.
  intros S' U' B. unfold seal_and_unseal_at. apply touches_bind; [now apply touches_pad|intros _]. apply touches_bind; [apply touches_pure|intros [key iv]].
  apply touches_bind; [now apply touches_seal|intros _]. apply touches_bind; [now apply touches_save|intros _]. destruct b; [|apply touches_done].
  apply touches_bind; [now apply touches_unseal|intros _]. apply touches_compress. auto.
Qed.

(** * A call depends on the files only *)
Definition respects {A} (c : call A) : Prop := forall a b, same_disk a b -> same_disk (fst (c a)) (fst (c b)) /\ snd (c a) = snd (c b).

Lemma respects_done {A} (a : A) : respects (done a).
Proof. now intros x y E. Qed.
Lemma respects_pure {A} (r : res A) : respects (pure r).
Proof. now intros x y E. Qed.
Lemma respects_bind {A B} (c : call A) (k : A -> call B) : respects c -> (forall a, respects (k a)) -> respects (andThen c k).
Proof.
  intros R K x y E. unfold andThen. destruct (R x y E) as [D V]. destruct (c x) as [x' [a|]], (c y) as [y' [a'|]]; cbn in *; try discriminate; [|now split].
  injection V as ->. now apply K.
Qed.
Lemma respects_loop {A S} (f : S -> A -> call S) l s : (forall s a, respects (f s a)) -> respects (loop f l s).
Proof.
  intros K. revert s. induction l as [|a l IH]; intros s; cbn; [apply respects_done|].
  apply respects_bind; [apply K|exact IH].
Qed.
Lemma respects_existing p : respects (open_existing p).
Proof. intros x y E. unfold open_existing. rewrite (E p). now destruct (y p). Qed.
Lemma respects_look p : respects (look p).
Proof. intros x y E. cbn. split; [exact E|]. now rewrite (same_content x y p E). Qed.
Lemma respects_store p f : respects (store p f).
Proof. intros x y E. split; [now apply same_put|reflexivity]. Qed.
Lemma respects_truncate p : respects (open_truncate p).
Proof. intros x y E. split; [now apply same_put|reflexivity]. Qed.
Lemma respects_create p : respects (open_create p).
Proof. intros x y E. split; [|reflexivity]. cbn. rewrite (same_content x y p E). now apply same_put. Qed.
Lemma respects_write p pos buf : respects (write p pos buf).
Proof. intros x y E. split; [|reflexivity]. cbn. rewrite (same_content x y p E). now apply same_put. Qed.
Ltac respect := repeat first
  [ apply respects_done | apply respects_pure | apply respects_existing | apply respects_look | apply respects_store | apply respects_truncate
  | apply respects_create | apply respects_write | apply respects_bind; [|intros ?] | apply respects_loop; intros ? ? ].
Lemma respects_compress o n dl ul upl : respects (copy_and_compress_at o n dl ul upl).
Proof. unfold copy_and_compress_at. respect. Qed.
Lemma respects_save p key iv : respects (save_data_at p key iv).
Proof. unfold save_data_at. respect. Qed.
Lemma respects_seal H pr params p key iv : respects (seal_at H pr params p key iv).
Proof. unfold seal_at. respect. Qed.
Lemma respects_unseal H pr params p key iv : respects (unseal_at H pr params p key iv).
Proof. unfold unseal_at. respect. Qed.
Lemma respects_after H pr params rnd s u p (b : bool) : respects (
  do (vde_key, iv) <- pure (prepare_params pr (unit_pl params) rnd);
  do _ <- seal_at H pr params s vde_key iv;
  do _ <- save_data_at p vde_key iv;
  if b then
    do _ <- unseal_at H pr params s vde_key iv;
    copy_and_compress_at s u (data_l params) (unit_l params) (unit_pl params)
  else done tt).
Proof.
  apply respects_bind; [apply respects_pure|intros [key iv]].
  apply respects_bind; [apply respects_seal|intros _]. apply respects_bind; [apply respects_save|intros _]. destruct b; [|apply respects_done].
  apply respects_bind; [apply respects_unseal|intros _]. apply respects_compress.
Qed.

(** * Appending *)
Lemma write_end (g buf : file) : write_at g (length g) buf = g ++ buf.
Proof.
  unfold write_at. destruct buf as [|x buf]; [now rewrite app_nil_r|].
  rewrite firstn_all, Nat.sub_diag, skipn_all2 by (cbn; lia). cbn [zeros repeat app]. now rewrite app_nil_r.
Qed.
Lemma read_zeros k b l : read_file (zeros k) b l = zeros l.
Proof.
  unfold read_file, zeros. cbv zeta.
  assert (E : firstn l (skipn b (repeat x00 k)) = repeat x00 (Nat.min l (k - b))).
  { clear. revert b l. induction k as [|k IH]; intros b l; [rewrite skipn_nil, firstn_nil; cbn [Nat.sub]; now rewrite Nat.min_0_r|].
    destruct b as [|b]; [|cbn [repeat skipn]; rewrite IH; f_equal; lia].
    destruct l as [|l]; [reflexivity|]. cbn [skipn repeat firstn Nat.min Nat.sub]. f_equal. specialize (IH 0 l). cbn [skipn] in IH. rewrite IH. f_equal. lia. }
  rewrite E, repeat_length, <- repeat_app. f_equal. lia.
Qed.

(** * One step of a call *)
Section Steps.
Context {A B : Type}.
Lemma bind_existing (k : unit -> call B) d p f : d p = Some f -> andThen (open_existing p) k d = k tt d.
Proof. intros E. unfold andThen, open_existing. now rewrite E. Qed.
Lemma bind_look (k : file -> call B) d p f : d p = Some f -> andThen (look p) k d = k f d.
Proof. intros E. unfold andThen, look. now rewrite (content_some _ _ _ E). Qed.
Lemma bind_truncate (k : unit -> call B) d p : andThen (open_truncate p) k d = k tt (put d p []).
Proof. reflexivity. Qed.
Lemma bind_write (k : unit -> call B) d p pos b g : d p = Some g -> andThen (write p pos b) k d = k tt (put d p (write_at g pos b)).
Proof. intros E. unfold andThen, write. now rewrite (content_some _ _ _ E). Qed.
Lemma bind_store (k : unit -> call B) d p f : andThen (store p f) k d = k tt (put d p f).
Proof. reflexivity. Qed.
Lemma bind_pure (r : res A) (k : A -> call B) d : andThen (pure r) k d = match r with Ok a => k a d | Panic => (d, Panic) end.
Proof. now destruct r. Qed.
Lemma bind_ok (c : call A) (k : A -> call B) d d' a : c d = (d', Ok a) -> andThen c k d = k a d'.
Proof. intros E. unfold andThen. now rewrite E. Qed.
Lemma bind_panic (c : call A) (k : A -> call B) d d' : c d = (d', Panic) -> andThen c k d = (d', Panic).
Proof. intros E. unfold andThen. now rewrite E. Qed.
Lemma bind_case (c : call A) (k : A -> call B) d e b : andThen c k d = (e, Ok b) -> exists a d', c d = (d', Ok a) /\ k a d' = (e, Ok b).
Proof. unfold andThen. destruct (c d) as [d' [a|]]; [eauto|discriminate]. Qed.
Lemma bind_assoc {C} (c : call A) (k : A -> call B) (h : B -> call C) d : andThen (andThen c k) h d = andThen c (fun a => andThen (k a) h) d.
Proof. unfold andThen. now destruct (c d) as [d' [a|]]. Qed.
End Steps.

(** * Copying between two files *)
(** The bodies of the two loops. *)
Definition pad_body (o n : place) (ul : nat) (pos cnt : nat) : call nat :=
  do f <- look o;
  let buf := read_file f (cnt * ul) ul ++ [x00] in
  do _ <- write n pos buf;
  done (pos + length buf).
Definition compress_body (o n : place) (ul upl : nat) (pos cnt : nat) : call nat :=
  do f <- look o;
  let buf := read_file f (cnt * upl) upl in
  do b <- pure (slice buf 0 ul);
  do _ <- write n pos b;
  done (pos + length b).
Lemma pad_at_body o n dl ul d f : d o = Some f -> copy_and_pad_at o n dl ul d =
  if ul =? 0 then (put d n [], Panic) else (do _ <- loop (pad_body o n ul) (seq 0 (dl / ul)) 0; done tt) (put d n []).
Proof.
  intros DO. unfold copy_and_pad_at. rewrite (bind_existing _ _ _ _ DO), bind_truncate, bind_pure. now destruct (ul =? 0).
Qed.
Lemma compress_at_body o n dl ul upl d f : d o = Some f -> copy_and_compress_at o n dl ul upl d =
  if ul =? 0 then (put d n [], Panic) else (do _ <- loop (compress_body o n ul upl) (seq 0 (dl / ul)) 0; done tt) (put d n []).
Proof.
  intros DO. unfold copy_and_compress_at. rewrite (bind_existing _ _ _ _ DO), bind_truncate, bind_pure. now destruct (ul =? 0).
Qed.
Lemma pad_body_step o n ul pos cnt d f g : d o = Some f -> d n = Some g -> pos = length g ->
  pad_body o n ul pos cnt d = (put d n (g ++ (read_file f (cnt * ul) ul ++ [x00])), Ok (length (g ++ (read_file f (cnt * ul) ul ++ [x00])))).
Proof.
  intros DO DN ->. unfold pad_body. rewrite (bind_look _ _ _ _ DO). cbv zeta. rewrite (bind_write _ _ _ _ _ _ DN), write_end. unfold done. now rewrite (app_length g).
Qed.
Lemma compress_body_step o n ul upl pos cnt d f g : d o = Some f -> d n = Some g -> pos = length g ->
  compress_body o n ul upl pos cnt d = match slice (read_file f (cnt * upl) upl) 0 ul with
    | Ok b => (put d n (g ++ b), Ok (length (g ++ b))) | Panic => (d, Panic) end.
Proof.
  intros DO DN ->. unfold compress_body. rewrite (bind_look _ _ _ _ DO). cbv zeta. rewrite bind_pure. destruct (slice _ _ _) as [b|]; [|reflexivity].
  rewrite (bind_write _ _ _ _ _ _ DN), write_end. unfold done. now rewrite (app_length g).
Qed.
Lemma loop_step {A S} (f : S -> A -> call S) a l s d d' s' : f s a d = (d', Ok s') -> loop f (a :: l) s d = loop f l s' d'.
Proof. intros E. cbn [loop]. now rewrite (bind_ok _ _ _ _ _ E). Qed.
Lemma loop_stop {A S} (f : S -> A -> call S) a l s d d' : f s a d = (d', Panic) -> loop f (a :: l) s d = (d', Panic).
Proof. intros E. cbn [loop]. now rewrite (bind_panic _ _ _ _ E). Qed.

Lemma pad_loop o n f ul : o <> n -> forall l g d, d o = Some f -> d n = Some g ->
  let g' := fold_left (fun new cnt => new ++ (read_file f (cnt * ul) ul ++ [x00])) l g in
  exists d', loop (pad_body o n ul) l (length g) d = (d', Ok (length g')) /\ d' n = Some g'.
Proof.
  intros N. induction l as [|k l IH]; intros g d DO DN; cbn [fold_left]; cbv zeta.
  - exists d. now split.
  - rewrite (loop_step _ _ _ _ _ _ _ (pad_body_step o n ul _ k d f g DO DN eq_refl)). apply IH; [now rewrite put_other|apply put_same].
Qed.
Lemma pad_apart o n f dl ul d : o <> n -> d o = Some f ->
  match copy_and_pad f dl ul with
  | Ok g => exists d', copy_and_pad_at o n dl ul d = (d', Ok tt) /\ d' n = Some g
  | Panic => exists d', copy_and_pad_at o n dl ul d = (d', Panic)
  end.
Proof.
  intros N DO. rewrite (pad_at_body _ _ _ _ _ _ DO). unfold copy_and_pad. destruct (ul =? 0) eqn:E; [eauto|]. cbv zeta.
  destruct (pad_loop o n f ul N (seq 0 (dl / ul)) [] (put d n [])) as (d' & L & D); [now rewrite put_other|apply put_same|].
  cbn [length] in L. exists d'. now rewrite (bind_ok _ _ _ _ _ L).
Qed.
Lemma compress_loop o n f ul upl : o <> n -> forall l g d, d o = Some f -> d n = Some g ->
  match foldM (fun new cnt => let buf := read_file f (cnt * upl) upl in let* b := slice buf 0 ul in Ok (new ++ b)) l g with
  | Ok g' => exists d', loop (compress_body o n ul upl) l (length g) d = (d', Ok (length g')) /\ d' n = Some g'
  | Panic => exists d', loop (compress_body o n ul upl) l (length g) d = (d', Panic)
  end.
Proof.
  intros N. induction l as [|k l IH]; intros g d DO DN; cbn [foldM].
  - exists d. now split.
  - pose proof (compress_body_step o n ul upl _ k d f g DO DN eq_refl) as B. cbv zeta. destruct (slice _ _ _) as [b|]; cbn [bind].
    + rewrite (loop_step _ _ _ _ _ _ _ B). apply IH; [now rewrite put_other|apply put_same].
    + rewrite (loop_stop _ _ _ _ _ _ B). eauto.
Qed.
Lemma compress_apart o n f dl ul upl d : o <> n -> d o = Some f ->
  match copy_and_compress f dl ul upl with
  | Ok g => exists d', copy_and_compress_at o n dl ul upl d = (d', Ok tt) /\ d' n = Some g
  | Panic => exists d', copy_and_compress_at o n dl ul upl d = (d', Panic)
  end.
Proof.
  intros N DO. rewrite (compress_at_body _ _ _ _ _ _ _ DO). unfold copy_and_compress. destruct (ul =? 0) eqn:E; [eauto|].
  pose proof (compress_loop o n f ul upl N (seq 0 (dl / ul)) [] (put d n [])) as L. cbn [length] in L.
  specialize (L ltac:(now rewrite put_other) ltac:(apply put_same)). cbv zeta in *. destruct (foldM _ _ _) as [g|].
  - destruct L as (d' & L & D). exists d'. now rewrite (bind_ok _ _ _ _ _ L).
  - destruct L as (d' & L). exists d'. now rewrite (bind_panic _ _ _ _ L).
Qed.

(** * Copying a file onto itself *)
Lemma zeros_app a b : zeros a ++ zeros b = zeros (a + b).
Proof. unfold zeros. now rewrite repeat_app. Qed.
Lemma pad_self_loop p ul : forall l k d, d p = Some (zeros k) ->
  let g := fold_left (fun new cnt => new ++ (read_file [] (cnt * ul) ul ++ [x00])) l (zeros k) in
  exists d', loop (pad_body p p ul) l k d = (d', Ok (length g)) /\ d' p = Some g /\ exists r, g = zeros r.
Proof.
  induction l as [|c l IH]; intros k e D; cbn [fold_left]; cbv zeta.
  - exists e. rewrite zeros_length. split; [reflexivity|]. split; [exact D|]. now exists k.
  - pose proof (pad_body_step p p ul k c e _ _ D D ltac:(now rewrite zeros_length)) as B. 
    assert (E : forall z b, zeros k ++ (read_file (zeros z) b ul ++ [x00]) = zeros (k + (ul + 1))) by (intros z b; rewrite read_zeros; change [x00] with (zeros 1); now rewrite !zeros_app).
    rewrite E, zeros_length in B. rewrite (E 0), (loop_step _ _ _ _ _ _ _ B). exact (IH (k + (ul + 1)) _ (put_same _ _ _)).
Qed.
Lemma slice_zeros a b : b <= a -> slice (zeros a) 0 b = Ok (zeros b).
Proof.
  intros L. unfold slice. rewrite zeros_length. cbn [Nat.leb]. apply Nat.leb_le in L as L'. rewrite L'. cbn. rewrite Nat.sub_0_r. f_equal. unfold zeros. clear L'.
  revert b L. induction a as [|a IH]; intros [|b] L; cbn; [reflexivity|lia|reflexivity|]. f_equal. apply IH. lia.
Qed.
Lemma slice_short {A} (l : list A) b : length l < b -> slice l 0 b = Panic.
Proof. intros L. unfold slice. apply Nat.leb_gt in L. rewrite L. now rewrite ?Bool.andb_false_r. Qed.
Lemma compress_self_loop p ul upl : forall l k d, d p = Some (zeros k) ->
  match foldM (fun new cnt => let buf := read_file [] (cnt * upl) upl in let* b := slice buf 0 ul in Ok (new ++ b)) l (zeros k) with
  | Ok g => exists d', loop (compress_body p p ul upl) l k d = (d', Ok (length g)) /\ d' p = Some g /\ exists r, g = zeros r
  | Panic => exists d', loop (compress_body p p ul upl) l k d = (d', Panic)
  end.
Proof.
  induction l as [|c l IH]; intros k e D; cbn [foldM]; cbv zeta.
  - exists e. rewrite zeros_length. split; [reflexivity|]. split; [exact D|]. now exists k.
  - pose proof (compress_body_step p p ul upl k c e _ _ D D ltac:(now rewrite zeros_length)) as B. rewrite read_zeros in B. rewrite (read_zeros 0).
    destruct (Nat.le_gt_cases ul upl) as [C|C].
    + rewrite slice_zeros in B |- * by exact C. cbn [bind]. rewrite zeros_app in *. rewrite zeros_length in B. rewrite (loop_step _ _ _ _ _ _ _ B). exact (IH (k + ul) _ (put_same _ _ _)).
    + rewrite slice_short in B |- * by (rewrite zeros_length; exact C). cbn [bind]. rewrite (loop_stop _ _ _ _ _ _ B). eauto.
Qed.

(** Copying onto itself is copying an empty file: the source has just been emptied, and
    what is read back from it later are the zeros written before. *)
Lemma pad_any o n f dl ul d : d o = Some f ->
  match copy_and_pad (if o =? n then [] else f) dl ul with
  | Ok g => exists d', copy_and_pad_at o n dl ul d = (d', Ok tt) /\ d' n = Some g
  | Panic => exists d', copy_and_pad_at o n dl ul d = (d', Panic)
  end.
Proof.
  intros DO. destruct (o =? n) eqn:E; [|apply Nat.eqb_neq in E; now apply pad_apart]. apply Nat.eqb_eq in E as <-.
  rewrite (pad_at_body _ _ _ _ _ _ DO). unfold copy_and_pad. destruct (ul =? 0); [eauto|]. cbv zeta.
  destruct (pad_self_loop o ul (seq 0 (dl / ul)) 0 (put d o []) (put_same _ _ _)) as (d' & L & D & _). exists d'. now rewrite (bind_ok _ _ _ _ _ L).
Qed.
Lemma compress_any o n f dl ul upl d : d o = Some f ->
  match copy_and_compress (if o =? n then [] else f) dl ul upl with
  | Ok g => exists d', copy_and_compress_at o n dl ul upl d = (d', Ok tt) /\ d' n = Some g
  | Panic => exists d', copy_and_compress_at o n dl ul upl d = (d', Panic)
  end.
Proof.
  intros DO. destruct (o =? n) eqn:E; [|apply Nat.eqb_neq in E; now apply compress_apart]. apply Nat.eqb_eq in E as <-.
  rewrite (compress_at_body _ _ _ _ _ _ _ DO). unfold copy_and_compress. destruct (ul =? 0); [eauto|].
  pose proof (compress_self_loop o ul upl (seq 0 (dl / ul)) 0 (put d o []) (put_same _ _ _)) as L. cbv zeta in *. change (zeros 0) with (@nil byte) in L. destruct (foldM _ _ _) as [g|].
  - destruct L as (d' & L & D & _). exists d'. now rewrite (bind_ok _ _ _ _ _ L).
  - destruct L as (d' & L). exists d'. now rewrite (bind_panic _ _ _ _ L).
Qed.
(** The copies of an empty file are zeros. *)
Lemma pad_empty dl ul : 0 < ul -> copy_and_pad [] dl ul = Ok (zeros (dl / ul * (ul + 1))).
Proof.
  intros U. unfold copy_and_pad. destruct (ul =? 0) eqn:E; [apply Nat.eqb_eq in E; lia|]. cbv zeta. f_equal.
  assert (G : forall l k, fold_left (fun new cnt => new ++ (read_file [] (cnt * ul) ul ++ [x00])) l (zeros k) = zeros (k + length l * (ul + 1))).
  { induction l as [|c l IH]; intros k; cbn [fold_left length]; [f_equal; lia|]. rewrite (read_zeros 0). change [x00] with (zeros 1). rewrite !zeros_app, IH. f_equal. lia. }
  change [] with (zeros 0) at 3. rewrite G, seq_length. reflexivity.
Qed.
Lemma compress_empty dl ul upl c : copy_and_compress [] dl ul upl = Ok c -> c = zeros (dl / ul * ul).
Proof.
  unfold copy_and_compress. destruct (ul =? 0) eqn:E; [discriminate|].
  assert (G : forall l k g, foldM (fun new cnt => let buf := read_file [] (cnt * upl) upl in let* b := slice buf 0 ul in Ok (new ++ b)) l (zeros k) = Ok g -> g = zeros (k + length l * ul)).
  { induction l as [|x l IH]; intros k g F; cbn [foldM length] in *; [injection F as <-; f_equal; lia|]. cbv zeta in F. rewrite (read_zeros 0) in F.
    destruct (Nat.le_gt_cases ul upl) as [C|C]; [rewrite slice_zeros in F by exact C|rewrite slice_short in F by (rewrite zeros_length; exact C); discriminate].
    cbn [bind] in F. rewrite zeros_app in F. apply IH in F. rewrite F. f_equal. lia. }
  intros F. apply (G _ 0) in F. now rewrite seq_length in F.
Qed.

(** * Sealing and unsealing a file *)
Definition seal_body H params (p : place) key iv il is' n (st : list (list byte) * list Z) (idx2 : nat) : call (list (list byte) * list Z) :=
  do f <- look p;
  do st' <- pure (seal_block H params key iv il is' n (mkSeal f (fst st) (snd st)) idx2);
  do _ <- store p (s_file st');
  done (s_ids st', s_log st').
Definition unseal_body H params (p : place) key iv il is' n (_ : unit) (i : nat) : call unit :=
  do f <- look p;
  do f' <- pure (unseal_block H params key iv il is' n f i);
  store p f'.
Lemma seal_body_step H params p key iv il is' n st k d : d p = Some (s_file st) ->
  seal_body H params p key iv il is' n (s_ids st, s_log st) k d = match seal_block H params key iv il is' n st k with
    | Ok st' => (put d p (s_file st'), Ok (s_ids st', s_log st')) | Panic => (d, Panic) end.
Proof.
  intros D. unfold seal_body. rewrite (bind_look _ _ _ _ D), bind_pure. cbn [fst snd]. replace (mkSeal (s_file st) (s_ids st) (s_log st)) with st by now destruct st.
  now destruct (seal_block _ _ _ _ _ _ _ _ _) as [st'|].
Qed.
Lemma unseal_body_step H params p key iv il is' n f k d x : d p = Some f ->
  unseal_body H params p key iv il is' n x k d = match unseal_block H params key iv il is' n f k with
    | Ok g => (put d p g, Ok tt) | Panic => (d, Panic) end.
Proof. intros D. unfold unseal_body. rewrite (bind_look _ _ _ _ D), bind_pure. now destruct (unseal_block _ _ _ _ _ _ _ _ _) as [g|]. Qed.

Lemma seal_call H pr params p key iv d f : d p = Some f ->
  match seal H pr params key iv f with
  | Ok st => exists d', seal_at H pr params p key iv d = (d', Ok (s_ids st)) /\ d' p = Some (s_file st)
  | Panic => exists d', seal_at H pr params p key iv d = (d', Panic) /\
      (d' p = Some f \/ exists j st, seal_upto H pr params key iv j f = Ok st /\ d' p = Some (s_file st))
  end.
Proof.
  intros DP. unfold seal, seal_at. rewrite (bind_existing _ _ _ _ DP), bind_pure.
  destruct (nblocks params) as [n|] eqn:EN; cbn [bind]; [|eauto]. rewrite bind_pure. destruct (seal_idxs_l pr params n) as [il|] eqn:EL; cbn [bind]; [|eauto].
  rewrite bind_pure. destruct (seal_idxs_s pr params n) as [is'|] eqn:ES; cbn [bind]; [|eauto].
  assert (L : forall l st e, e p = Some (s_file st) ->
    match foldM (seal_block H params key iv il is' n) l st with
    | Ok st' => exists d', loop (seal_body H params p key iv il is' n) l (s_ids st, s_log st) e = (d', Ok (s_ids st', s_log st')) /\ d' p = Some (s_file st')
    | Panic => exists d', loop (seal_body H params p key iv il is' n) l (s_ids st, s_log st) e = (d', Panic) /\
        exists j st', foldM (seal_block H params key iv il is' n) (firstn j l) st = Ok st' /\ d' p = Some (s_file st')
    end).
  { induction l as [|k l IH]; intros st e D; cbn [foldM]; [exists e; now split|].
    pose proof (seal_body_step H params p key iv il is' n st k e D) as B. destruct (seal_block H params key iv il is' n st k) as [st1|] eqn:EB; cbn [bind].
    - rewrite (loop_step _ _ _ _ _ _ _ B). pose proof (IH st1 (put e p (s_file st1)) (put_same _ _ _)) as IH1. destruct (foldM _ l st1) as [st'|] eqn:F; [exact IH1|].
      destruct IH1 as (d' & Q & j & st' & FJ & DJ). exists d'. split; [exact Q|]. exists (S j), st'. split; [|exact DJ]. cbn [firstn foldM]. rewrite EB. exact FJ.
    - rewrite (loop_stop _ _ _ _ _ _ B). exists e. split; [reflexivity|]. exists 0, st. now split. }
  specialize (L (seq 0 n) (mkSeal f (repeat [] n) []) d DP). cbn [s_ids s_log] in L.
  destruct (foldM _ _ _) as [st|] eqn:F.
  - destruct L as (d' & Q & D). exists d'. unfold seal_body in Q. now rewrite (bind_ok _ _ _ _ _ Q).
  - destruct L as (d' & Q & j & st & FJ & DJ). exists d'. unfold seal_body in Q. rewrite (bind_panic _ _ _ _ Q). split; [reflexivity|]. right. exists j, st. split; [|exact DJ].
    unfold seal_upto. rewrite EN. cbn [bind]. rewrite EL. cbn [bind]. rewrite ES. exact FJ.
Qed.
Lemma unseal_call H pr params p key iv d f : d p = Some f ->
  match unseal H pr params key iv f with
  | Ok g => exists d', unseal_at H pr params p key iv d = (d', Ok tt) /\ d' p = Some g
  | Panic => exists d', unseal_at H pr params p key iv d = (d', Panic) /\
      (d' p = Some f \/ exists j g, unseal_range H pr params key iv 0 j f = Ok g /\ d' p = Some g)
  end.
Proof.
  intros DP. unfold unseal, unseal_at. rewrite (bind_existing _ _ _ _ DP), bind_pure.
  destruct (nblocks params) as [n|] eqn:EN; cbn [bind]; [|eauto]. rewrite bind_pure. destruct (unseal_idxs_l pr params n) as [il|] eqn:EL; cbn [bind]; [|eauto].
  rewrite bind_pure. destruct (unseal_idxs_s pr params n) as [is'|] eqn:ES; cbn [bind]; [|eauto].
  assert (L : forall l g e, e p = Some g ->
    match foldM (unseal_block H params key iv il is' n) l g with
    | Ok g' => exists d', loop (unseal_body H params p key iv il is' n) l tt e = (d', Ok tt) /\ d' p = Some g'
    | Panic => exists d', loop (unseal_body H params p key iv il is' n) l tt e = (d', Panic) /\
        exists j g', foldM (unseal_block H params key iv il is' n) (firstn j l) g = Ok g' /\ d' p = Some g'
    end).
  { induction l as [|k l IH]; intros g e D; cbn [foldM]; [exists e; now split|].
    pose proof (unseal_body_step H params p key iv il is' n g k e tt D) as B. destruct (unseal_block H params key iv il is' n g k) as [g1|] eqn:EB; cbn [bind].
    - rewrite (loop_step _ _ _ _ _ _ _ B). pose proof (IH g1 (put e p g1) (put_same _ _ _)) as IH1. destruct (foldM _ l g1) as [g'|] eqn:F; [exact IH1|].
      destruct IH1 as (d' & Q & j & g' & FJ & DJ). exists d'. split; [exact Q|]. exists (S j), g'. split; [|exact DJ]. cbn [firstn foldM]. rewrite EB. exact FJ.
    - rewrite (loop_stop _ _ _ _ _ _ B). exists e. split; [reflexivity|]. exists 0, g. now split. }
  specialize (L (seq 0 n) f d DP). unfold unseal_body in L.
  destruct (foldM _ _ _) as [g|] eqn:F; [exact L|].
  destruct L as (d' & Q & j & g & FJ & DJ). exists d'. rewrite Q. split; [reflexivity|]. right. exists j, g. split; [|exact DJ].
  unfold unseal_range. rewrite EN. cbn [bind]. rewrite EL. cbn [bind]. rewrite ES. exact FJ.
Qed.
Lemma save_call p key iv d : exists d', save_data_at p key iv d = (d', Ok tt) /\ d' p = Some (save_data (content d p) key iv).
Proof.
  unfold save_data_at, andThen, open_create, look, store. eexists. split; [reflexivity|]. now rewrite put_same, content_put.
Qed.
