(** Property C108: runs side by side, for every schedule.
    Vocabulary: [proc], [run], [turns] from Side, the calls on paths from Paths,
    [same_disk] from PathFacts. *)
From Coq Require Import Strings.Byte Lia.
From Verif Require Import Base Sloth Common Depend Prover Verifier Merkle Postorage BytesFacts CommonFacts SealSpec SealTop SealZero SealWitness ParamFacts PostorageFacts SpotFacts PropSpot
  LocalFacts AnyLength Paths PathFacts PropPaths Side SideFacts.
Local Open Scope nat_scope.

(** Alone, a run taken access by access is the call of Paths.v. *)
Theorem C108_alone : forall H pr params d,
  (forall origin new data_l unit_l, run (pad_p origin new data_l unit_l) d = copy_and_pad_at origin new data_l unit_l d) /\
  (forall origin new data_l unit_l unit_pl, run (compress_p origin new data_l unit_l unit_pl) d = copy_and_compress_at origin new data_l unit_l unit_pl d) /\
  (forall path key iv, run (seal_p H pr params path key iv) d = seal_at H pr params path key iv d) /\
  (forall path key iv, run (unseal_p H pr params path key iv) d = unseal_at H pr params path key iv d) /\
  (forall path key iv, same_disk (fst (run (save_p path key iv) d)) (fst (save_data_at path key iv d)) /\ snd (run (save_p path key iv) d) = snd (save_data_at path key iv d)) /\
  (forall rnd origin sealed unsealed pub b,
    same_disk (fst (run (seal_and_unseal_p H pr params rnd origin sealed unsealed pub b) d)) (fst (seal_and_unseal_at H pr params rnd origin sealed unsealed pub b d)) /\
    snd (run (seal_and_unseal_p H pr params rnd origin sealed unsealed pub b) d) = snd (seal_and_unseal_at H pr params rnd origin sealed unsealed pub b d)).
Proof.
  intros H pr params d. repeat split; intros; try (now apply run_pad || apply run_compress || apply run_seal || apply run_unseal); try apply run_save; apply run_run.
Qed.
Print Assumptions C108_alone.

(** No schedule goes on for ever, and one that stops has brought every run to its end. *)
Theorem C108_ends : forall A (s : shared A),
  (~ exists f : nat -> shared A, f 0 = s /\ forall n, turn (f n) (f (S n))) /\
  ((forall s', ~ turn s s') -> Forall (fun x => x = None \/ exists r, x = Some (Halt r)) (snd s)).
Proof.
  intros A s. split.
  - intros (f & E & T). assert (G : forall x, Acc (fun y x => turn x y) x -> forall n, f n <> x).
    { induction 1 as [x _ IH]. intros n X. apply (IH (f (S n))) with (n := S n); [rewrite <- X; apply T|reflexivity]. }
    apply (G s (turn_wf s) 0 E).
  - intros N. destruct s as [d ps]. cbn [snd]. apply Forall_forall. intros x X. apply In_nth_error in X as (i & X).
    destruct x as [[r|p k|p w m]|]; eauto; exfalso.
    + apply (N (d, upd ps i (Some (k (d p))))). econstructor; eauto.
    + apply (N (put d p (w (d p)), upd ps i (Some m))). econstructor; eauto.
Qed.
Print Assumptions C108_ends.

(** Any programs that access files: rd i are the files the i-th may use, wr i those it may
    change.  If no program may use what another may change, then in every schedule each
    program that has ended did so as if alone, and its files are as if alone; the others
    may be under way, ended or killed. *)
Theorem C108_any : forall A (ms : list (proc A)) (rd wr : nat -> place -> Prop),
  (forall i q, wr i q -> rd i q) -> (forall i m, nth_error ms i = Some m -> uses (rd i) (wr i) m) ->
  (forall i j q, i < length ms -> j < length ms -> i <> j -> wr i q -> ~ rd j q) ->
  forall d d' ps, turns (d, map Some ms) (d', ps) ->
  (forall i m r, nth_error ms i = Some m -> nth_error ps i = Some (Some (Halt r)) -> r = snd (run m d) /\ forall q, rd i q -> d' q = fst (run m d) q) /\
  (forall q, (forall i, i < length ms -> ~ wr i q) -> d' q = d q).
Proof.
  intros A ms rd wr WR U AP d d' ps T. split.
  - intros i m r E E'. now apply (apart_run ms rd wr WR U AP d d' ps i m r).
  - now apply (apart_rest ms rd wr WR U AP d d' ps).
Qed.
Print Assumptions C108_any.
(** At every moment, each program, under way, ended or killed, stands where it could stand
    alone after some of its accesses, and its files are those it would have then. *)
Theorem C108_part : forall A (ms : list (proc A)) (rd wr : nat -> place -> Prop),
  (forall i q, wr i q -> rd i q) -> (forall i m, nth_error ms i = Some m -> uses (rd i) (wr i) m) ->
  (forall i j q, i < length ms -> j < length ms -> i <> j -> wr i q -> ~ rd j q) ->
  forall d d' ps, turns (d, map Some ms) (d', ps) ->
  forall i m x, nth_error ms i = Some m -> nth_error ps i = Some x ->
  exists e, turns (d, [Some m]) (e, [x]) /\ forall q, rd i q -> d' q = e q.
Proof. intros A ms rd wr WR U AP d d' ps T i m x E E'. now apply (apart_part ms rd wr WR U AP d d' ps i m x). Qed.
Print Assumptions C108_part.

(** Runs of seal_and_unseal with their own parameters, random draws and paths. *)
Record job := mkJob {
  j_params : PosPara; j_rnd : nat -> byte;
  j_origin : place; j_sealed : place; j_unsealed : place; j_pub : place;
  j_unseal : bool
}.
Definition job_run (H : list byte -> list byte) (pr : profile) (j : job) : proc unit :=
  seal_and_unseal_p H pr (j_params j) (j_rnd j) (j_origin j) (j_sealed j) (j_unsealed j) (j_pub j) (j_unseal j).
Definition writes (j : job) (q : place) : Prop := q = j_sealed j \/ q = j_pub j \/ j_unseal j = true /\ q = j_unsealed j.
Definition others_apart (jobs : list job) : Prop :=
  forall i k a b q, nth_error jobs i = Some a -> nth_error jobs k = Some b -> i <> k -> writes a q -> ~ (q = j_origin b \/ writes b q).

(** Originals may be shared; the files a run writes are no other run's business.  Then every
    run ends as if alone. *)
Theorem C108_apart : forall H pr jobs, others_apart jobs ->
  forall d d' ps, turns (d, map (fun j => Some (job_run H pr j)) jobs) (d', ps) ->
  (forall i j r, nth_error jobs i = Some j -> nth_error ps i = Some (Some (Halt r)) ->
     let alone := seal_and_unseal_at H pr (j_params j) (j_rnd j) (j_origin j) (j_sealed j) (j_unsealed j) (j_pub j) (j_unseal j) d in
     r = snd alone /\ forall q, q = j_origin j \/ writes j q -> d' q = fst alone q) /\
  (forall q, (forall j, In j jobs -> ~ writes j q) -> d' q = d q).
Proof.
  intros H pr jobs AP d d' ps T.
  set (wr := fun i q => match nth_error jobs i with Some j => writes j q | None => False end).
  set (rd := fun i q => match nth_error jobs i with Some j => q = j_origin j \/ writes j q | None => False end).
  assert (E0 : map (fun j => Some (job_run H pr j)) jobs = map Some (map (job_run H pr) jobs)) by now rewrite map_map. rewrite E0 in T.
  destruct (C108_any unit (map (job_run H pr) jobs) rd wr) with (d := d) (d' := d') (ps := ps) as (R & F); auto.
  - intros i q. unfold wr, rd. destruct (nth_error jobs i); tauto.
  - intros i m E. rewrite nth_error_map in E. unfold rd, wr. destruct (nth_error jobs i) as [j|]; [|discriminate]. cbn in E. injection E as <-.
    unfold job_run. apply uses_run; unfold writes; auto 8.
  - intros i k q _ _ N. unfold wr, rd. destruct (nth_error jobs i) as [a|] eqn:EA; [|tauto]. destruct (nth_error jobs k) as [b|] eqn:EB; [|tauto]. intros W R. now apply (AP i k a b q).
  - split.
    + intros i j r EJ EP. destruct (R i (job_run H pr j) r) as (RE & RF); [now rewrite nth_error_map, EJ|exact EP|].
      destruct (run_run H pr (j_params j) (j_rnd j) (j_origin j) (j_sealed j) (j_unsealed j) (j_pub j) (j_unseal j) d) as (S1 & S2). cbv zeta. rewrite <- S2. split; [exact RE|].
      intros q Q. rewrite <- S1. apply RF. unfold rd. now rewrite EJ.
    + intros q Q. apply F. intros i _ W. unfold wr in W. destruct (nth_error jobs i) as [j|] eqn:EJ; [|tauto]. apply (Q j); [eapply nth_error_In; eauto|exact W].
Qed.
Print Assumptions C108_apart.
(** In terms of contents, where a run's own four paths are different. *)
Theorem C108_contents : forall H pr jobs, others_apart jobs ->
  forall d d' ps, turns (d, map (fun j => Some (job_run H pr j)) jobs) (d', ps) ->
  forall i j r f, nth_error jobs i = Some j -> nth_error ps i = Some (Some (Halt r)) ->
  NoDup [j_origin j; j_sealed j; j_unsealed j; j_pub j] -> d (j_origin j) = Some f ->
  match seal_and_unseal H pr (j_params j) (j_rnd j) f (content d (j_pub j)) (content d (j_unsealed j)) (j_unseal j) with
  | Ok (S', P', U') => r = Ok tt /\ d' (j_sealed j) = Some S' /\ d' (j_pub j) = Some P' /\ (j_unseal j = true -> d' (j_unsealed j) = Some U') /\ d' (j_origin j) = Some f
  | Panic => r = Panic
  end.
Proof.
  intros H pr jobs AP d d' ps T i j r f EJ EP ND DO. destruct (C108_apart H pr jobs AP d d' ps T) as (R & _). destruct (R i j r EJ EP) as (RE & RF). cbv zeta in *.
  pose proof (C103_apart H pr (j_params j) (j_rnd j) (j_origin j) (j_sealed j) (j_unsealed j) (j_pub j) (j_unseal j) d f ND DO) as C.
  destruct (seal_and_unseal _ _ _ _ _ _ _ _) as [[[S' P'] U']|]; [|congruence]. destruct C as (e & E & CS & CP & CU & CO). rewrite E in *. cbn [fst snd] in *. unfold writes in RF.
  split; [exact RE|]. rewrite (RF (j_sealed j)), (RF (j_pub j)), (RF (j_origin j)) by auto. split; [exact CS|]. split; [exact CP|]. split; [|exact CO].
  intros U. rewrite RF by auto. auto.
Qed.
Print Assumptions C108_contents.

(** Several runs that save to the same public file, with the same key and ivs of the same
    length.  From the moment the first has finished, whatever the others are doing or
    however they ended, the file is one that a single save could have left; each byte of the
    iv in it is that of some run, not of the same one. *)
Theorem C108_pub_shared : forall path key ivs L, Forall (fun iv => length iv = L) ivs -> (Z.of_nat (length (decimal key)) < 2 ^ 64)%Z -> (Z.of_nat L < 2 ^ 64)%Z ->
  forall d d' ps, turns (d, map (fun iv => Some (save_p path key iv)) ivs) (d', ps) ->
  forall i r, nth_error ps i = Some (Some (Halt r)) -> r = Ok tt /\
  exists iv, length iv = L /\ d' path = Some (save_data (content d path) key iv) /\ load_data (save_data (content d path) key iv) = Ok (key, iv) /\
    forall x, x < L -> exists iv', In iv' ivs /\ nth x iv x00 = nth x iv' x00.
Proof.
  intros path key ivs L FL LK LI d d' ps T i r EI. set (es := map (fun x => enc_bytes (decimal (fst x)) ++ enc_bytes (snd x)) (map (pair key) ivs)).
  assert (SV : saving path es (content d path) (d', ps)).
  { eapply saving_turns; [exact T|]. pose proof (saving_start path d (map (pair key) ivs)) as S. rewrite !map_map in S. cbn [fst snd] in S. unfold es. rewrite map_map. exact S. }
  assert (EE : forall k e, nth_error es k = Some e -> exists iv, In iv ivs /\ length iv = L /\ e = enc_bytes (decimal key) ++ enc_le 8 (Z.of_nat L) ++ iv).
  { intros k e E. unfold es in E. rewrite map_map, nth_error_map in E. destruct (nth_error ivs k) as [iv|] eqn:EK; [|discriminate]. cbn [option_map fst snd] in E. injection E as <-.
    apply nth_error_In in EK. exists iv. rewrite Forall_forall in FL. pose proof (FL iv EK) as FI. split; [exact EK|]. split; [exact FI|]. f_equal. unfold enc_bytes. now rewrite FI. }
  set (hd := enc_bytes (decimal key) ++ enc_le 8 (Z.of_nat L)). set (h := length hd).
  assert (EH : h = 16 + length (decimal key)) by (unfold h, hd; rewrite app_length, enc_bytes_length, enc_le_length; lia).
  assert (UE : forall k e, nth_error es k = Some e -> length e = h + L).
  { intros k e E. destruct (EE k e E) as (iv & _ & LV & ->). rewrite app_assoc, app_length. fold hd h. lia. }
  destruct (saving_done path es (content d path) d' ps (h + L) SV UE i r EI) as (-> & LC & IN & OUT). split; [reflexivity|].
  set (f := content d' path) in *. set (iv := firstn L (skipn h f)). exists iv.
  assert (LV : length iv = L) by (unfold iv; rewrite firstn_length, skipn_length, LC; lia). split; [exact LV|].
  assert (NV : forall x, x < L -> nth x iv x00 = nth (h + x) f x00) by (intros x X; unfold iv; rewrite nth_firstn by exact X; now rewrite nth_skipn).
  assert (SF : f = save_data (content d path) key iv).
  { unfold save_data, enc_bytes at 2. rewrite LV, app_assoc. fold hd. rewrite write_start. apply file_ext.
    - rewrite app_length, skipn_length, !app_length, LC, LV. fold h. lia.
    - intros x _. destruct (Nat.lt_ge_cases x (h + L)) as [X|X].
      + rewrite app_nth1 by (rewrite app_length, LV; fold h; lia). destruct (Nat.lt_ge_cases x h) as [Y|Y].
        * rewrite app_nth1 by exact Y. destruct (IN x X) as (k & e & E & ->). destruct (EE k e E) as (v & _ & _ & ->). rewrite app_assoc. now rewrite app_nth1 by exact Y.
        * rewrite app_nth2 by exact Y. fold h. rewrite NV by lia. f_equal. lia.
      + rewrite app_nth2 by (rewrite app_length, LV; fold h; lia). rewrite nth_skipn, app_length, LV. fold h. rewrite OUT by exact X. f_equal. lia. }
  split; [|split].
  - rewrite <- SF. unfold f, content. destruct (d' path) eqn:E; [reflexivity|]. exfalso. unfold f, content in LC. rewrite E in LC. cbn in LC. lia.
  - apply load_save; [exact LK|now rewrite LV].
  - intros x X. rewrite NV by exact X. destruct (IN (h + x) ltac:(lia)) as (k & e & E & ->). destruct (EE k e E) as (v & IV & _ & ->). exists v. split; [exact IV|].
    rewrite app_assoc, app_nth2 by (fold hd h; lia). fold hd h. f_equal. lia.
Qed.
Print Assumptions C108_pub_shared.

(** Every such mixture does happen: two runs, a choice of a run for every byte of the iv, and
    a schedule that leaves exactly the chosen bytes. *)
Inductive mixes : list (list byte) -> list (list byte) -> list (list byte) -> Prop :=
| X_nil : mixes [] [] []
| X_cons : forall a b c l m n, length a = length b -> c = a \/ c = b -> mixes l m n -> mixes (a :: l) (b :: m) (c :: n).
Lemma write_over (f : file) pos a b : pos <= length f -> length a = length b -> write_at (write_at f pos a) pos b = write_at f pos b.
Proof.
  intros P L. destruct b as [|y b]; [destruct a; [reflexivity|discriminate]|]. destruct a as [|x a]; [discriminate|]. apply file_ext.
  - rewrite !write_at_length_any by discriminate. rewrite L. lia.
  - intros k _. rewrite !write_at_nth_any, L. destruct (pos <=? k), (k <? pos + length (y :: b)); reflexivity.
Qed.
Lemma turns_one {A} (s s' s'' : shared A) : turn s s' -> turns s' s'' -> turns s s''.
Proof. intros. econstructor; eauto. Qed.
Lemma mix_pieces p l1 l2 l3 : mixes l1 l2 l3 -> forall pos d f, d p = Some f -> pos <= length f ->
  exists d', turns (d, [Some (pieces_p p pos l1); Some (pieces_p p pos l2)]) (d', [Some (Halt (Ok tt)); Some (Halt (Ok tt))]) /\ d' p = Some (write_at f pos (concat l3)).
Proof.
  induction 1 as [|a b c l m n L C M IH]; intros pos d f E P.
  - exists d. split; [constructor|exact E].
  - assert (LC : length c = length a) by (destruct C as [->| ->]; auto).
    assert (W : forall x y, length x = length a -> length y = length a -> write_at (write_at f pos x) pos y = write_at f pos y) by (intros; apply write_over; congruence).
    pose (d1 x := put d p (write_at (data (d p)) pos x)). pose (d2 x y := put (d1 x) p (write_at (data (d1 x p)) pos y)).
    assert (D2 : forall x y, length x = length a -> length y = length a -> d2 x y p = Some (write_at f pos y)).
    { intros x y LX LY. unfold d2, d1. rewrite !put_same. cbn [data]. rewrite E. cbn [data]. now rewrite W. }
    assert (LE : forall y, length y = length a -> pos + length a <= length (write_at f pos y)) by (intros y LY; rewrite <- LY; now apply write_le).
    cbn [concat]. rewrite <- write_twice by exact P. rewrite LC. destruct C as [->| ->].
    + destruct (IH (pos + length a) (d2 b a) (write_at f pos a)) as (d' & T & D); auto. exists d'. split; [|exact D].
      eapply turns_one; [apply T_change with (i := 1); reflexivity|]. cbn [upd]. eapply turns_one; [apply T_change with (i := 0); reflexivity|]. cbn [upd next]. rewrite <- L. exact T.
    + destruct (IH (pos + length a) (d2 a b) (write_at f pos b)) as (d' & T & D); auto. exists d'. split; [|exact D].
      eapply turns_one; [apply T_change with (i := 0); reflexivity|]. cbn [upd]. eapply turns_one; [apply T_change with (i := 1); reflexivity|]. cbn [upd next]. rewrite <- L. exact T.
Qed.
Theorem C108_pub_mixtures : forall path key iv1 iv2 iv d, length iv1 = length iv -> length iv2 = length iv ->
  (forall x, x < length iv -> nth x iv x00 = nth x iv1 x00 \/ nth x iv x00 = nth x iv2 x00) ->
  exists d', turns (d, [Some (save_p path key iv1); Some (save_p path key iv2)]) (d', [Some (Halt (Ok tt)); Some (Halt (Ok tt))]) /\
    d' path = Some (save_data (content d path) key iv).
Proof.
  intros p key iv1 iv2 iv d L1 L2 C.
  assert (M : mixes (pub_pieces key iv1) (pub_pieces key iv2) (pub_pieces key iv)).
  { assert (B : forall u : list byte, length u = length iv -> firstn 8 (enc_bytes u) = enc_le 8 (Z.of_nat (length iv)) /\ skipn 8 (enc_bytes u) = u).
    { intros u LU. pose proof (enc_le_length 8 (Z.of_nat (length iv))) as LE. unfold enc_bytes. rewrite LU, firstn_app, skipn_app, firstn_all2, skipn_all2 by lia. rewrite LE. cbn [Nat.sub firstn skipn app]. now rewrite app_nil_r. }
    unfold pub_pieces. destruct (B iv1 L1) as (-> & ->), (B iv2 L2) as (-> & ->), (B iv eq_refl) as (-> & ->).
    constructor; auto. constructor; auto. constructor; auto. clear B.
    revert iv1 iv2 L1 L2 C. induction iv as [|c iv IH]; intros [|a u] [|b v] L1 L2 C; try discriminate; [constructor|]. cbn [map]. constructor; [reflexivity| |].
    - destruct (C 0) as [X|X]; cbn in *; [lia|left|right]; now rewrite X.
    - apply IH; [now injection L1|now injection L2|]. intros x X. apply (C (S x)). cbn. lia. }
  destruct (mix_pieces p _ _ _ M 0 (put (put d p (content d p)) p (content d p)) (content d p)) as (d' & T & D); [apply put_same|lia|].
  exists d'. split; [|rewrite D, pieces_all; reflexivity].
  eapply turns_one; [apply T_change with (i := 0); reflexivity|]. cbn [upd]. eapply turns_one; [apply T_change with (i := 1); reflexivity|]. cbn [upd next]. rewrite put_same, data_content. exact T.
Qed.
Print Assumptions C108_pub_mixtures.

(** Two runs that seal into the same file, each with its own iv: both report success, and
    neither gets its file back. *)
Definition whole (key : Z) (iv : list byte) (origin sealed unsealed : place) : proc unit :=
  go _ <- pad_p origin sealed 12 2; go _ <- seal_p hsum Debug spot_params sealed key iv;
  go _ <- unseal_p hsum Debug spot_params sealed key iv; compress_p sealed unsealed 12 2 3.
(** A schedule given as the list of the runs to make the next access. *)
Fixpoint by_list {A} (l : list nat) (s : shared A) : shared A :=
  match l with
  | [] => s
  | i :: l' => by_list l' (match nth_error (snd s) i with
      | Some (Some (See p k)) => (fst s, upd (snd s) i (Some (k (fst s p))))
      | Some (Some (Change p w m)) => (put (fst s) p (w (fst s p)), upd (snd s) i (Some m))
      | _ => s
      end)
  end.
Lemma by_list_turns {A} l : forall s : shared A, turns s (by_list l s).
Proof.
  induction l as [|i l IH]; intros [d ps]; cbn [by_list fst snd]; [constructor|].
  destruct (nth_error ps i) as [[[r|p k|p w m]|]|] eqn:E; try apply IH.
  - eapply T_more; [now apply T_see with (i := i) (1 := E)|apply IH].
  - eapply T_more; [now apply T_change with (i := i) (1 := E)|apply IH].
Qed.
Definition side_disk : disk := fun q => if q =? 0 then Some spot_origin else None.
Definition side_start : shared unit := (side_disk, [Some (whole ex_key [x03; x04] 0 1 2); Some (whole ex_key [x05; x06] 0 1 3)]).
Definition ended_ok (x : option (proc unit)) : bool := match x with Some (Halt (Ok tt)) => true | _ => false end.
Definition holds_file (d : disk) (q : place) (f : file) : bool := match d q with Some g => bytes_eqb g f | None => false end.
Definition in_turns (n : nat) : list nat := concat (repeat [0; 1] n).
Definition side_trial (l : list nat) : bool * bool * bool :=
  let s := by_list l side_start in (match snd s with [x; y] => ended_ok x && ended_ok y | _ => false end, holds_file (fst s) 2 spot_origin, holds_file (fst s) 3 spot_origin).
Lemma side_bad : side_trial (0 :: 0 :: in_turns 60) = (true, false, false).
Proof. vm_compute. reflexivity. Qed.
Lemma side_good : side_trial (repeat 0 60 ++ repeat 1 60) = (true, true, true).
Proof. vm_compute. reflexivity. Qed.

Lemma side_said l a b : side_trial l = (true, a, b) -> exists d', turns side_start (d', [Some (Halt (Ok tt)); Some (Halt (Ok tt))]) /\
  a = holds_file d' 2 spot_origin /\ b = holds_file d' 3 spot_origin.
Proof.
  intros T. pose proof (by_list_turns l side_start) as BT. unfold side_trial in T. destruct (by_list l side_start) as [d' ps]. cbn [fst snd] in T.
  destruct ps as [|x [|y [|z ps]]]; try discriminate. destruct x as [[[[]|]|p k|p w m]|]; try discriminate. destruct y as [[[[]|]|p k|p w m]|]; try discriminate.
  injection T as <- <-. exists d'. auto.
Qed.
Theorem C108_shared_refuted :
  ~ (forall d key iv1 iv2 origin sealed unsealed1 unsealed2 d', NoDup [origin; sealed; unsealed1; unsealed2] ->
     turns (d, [Some (whole key iv1 origin sealed unsealed1); Some (whole key iv2 origin sealed unsealed2)]) (d', [Some (Halt (Ok tt)); Some (Halt (Ok tt))]) ->
     d' unsealed1 = d origin \/ d' unsealed2 = d origin).
Proof.
  intros X. destruct (side_said _ _ _ side_bad) as (d' & T & A & B). unfold holds_file in *.
  destruct (X side_disk ex_key [x03; x04] [x05; x06] 0 1 2 3 d') as [Y|Y]; [|exact T| |]; [|rewrite Y in A|rewrite Y in B].
  - repeat constructor; cbn; intuition discriminate.
  - cbn [side_disk Nat.eqb] in A. now rewrite bytes_eqb_refl in A.
  - cbn [side_disk Nat.eqb] in B. now rewrite bytes_eqb_refl in B.
Qed.
Print Assumptions C108_shared_refuted.
(** One after the other, the same two runs both restore the file. *)
Example C108_ex : exists d', turns side_start (d', [Some (Halt (Ok tt)); Some (Halt (Ok tt))]) /\ d' 2 = Some spot_origin /\ d' 3 = Some spot_origin.
Proof.
  destruct (side_said _ _ _ side_good) as (d' & T & A & B). exists d'. split; [exact T|]. unfold holds_file in *.
  destruct (d' 2), (d' 3); try discriminate. symmetry in A, B. apply bytes_eqb_eq in A, B. now subst.
Qed.
(** Two runs with one origin and files of their own meet the hypotheses, whatever the rest. *)
Example C108_ex_apart : forall params rnd rnd', others_apart [mkJob params rnd 0 1 2 3 true; mkJob params rnd' 0 4 5 6 true].
Proof.
  intros params rnd rnd' i k a b q A B N W. unfold writes in *. destruct i as [|[|i]], k as [|[|k]]; cbn in A, B; try (now destruct i); try (now destruct k); try (now elim N);
    injection A as <-; injection B as <-; cbn in *; lia.
Qed.
