(** Property C103: the paths the caller passes.  A disk gives the content of every file a
    path can name; a call returns the disk it leaves and how it ends.  H is blake3, H2 is
    SHA-256.  Vocabulary: [same_disk], [elsewhere] from PathFacts, [put], [content] from
    Paths, [layout] from PostorageFacts, [setting], [sound_key] from SealSpec, [fit] from
    AnyLength. *)
From Coq Require Import Strings.Byte Lia Sorted.
From Verif Require Import Base Sloth Common Depend Prover Verifier Merkle Postorage BytesFacts CommonFacts SealSpec SealTop SealPad SealZero ParamFacts
  PostorageFacts SpotFacts PropPostorage AnyLength PropAnyLength Paths PathFacts.
Local Open Scope nat_scope.

(** What a run of seal_and_unseal should leave, computed on contents with the functions of
    the other properties.  The only trace of equal paths: a file that is copied onto
    itself counts as empty.  Panic where the run ends in a panic. *)
Definition run_result H pr params (rnd : nat -> byte) (origin sealed unsealed pub : place) (should_unseal : bool) (d : disk) : res disk :=
  let* f := match d origin with Some f => Ok f | None => Panic end in
  let* g := copy_and_pad (if origin =? sealed then [] else f) (data_l params) (unit_l params) in
  let* (key, iv) := prepare_params pr (unit_pl params) rnd in
  let* st := seal H pr params key iv g in
  let d := put d sealed (s_file st) in
  let d := put d pub (save_data (content d pub) key iv) in
  if should_unseal then
    let* h := unseal H pr params key iv (content d sealed) in
    let d := put d sealed h in
    let* c := copy_and_compress (if sealed =? unsealed then [] else h) (data_l params) (unit_l params) (unit_pl params) in
    Ok (put d unsealed c)
  else Ok d.

(** A file after a call that only touched this file. *)
Lemma call_put {A} (c : call A) d d' r p f : touches (eq p) c -> c d = (d', r) -> d' p = Some f -> same_disk d' (put d p f).
Proof.
  intros T E D q. destruct (Nat.eq_dec q p) as [->|N]; [now rewrite put_same|]. rewrite put_other by exact N. specialize (T d q (fun e => N (eq_sym e))). now rewrite E in T.
Qed.
Lemma then_same {A B} (c : call A) (k : A -> call B) d d' a e : c d = (d', Ok a) -> same_disk d' e -> respects (k a) ->
  same_disk (fst (andThen c k d)) (fst (k a e)) /\ snd (andThen c k d) = snd (k a e).
Proof. intros E S R. rewrite (bind_ok _ _ _ _ _ E). now apply R. Qed.
Lemma then_panic {A B} (c : call A) (k : A -> call B) d d' : c d = (d', Panic) -> snd (andThen c k d) = Panic.
Proof. intros E. now rewrite (bind_panic _ _ _ _ E). Qed.
Lemma same_trans a b c : same_disk a b -> same_disk b c -> same_disk a c.
Proof. intros E F q. now rewrite E. Qed.

Section Run.
Variables (H : list byte -> list byte) (H2 : list byte -> list byte) (pr : profile) (params : PosPara).

(** For all disks and all ways to choose the four paths, equal or not. *)
Theorem C103_result : forall rnd origin sealed unsealed pub b d,
  match run_result H pr params rnd origin sealed unsealed pub b d with
  | Ok e => snd (seal_and_unseal_at H pr params rnd origin sealed unsealed pub b d) = Ok tt /\
      same_disk (fst (seal_and_unseal_at H pr params rnd origin sealed unsealed pub b d)) e
  | Panic => snd (seal_and_unseal_at H pr params rnd origin sealed unsealed pub b d) = Panic
  end.
Proof.
  intros rnd o s u p b d. unfold run_result. destruct (d o) as [f|] eqn:DO; cbn [bind].
  2:{ unfold seal_and_unseal_at, copy_and_pad_at, andThen at 1, open_existing. unfold andThen at 1. rewrite DO. reflexivity. }
  pose proof (pad_any o s f (data_l params) (unit_l params) d DO) as PA. unfold seal_and_unseal_at.
  destruct (copy_and_pad _ _ _) as [g|]; cbn [bind]; [|destruct PA as (d' & PA); exact (then_panic _ _ _ _ PA)].
  destruct PA as (d1 & PA & D1). rewrite (bind_ok _ _ _ _ _ PA), bind_pure.
  assert (S1 := call_put _ _ _ _ _ _ (touches_pad _ o s (data_l params) (unit_l params) eq_refl) PA D1).
  destruct (prepare_params pr (unit_pl params) rnd) as [[key iv]|]; cbn [bind]; [|reflexivity].
  pose proof (seal_call H pr params s key iv d1 g D1) as SC. destruct (seal H pr params key iv g) as [st|]; cbn [bind]; [|destruct SC as (d' & SC & _); exact (then_panic _ _ _ _ SC)].
  destruct SC as (d2 & SC & D2). rewrite (bind_ok _ _ _ _ _ SC).
  assert (S2 : same_disk d2 (put d s (s_file st))).
  { apply (same_trans _ (put d1 s (s_file st))); [exact (call_put _ _ _ _ _ _ (touches_seal H pr params _ s key iv eq_refl) SC D2)|].
    intros q. unfold put. destruct (q =? s) eqn:Q; [reflexivity|]. rewrite (S1 q). unfold put. now rewrite Q. }
  cbv zeta. set (e2 := put d s (s_file st)) in *. clearbody e2.
  destruct (save_call p key iv d2) as (d3 & SV & D3). rewrite (bind_ok _ _ _ _ _ SV).
  assert (S3 : same_disk d3 (put e2 p (save_data (content e2 p) key iv))).
  { rewrite <- (same_content d2 e2 p S2). apply (same_trans _ (put d2 p (save_data (content d2 p) key iv))); [exact (call_put _ _ _ _ _ _ (touches_save _ p key iv eq_refl) SV D3)|now apply same_put]. }
  set (e3 := put e2 p (save_data (content e2 p) key iv)) in *.
  assert (D3s : d3 s = Some (content e3 s)).
  { unfold content. rewrite <- (S3 s). destruct (Nat.eq_dec s p) as [<-|N]; [now rewrite D3|].
    pose proof (touches_save (eq p) p key iv eq_refl d2 s (fun e => N (eq_sym e))) as T. rewrite SV in T. cbn in T. now rewrite T, D2. }
  clearbody e3. destruct b; [|now split].
  pose proof (unseal_call H pr params s key iv d3 (content e3 s) D3s) as UC. destruct (unseal H pr params key iv (content e3 s)) as [h|]; cbn [bind]; [|destruct UC as (d' & UC & _); exact (then_panic _ _ _ _ UC)].
  destruct UC as (d4 & UC & D4). rewrite (bind_ok _ _ _ _ _ UC).
  assert (S4 : same_disk d4 (put e3 s h)).
  { apply (same_trans _ (put d3 s h)); [exact (call_put _ _ _ _ _ _ (touches_unseal H pr params _ s key iv eq_refl) UC D4)|now apply same_put]. }
  pose proof (compress_any s u h (data_l params) (unit_l params) (unit_pl params) d4 D4) as CA.
  destruct (copy_and_compress _ _ _ _) as [c|]; cbn [bind]; [|destruct CA as (d' & ->); reflexivity].
  destruct CA as (d5 & CA & D5). rewrite CA. split; [reflexivity|]. cbn [fst].
  apply (same_trans _ (put d4 u c)); [exact (call_put _ _ _ _ _ _ (touches_compress _ s u (data_l params) (unit_l params) (unit_pl params) eq_refl) CA D5)|now apply same_put].
Qed.

(** Four different files: the run on paths is the run on contents. *)
Theorem C103_apart : forall rnd origin sealed unsealed pub b d f, NoDup [origin; sealed; unsealed; pub] -> d origin = Some f ->
  match seal_and_unseal H pr params rnd f (content d pub) (content d unsealed) b with
  | Ok (S', P', U') => exists d', seal_and_unseal_at H pr params rnd origin sealed unsealed pub b d = (d', Ok tt) /\
      d' sealed = Some S' /\ d' pub = Some P' /\ (b = true -> d' unsealed = Some U') /\ d' origin = Some f
  | Panic => snd (seal_and_unseal_at H pr params rnd origin sealed unsealed pub b d) = Panic
  end.
Proof.
  intros rnd o s u p b d f ND DO. pose proof (C103_result rnd o s u p b d) as R.
  assert (o <> s /\ o <> u /\ o <> p /\ s <> u /\ s <> p /\ u <> p) as (N1 & N2 & N3 & N4 & N5 & N6).
  { clear -ND. inversion ND as [|? ? A ND1]; subst. inversion ND1 as [|? ? B ND2]; subst. inversion ND2 as [|? ? C ND3]; subst. cbn in *. repeat split; intros E; subst; tauto. }
  unfold run_result in R. rewrite DO in R. cbn [bind] in R. apply Nat.eqb_neq in N1 as Q1. rewrite Q1 in R. unfold seal_and_unseal.
  destruct (copy_and_pad f _ _) as [g|]; cbn [bind] in *; [|exact R]. destruct (prepare_params _ _ _) as [[key iv]|]; cbn [bind] in *; [|exact R].
  destruct (seal _ _ _ _ _ _) as [st|]; cbn [bind] in *; [|exact R]. cbv zeta in *.
  assert (C1 : content (put d s (s_file st)) p = content d p) by (unfold content; now rewrite put_other by auto). rewrite C1 in R.
  assert (C2 : content (put (put d s (s_file st)) p (save_data (content d p) key iv)) s = s_file st) by (unfold content; now rewrite put_other, put_same by auto). rewrite C2 in R.
  apply Nat.eqb_neq in N4 as Q4. rewrite Q4 in R.
  destruct b; [destruct (unseal _ _ _ _ _ _) as [h|]; cbn [bind] in *; [|exact R]; destruct (copy_and_compress _ _ _ _) as [c|]; cbn [bind] in *; [|exact R]|];
    destruct R as [RO RD]; destruct (seal_and_unseal_at _ _ _ _ _ _ _ _ _ _) as [d' r] eqn:RUN; cbn [fst snd] in *; subst r; exists d'; split; [reflexivity| |reflexivity|];
    rewrite !RD; repeat (rewrite put_same || rewrite put_other by auto); auto. split; [reflexivity|]. split; [reflexivity|]. split; [discriminate|exact DO].
Qed.

(** Whatever the paths are and however the run ends: every other file is left alone, so the
    original is, unless it is also one of the three outputs. *)
Theorem C103_frame : forall rnd origin sealed unsealed pub b d q, q <> sealed -> q <> pub -> (b = true -> q <> unsealed) ->
  fst (seal_and_unseal_at H pr params rnd origin sealed unsealed pub b d) q = d q.
Proof.
  intros rnd o s u p b d q NS NP NU.
  refine (touches_run H pr params (fun x => x = s \/ x = p \/ (b = true /\ x = u)) rnd o s u p b _ _ _ d q _); auto.
  intros [E|[E|[B E]]]; [now apply NS|now apply NP|now apply NU].
Qed.
(** A missing original: nothing is created, emptied or written. *)
Theorem C103_missing : forall rnd origin sealed unsealed pub b d, d origin = None ->
  seal_and_unseal_at H pr params rnd origin sealed unsealed pub b d = (d, Panic).
Proof.
  intros rnd o s u p b d DO. unfold seal_and_unseal_at, copy_and_pad_at, andThen at 1. unfold andThen at 1, open_existing. now rewrite DO.
Qed.

(** Sealing in place of the original: the outcome and all files afterwards are the same
    whatever the original contained.  Nothing of it is left. *)
Theorem C103_sealed_is_origin : forall rnd path unsealed pub b d d', elsewhere (eq path) d d' -> d path <> None -> d' path <> None ->
  same_disk (fst (seal_and_unseal_at H pr params rnd path path unsealed pub b d)) (fst (seal_and_unseal_at H pr params rnd path path unsealed pub b d')) /\
  snd (seal_and_unseal_at H pr params rnd path path unsealed pub b d) = snd (seal_and_unseal_at H pr params rnd path path unsealed pub b d').
Proof.
  intros rnd o u p b d d' E N N'. destruct (d o) as [f|] eqn:DO; [|congruence]. destruct (d' o) as [f'|] eqn:DO'; [|congruence]. clear N N'.
  unfold seal_and_unseal_at.
  pose proof (pad_any o o f (data_l params) (unit_l params) d DO) as A. pose proof (pad_any o o f' (data_l params) (unit_l params) d' DO') as A'. rewrite Nat.eqb_refl in A, A'.
  assert (X : forall g, same_disk (put d o g) (put d' o g)).
  { intros g q. unfold put. destruct (q =? o) eqn:Q; [reflexivity|]. apply E. intros ->. now rewrite Nat.eqb_refl in Q. }
  destruct (copy_and_pad [] _ _) as [g|] eqn:EG.
  - destruct A as (d1 & A & D1), A' as (d1' & A' & D1'). rewrite (bind_ok _ _ _ _ _ A), (bind_ok _ _ _ _ _ A'). apply respects_after.
    pose proof (call_put _ _ _ _ _ _ (touches_pad _ o o (data_l params) (unit_l params) eq_refl) A D1) as S1.
    pose proof (call_put _ _ _ _ _ _ (touches_pad _ o o (data_l params) (unit_l params) eq_refl) A' D1') as S1'.
    intros q. rewrite S1, S1'. apply X.
  - unfold copy_and_pad in EG. destruct (unit_l params =? 0) eqn:U; [|discriminate].
    assert (Q : forall e h, e o = Some h -> copy_and_pad_at o o (data_l params) (unit_l params) e = (put e o [], Panic)) by (intros e h EH; rewrite (pad_at_body _ _ _ _ _ _ EH); now rewrite U).
    rewrite (bind_panic _ _ _ _ (Q d f DO)), (bind_panic _ _ _ _ (Q d' f' DO')). split; [apply X|reflexivity].
Qed.
(** Unsealing into the sealed file: a successful run leaves zeros there. *)
Theorem C103_unsealed_is_sealed : forall rnd origin path pub d d', seal_and_unseal_at H pr params rnd origin path path pub true d = (d', Ok tt) ->
  d' path = Some (zeros (data_l params / unit_l params * unit_l params)).
Proof.
  intros rnd o s p d d' E. pose proof (C103_result rnd o s s p true d) as R. rewrite E in R. cbn [fst snd] in R. destruct (run_result _ _ _ _ _ _ _ _ _ _) as [e|] eqn:RR; [|discriminate].
  destruct R as [_ S']. rewrite S'. clear E S' d'. unfold run_result in RR.
  destruct (d o) as [f|]; cbn [bind] in RR; [|discriminate]. destruct (copy_and_pad _ _ _) as [g|]; cbn [bind] in RR; [|discriminate].
  destruct (prepare_params _ _ _) as [[key iv]|]; cbn [bind] in RR; [|discriminate]. destruct (seal _ _ _ _ _ _) as [st|]; cbn [bind] in RR; [|discriminate]. cbv zeta in RR.
  destruct (unseal _ _ _ _ _ _) as [h|]; cbn [bind] in RR; [|discriminate]. rewrite Nat.eqb_refl in RR. destruct (copy_and_compress _ _ _ _) as [c|] eqn:EC; cbn [bind] in RR; [|discriminate].
  injection RR as <-. rewrite put_same. f_equal. now apply compress_empty in EC.
Qed.
(** Public data written over the original: its beginning is replaced. *)
Theorem C103_pub_is_origin : forall rnd path sealed unsealed b d d' f, path <> sealed -> (b = true -> path <> unsealed) -> d path = Some f ->
  seal_and_unseal_at H pr params rnd path sealed unsealed path b d = (d', Ok tt) ->
  exists key iv, prepare_params pr (unit_pl params) rnd = Ok (key, iv) /\ d' path = Some (save_data f key iv).
Proof.
  intros rnd o s u b d d' f N NU DO E. pose proof (C103_result rnd o s u o b d) as R. rewrite E in R. cbn [fst snd] in R. destruct (run_result _ _ _ _ _ _ _ _ _ _) as [e|] eqn:RR; [|discriminate].
  destruct R as [_ S']. rewrite S'. clear E S' d'. unfold run_result in RR. rewrite DO in RR. cbn [bind] in RR.
  destruct (copy_and_pad _ _ _) as [g|]; cbn [bind] in RR; [|discriminate].
  destruct (prepare_params _ _ _) as [[key iv]|]; cbn [bind] in RR; [|discriminate]. destruct (seal _ _ _ _ _ _) as [st|]; cbn [bind] in RR; [|discriminate]. cbv zeta in RR.
  assert (C : content (put d s (s_file st)) o = f) by (unfold content; now rewrite put_other, DO by exact N). rewrite C in RR. exists key, iv. split; [reflexivity|].
  destruct b; [|injection RR as <-; apply put_same].
  destruct (unseal _ _ _ _ _ _) as [h|]; cbn [bind] in RR; [|discriminate]. destruct (copy_and_compress _ _ _ _) as [c|]; cbn [bind] in RR; [|discriminate].
  injection RR as <-. rewrite put_other by auto. rewrite put_other by exact N. apply put_same.
Qed.
(** Public data written over the sealed file: the sealed data is lost where they lie. *)
Theorem C103_pub_is_sealed : forall rnd origin path unsealed d d' f, origin <> path -> d origin = Some f ->
  seal_and_unseal_at H pr params rnd origin path unsealed path false d = (d', Ok tt) ->
  exists key iv g st, prepare_params pr (unit_pl params) rnd = Ok (key, iv) /\ copy_and_pad f (data_l params) (unit_l params) = Ok g /\
    seal H pr params key iv g = Ok st /\ d' path = Some (save_data (s_file st) key iv).
Proof.
  intros rnd o s u d d' f N DO E. pose proof (C103_result rnd o s u s false d) as R. rewrite E in R. cbn [fst snd] in R. destruct (run_result _ _ _ _ _ _ _ _ _ _) as [e|] eqn:RR; [|discriminate].
  destruct R as [_ S']. rewrite S'. clear E S' d'. unfold run_result in RR. rewrite DO in RR. cbn [bind] in RR. apply Nat.eqb_neq in N. rewrite N in RR.
  destruct (copy_and_pad _ _ _) as [g|]; cbn [bind] in RR; [|discriminate].
  destruct (prepare_params _ _ _) as [[key iv]|]; cbn [bind] in RR; [|discriminate]. destruct (seal _ _ _ _ _ _) as [st|] eqn:ES; cbn [bind] in RR; [|discriminate]. cbv zeta in RR.
  rewrite content_put in RR. injection RR as <-. exists key, iv, g, st. split; [reflexivity|]. split; [reflexivity|]. split; [exact ES|]. apply put_same.
Qed.

(** With sound parameters the run succeeds whatever the paths are, if the original exists:
    equal paths are not noticed. *)
Theorem C103_succeeds : forall n m, layout params n m ->
  forall rnd key iv, prepare_params pr (unit_pl params) rnd = Ok (key, iv) ->
  setting H pr params key n m -> (256 ^ Z.of_nat (unit_l params) <= key)%Z -> (forall d, (le2z (H d) < key < 256 ^ Z.of_nat (unit_pl params))%Z) ->
  forall origin sealed unsealed pub b d, d origin <> None ->
  snd (seal_and_unseal_at H pr params rnd origin sealed unsealed pub b d) = Ok tt.
Proof.
  intros n m LAY rnd key iv EP SET KU KB o s u p b d N. pose proof (C103_result rnd o s u p b d) as R. unfold run_result in R.
  destruct (d o) as [f|]; [|congruence]. cbn [bind] in R.
  destruct (padded_units (if o =? s then [] else f) (data_l params) (unit_l params) ltac:(pose proof (l_unit _ _ _ LAY); lia)) as (g & EG & _). rewrite EG in R. cbn [bind] in R. rewrite EP in R. cbn [bind] in R.
  destruct (seal_total H pr params key iv n m SET g) as (st & ES & _); [now apply (g_sealable params n m LAY key (if o =? s then [] else f))|].
  rewrite ES in R. cbn [bind] in R. cbv zeta in R. destruct b; [|exact (proj1 R)].
  destruct (C101_unseal_total H pr params key iv n m SET KB (content (put (put d s (s_file st)) p (save_data (content (put d s (s_file st)) p) key iv)) s)) as (h & EU & _).
  rewrite EU in R. cbn [bind] in R. pose proof (l_unit _ _ _ LAY). pose proof (l_unit_pl _ _ _ LAY). rewrite compress_val in R by lia. exact (proj1 R).
Qed.
(** Under the conditions of C42: the restored file may be written over the original (which
    then has exactly data_l bytes) or over the public data (which are lost then). *)
Theorem C103_unsealed_over : forall n m, layout params n m ->
  forall rnd key iv, prepare_params pr (unit_pl params) rnd = Ok (key, iv) ->
  setting H pr params key n m -> sound_key H key -> (256 ^ Z.of_nat (unit_l params) <= key)%Z -> mode_l params = 0 ->
  forall origin sealed unsealed pub d f, origin <> sealed -> sealed <> pub -> sealed <> unsealed -> d origin = Some f ->
  (forall g st, copy_and_pad f (data_l params) (unit_l params) = Ok g -> seal H pr params key iv g = Ok st -> ~ In 0%Z (s_log st)) ->
  exists d', seal_and_unseal_at H pr params rnd origin sealed unsealed pub true d = (d', Ok tt) /\ d' unsealed = Some (fit (data_l params) f) /\
    (pub <> unsealed -> exists P, d' pub = Some P /\ load_data P = Ok (key, iv)).
Proof.
  intros n m LAY rnd key iv EP SET SK KU ML o s u p d f N1 N2 N3 DO NZ.
  destruct (C101_restored H pr params n m LAY rnd (content d p) key iv EP SET SK KU ML f [] NZ) as (S' & P' & RUN & LD).
  pose proof (C103_result rnd o s u p true d) as R. unfold run_result in R. rewrite DO in R. cbn [bind] in R. apply Nat.eqb_neq in N1 as Q1. rewrite Q1 in R.
  unfold seal_and_unseal in RUN. destruct (copy_and_pad f _ _) as [g|]; cbn [bind] in *; [|discriminate].
  rewrite EP in *. cbn [bind] in *. destruct (seal _ _ _ _ _ _) as [st|]; cbn [bind] in *; [|discriminate]. cbv zeta in *.
  assert (C1 : content (put d s (s_file st)) p = content d p) by (unfold content; now rewrite put_other by auto). rewrite C1 in R.
  assert (C2 : content (put (put d s (s_file st)) p (save_data (content d p) key iv)) s = s_file st) by (unfold content; now rewrite put_other, put_same by auto). rewrite C2 in R.
  apply Nat.eqb_neq in N3 as Q3. rewrite Q3 in R. destruct (unseal _ _ _ _ _ _) as [h|]; cbn [bind] in *; [|discriminate]. destruct (copy_and_compress _ _ _ _) as [c|]; cbn [bind] in *; [|discriminate].
  injection RUN as E1 E2 E3. subst S' c. destruct R as [RO RD]. destruct (seal_and_unseal_at _ _ _ _ _ _ _ _ _ _) as [d' r]. cbn [fst snd] in *. subst r. exists d'. split; [reflexivity|].
  split; [rewrite RD; apply put_same|]. intros NP. exists P'. split; [|exact LD]. rewrite RD, put_other by exact NP. rewrite put_other by auto. rewrite put_same. now rewrite E2.
Qed.
(** Checking the original against itself always passes. *)
Theorem C103_check_self : forall n m, layout params n m -> hash32 H2 ->
  forall path d f idx, d path = Some f -> StronglySorted lt idx -> Forall (fun i => i < n) idx -> idx <> [] ->
  merkle_tree_proof_at H2 params path path idx d = (d, Ok tt).
Proof.
  intros n m LAY HH o d f idx DO S' F N. pose proof (C42_merkle_tree_proof H2 params n m LAY HH f idx S' F N) as M. unfold merkle_tree_proof in M. unfold merkle_tree_proof_at.
  rewrite (bind_existing _ _ _ _ DO), (bind_look _ _ _ _ DO), bind_pure. destruct (generate_merkle_tree_from_file _ _ _ _) as [[[leaves tree] root]|] eqn:G; cbn [bind] in *; [|discriminate].
  rewrite (bind_existing _ _ _ _ DO), (bind_look _ _ _ _ DO), bind_pure, G. cbv beta iota. cbn [bind] in *. rewrite bind_pure. destruct (generate_merkle_proof _ _) as [pf|]; cbn [bind] in *; [|discriminate].
  unfold pure. now rewrite M.
Qed.
End Run.
Print Assumptions C103_result.
Print Assumptions C103_apart.
Print Assumptions C103_frame.
Print Assumptions C103_missing.
Print Assumptions C103_sealed_is_origin.
Print Assumptions C103_unsealed_is_sealed.
Print Assumptions C103_pub_is_origin.
Print Assumptions C103_pub_is_sealed.
Print Assumptions C103_succeeds.
Print Assumptions C103_unsealed_over.
Print Assumptions C103_check_self.

(** The single operations. *)
Theorem C103_copies : forall origin new d f, d origin = Some f ->
  (forall dl ul, match copy_and_pad (if origin =? new then [] else f) dl ul with
    | Ok g => exists d', copy_and_pad_at origin new dl ul d = (d', Ok tt) /\ same_disk d' (put d new g)
    | Panic => exists d', copy_and_pad_at origin new dl ul d = (d', Panic) /\ elsewhere (eq new) d' d end) /\
  (forall dl ul upl, match copy_and_compress (if origin =? new then [] else f) dl ul upl with
    | Ok g => exists d', copy_and_compress_at origin new dl ul upl d = (d', Ok tt) /\ same_disk d' (put d new g)
    | Panic => exists d', copy_and_compress_at origin new dl ul upl d = (d', Panic) /\ elsewhere (eq new) d' d end).
Proof.
  intros o n d f DO. split.
  - intros dl ul. pose proof (pad_any o n f dl ul d DO) as A. destruct (copy_and_pad _ _ _) as [g|].
    + destruct A as (d' & A & D). exists d'. split; [exact A|]. exact (call_put _ _ _ _ _ _ (touches_pad _ o n dl ul eq_refl) A D).
    + destruct A as (d' & A). exists d'. split; [exact A|]. pose proof (touches_pad (eq n) o n dl ul eq_refl d) as T. now rewrite A in T.
  - intros dl ul upl. pose proof (compress_any o n f dl ul upl d DO) as A. destruct (copy_and_compress _ _ _ _) as [g|].
    + destruct A as (d' & A & D). exists d'. split; [exact A|]. exact (call_put _ _ _ _ _ _ (touches_compress _ o n dl ul upl eq_refl) A D).
    + destruct A as (d' & A). exists d'. split; [exact A|]. pose proof (touches_compress (eq n) o n dl ul upl eq_refl d) as T. now rewrite A in T.
Qed.
Print Assumptions C103_copies.
(** The check of two files and loading the public data read the files at their paths and
    change nothing; a missing file makes them panic. *)
Theorem C103_check : forall H2 params origin unsealed idx d, merkle_tree_proof_at H2 params origin unsealed idx d =
  (d, match d origin, d unsealed with Some f, Some g => merkle_tree_proof H2 params f g idx | _, _ => Panic end).
Proof.
  intros H2 params o u idx d. unfold merkle_tree_proof_at, merkle_tree_proof. destruct (d o) as [f|] eqn:DO; [|unfold andThen at 1, open_existing; now rewrite DO].
  rewrite (bind_existing _ _ _ _ DO), (bind_look _ _ _ _ DO), bind_pure. destruct (generate_merkle_tree_from_file H2 f _ _) as [[[leaves tree] root]|]; cbn [bind]; [|now destruct (d u)].
  destruct (d u) as [g|] eqn:DU; [|unfold andThen at 1, open_existing; now rewrite DU]. rewrite (bind_existing _ _ _ _ DU), (bind_look _ _ _ _ DU), bind_pure.
  destruct (generate_merkle_tree_from_file H2 g _ _) as [[[leaves' tree'] root']|]; cbn [bind]; [|reflexivity]. rewrite bind_pure. now destruct (generate_merkle_proof idx tree').
Qed.
Print Assumptions C103_check.
Theorem C103_load : forall path d, load_data_at path d = (d, match d path with Some f => load_data f | None => Panic end).
Proof.
  intros p d. unfold load_data_at. destruct (d p) as [f|] eqn:DP; [|unfold andThen at 1, open_existing; now rewrite DP]. now rewrite (bind_existing _ _ _ _ DP), (bind_look _ _ _ _ DP).
Qed.
Print Assumptions C103_load.
(** So a file padded or compressed onto itself ends as zeros. *)
Theorem C103_copy_self : forall path d f dl ul, d path = Some f -> 0 < ul ->
  (exists d', copy_and_pad_at path path dl ul d = (d', Ok tt) /\ same_disk d' (put d path (zeros (dl / ul * (ul + 1))))) /\
  (forall upl d', copy_and_compress_at path path dl ul upl d = (d', Ok tt) -> same_disk d' (put d path (zeros (dl / ul * ul)))).
Proof.
  intros p d f dl ul DP U. destruct (C103_copies p p d f DP) as [A B]. rewrite Nat.eqb_refl in *. split.
  - specialize (A dl ul). now rewrite (pad_empty dl ul U) in A.
  - intros upl d' E. specialize (B dl ul upl). destruct (copy_and_compress [] dl ul upl) as [c|] eqn:EC; destruct B as (e & E' & S'); [|congruence].
    rewrite E in E'. injection E' as <-. now rewrite <- (compress_empty _ _ _ _ EC).
Qed.
Print Assumptions C103_copy_self.
(** Sealing and unsealing a path change that file only, as the functions on contents do; a
    panic leaves whole blocks done. *)
Theorem C103_seal : forall H pr params path key iv d f, d path = Some f ->
  (match seal H pr params key iv f with
   | Ok st => exists d', seal_at H pr params path key iv d = (d', Ok (s_ids st)) /\ same_disk d' (put d path (s_file st))
   | Panic => exists d' g, seal_at H pr params path key iv d = (d', Panic) /\ same_disk d' (put d path g) /\
      (g = f \/ exists j st, seal_upto H pr params key iv j f = Ok st /\ g = s_file st)
   end) /\
  (match unseal H pr params key iv f with
   | Ok g => exists d', unseal_at H pr params path key iv d = (d', Ok tt) /\ same_disk d' (put d path g)
   | Panic => exists d' g, unseal_at H pr params path key iv d = (d', Panic) /\ same_disk d' (put d path g) /\
      (g = f \/ exists j, unseal_range H pr params key iv 0 j f = Ok g)
   end).
Proof.
  intros H pr params p key iv d f DP. split.
  - pose proof (seal_call H pr params p key iv d f DP) as A. destruct (seal _ _ _ _ _ _) as [st|].
    + destruct A as (d' & A & D). exists d'. split; [exact A|]. exact (call_put _ _ _ _ _ _ (touches_seal H pr params _ p key iv eq_refl) A D).
    + destruct A as (d' & A & [D|(j & st & E & D)]).
      * exists d', f. split; [exact A|]. split; [exact (call_put _ _ _ _ _ _ (touches_seal H pr params _ p key iv eq_refl) A D)|now left].
      * exists d', (s_file st). split; [exact A|]. split; [exact (call_put _ _ _ _ _ _ (touches_seal H pr params _ p key iv eq_refl) A D)|right; eauto].
  - pose proof (unseal_call H pr params p key iv d f DP) as A. destruct (unseal _ _ _ _ _ _) as [g|].
    + destruct A as (d' & A & D). exists d'. split; [exact A|]. exact (call_put _ _ _ _ _ _ (touches_unseal H pr params _ p key iv eq_refl) A D).
    + destruct A as (d' & A & [D|(j & g & E & D)]).
      * exists d', f. split; [exact A|]. split; [exact (call_put _ _ _ _ _ _ (touches_unseal H pr params _ p key iv eq_refl) A D)|now left].
      * exists d', g. split; [exact A|]. split; [exact (call_put _ _ _ _ _ _ (touches_unseal H pr params _ p key iv eq_refl) A D)|right; eauto].
Qed.
Print Assumptions C103_seal.

(** A successful run need not leave anything of the original: two originals, one disk. *)
Definition one_disk (f : file) : disk := put (fun _ => None) 1 f.
Lemma one_seals iv g : copy_and_pad [] 252 63 = Ok g -> exists st, seal hone Debug one_params P_512 iv g = Ok st.
Proof.
  intros EP. destruct C42_ex as (LAY & SET & _ & _).
  assert (S' : sealable one_params P_512 2 2 g) by (apply (g_sealable one_params 2 2 LAY P_512 []); [apply P_512_holds_unit|exact EP]).
  destruct (seal_total hone Debug one_params P_512 iv 2 2 SET g S') as (st & ES & _). now exists st.
Qed.
Theorem C103_any_paths_refuted : exists H pr params rnd origin sealed unsealed pub f f' e e', f <> f' /\ length f = data_l params /\ length f' = data_l params /\
  seal_and_unseal_at H pr params rnd origin sealed unsealed pub false (one_disk f) = (e, Ok tt) /\
  seal_and_unseal_at H pr params rnd origin sealed unsealed pub false (one_disk f') = (e', Ok tt) /\
  one_disk f origin = Some f /\ one_disk f' origin = Some f' /\ same_disk e e'.
Proof.
  set (f := repeat x01 252). set (f' := repeat x02 252).
  exists hone, Debug, one_params, (fun _ => x07), 1, 1, 2, 3, f, f'.
  assert (R : forall h, snd (seal_and_unseal_at hone Debug one_params (fun _ => x07) 1 1 2 3 false (one_disk h)) = Ok tt).
  { intros h. pose proof (C103_result hone Debug one_params (fun _ => x07) 1 1 2 3 false (one_disk h)) as R. unfold run_result in R. change (one_disk h 1) with (Some h) in R. cbn [bind] in R.
    rewrite Nat.eqb_refl in R. change (data_l one_params) with 252 in R. change (unit_l one_params) with 63 in R.
    pose proof (pad_empty 252 63 ltac:(lia)) as EG. generalize dependent (zeros (252 / 63 * (63 + 1))). intros g EG. rewrite EG in R. cbn [bind] in R.
    change (unit_pl one_params) with 64 in R. rewrite (prepare_params_ok Debug 64 (fun _ => x07) eq_refl) in R. rewrite Nat.eqb_refl in R. cbn [bind] in R.
    destruct (one_seals (map (fun _ => x07) (seq 0 128)) g EG) as (st & ES). rewrite ES in R. cbn [bind] in R. exact (proj1 R). }
  pose proof (R f) as R1. pose proof (R f') as R2.
  pose proof (C103_sealed_is_origin hone Debug one_params (fun _ => x07) 1 2 3 false (one_disk f) (one_disk f')) as [S' _].
  - intros q N. unfold one_disk. now rewrite !put_other by auto.
  - discriminate.
  - discriminate.
  - destruct (seal_and_unseal_at _ _ _ _ _ _ _ _ _ (one_disk f)) as [e r]. destruct (seal_and_unseal_at _ _ _ _ _ _ _ _ _ (one_disk f')) as [e' r']. cbn [fst snd] in *. subst r r'.
    exists e, e'. split; [intros Q; apply (f_equal (hd x00)) in Q; discriminate Q|]. split; [apply repeat_length|]. split; [apply repeat_length|]. now repeat split.
Qed.
Print Assumptions C103_any_paths_refuted.

(** Concrete cases: four different paths, the original written back over itself, and
    copies within one file. *)
Example C103_ex : NoDup [1; 2; 3; 4] /\ one_disk (repeat x01 252) 1 = Some (repeat x01 252) /\ one_disk [] 2 = None /\
  layout one_params 2 2 /\ setting hone Debug one_params P_512 2 2 /\ sound_key hone P_512 /\ (256 ^ Z.of_nat (unit_l one_params) <= P_512)%Z /\ mode_l one_params = 0 /\
  prepare_params Debug (unit_pl one_params) (fun _ => x07) = Ok (P_512, map (fun _ => x07) (seq 0 128)) /\
  (forall d, (le2z (hone d) < P_512 < 256 ^ Z.of_nat (unit_pl one_params))%Z) /\
  (forall f g st, copy_and_pad f (data_l one_params) (unit_l one_params) = Ok g -> seal hone Debug one_params P_512 (map (fun _ => x07) (seq 0 128)) g = Ok st -> ~ In 0%Z (s_log st)) /\
  snd (copy_and_pad_at 1 1 4 2 (one_disk [x01; x02; x03; x04])) = Ok tt /\ fst (copy_and_pad_at 1 1 4 2 (one_disk [x01; x02; x03; x04])) 1 = Some (zeros 6) /\
  fst (copy_and_pad_at 1 2 4 2 (one_disk [x01; x02; x03; x04])) 2 = Some [x01; x02; x00; x03; x04; x00].
Proof.
  destruct C42_ex as (LAY & SET & _ & _). split; [repeat constructor; cbn; intuition discriminate|]. split; [reflexivity|]. split; [reflexivity|]. split; [exact LAY|]. split; [exact SET|].
  split; [apply shipped_sound; intros d; reflexivity|]. split; [apply P_512_holds_unit|]. split; [reflexivity|]. split; [exact (prepare_params_ok Debug 64 (fun _ => x07) eq_refl)|].
  split; [intros d; pose proof P_512_fits as F; change (Z.of_nat (unit_pl one_params)) with 64%Z; change (le2z (hone d)) with 1%Z; lia|].
  split; [|now repeat split]. intros f g st EP ES. refine (one_round_no_zero hone Debug one_params 2 2 _ f g st _ _ LAY SET eq_refl eq_refl EP ES); [intros d; reflexivity|discriminate].
Qed.
