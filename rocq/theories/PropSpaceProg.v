(** Property C120: runs that prepare, mark and use one space at the same time.
    Vocabulary: [run], [turns] from Side, [use_space_p] and [pospace_p] from SpaceProg,
    [maps_to] from PropSpace, [at_slot] from PropSpaceCrash, [groth16] from PropPospace. *)
From Coq Require Import Strings.Byte.
From Verif Require Import Base BytesFacts Field Mimc MimcFacts Convert ConvertFacts Space SpaceFacts SpaceCrash SpaceCrashFacts FrField FrFacts R1cs Circuits SpaceRun PropCircuit PropSpace PropPospace PropSpaceCrash
  Paths Side SideFacts SpaceSide SpaceSideFacts PropSpaceSide SpaceProg SpaceProgFacts.
Local Open Scope nat_scope.

(** One use of the space: prepare it, mark it for a key, answer challenges. *)
Record use (K : prime_ops) := mkUse { u_key : K; u_m : K; u_consts : list K; u_challenges : list nat; u_hash : list K }.
Arguments mkUse {K}. Arguments u_key {K}. Arguments u_m {K}. Arguments u_consts {K}. Arguments u_challenges {K}. Arguments u_hash {K}.
Definition use_run {K : prime_ops} (pr : profile) (p : place) (n : nat) (u : use K) : proc (list K * list nat * K) :=
  use_space_p pr p (u_key u) (u_m u) (u_consts u) (map Z.of_nat (u_challenges u)) (u_hash u) n.
(** As many constants as rounds, and challenges within the space. *)
Definition proper_use {K : prime_ops} (n : nat) (u : use K) : Prop :=
  length (u_consts u) = MIMC5_DF_ROUNDS /\ length (u_hash u) = MIMC5_HASH_ROUNDS /\ Forall (fun y => y < 2 ^ n) (u_challenges u).
(** x is a right answer to challenge y for one of the runs. *)
Definition suits {K : prime_ops} (us : list (use K)) (n y x : nat) : Prop :=
  exists u, In u us /\ x < 2 ^ n /\ maps_to K (u_key u) (u_m u) (u_consts u) n x y.

(** * Alone *)
Lemma does_after_prepare {A} pr p n (k : proc A) r : does p k r -> forall d,
  (forall q, q <> p -> fst (run (next (prepare_space_p pr p n) (fun _ => k)) d) q = d q) /\
  match prepare_space pr (content d p) n with
  | Ok f => match r f with
            | Ok (g, a) => snd (run (next (prepare_space_p pr p n) (fun _ => k)) d) = Ok a /\ fst (run (next (prepare_space_p pr p n) (fun _ => k)) d) p = Some g
            | Panic => snd (run (next (prepare_space_p pr p n) (fun _ => k)) d) = Panic
            end
  | Panic => snd (run (next (prepare_space_p pr p n) (fun _ => k)) d) = Panic
  end.
Proof.
  intros D d. rewrite run_next. unfold andThen. destruct (run_prepare_space pr p n d) as [F R]. destruct (run (prepare_space_p pr p n) d) as [d1 x]. cbn [fst snd] in *.
  destruct (prepare_space pr (content d p) n) as [f|].
  - destruct R as [-> P]. destruct (D d1 f P) as [F1 R1]. split; [intros q Q; rewrite F1 by exact Q; now apply F|exact R1].
  - subst x. split; [exact F|reflexivity].
Qed.
(** Alone, the accesses are those of the calls of Space.v and SpaceRun.v. *)
Theorem C120_alone : forall (K : prime_ops) pr p d,
  (forall n (key m : K) consts cs hash_consts, let r := run (use_space_p pr p key m consts cs hash_consts n) d in
   (forall q, q <> p -> fst r q = d q) /\
   match (let* f := prepare_space pr (content d p) n in let* f := mark_space pr f key m consts n in let* a := response_1 pr f cs key hash_consts n in Ok (f, a)) with
   | Ok (f, a) => snd r = Ok a /\ fst r p = Some f
   | Panic => snd r = Panic
   end) /\
  (forall (G : snark K) consts hash_consts (key m : K) rnd, let r := run (pospace_p G pr p consts hash_consts key m rnd) d in
   (forall q, q <> p -> fst r q = d q) /\
   match pospace G pr (content d p) consts hash_consts key m rnd with
   | Ok f => snd r = Ok tt /\ fst r p = Some f
   | Panic => snd r = Panic
   end).
Proof.
  intros K pr p d. split.
  - intros n key m consts cs hc r. unfold r, use_space_p.
    assert (D : does p (go _ <- mark_space_p pr p key m consts n; response_1_p pr p cs key hc n)
      (fun f => let* (g, _) := (let* g := mark_space pr f key m consts n in Ok (g, tt)) in let* a := response_1 pr g cs key hc n in Ok (g, a))).
    { apply (does_next p _ (fun _ => response_1_p pr p cs key hc n) _ (fun _ g => let* a := response_1 pr g cs key hc n in Ok (g, a))); [apply does_mark_space|intros _; apply does_response]. }
    destruct (does_after_prepare pr p n _ _ D d) as [F R]. split; [exact F|]. destruct (prepare_space pr (content d p) n) as [f|]; cbn [bind] in *; [|exact R].
    destruct (mark_space pr f key m consts n) as [g|]; cbn [bind] in *; [|exact R]. destruct (response_1 pr g cs key hc n); cbn [bind] in *; exact R.
  - intros G consts hc key m rnd r. unfold r, pospace_p, pospace. generalize SPACE_N. intros n.
    set (T := fun challenges (a : list K * list nat * K) => let '(xs, idxs, h) := a in
      let* pk := construct_circuit G consts hc in let* proof := response_2 G pk key xs m consts challenges idxs hc in
      let* _ := verify (check G) pk proof key m challenges idxs h in Ok tt).
    match goal with |- context [next (prepare_space_p pr p n) (fun _ => ?k)] => set (M := k) end.
    assert (D : does p M (fun f => let* (g, _) := (let* g := mark_space pr f key m consts n in Ok (g, tt)) in
      let* challenges := create_challenges pr rnd CHALLENGE_COUNT n in let* (g, a) := (let* a := response_1 pr g challenges key hc n in Ok (g, a)) in let* _ := T challenges a in Ok (g, tt))).
    { unfold M. apply (does_next p _ _ _ (fun _ g => let* challenges := create_challenges pr rnd CHALLENGE_COUNT n in let* (g, a) := (let* a := response_1 pr g challenges key hc n in Ok (g, a)) in let* _ := T challenges a in Ok (g, tt))); [apply does_mark_space|].
      intros _. destruct (create_challenges pr rnd CHALLENGE_COUNT n) as [challenges|]; cbn [calc next bind]; [|eapply does_ext; [|apply does_calc]; reflexivity].
      apply (does_next p _ _ _ (fun a g => let* _ := T challenges a in Ok (g, tt))); [apply does_response|]. intros ((xs, idxs), h). unfold T. cbn beta iota.
      destruct (construct_circuit G consts hc) as [pk|]; cbn [calc next bind]; [|eapply does_ext; [|apply does_calc]; reflexivity].
      destruct (response_2 G pk key xs m consts challenges idxs hc) as [proof|]; cbn [calc next bind]; [|eapply does_ext; [|apply does_calc]; reflexivity].
      eapply does_ext; [|apply does_calc]. intros f. destruct (verify (check G) pk proof key m challenges idxs h); reflexivity. }
    destruct (does_after_prepare pr p n _ _ D d) as [F R]. split; [exact F|]. destruct (prepare_space pr (content d p) n) as [f|]; cbn [bind] in *; [|exact R].
    destruct (mark_space pr f key m consts n) as [g|]; cbn [bind] in *; [|exact R]. destruct (create_challenges pr rnd CHALLENGE_COUNT n) as [challenges|]; cbn [bind] in *; [|exact R].
    destruct (response_1 pr g challenges key hc n) as [((xs, idxs), h)|]; cbn [bind] in *; [|exact R]. unfold T in R. destruct (construct_circuit G consts hc) as [pk|]; cbn [bind] in *; [|exact R].
    destruct (response_2 G pk key xs m consts challenges idxs hc) as [proof|]; cbn [bind] in *; [|exact R]. destruct (verify (check G) pk proof key m challenges idxs h) as [[]|]; cbn [bind] in *; exact R.
Qed.
Print Assumptions C120_alone.

(** * Side by side *)
Section Facts.
Context (K : prime_ops) (HK : is_prime_field K) (pr : profile) (p : place) (n : nat) (us : list (use K)).
Hypothesis N : 3 <= n <= 58.
Hypothesis PROPER : Forall (proper_use n) us.
Notation L := ((n + 1) * 2 ^ n / 8).
Context (fine : nat -> byte -> Prop).
Hypothesis ZERO : forall i, i < L -> fine i x00.
Hypothesis ONE : forall y, y < 2 ^ n -> (forall i c, fine i c) \/ ((n + 1) * y) mod 8 + (n + 1) <= 8.
Hypothesis CLOSED : forall u df x, In u us -> (forall x, mimc5_df (fadd (of_Z (Z.of_nat x)) (u_key u)) (u_m u) (u_consts u) = Ok (df x)) -> x < 2 ^ n ->
  closed L fine n (low_bits n (df x)) (int_bits n x ++ [true]).
Lemma short_mark u : In u us -> safe p (short_file L fine) (fun _ => True) (mark_space_p pr p (u_key u) (u_m u) (u_consts u) n).
Proof.
  intros IN. assert (LC : length (u_consts u) = MIMC5_DF_ROUNDS) by (rewrite Forall_forall in PROPER; exact (proj1 (PROPER _ IN))). destruct (df_total K HK (u_key u) (u_m u) (u_consts u) LC) as (df & D).
  unfold mark_space_p. constructor. intros g _. cbn [p_existing next]. rewrite pow2_ok by lia. cbn [calc next].
  replace (Z.to_nat (2 ^ Z.of_nat n)) with (2 ^ n) by (apply Nat2Z.inj; rewrite Z2Nat.id by (apply Z.pow_nonneg; lia); now rewrite Nat2Z.inj_pow).
  eapply safe_imp; [apply (safe_each p (short_file L fine) (fun _ _ => True) _ _ 0)|auto]; [|exact I].
  intros j x s E _. assert (X : x < 2 ^ n) by (apply nth_error_In, in_seq in E; lia).
  rewrite (mark_target_ok pr (u_key u) (u_m u) (u_consts u) n x (df x)) by (try (intros z; apply (pf_repr K HK z)); auto; lia). cbn [calc next].
  pose proof (slots_divide n (proj1 N)) as DIV. pose proof (low_bits_lt n (df x)) as LB.
  destruct (slot_fits L n ltac:(lia) ltac:(lia) _ LB) as [FIT SM].
  apply (short_mark_slot p L fine ZERO n _ FIT SM (ONE _ LB)); [rewrite app_length, int_bits_length; reflexivity|]. now apply (CLOSED u).
Qed.
Lemma short_use u : In u us -> safe p (short_file L fine) (fun r => Forall2 (good fine n (map Z.of_nat (u_challenges u))) (fst (fst r)) (snd (fst r))) (use_run pr p n u).
Proof.
  intros IN. pose proof (slots_divide n (proj1 N)) as DIV. unfold use_run, use_space_p. eapply safe_next; [apply (short_prepare p L fine ZERO pr n); lia|]. intros _ _. eapply safe_next; [now apply short_mark|]. intros _ _.
  rewrite Forall_forall in PROPER. destruct (PROPER _ IN) as (_ & LH & FC). apply (short_response p L fine ZERO pr n ltac:(lia) ltac:(lia) ONE (F_R (pf_field K HK))); [exact LH|].
  apply Forall_forall. intros c IC. apply in_map_iff in IC. destruct IC as (y & <- & IY). rewrite Forall_forall in FC. eauto.
Qed.
Lemma use_begins (u : use K) : exists m, use_run pr p n u = Change p (fun _ => []) m.
Proof. eexists. reflexivity. Qed.
Theorem short_state d d' ps : turns (d, map (fun u => Some (use_run pr p n u)) us) (d', ps) ->
  (forall q, q <> p -> d' q = d q) /\
  ((d' p = d p /\ forall i r, nth_error ps i <> Some (Some (Halt r))) \/
   ((exists f, d' p = Some f /\ short_file L fine f) /\
    forall i u r, nth_error us i = Some u -> nth_error ps i = Some (Some (Halt r)) ->
      exists xs idxs h, r = Ok (xs, idxs, h) /\ Forall2 (good fine n (map Z.of_nat (u_challenges u))) xs idxs)).
Proof.
  intros T. set (Qs := fun i (r : list K * list nat * K) => match nth_error us i with Some u => Forall2 (good fine n (map Z.of_nat (u_challenges u))) (fst (fst r)) (snd (fst r)) | None => True end).
  destruct (start_turns p (short_file L fine) Qs d _ _ (short_empty L fine ZERO) T) as [S F].
  { left. split; [reflexivity|]. cbn [snd]. intros i m E. rewrite nth_error_map in E. destruct (nth_error us i) as [u|] eqn:EU; [|discriminate]. cbn [option_map] in E. injection E as <-.
    destruct (use_begins u) as (m & EM). exists m. split; [exact EM|]. pose proof (short_use u (nth_error_In _ _ EU)) as SU. rewrite EM in SU. inversion SU; subst.
    eapply safe_imp; [eassumption|]. intros r R. unfold Qs. now rewrite EU. }
  cbn [fst snd] in *. split; [exact F|]. destruct S as [[D S]|[A S]]; [left|right].
  - split; [exact D|]. intros i r E. destruct (S i _ E) as (m' & EM & _). discriminate EM.
  - split; [exact A|]. intros i u r EU ER. specialize (S i _ ER). inversion S as [a R| |]; subst. destruct a as ((xs, idxs), h). exists xs, idxs, h. split; [reflexivity|]. unfold Qs in R. rewrite EU in R. exact R.
Qed.
End Facts.

(** Any number of runs prepare one space, mark it, each for its own key, and answer, at the
    same time; any schedule, any of them killed anywhere, whatever the disk held before.  No
    run panics, no other file changes, the file is never longer than the space, and every
    answer is a number of the space given to a challenge that was asked. *)
Theorem C120_side : forall (K : prime_ops), is_prime_field K -> forall pr p n (us : list (use K)), 3 <= n <= 58 -> Forall (proper_use n) us ->
  forall d d' ps, turns (d, map (fun u => Some (use_run pr p n u)) us) (d', ps) ->
  (forall q, q <> p -> d' q = d q) /\
  (d' p = d p \/ exists f, d' p = Some f /\ 8 * length f <= (n + 1) * 2 ^ n) /\
  (forall i u r, nth_error us i = Some u -> nth_error ps i = Some (Some (Halt r)) ->
     exists xs idxs h, r = Ok (xs, idxs, h) /\ Forall2 (fun x k => exists y v, nth_error (u_challenges u) k = Some y /\ v < 2 ^ n /\ x = of_Z (Z.of_nat v)) xs idxs).
Proof.
  intros K HK pr p n us N PR d d' ps T. pose proof (slots_divide n (proj1 N)) as DIV.
  destruct (short_state K HK pr p n us N PR (fun _ _ => True) (fun _ _ => I) (fun _ _ => or_introl (fun _ _ => I)) (fun u df x _ _ _ i b e _ _ _ => I) d d' ps T) as [F S].
  split; [exact F|]. destruct S as [[D S]|[(f & P & LF & _) S]].
  - split; [now left|]. intros i u r _ E. now destruct (S i r).
  - split; [right; exists f; split; [exact P|lia]|]. intros i u r EU ER. destruct (S i u r EU ER) as (xs & idxs & h & -> & G). exists xs, idxs, h. split; [reflexivity|]. eapply f2_imp; [|exact G].
    intros x k (y & s & E & _ & [LS _] & _ & ->). rewrite nth_error_map in E. destruct (nth_error (u_challenges u) k) as [y'|]; [|discriminate].
    exists y', (Z.to_nat (val (firstn n s))). assert (LN : length (firstn n s) = n) by (rewrite firstn_length; lia).
    pose proof (val_bounds (firstn n s)) as VB. rewrite LN in VB. split; [reflexivity|]. split; [|rewrite Z2Nat.id by lia; reflexivity].
    apply Nat2Z.inj_lt. rewrite Z2Nat.id, Nat2Z.inj_pow by lia. exact (proj2 VB).
Qed.
Print Assumptions C120_side.

(** Slots of four or eight bits lie in one byte.  Then, however many runs prepare, mark and
    answer at the same time, at every moment each slot in the file is empty or holds a right
    answer for one of the runs, and every answer is right for one of the runs. *)
Lemma in_one_byte n y : n = 3 \/ n = 7 -> ((n + 1) * y) mod 8 + (n + 1) <= 8.
Proof.
  intros [-> | ->]; cbn [Nat.add].
  - destruct (Nat.Even_or_Odd y) as [[z ->]|[z ->]].
    + replace (4 * (2 * z)) with (0 + z * 8) by lia. rewrite Nat.mod_add by lia. rewrite Nat.mod_small; lia.
    + replace (4 * (2 * z + 1)) with (4 + z * 8) by lia. rewrite Nat.mod_add by lia. rewrite Nat.mod_small; lia.
  - rewrite Nat.mul_comm, Nat.mod_mul; lia.
Qed.
Definition as_mark {K : prime_ops} (u : use K) : job K := Mark (u_key u) (u_m u) (u_consts u).
Lemma suits_belongs {K : prime_ops} (us : list (use K)) n y x : belongs (map as_mark us) n y x <-> suits us n y x.
Proof.
  split.
  - intros (key & m & consts & IN & X & M). apply in_map_iff in IN. destruct IN as (u & E & IN). injection E as <- <- <-. exists u. auto.
  - intros (u & IN & X & M). exists (u_key u), (u_m u), (u_consts u). split; [|auto]. apply in_map_iff. exists u. split; [reflexivity|exact IN].
Qed.
Lemma at_slot_app n (g h : file) y : (n + 1) * (y + 1) <= 8 * length g -> at_slot n (g ++ h) y = at_slot n g y.
Proof.
  intros B. unfold at_slot. rewrite bytes_to_bits_app, skipn_app, firstn_app.
  assert (LB : length (skipn ((n + 1) * y) (bytes_to_bits g)) >= n + 1) by (rewrite skipn_length, bytes_to_bits_length; lia).
  replace (n + 1 - length (skipn ((n + 1) * y) (bytes_to_bits g))) with 0 by lia. cbn [firstn]. apply app_nil_r.
Qed.
Theorem C120_whole : forall (K : prime_ops), is_prime_field K -> forall pr p n (us : list (use K)), n = 3 \/ n = 7 -> Forall (proper_use n) us ->
  forall d d' ps, turns (d, map (fun u => Some (use_run pr p n u)) us) (d', ps) ->
  (d' p = d p \/ exists f, d' p = Some f /\ forall y, y < 2 ^ n -> (n + 1) * (y + 1) <= 8 * length f ->
     at_slot n f y = repeat false (n + 1) \/ exists x xb, suits us n y x /\ usize_to_bits (Z.of_nat x) n = Some (Ok xb) /\ at_slot n f y = xb ++ [true]) /\
  (forall i u r, nth_error us i = Some u -> nth_error ps i = Some (Some (Halt r)) ->
     exists xs idxs h, r = Ok (xs, idxs, h) /\ Forall2 (fun x k => exists y v, nth_error (u_challenges u) k = Some y /\ suits us n y v /\ x = of_Z (Z.of_nat v)) xs idxs).
Proof.
  intros K HK pr p n us N37 PR d d' ps T. assert (N : 3 <= n <= 58) by lia. pose proof (slots_divide n (proj1 N)) as DIV. set (L := (n + 1) * 2 ^ n / 8) in *.
  set (jobs := map as_mark us). assert (LZ : length (zeros L) = L) by apply repeat_length.
  assert (LEN : 8 * length (zeros L) = (n + 1) * 2 ^ n) by lia.
  assert (PJ : Forall (proper n) jobs) by (apply Forall_forall; intros j IJ; apply in_map_iff in IJ; destruct IJ as (u & <- & IU); rewrite Forall_forall in PR; exact (proj1 (PR u IU))).
  set (fi := PropSpaceSide.fine K n jobs (zeros L)).
  assert (ZERO : forall i, i < L -> fi i x00).
  { intros i I. destruct (PropSpaceSide.fine_start K n jobs (zeros L) N LEN) as [_ S]. specialize (S i ltac:(lia)). unfold zeros in S at 2. rewrite nth_repeat in S. exact S. }
  assert (CL : forall u df x, In u us -> (forall x, mimc5_df (fadd (of_Z (Z.of_nat x)) (u_key u)) (u_m u) (u_consts u) = Ok (df x)) -> x < 2 ^ n ->
    closed L fi n (low_bits n (df x)) (int_bits n x ++ [true])).
  { intros u df x IU D X. rewrite <- LZ at 1. apply (PropSpaceSide.fine_closed K HK n jobs (zeros L) N LEN (u_key u) (u_m u) (u_consts u) df x); [|exact D|exact X]. apply in_map_iff. exists u. split; [reflexivity|exact IU]. }
  destruct (short_state K HK pr p n us N PR fi ZERO (fun y _ => or_intror (in_one_byte n y N37)) CL d d' ps T) as [_ S].
  assert (WS : forall y s, y < 2 ^ n -> by_bytes jobs n (zeros L) y s ->
    s = repeat false (n + 1) \/ exists x xb, suits us n y x /\ usize_to_bits (Z.of_nat x) n = Some (Ok xb) /\ s = xb ++ [true]).
  { intros y s Y B. apply whole_slot in B; [|exact N37|exact LEN|exact Y]. destruct B as [->|(x & xb & BL & U & ->)].
    - left. apply slot_zeros. rewrite <- DIV. apply Nat.mul_le_mono_l. lia.
    - right. exists x, xb. split; [now apply suits_belongs|]. auto. }
  destruct S as [[D S]|[(f & P & LF & FF) S]].
  - split; [now left|]. intros i u r _ E. now destruct (S i r).
  - split.
    + right. exists f. split; [exact P|]. intros y Y B. rewrite <- (at_slot_app n f (zeros (L - length f)) y B). apply WS; [exact Y|].
      apply (PropSpaceSide.file_bytes K n jobs (zeros L) N LEN); [|exact Y]. rewrite LZ. split; [rewrite app_length; unfold zeros; rewrite repeat_length; lia|].
      intros i I. destruct (Nat.lt_ge_cases i (length f)) as [A|A]; [rewrite app_nth1 by exact A; now apply FF|]. rewrite app_nth2 by exact A. unfold zeros. rewrite nth_repeat. now apply ZERO.
    + intros i u r EU ER. destruct (S i u r EU ER) as (xs & idxs & h & -> & G). exists xs, idxs, h. split; [reflexivity|]. eapply f2_imp; [|exact G].
      intros x k (y & s & E & Y & [LS SE] & FL & ->). rewrite nth_error_map in E. destruct (nth_error (u_challenges u) k) as [y'|]; [|discriminate]. injection E as E. apply Nat2Z.inj in E. subst y'.
      destruct (WS y s Y) as [->|(x & xb & SU & U & ->)].
      * apply (PropSpaceSide.pieces_bytes K n jobs (zeros L) N LEN y s LS Y). exact SE.
      * rewrite nth_repeat in FL. discriminate FL.
      * exists y, x. split; [reflexivity|]. split; [exact SU|]. rewrite usize_to_bits_ok in U by lia. injection U as <-. destruct SU as (_ & _ & X & _).
        rewrite firstn_app, bits_loop_length, Nat.sub_diag. cbn [firstn]. rewrite app_nil_r, firstn_all2 by (rewrite bits_loop_length; lia). f_equal. now apply val_int_bits.
Qed.
Print Assumptions C120_whole.

(** * The second run empties the space of the first *)
Lemma turns_trans {A} (a b c : shared A) : turns a b -> turns b c -> turns a c.
Proof. intros T. induction T; [auto|]. intros U. econstructor; [eassumption|auto]. Qed.
Lemma upd_twice {A} (l : list A) : forall i a b, upd (upd l i a) i b = upd l i b.
Proof. induction l as [|x l IH]; intros [|i] a b; cbn [upd]; try reflexivity. now rewrite IH. Qed.
Lemma nth_upd_self {A} (l : list A) : forall i a, i < length l -> nth_error (upd l i a) i = Some a.
Proof. induction l as [|x l IH]; intros [|i] a I; cbn [length upd nth_error] in *; try lia; [reflexivity|]. apply IH. lia. Qed.
(** One run goes on alone to the end of its part m. *)
Lemma part_turns {A B} (m : proc A) (k : A -> proc B) a : forall d ps i, i < length ps -> snd (run m d) = Ok a ->
  turns (d, upd ps i (Some (next m k))) (fst (run m d), upd ps i (Some (k a))).
Proof.
  induction m as [r|p c IH|p w m IH]; intros d ps i I E; cbn [next run fst snd] in *.
  - subst r. constructor.
  - eapply T_more; [apply (T_see d _ i p (fun f => next (c f) k)); now apply nth_upd_self|]. rewrite upd_twice. now apply IH.
  - eapply T_more; [apply (T_change d _ i p w (next m k)); now apply nth_upd_self|]. rewrite upd_twice. now apply IH.
Qed.
Lemma rest_turns {A} (m : proc A) : forall d ps i, i < length ps -> turns (d, upd ps i (Some m)) (fst (run m d), upd ps i (Some (Halt (snd (run m d))))).
Proof.
  induction m as [r|p c IH|p w m IH]; intros d ps i I; cbn [run fst snd] in *.
  - constructor.
  - eapply T_more; [apply (T_see d _ i p c); now apply nth_upd_self|]. rewrite upd_twice. now apply IH.
  - eapply T_more; [apply (T_change d _ i p w m); now apply nth_upd_self|]. rewrite upd_twice. now apply IH.
Qed.
Lemma looks_only {A} (m : proc A) rd : uses rd (fun _ => False) m -> forall d, fst (run m d) = d.
Proof. induction m as [r|p c IH|p w m IH]; intros U d; cbn [uses run fst] in *; [reflexivity|apply IH; apply U|]. destruct U as (_ & [] & _). Qed.
Lemma empty_slot n y : slot_read [] n y = repeat false (n + 1).
Proof.
  unfold slot_read. assert (E : forall l i0, bytes_to_bits (map (byte_seen [] i0) l) = repeat false (8 * length l)).
  { intros l i0. induction l as [|a l IH]; [reflexivity|]. cbn [map]. rewrite bytes_to_bits_cons, IH. unfold byte_seen. cbn [length]. destruct (Nat.ltb_spec a 0); [lia|]. destruct (Nat.ltb_spec i0 0); [lia|].
    replace (8 * S (length l)) with (8 + 8 * length l) by lia. rewrite repeat_app. reflexivity. }
  rewrite E, seq_length. set (j := ((n + 1) * y) mod 8). pose proof (Nat.mod_upper_bound ((n + 1) * y) 8 ltac:(lia)) as J. fold j in J. replace (8 * (n + 2)) with (j + ((n + 1) + (8 * (n + 2) - j - (n + 1)))) by lia.
  rewrite repeat_app, skipn_app, skipn_all2 by (rewrite repeat_length; lia). rewrite repeat_length, Nat.sub_diag. cbn [skipn app]. rewrite repeat_app, firstn_app, repeat_length, Nat.sub_diag. cbn [firstn]. rewrite app_nil_r. apply firstn_all2. rewrite repeat_length. lia.
Qed.
(** From an empty file nothing is answered. *)
Lemma nothing_there (K : prime_ops) (RK : is_ring K) pr (key : K) hc n cs : length hc = MIMC5_HASH_ROUNDS -> n <= 58 -> Forall (fun y => y < 2 ^ n) cs ->
  exists h, response_1 pr [] (map Z.of_nat cs) key hc n = Ok ([], [], h).
Proof.
  intros LH N FC. pose proof (space_fits n N) as FIT.
  assert (SM : Forall (fun yn => (Z.of_nat ((n + 1) * yn) < two64)%Z) cs).
  { eapply Forall_impl; [|exact FC]. cbn beta. intros y Y. eapply Z.le_lt_trans; [|exact FIT]. apply Nat2Z.inj_le. apply Nat.mul_le_mono_l. lia. }
  pose proof (respond_ok (K := K) pr [] n ltac:(lia) cs [] [] [] SM ltac:(cbn; unfold RESPONSE_COUNT; lia)) as R. cbv zeta in R. cbn [app length] in R.
  assert (NO : forall l, filter (fun i => flag_at [] n (nth i cs 0)) l = []).
  { induction l as [|i l IH]; [reflexivity|]. cbn [filter]. unfold flag_at at 1. rewrite empty_slot, nth_repeat. exact IH. }
  rewrite NO, firstn_nil in R. cbn [map] in R. unfold response_1. rewrite R. cbn [bind]. rewrite (multi_mimc5_ok RK) by exact LH. eexists. reflexivity.
Qed.
(** The first run prepares and marks, the second begins, the first answers, the second goes on. *)
Lemma overlap {A} p (first mark : proc unit) (k : proc A) (v : proc A) d d1 : uses (fun _ => True) (fun _ => False) k ->
  snd (run first d) = Ok tt -> run mark (fst (run first d)) = (d1, Ok tt) -> (exists v', v = Change p (fun _ => []) v') ->
  turns (d, [Some (go _ <- first; go _ <- mark; k); Some v]) (fst (run v d1), [Some (Halt (snd (run k (put d1 p [])))); Some (Halt (snd (run v d1)))]).
Proof.
  intros U R1 R2 [v' ->]. set (d0 := fst (run first d)) in *.
  eapply turns_trans; [exact (part_turns first (fun _ => go _ <- mark; k) tt d [None; Some (Change p (fun _ => []) v')] 0 ltac:(cbn; lia) R1)|]. fold d0. cbn [upd].
  eapply turns_trans; [pose proof (part_turns mark (fun _ => k) tt d0 [None; Some (Change p (fun _ => []) v')] 0 ltac:(cbn; lia)) as T; rewrite R2 in T; exact (T eq_refl)|]. cbn [fst upd].
  eapply T_more; [apply (T_change d1 [Some k; Some (Change p (fun _ => []) v')] 1 p (fun _ => []) v' eq_refl)|]. cbn [upd]. set (d2 := put d1 p []).
  eapply turns_trans; [exact (rest_turns k d2 [None; Some v'] 0 ltac:(cbn; lia))|]. rewrite (looks_only k _ U). cbn [upd run]. fold d2.
  exact (rest_turns v' d2 [Some (Halt (snd (run k d2))); None] 1 ltac:(cbn; lia)).
Qed.
Lemma run_marked {K : prime_ops} (PF : is_prime_field K) pr p d n (key m : K) consts : 3 <= n <= 58 -> length consts = MIMC5_DF_ROUNDS ->
  snd (run (prepare_space_p pr p n) d) = Ok tt /\ exists d1 g, run (mark_space_p pr p key m consts n) (fst (run (prepare_space_p pr p n) d)) = (d1, Ok tt) /\ (forall q, q <> p -> d1 q = d q) /\ d1 p = Some g.
Proof.
  intros N LC. destruct (run_prepare_space pr p n d) as [F R]. destruct (C51_inverse_table pr K PF key m consts n (content d p) LC N) as (fa & fb & EP & EM & _). rewrite EP in R. destruct R as [R P]. split; [exact R|].
  destruct (does_mark_space pr p key m consts n (fst (run (prepare_space_p pr p n) d)) fa P) as [F1 R1]. rewrite EM in R1. cbn [bind] in R1. destruct R1 as [R1 P1].
  destruct (run (mark_space_p pr p key m consts n) (fst (run (prepare_space_p pr p n) d))) as [d1 x]. cbn [fst snd] in *. subst x. exists d1, fb. split; [reflexivity|]. split; [|exact P1]. intros q Q. rewrite F1 by exact Q. now apply F.
Qed.
(** A run that has prepared and marked the space, and then waits until another run has begun,
    answers nothing, and does not notice.  The other run is as if alone. *)
Theorem C120_wiped : forall (K : prime_ops), is_prime_field K -> forall pr p n (u v : use K) d, 3 <= n <= 58 -> proper_use n u -> proper_use n v ->
  exists d' h, turns (d, [Some (use_run pr p n u); Some (use_run pr p n v)]) (d', [Some (Halt (Ok ([], [], h))); Some (Halt (snd (run (use_run pr p n v) d)))]) /\
  forall q, d' q = fst (run (use_run pr p n v) d) q.
Proof.
  intros K PF pr p n u v d N (LC & LH & FC) (LCv & LHv & FCv). pose proof (F_R (pf_field K PF)) as RK.
  destruct (run_marked PF pr p d n (u_key u) (u_m u) (u_consts u) N LC) as (R1 & d1 & g & R2 & F & P).
  destruct (nothing_there K RK pr (u_key u) (u_hash u) n (u_challenges u) LH ltac:(lia) FC) as (h & EH).
  pose proof (overlap p (prepare_space_p pr p n) (mark_space_p pr p (u_key u) (u_m u) (u_consts u) n) (response_1_p pr p (map Z.of_nat (u_challenges u)) (u_key u) (u_hash u) n) (use_run pr p n v) d d1
    (uses_response pr (fun _ => True) (fun _ => False) p _ _ _ n I) R1 R2 (use_begins K pr p n v)) as T.
  destruct (does_response pr p (map Z.of_nat (u_challenges u)) (u_key u) (u_hash u) n (put d1 p []) []) as [_ RR]. { unfold put. now rewrite Nat.eqb_refl. }
  rewrite EH in RR. cbn [bind] in RR. destruct RR as [RR _]. rewrite RR in T.
  destruct (proj1 (C120_alone K pr p d) n (u_key v) (u_m v) (u_consts v) (map Z.of_nat (u_challenges v)) (u_hash v)) as [A1 A2].
  destruct (proj1 (C120_alone K pr p d1) n (u_key v) (u_m v) (u_consts v) (map Z.of_nat (u_challenges v)) (u_hash v)) as [B1 B2].
  destruct (C52_answers pr K PF (u_key v) (u_m v) (u_consts v) (u_hash v) n [] (u_challenges v) LCv LHv N FCv) as (fa & fb & xs & idxs & hv & EP & EM & ER & _).
  rewrite prepare_space_ok in A2, B2, EP by lia. assert (fa = zeros ((n + 1) * 2 ^ n / 8)) by congruence. subst fa. cbn [bind] in A2, B2. rewrite EM in A2, B2. cbn [bind] in A2, B2. rewrite ER in A2, B2. cbn [bind] in A2, B2. destruct A2 as [A2 A3], B2 as [B2 B3].
  exists (fst (run (use_run pr p n v) d1)), h. split.
  - fold (use_run pr p n v) in A2, B2. rewrite B2 in T. rewrite A2. exact T.
  - intros q. unfold use_run. destruct (Nat.eq_dec q p) as [->|Q]; [now rewrite A3, B3|]. rewrite A1, B1 by exact Q. now apply F.
Qed.
Print Assumptions C120_wiped.
Lemma uses_mark_slot pr (rd wr : place -> Prop) p n y xb : rd p -> wr p -> uses rd wr (mark_slot_p pr p n y xb).
Proof.
  intros R W. unfold mark_slot_p. apply uses_next; [apply uses_calc|]. intros b. apply uses_next; [now apply uses_get|]. intros buf. apply uses_next.
  - apply uses_each. intros (((idx, b0), bb), j) x. unfold mark_bit_p. apply uses_next; [apply uses_calc|]. intros bb'. destruct (_ =? 8); [|apply uses_calc]. apply uses_next; [apply uses_calc|]. intros b1. apply uses_next; [now apply uses_write|]. intros _. apply uses_next; [now apply uses_get|]. intros b2. apply uses_calc.
  - intros (((idx, b0), bb), j). destruct (j =? 0); [apply uses_calc|]. apply uses_next; [apply uses_calc|]. intros b1. now apply uses_write.
Qed.
Lemma uses_mark {K : prime_ops} pr (rd wr : place -> Prop) p (key m : K) consts n : rd p -> wr p -> uses rd wr (mark_space_p pr p key m consts n).
Proof.
  intros R W. unfold mark_space_p. apply uses_next; [now apply uses_existing|]. intros _. apply uses_next; [apply uses_calc|]. intros c. apply uses_each. intros _ x. apply uses_next; [apply uses_calc|]. intros (y, xb). now apply uses_mark_slot.
Qed.
Lemma uses_prepare pr (rd wr : place -> Prop) p n : rd p -> wr p -> uses rd wr (prepare_space_p pr p n).
Proof.
  intros R W. unfold prepare_space_p. apply uses_next; [now apply uses_truncate|]. intros _. apply uses_next; [apply uses_calc|]. intros c. apply uses_next; [apply uses_calc|]. intros t. apply uses_each. intros _ i. now apply uses_write.
Qed.
(** A whole run for an arbitrary size of the space, from its challenges on. *)
Definition rest_n {K : prime_ops} (G : snark K) pr p (consts hc : list K) (key m : K) rnd n : proc unit :=
  go challenges <- calc (create_challenges pr rnd CHALLENGE_COUNT n);
  go (x_response, idx_response, x_hash) <- response_1_p pr p challenges key hc n;
  go pk <- calc (construct_circuit G consts hc);
  go proof <- calc (response_2 G pk key x_response m consts challenges idx_response hc);
  calc (let* _ := verify (check G) pk proof key m challenges idx_response x_hash in Ok tt).
Definition pospace_n {K : prime_ops} (G : snark K) pr p (consts hc : list K) (key m : K) rnd n : proc unit :=
  go _ <- prepare_space_p pr p n;
  go _ <- mark_space_p pr p key m consts n;
  rest_n G pr p consts hc key m rnd n.
Lemma uses_rest {K : prime_ops} (G : snark K) pr p (rd wr : place -> Prop) consts hc (key m : K) rnd n : rd p -> uses rd wr (rest_n G pr p consts hc key m rnd n).
Proof.
  intros R. unfold rest_n. apply uses_next; [apply uses_calc|]. intros c. apply uses_next; [now apply uses_response|]. intros ((xs, idxs), h'). apply uses_next; [apply uses_calc|]. intros pk'. apply uses_next; [apply uses_calc|]. intros pf. apply uses_calc.
Qed.
(** What follows once a run has begun does not depend on what the file held. *)
Lemma anew {K : prime_ops} (G : snark K) pr p consts hc (key m : K) rnd n d e : (forall q, q <> p -> d q = e q) ->
  (exists m', pospace_n G pr p consts hc key m rnd n = Change p (fun _ => []) m') /\
  snd (run (pospace_n G pr p consts hc key m rnd n) d) = snd (run (pospace_n G pr p consts hc key m rnd n) e) /\
  forall q, fst (run (pospace_n G pr p consts hc key m rnd n) d) q = fst (run (pospace_n G pr p consts hc key m rnd n) e) q.
Proof.
  intros Q. assert (E : exists m', pospace_n G pr p consts hc key m rnd n = Change p (fun _ => []) m') by (eexists; reflexivity). split; [exact E|].
  assert (U : uses (fun _ => True) (fun _ => True) (pospace_n G pr p consts hc key m rnd n)).
  { unfold pospace_n. apply uses_next; [now apply uses_prepare|]. intros _. apply uses_next; [now apply uses_mark|]. intros _. now apply uses_rest. }
  destruct E as (m' & E). rewrite E in *. cbn [run uses] in *. destruct U as (_ & _ & U).
  destruct (run_local _ _ _ U (put d p []) (put e p [])) as [S F]; [|auto|].
  - intros q _. unfold put. destruct (Nat.eqb_spec q p); [reflexivity|now apply Q].
  - split; [exact S|]. intros q. now apply F.
Qed.
Lemma spoiled_n (K : prime_ops) (G : snark K) : is_prime_field K -> groth16 K G -> forall pr p d consts hash_consts (key m : K) rnd (consts' hash_consts' : list K) (key' m' : K) rnd' n,
  3 <= n <= 58 -> length consts = MIMC5_DF_ROUNDS -> length hash_consts = MIMC5_HASH_ROUNDS ->
  let first := pospace_n G pr p consts hash_consts key m rnd n in let second := pospace_n G pr p consts' hash_consts' key' m' rnd' n in
  exists d', turns (d, [Some first; Some second]) (d', [Some (Halt Panic); Some (Halt (snd (run second d)))]) /\ forall q, d' q = fst (run second d) q.
Proof.
  intros PF (arity & GEN & PRV & CHK) pr p d consts hc key m rnd consts' hc' key' m' rnd' n SN LC LH first second. pose proof (F_R (pf_field K PF)) as RK.
  destruct (run_marked PF pr p d n key m consts SN LC) as (R1 & d1 & g & R2 & F & P).
  destruct (C65_range pr rnd 100 n ltac:(lia)) as (challenges & EC & LCH & RC).
  assert (NAT : exists cs, challenges = map Z.of_nat cs /\ Forall (fun yn => yn < 2 ^ n) cs).
  { exists (map Z.to_nat challenges). clear - RC. assert (P2 : Z.of_nat (2 ^ n) = (2 ^ Z.of_nat n)%Z) by now rewrite Nat2Z.inj_pow. generalize dependent (2 ^ n). intros B P2. rewrite <- P2 in RC. induction RC as [|c l [C0 C1] F IH]; [split; [reflexivity|constructor]|]. destruct IH as [-> IH]. split; [cbn [map]; rewrite Z2Nat.id by lia; f_equal|constructor; [lia|exact IH]].
    now rewrite !map_map; apply map_ext; intros a; rewrite Nat2Z.id. }
  destruct NAT as (cs & -> & FC). destruct (nothing_there K RK pr key hc n cs LH (proj2 SN) FC) as (h & EH).
  destruct (pospace_params K PF consts hc 50 LC LH ltac:(lia)) as (l50 & (s50 & ES & NI & CS) & LL & _ & _).
  destruct (GEN s50) as (pk & EG & AR).
  { exact (keeps_pospace K None (repeat None 50) None consts (repeat None 50) hc (new_cs true) tt s50 ES). } { rewrite CS, LL. reflexivity. }
  assert (ECC : construct_circuit G consts hc = Ok pk) by (unfold construct_circuit; change RESPONSE_COUNT with 50; unfold param_circuit in ES; rewrite ES; exact EG).
  destruct (anew G pr p consts' hc' key' m' rnd' n d1 d F) as (B & S & D). fold second in B, S, D.
  pose proof (overlap p (prepare_space_p pr p n) (mark_space_p pr p key m consts n) (rest_n G pr p consts hc key m rnd n) second d d1 (uses_rest G pr p (fun _ => True) (fun _ => False) consts hc key m rnd n I) R1 R2 B) as T.
  assert (K0 : snd (run (rest_n G pr p consts hc key m rnd n) (put d1 p [])) = Panic).
  { unfold rest_n. change CHALLENGE_COUNT with 100. rewrite EC, ECC. cbn [calc next]. rewrite run_next. unfold andThen. destruct (does_response pr p (map Z.of_nat cs) key hc n (put d1 p []) []) as [_ RR]. { unfold put. now rewrite Nat.eqb_refl. }
    rewrite EH in RR. cbn [bind] in RR. destruct RR as [RR _]. destruct (run (response_1_p pr p (map Z.of_nat cs) key hc n) (put d1 p [])) as [d3 x]. cbn [fst snd] in RR. subst x.
    destruct (response_2 G pk key [] m consts (map Z.of_nat cs) [] hc) as [pf|]; cbn [calc next run snd]; [|reflexivity].
    destruct (verify (check G) pk pf key m (map Z.of_nat cs) [] h) as [[]|] eqn:V; [|reflexivity]. apply (C64_arity K (PK G) (PROOF G) arity (check G) CHK) in V. destruct V as [_ V]. rewrite AR, NI in V. cbn in V. lia. }
  rewrite K0, S in T. exists (fst (run second d1)). split; [exact T|exact D].
Qed.
(** In a whole run the answers that are missing then make the verification stop the run with
    a panic, whatever the challenges. *)
Theorem C120_spoiled : forall (K : prime_ops) (G : snark K), is_prime_field K -> groth16 K G -> forall pr p d consts hash_consts (key m : K) rnd (consts' hash_consts' : list K) (key' m' : K) rnd',
  length consts = MIMC5_DF_ROUNDS -> length hash_consts = MIMC5_HASH_ROUNDS ->
  let first := pospace_p G pr p consts hash_consts key m rnd in let second := pospace_p G pr p consts' hash_consts' key' m' rnd' in
  exists d', turns (d, [Some first; Some second]) (d', [Some (Halt Panic); Some (Halt (snd (run second d)))]) /\ forall q, d' q = fst (run second d) q.
Proof.
  intros K G PF GR pr p d consts hc key m rnd consts' hc' key' m' rnd' LC LH. assert (SN : 3 <= SPACE_N <= 58) by (unfold SPACE_N; lia).
  exact (spoiled_n K G PF GR pr p d consts hc key m rnd consts' hc' key' m' rnd' SPACE_N SN LC LH).
Qed.
Print Assumptions C120_spoiled.

(** * Marks that no run has made *)
(** A run that uses a space of 16 slots with key 9 (see [nine]) and is asked for slot 2, with
    its targets worked out. *)
Definition use9 : use FrBls := mkUse (K := FrBls) (fr 9) (fr 2) zero_consts [2] zero_consts.
Definition use9_p (pr : profile) (p : place) : proc (list FrBls * list nat * FrBls) :=
  go _ <- prepare_space_p pr p 4;
  go _ <- (go _ <- p_existing p; each (fun _ x => mark_slot_p pr p 4 (Z.of_nat (nth x nine 0)) (int_bits 4 x ++ [true])) (seq 0 16) tt);
  response_1_p (K := FrBls) pr p [2%Z] (fr 9) zero_consts 4.
Lemma marks9_same pr p (T : nat -> res (Z * list bool)) : (forall x, x < 16 -> T x = Ok (Z.of_nat (nth x nine 0), int_bits 4 x ++ [true])) ->
  same (go _ <- p_existing p; each (fun _ x => mark_slot_p pr p 4 (Z.of_nat (nth x nine 0)) (int_bits 4 x ++ [true])) (seq 0 16) tt)
    (go _ <- p_existing p; go count <- calc (Ok 16%Z); each (fun _ x => go (y, x_bits) <- calc (T x); mark_slot_p pr p 4 y x_bits) (seq 0 (Z.to_nat count)) tt).
Proof.
  intros E. apply same_next; [apply same_refl|]. intros _. cbn [calc next]. change (Z.to_nat 16) with 16.
  apply same_each. assert (G : forall l, (forall x, In x l -> x < 16) -> Forall2 (fun a b => forall s : unit, same (mark_slot_p pr p 4 (Z.of_nat (nth a nine 0)) (int_bits 4 a ++ [true]))
    (go (y, x_bits) <- calc (T b); mark_slot_p pr p 4 y x_bits)) l l).
  { induction l as [|x l IH]; intros B; constructor; [|apply IH; intros; apply B; now right]. intros _. rewrite (E x) by (apply B; now left). apply same_refl. }
  apply G. intros x I. apply in_seq in I. lia.
Qed.
Lemma use9_same pr p : same (use9_p pr p) (use_run (K := FrBls) pr p 4 use9).
Proof.
  unfold use9_p, use_run, use_space_p. apply same_next; [apply same_refl|]. intros _. apply same_next; [|intros _; apply same_refl].
  exact (marks9_same pr p (fun x => mark_target (K := FrBls) pr (fr 9) (fr 2) zero_consts 4 (Z.of_nat x)) (nine_target pr)).
Qed.
(** The first run looks for the second byte of its mark just after the second run has emptied
    the file, and takes the byte it had in hand for it. *)
Definition stray_schedule : list nat := repeat 0 33 ++ [1] ++ [0] ++ repeat 1 10 ++ [0] ++ repeat 1 200 ++ repeat 0 200.
Definition stray_state : shared (list FrBls * list nat * FrBls) := fold_left move stray_schedule (fun _ => None, [Some (use9_p Debug 0); Some (use9_p Debug 0)]).
Definition ended_at (x : option (proc (list FrBls * list nat * FrBls))) (v : Z) : bool :=
  match x with Some (Halt (Ok ([x], [0], _))) => (repr (p := FrBls) x =? v)%Z | _ => false end.
Lemma stray_trial : ended_at (nth 0 (snd stray_state) None) 0 && ended_at (nth 1 (snd stray_state) None) 0 && (length (snd stray_state) =? 2) = true.
Proof. vm_compute. reflexivity. Qed.
(** Two runs for the same key, started on an empty disk, both answer the challenge 2, to which
    no x is mapped. *)
Theorem C120_stray_refuted : exists (d : disk) d' x h x' h', d 0 = None /\ proper_use 4 use9 /\ u_challenges use9 = [2] /\
  turns (d, map (fun u => Some (use_run (K := FrBls) Debug 0 4 u)) [use9; use9]) (d', [Some (Halt (Ok ([x], [0], h))); Some (Halt (Ok ([x'], [0], h')))]) /\
  repr (p := FrBls) x = 0%Z /\ repr (p := FrBls) x' = 0%Z /\ forall v, ~ suits [use9; use9] 4 2 v.
Proof.
  pose proof stray_trial as T. do 2 (apply andb_prop in T; let X := fresh "X" in destruct T as [T X]). rename T into E0, X into L2, X0 into E1. apply Nat.eqb_eq in L2.
  assert (EX : forall o, ended_at o 0 = true -> exists x h, o = Some (Halt (Ok ([x], [0], h))) /\ repr (p := FrBls) x = 0%Z).
  { intros [[[((xs, is), h)|]| |]|] E; try discriminate E. destruct xs as [|x [|]]; try discriminate E. destruct is as [|[|] [|]]; try discriminate E. exists x, h. split; [reflexivity|]. now apply Z.eqb_eq. }
  destruct (EX _ E0) as (x & h & A0 & V0), (EX _ E1) as (x' & h' & A1 & V1).
  assert (PS : snd stray_state = [Some (Halt (Ok ([x], [0], h))); Some (Halt (Ok ([x'], [0], h')))]).
  { destruct (snd stray_state) as [|a [|b [|]]]; try discriminate L2. cbn [nth] in A0, A1. now rewrite A0, A1. }
  assert (T : turns ((fun _ => None), [Some (use9_p Debug 0); Some (use9_p Debug 0)]) stray_state) by (unfold stray_state; apply moves).
  destruct (same_turns _ _ T [Some (use_run (K := FrBls) Debug 0 4 use9); Some (use_run (K := FrBls) Debug 0 4 use9)]) as (ps1 & T1 & F1).
  { constructor; [apply use9_same|]. constructor; [apply use9_same|constructor]. }
  rewrite PS in F1. assert (EP : ps1 = [Some (Halt (Ok ([x], [0], h))); Some (Halt (Ok ([x'], [0], h')))]).
  { inversion F1 as [|? a l m R F]; subst. inversion F as [|? b l m' R' F']; subst. inversion F'; subst. destruct a as [a|], b as [b|]; try contradiction. cbn [same_run] in R, R'. now rewrite (same_done _ _ R), (same_done _ _ R'). }
  subst ps1. exists (fun _ => None), (fst stray_state), x, h, x', h'. split; [reflexivity|]. split; [split; [reflexivity|split; [reflexivity|repeat constructor]]|]. split; [reflexivity|]. split; [exact T1|]. split; [exact V0|]. split; [exact V1|].
  intros v (u & IU & V & M). assert (u = use9) as -> by (destruct IU as [<-|[<-|[]]]; reflexivity). change (2 ^ 4) with 16 in V. apply (nine_maps v 2 V) in M. clear - V M. do 16 (destruct v as [|v]; [discriminate M|]). lia.
Qed.
Print Assumptions C120_stray_refuted.

(** Overtaken runs meet the hypotheses: two runs on an empty disk with a space of 128 slots. *)
Lemma left_behind (K : prime_ops) (PF : is_prime_field K) pr p n (v : use K) d : 3 <= n <= 58 -> proper_use n v -> exists f, fst (run (use_run pr p n v) d) p = Some f /\ 8 * length f = (n + 1) * 2 ^ n.
Proof.
  intros N (LC & LH & FC). destruct (proj1 (C120_alone K pr p d) n (u_key v) (u_m v) (u_consts v) (map Z.of_nat (u_challenges v)) (u_hash v)) as [_ A].
  destruct (C52_answers pr K PF (u_key v) (u_m v) (u_consts v) (u_hash v) n (content d p) (u_challenges v) LC LH N FC) as (fa & fb & xs & idxs & hv & EP & EM & ER & _).
  destruct (C51_inverse_table pr K PF (u_key v) (u_m v) (u_consts v) n (content d p) LC N) as (fa' & fb' & EP' & EM' & LT & _).
  rewrite EP in A. assert (fa' = fa) by congruence. subst fa'. cbn [bind] in A. rewrite EM in A. assert (fb' = fb) by congruence. subst fb'. cbn [bind] in A. rewrite ER in A. cbn [bind] in A. destruct A as [_ A]. exists fb. split; [exact A|exact LT].
Qed.
Lemma overtaken (K : prime_ops) (PF : is_prime_field K) pr p n (u : use K) d : 3 <= n <= 58 -> proper_use n u -> Forall (proper_use n) [u; u] /\ exists d' h r,
  turns (d, map (fun u => Some (use_run pr p n u)) [u; u]) (d', [Some (Halt (Ok ([], [], h))); Some (Halt r)]) /\ exists f, d' p = Some f /\ 8 * length f = (n + 1) * 2 ^ n.
Proof.
  intros N P. split; [constructor; [exact P|constructor; [exact P|constructor]]|]. destruct (C120_wiped K PF pr p n u u d N P P) as (d' & h & T & D). destruct (left_behind K PF pr p n u d N P) as (f & E & L).
  exists d', h, (snd (run (use_run pr p n u) d)). split; [exact T|]. exists f. rewrite D. split; assumption.
Qed.
Example C120_ex : Forall (proper_use 7) [use9; use9] /\ exists d' h r,
  turns ((fun _ => None), map (fun u => Some (use_run (K := FrBls) Debug 0 7 u)) [use9; use9]) (d', [Some (Halt (Ok ([], [], h))); Some (Halt r)]) /\ exists f, d' 0 = Some f /\ 8 * length f = (7 + 1) * 2 ^ 7.
Proof. apply (overtaken FrBls FrBls_prime_field Debug 0 7 use9 (fun _ => None)); [lia|]. split; [reflexivity|]. split; [reflexivity|]. constructor; [apply Nat.ltb_lt; reflexivity|constructor]. Qed.
Print Assumptions C120_ex.
