(** C104, second part: what the result file of the proof of space says about the samples.

    Reading guide.  [pospace] is the run of C68 without the result file; [groth16] and
    [answerable] are explained there.  A [sample] is what one run draws at random. *)
From Coq Require Import Strings.String Strings.Byte.
From Coq Require Import List.
From Verif Require Import Base Convert Field Mimc Space R1cs Circuits CircuitSpec SpaceRun MimcFacts SpaceFacts R1csFacts PospaceCircuitFacts2 FrField FrFacts PropSpace PropCircuit PropPospace Common Postorage Report SpaceReport.
Local Open Scope nat_scope.

(** Constants of the right number. *)
Definition well_sized {K : prime_ops} (s : @sample K) : Prop := length (df_constants s) = MIMC5_DF_ROUNDS /\ length (hash_constants s) = MIMC5_HASH_ROUNDS.

(** A run appends its report exactly if it ends well, and the report says "50/50" whatever
    happened: no other number gets through the verification. *)
Lemma circuit_arity (K : prime_ops) (G : snark K) (PF : is_prime_field K) (arity : PK G -> nat) dfc hc pk :
  (forall s, setup s = true -> (Z.of_nat (length (cons s)) < 2 ^ 31)%Z -> exists pk, generate G s = Ok pk /\ arity pk = n_inst s) ->
  length dfc = MIMC5_DF_ROUNDS -> length hc = MIMC5_HASH_ROUNDS -> construct_circuit G dfc hc = Ok pk -> arity pk = 53.
Proof.
  intros GEN LC LH E. destruct (pospace_params K PF dfc hc 50 LC LH ltac:(lia)) as (l50 & (s50 & ES & NI & CS) & LL & R & _).
  destruct (GEN s50) as (pk' & EG & AR).
  { clear - ES. pose proof (keeps_pospace K None (repeat None 50) None dfc (repeat None 50) hc (new_cs true) tt s50 ES) as E. exact E. } { rewrite CS, LL. reflexivity. }
  assert (ECC : construct_circuit G dfc hc = Ok pk') by (unfold construct_circuit; change RESPONSE_COUNT with 50; unfold param_circuit in ES; rewrite ES; exact EG).
  rewrite ECC in E. injection E as <-. rewrite AR, NI. reflexivity.
Qed.
Theorem C104_space_sample : forall (K : prime_ops) (G : snark K), is_prime_field K -> groth16 K G -> forall pr f s, well_sized s -> forall f2 text,
  pospace_saving G pr f s = Ok (f2, text) <->
  pospace G pr f (df_constants s) (hash_constants s) (s_key s) (s_m s) (s_rnd s) = Ok f2 /\ text = space_lines 50 (s_times s).
Proof.
  intros K G PF (arity & GEN & _ & CHK) pr f s [LC LH] f2 text. unfold pospace_saving, pospace. generalize SPACE_N, CHALLENGE_COUNT. intros N C.
  destruct (prepare_space pr f N) as [fa|]; [|split; [discriminate|intros [E _]; discriminate]]. cbn [bind].
  destruct (mark_space pr fa (s_key s) (s_m s) (df_constants s) N) as [fb|]; [|split; [discriminate|intros [E _]; discriminate]]. cbn [bind].
  destruct (create_challenges pr (s_rnd s) C N) as [ch|]; [|split; [discriminate|intros [E _]; discriminate]]. cbn [bind].
  destruct (response_1 pr fb ch (s_key s) (hash_constants s) N) as [[[x idx] h]|]; [|split; [discriminate|intros [E _]; discriminate]]. cbn [bind].
  destruct (construct_circuit G (df_constants s) (hash_constants s)) as [pk|] eqn:EC; [|split; [discriminate|intros [E _]; discriminate]]. cbn [bind].
  destruct (response_2 _ _ _ _ _ _ _ _ _) as [p|]; [|split; [discriminate|intros [E _]; discriminate]]. cbn [bind].
  destruct (verify (check G) pk p (s_key s) (s_m s) ch idx h) as [[]|] eqn:V; [|split; [discriminate|intros [E _]; discriminate]]. cbn [bind].
  apply (C64_arity K (PK G) (PROOF G) arity (check G) CHK) in V. destruct V as [_ V]. rewrite (circuit_arity K G PF arity _ _ pk GEN LC LH EC) in V. assert (L : length idx = 50) by lia. rewrite L.
  split; [|intros [E ->]; now injection E as ->]. intros E. generalize dependent (space_lines 50 (s_times s)). intros t E. injection E as -> ->. auto.
Qed.
Print Assumptions C104_space_sample.

(** The text of a report, line by line. *)
Theorem C104_space_text : forall t, space_lines 50 t = concat (map (fun l => l ++ newline)
  [txt "N, 20, data len (byte), 2752512, vde round, 10"; txt "challenge count, 100, response count, 50, success rate, 50/50";
   txt "[P] Prepare space, " ++ c1 t; txt "[P] Mark space, " ++ c2 t; txt "df cost, " ++ c_df t ++ txt ", file cost, " ++ c_file t; txt "[V] Create challenges, " ++ c3 t;
   txt "[P] -- Response 1 (return index and hash), " ++ c4 t; txt "[P] -- Response 2 (create params), " ++ c5 t; txt "[P] -- Response 2 (create proof), " ++ c6 t;
   txt "[V] Verify, " ++ c7 t; []]).
Proof.
  intros t. assert (E1 : txt "N, " ++ num SPACE_N ++ txt ", data len (byte), " ++ decimal ((Z.of_nat SPACE_N + 1) * 2 ^ Z.of_nat SPACE_N / 8) ++ txt ", vde round, " ++ num MIMC5_DF_ROUNDS =
    txt "N, 20, data len (byte), 2752512, vde round, 10") by (vm_compute; reflexivity).
  assert (E2 : txt "challenge count, " ++ num CHALLENGE_COUNT ++ txt ", response count, " ++ num RESPONSE_COUNT ++ txt ", success rate, " ++ num 50 ++ txt "/" ++ num RESPONSE_COUNT =
    txt "challenge count, 100, response count, 50, success rate, 50/50") by (vm_compute; reflexivity).
  unfold space_lines. cbn [map concat]. rewrite <- E1, <- E2, <- !app_assoc, !app_nil_r. reflexivity.
Qed.
Print Assumptions C104_space_text.

(** Samples one after the other.  [ends_well]: 50 of the 100 challenges of the sample are
    answerable.  The result file gets one report for each sample up to the first that does
    not end well, where the whole run stops; neither the space file left by earlier
    samples nor the old reports have an influence. *)
Definition ends_well {K : prime_ops} (pr : profile) (s : @sample K) : Prop :=
  exists challenges l, create_challenges pr (s_rnd s) 100 SPACE_N = Ok challenges /\
  NoDup l /\ length l = 50 /\ Forall (answerable K (s_key s) (s_m s) (df_constants s) challenges) l.
Lemma bounded_dec (P : nat -> Prop) n : (forall x, P x \/ ~ P x) -> (exists x, x < n /\ P x) \/ ~ (exists x, x < n /\ P x).
Proof.
  intros D. induction n as [|n [(x & L & Q)|N]]; [right; intros (x & L & _); lia|left; exists x; split; [lia|exact Q]|]. destruct (D n) as [Q|Q]; [left; exists n; split; [lia|exact Q]|].
  right. intros (x & L & X). assert (x = n \/ x < n) as [->|L'] by lia; [contradiction|]. apply N. eauto.
Qed.
Lemma answerable_dec (K : prime_ops) (key m : K) dfc ch i : answerable K key m dfc ch i \/ ~ answerable K key m dfc ch i.
Proof.
  unfold answerable. generalize SPACE_N. intros e. destruct (nth_error ch i) as [z|]; [|right; intros (yn & x & E & _); discriminate].
  destruct (bounded_dec (fun x => maps_to K key m dfc e x (Z.to_nat z)) (2 ^ e)) as [(x & L & M)|N].
  - intros x. unfold maps_to. destruct (mimc5_df _ m dfc) as [v|]; [|right; intros (v & E & _); discriminate].
    destruct (Z.eq_dec (repr v mod 2 ^ Z.of_nat e) (Z.of_nat (Z.to_nat z))) as [E|E]; [left; exists v; auto|right; intros (v' & E' & X); injection E' as <-; contradiction].
  - destruct (Z_lt_le_dec z 0) as [C|C]; [right; intros (yn & x' & E & _); injection E as E; lia|]. left. exists (Z.to_nat z), x. split; [now rewrite Z2Nat.id|auto].
  - right. intros (yn & x & E & L & M). injection E as ->. apply N. exists x. rewrite Nat2Z.id. auto.
Qed.
Lemma dec_ends (A : nat -> Prop) n k : (forall i, A i \/ ~ A i) -> (forall i, A i -> i < n) -> ~ ~ (exists l, NoDup l /\ length l = k /\ Forall A l) -> exists l, NoDup l /\ length l = k /\ Forall A l.
Proof.
  intros D B NN. assert (X : forall n, exists l, NoDup l /\ forall i, In i l <-> i < n /\ A i).
  { clear - D. intros n. induction n as [|n (l & ND & IL)]; [exists []; split; [constructor|intros i; cbn; lia]|]. destruct (D n) as [Q|Q].
    - exists (n :: l). split; [constructor; [intros I; apply IL in I; lia|exact ND]|]. intros i. cbn [In]. rewrite IL. split; [intros [<-|[L R]]; split; auto; lia|]. intros [L R]. destruct (Nat.eq_dec n i); [auto|right; split; [lia|exact R]].
    - exists l. split; [exact ND|]. intros i. rewrite IL. split; intros [L R]; (split; [|exact R]); [lia|]. assert (i <> n) by (intros ->; contradiction). lia. }
  destruct (X n) as (l & ND & IL). destruct (le_lt_dec k (length l)) as [C|C].
  - exists (firstn k l). split; [rewrite <- (firstn_skipn k l) in ND; revert ND; generalize (firstn k l) (skipn k l); clear; intros a b N; induction a as [|x a IH]; [constructor|]; cbn in N; inversion N; subst; constructor; [intros I; destruct H1; apply in_or_app; now left|auto]|].
    split; [rewrite firstn_length; lia|]. apply Forall_forall. intros i I. apply IL. rewrite <- (firstn_skipn k l). apply in_or_app. now left.
  - exfalso. apply NN. intros (l' & ND' & L' & F). assert (I : incl l' l) by (intros i I; apply IL; rewrite Forall_forall in F; split; [apply B|]; now apply F). pose proof (NoDup_incl_length ND' I). lia.
Qed.
Lemma sample_ends (K : prime_ops) (G : snark K) (PF : is_prime_field K) (GR : groth16 K G) pr f s : well_sized s ->
  (exists f2, pospace_saving G pr f s = Ok (f2, space_lines 50 (s_times s)) /\ ends_well pr s) \/ (pospace_saving G pr f s = Panic /\ ~ ends_well pr s).
Proof.
  intros W. pose proof (C104_space_sample K G PF GR pr f s W) as SA. destruct W as [LC LH].
  destruct (C68_run K G PF GR pr f (df_constants s) (hash_constants s) (s_key s) (s_m s) (s_rnd s) LC LH) as (ch & f2 & EC & YES & NO).
  assert (EW : ends_well pr s <-> exists l, NoDup l /\ length l = 50 /\ Forall (answerable K (s_key s) (s_m s) (df_constants s) ch) l).
  { unfold ends_well. split; [intros (ch' & l & EC' & R); rewrite EC in EC'; injection EC' as <-; eauto|intros (l & R); eauto]. }
  destruct (pospace_saving G pr f s) as [[f3 text]|] eqn:E.
  - left. destruct (proj1 (SA f3 text) eq_refl) as [EP ->]. exists f3. split; [reflexivity|]. apply EW.
    assert (DN : ~ ~ exists l, NoDup l /\ length l = 50 /\ Forall (answerable K (s_key s) (s_m s) (df_constants s) ch) l) by (intros N; rewrite (NO N) in EP; discriminate).
    apply (dec_ends _ (length ch)); [intros i; apply answerable_dec|intros i (yn & x & X & _); apply nth_error_Some; congruence|exact DN].
  - right. split; [reflexivity|]. intros X. apply EW in X. specialize (YES X). pose proof (proj2 (SA f2 _) (conj YES eq_refl)). discriminate.
Qed.
Theorem C104_space_run : forall (K : prime_ops) (G : snark K), is_prime_field K -> groth16 K G -> forall pr samples, Forall well_sized samples ->
  forall f result, exists k,
  fst (test_pospace G pr samples f result) = result ++ concat (map (fun s => space_lines 50 (s_times s)) (firstn k samples)) /\
  Forall (ends_well pr) (firstn k samples) /\
  ((k = length samples /\ snd (test_pospace G pr samples f result) <> Panic) \/
   (exists s, nth_error samples k = Some s /\ ~ ends_well pr s /\ snd (test_pospace G pr samples f result) = Panic)).
Proof.
  intros K G PF GR pr samples. induction samples as [|s rest IH]; intros F f result.
  - exists 0. cbn [test_pospace fst snd firstn map concat length]. rewrite app_nil_r. split; [reflexivity|]. split; [constructor|]. left. split; [reflexivity|discriminate].
  - inversion F as [|? ? W FR]; subst. cbn [test_pospace]. destruct (sample_ends K G PF GR pr f s W) as [(f2 & E & EW)|(E & NW)]; rewrite E.
    + destruct (IH FR f2 (result ++ space_lines 50 (s_times s))) as (k & E1 & E2 & E3). exists (S k). cbn [firstn map concat]. rewrite E1, <- app_assoc. split; [reflexivity|]. split; [constructor; assumption|].
      destruct E3 as [[-> E3]|E3]; [left; split; [reflexivity|exact E3]|right; exact E3].
    + exists 0. cbn [fst snd firstn map concat]. rewrite app_nil_r. split; [reflexivity|]. split; [constructor|]. right. exists s. auto.
Qed.
Print Assumptions C104_space_run.
(** Samples that end well exist for every key (C68_example_run). *)
Example C104_space_ex : forall (K : prime_ops), is_prime_field K -> forall pr (key m : K) dfc hc t, length dfc = MIMC5_DF_ROUNDS -> length hc = MIMC5_HASH_ROUNDS ->
  exists rnd, let s := mkSample dfc hc key m rnd t in well_sized s /\ ends_well pr s.
Proof.
  intros K PF pr key m dfc hc t LC LH. destruct (C68_example_run K PF pr key m dfc LC) as (rnd & ch & EC & F & N). exists rnd. split; [split; assumption|].
  exists ch, (seq 0 50). split; [exact EC|]. split; [exact N|]. split; [apply seq_length|exact F].
Qed.
