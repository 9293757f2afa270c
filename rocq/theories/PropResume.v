(** Property C125: unsealing with fewer rounds than sealing.
    Vocabulary: [setting], [sound_key] and [sealable] from SealSpec, the sealing equations
    [seals_block] from SealMeaning ([U k t i] is unit i of block k after t steps of sealing that
    block); [with_rounds P r] is P with r rounds of sealing. *)
From Coq Require Import Znumtheory Lia.
From Verif Require Import Base Sloth Common Depend Prover Verifier SlothFacts BytesFacts CommonFacts SealSpec SealCore SealFile SealTop SealZero SealWitness SealVerify SealMeaning
  PostorageFacts OntoFacts PropOnto PropSeal ResumeFacts.
Local Open Scope nat_scope.

(** Every block of the result is the block as it was after the remaining rounds of its sealing,
    and sealing the result with the fewer rounds gives the sealed file again. *)
Theorem C125_fewer : forall H pr P key iv n m, setting H pr P key n m -> sound_key H key -> mode_l P = 0 ->
  forall r f st, r <= seal_rounds P -> sealable P key n m f -> seal H pr P key iv f = Ok st -> ~ In 0%Z (s_log st) ->
  exists U G st', (forall k, k < n -> seals_block H pr P key iv n m f (s_file st) k (U k)) /\
  unseal H pr (with_rounds P r) key iv (s_file st) = Ok G /\ length G = length f /\ skipn (n * block_pl P) G = skipn (n * block_pl P) f /\
  (forall k i, k < n -> i < m -> unit_bytes P G (k * m + i) = U k ((seal_rounds P - r) * m) i) /\
  seal H pr (with_rounds P r) key iv G = Ok st' /\ s_file st' = s_file st.
Proof. intros H pr P key iv n m SET SK ML r f st RR. exact (fewer H pr P key iv n m SET SK ML r RR f st). Qed.
Print Assumptions C125_fewer.
(** So the mistake can be undone: seal with the fewer rounds, then unseal with all. *)
Theorem C125_undo : forall H pr P key iv n m, setting H pr P key n m -> sound_key H key -> mode_l P = 0 ->
  forall r f st, r <= seal_rounds P -> sealable P key n m f -> seal H pr P key iv f = Ok st -> ~ In 0%Z (s_log st) ->
  exists G st', unseal H pr (with_rounds P r) key iv (s_file st) = Ok G /\ seal H pr (with_rounds P r) key iv G = Ok st' /\
  unseal H pr P key iv (s_file st') = Ok f.
Proof.
  intros H pr P key iv n m SET SK ML r f st RR SE E NZ. destruct (fewer H pr P key iv n m SET SK ML r RR f st SE E NZ) as (U & G & st' & _ & EU & _ & _ & _ & ES & EF).
  exists G, st'. split; [exact EU|]. split; [exact ES|]. rewrite EF. exact (C23_unseal_seal H pr P key iv n m SET f st SK ML SE E NZ).
Qed.
Print Assumptions C125_undo.
(** With no rounds at all sealing and unsealing leave every file as it is. *)
Theorem C125_none : forall H pr P key iv n m, setting H pr P key n m -> seal_rounds P = 0 ->
  (forall f, sealable P key n m f -> exists st, seal H pr P key iv f = Ok st /\ s_file st = f /\ s_ids st = map (fun k => H (block_bytes P f k)) (seq 0 n)) /\
  ((forall d, le2z (H d) < key < 256 ^ Z.of_nat (unit_pl P))%Z -> forall F, n * block_pl P <= length F -> unseal H pr P key iv F = Ok F).
Proof.
  intros H pr P key iv n m SET R. split.
  - intros f SE. destruct (proj2 (seal_iff H pr P key iv n m SET f f SE)) as (st & E & EF).
    + split; [reflexivity|]. split; [reflexivity|]. exists (fun k _ i => unit_bytes P f (k * m + i)). intros k KN. split; [reflexivity|]. split; [reflexivity|]. intros t L. rewrite R in L. lia.
    + exists st. split; [exact E|]. split; [exact EF|]. destruct (seal_total H pr P key iv n m SET f SE) as (s0 & E0 & _ & _ & _ & IDS). rewrite E in E0. injection E0 as <-. now rewrite IDS, EF.
  - intros KB F LF. apply (unseal_iff H pr P key iv n m SET F F KB LF). split; [reflexivity|]. split; [reflexivity|]. exists (fun k _ i => unit_bytes P F (k * m + i)).
    intros k KN. split; [reflexivity|]. split; [reflexivity|]. intros t L. rewrite R in L. lia.
Qed.
Print Assumptions C125_none.

(** Three blocks of two units, two rounds. *)
Definition C125_P : PosPara := ex_params 2 0 0 0 10.
Lemma C125_set : setting hsum Debug C125_P ex_key 3 2.
Proof. apply ex_setting; [apply hsum_32|cbn; lia|cbn; lia]. Qed.
(** One round back, and one round more: neither is the data. *)
Lemma C125_two_goes_b : match seal hsum Debug C125_P ex_key [] ex_file with
  | Ok st => match unseal hsum Debug (with_rounds C125_P 1) ex_key [] (s_file st) with
    | Ok g => match unseal hsum Debug (with_rounds C125_P 1) ex_key [] g with Ok h => no_zero (s_log st) && negb (bytes_eqb g ex_file) && negb (bytes_eqb h ex_file) | Panic => false end
    | Panic => false end
  | Panic => false end = true.
Proof. vm_cast_no_check (@eq_refl bool true). Qed.
(** "Unsealing the rounds in two goes gives the data" is false. *)
Theorem C125_two_goes_refuted : exists H P key n m f st g h, setting H Debug P key n m /\ sound_key H key /\ mode_l P = 0 /\ seal_rounds P = 2 /\ sealable P key n m f /\
  seal H Debug P key [] f = Ok st /\ ~ In 0%Z (s_log st) /\ unseal H Debug (with_rounds P 1) key [] (s_file st) = Ok g /\ g <> f /\
  unseal H Debug (with_rounds P 1) key [] g = Ok h /\ h <> f.
Proof.
  pose proof C125_two_goes_b as B. destruct (seal hsum Debug C125_P ex_key [] ex_file) as [st|] eqn:ES; [|discriminate B].
  destruct (unseal hsum Debug (with_rounds C125_P 1) ex_key [] (s_file st)) as [g|] eqn:EG; [|discriminate B].
  destruct (unseal hsum Debug (with_rounds C125_P 1) ex_key [] g) as [h|] eqn:EH; [|discriminate B].
  apply andb_prop in B as [B B3]. apply andb_prop in B as [B1 B2]. apply Bool.negb_true_iff in B2. apply Bool.negb_true_iff in B3.
  exists hsum, C125_P, ex_key, 3, 2, ex_file, st, g, h. split; [exact C125_set|]. split; [exact ex_sound|]. do 2 (split; [reflexivity|]). split; [apply ex_sealable|].
  split; [exact ES|]. split; [now apply no_zero_ok|]. split; [exact EG|]. split; [now apply bytes_eqb_neq|]. split; [exact EH|now apply bytes_eqb_neq].
Qed.
Print Assumptions C125_two_goes_refuted.
Example C125_ex : exists st G st', seal hsum Debug C125_P ex_key [] ex_file = Ok st /\ unseal hsum Debug (with_rounds C125_P 1) ex_key [] (s_file st) = Ok G /\
  seal hsum Debug (with_rounds C125_P 1) ex_key [] G = Ok st' /\ unseal hsum Debug C125_P ex_key [] (s_file st') = Ok ex_file.
Proof.
  destruct (trial_no_zero _ _ _ _ _ _ run_random) as (st & ES & NZ).
  destruct (C125_undo hsum Debug C125_P ex_key [] 3 2 C125_set ex_sound eq_refl 1 ex_file st ltac:(cbn; lia) (ex_sealable _ _ _ _ _) ES NZ) as (G & st' & EG & E' & EB). eauto 8.
Qed.
Print Assumptions C125_ex.
