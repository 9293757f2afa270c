(** Properties C60-C63 and C68-C69: the proof-of-space circuit and a whole run. *)
From Coq Require Import Ring.
From Verif Require Import Base Convert Field Mimc Space R1cs Circuits CircuitSpec SpaceRun MimcFacts SpaceFacts R1csFacts PospaceCircuitFacts2 FrField FrFacts PropSpace PropCircuit.

(** yn is the low 20 bits of the delay function at key + x. *)
Definition yn_for (K : prime_ops) (consts : list K) (key m x yn : K) : Prop :=
  exists y, mimc5_df (fadd key x) m consts = Ok y /\ yn = of_Z (repr y mod 2 ^ 20).
(** The circuit as used for parameter generation with n responses, and for proving. *)
Definition param_circuit (K : prime_ops) (dfc hc : list K) (n : nat) : M K unit := pospace_circuit None (repeat None n) None dfc (repeat None n) hc.
Definition prove_circuit (K : prime_ops) (dfc hc : list K) (key m : K) (xs yns : list K) : M K unit :=
  pospace_circuit (Some key) (map Some xs) (Some m) dfc (map Some yns) hc.

Section Pospace.
Context (K : prime_ops) (PF : is_prime_field K).
Let HK : is_ring K := F_R (pf_field K PF).
Lemma yn_for_iff consts key m xs yns : length consts = MIMC5_DF_ROUNDS ->
  (Forall2 (yn_for K consts key m) xs yns <-> yns = map (fun x => df_low consts key x m) xs).
Proof.
  intros LC. assert (Y : forall x y, yn_for K consts key m x y <-> y = df_low consts key x m).
  { intros x y. unfold yn_for. rewrite (mimc5_df_ok HK) by exact LC. split; [intros (v & [= <-] & E); exact E|intros ->; eexists; split; reflexivity]. }
  revert yns. induction xs as [|x xs IH]; intros yns; cbn [map]; split.
  - now inversion 1.
  - intros ->. constructor.
  - inversion 1; subst. f_equal; [now apply Y|now apply IH].
  - intros ->. constructor; [now apply Y|now apply IH].
Qed.
Lemma pospace_params dfc hc n : length dfc = MIMC5_DF_ROUNDS -> length hc = MIMC5_HASH_ROUNDS -> 0 < n -> exists l,
  params (param_circuit K dfc hc n) (3 + n) l /\ length l = 904 * n /\
  (forall key m xs yns h, length xs = n -> length yns = n -> multi_mimc5_hash xs key hc = Ok h -> exists s, prove_circuit K dfc hc key m xs yns (new_cs false) = Ok (tt, s) /\
     inst_val s = [key; m] ++ yns ++ [h] /\ n_inst s = 3 + n /\ cons s = l /\ (sat (asg s) l <-> Forall2 (yn_for K dfc key m) xs yns)) /\
  (forall key m xs yns h, length xs = n -> length yns = n -> exists a : var -> K, a One = f1 /\ insts a 0 ([key; m] ++ yns ++ [h]) /\ sat a l /\ PowCircuitFacts.bit_wires a 0 866 n = xs).
Proof.
  intros LC LH NP. destruct n as [|N]; [lia|]. destruct (pospace_spec PF dfc hc LC LH N) as (l & SC & LL & R & X). exists l. split; [|split; [exact LL|split]].
  - destruct (R (new_cs true) None None (repeat None (S N)) (repeat None (S N)) [] f0 f0 (repeat f0 (S N)) (repeat f0 (S N))) as (ws & _ & E & _); try reflexivity; try apply repeat_length.
    { rewrite <- (repeat_length (f0 : K) (S N)) at 1. apply forall2_None. } { rewrite <- (repeat_length (f0 : K) (S N)) at 1. apply forall2_None. }
    rewrite app_nil_r in E. eexists. split; [exact E|]. split; [|reflexivity]. rewrite ext_inst, !app_length, repeat_length. cbn. lia.
  - intros key m xs yns h LX LY EH. rewrite (multi_mimc5_ok HK) in EH by exact LH. injection EH as <-.
    destruct (R (new_cs false) (Some key) (Some m) (map Some xs) (map Some yns) [] key m xs yns) as (ws & _ & E & C); try reflexivity; try (now rewrite map_length); try apply forall2_Some.
    rewrite app_nil_r in E. set (s := ext _ _ _ _) in *. exists s. split; [exact E|]. split; [reflexivity|]. split; [|split; [reflexivity|]].
    + unfold s. rewrite ext_inst, !app_length. rewrite LY. cbn. lia.
    + rewrite (yn_for_iff dfc key m xs yns LC). apply C; [reflexivity|apply (asg_insts s)|apply (asg_wits s)].
  - intros key m xs yns h LX LY. destruct (X key m xs yns h xs LX LY LX) as (a & A1 & AI & SA & BW & _). exists a. auto.
Qed.
End Pospace.

Lemma keeps_forM (K : ops) (A S : Type) (f : S -> A -> M K S) : (forall st x, keeps_mode (f st x)) -> forall l st, keeps_mode (forM f l st).
Proof. intros F l. induction l as [|x l IH]; intros st; cbn [forM]; [apply keeps_ret|]. apply keeps_bind; [apply F|intros st'; apply IH]. Qed.
Ltac keeps_all := repeat match goal with
  | |- keeps_mode (bindM _ _) => apply keeps_bind; [|intros ?]
  | |- keeps_mode (new_witness _) => apply keeps_witness
  | |- keeps_mode (new_input _) => apply keeps_input
  | |- keeps_mode (enforce _ _ _) => apply keeps_enforce
  | |- keeps_mode (lift _) => apply keeps_lift
  | |- keeps_mode (ret _) => apply keeps_ret
  | |- keeps_mode (forM _ _ _) => apply keeps_forM; intros ? ?
  | |- keeps_mode (match ?x with _ => _ end) => destruct x
  end.
Lemma keeps_pospace (K : prime_ops) (key : option K) xs m dfc yns hc : keeps_mode (pospace_circuit key xs m dfc yns hc).
Proof. unfold pospace_circuit, hash_blocks, hash_block, hash5_round, hash_t, response_part, df5_round, y_part, yn_part, bit_step. keeps_all. Qed.

(** * C60: completeness *)
Theorem C60_complete : forall K : prime_ops, is_prime_field K -> forall dfc hc n, length dfc = MIMC5_DF_ROUNDS -> length hc = MIMC5_HASH_ROUNDS -> 0 < n ->
  exists l, params (param_circuit K dfc hc n) (3 + n) l /\
  forall key m xs yns h, length xs = n -> Forall2 (yn_for K dfc key m) xs yns -> multi_mimc5_hash xs key hc = Ok h ->
    proves (prove_circuit K dfc hc key m xs yns) l ([key; m] ++ yns ++ [h]).
Proof.
  intros K PF dfc hc n LC LH NP. destruct (pospace_params K PF dfc hc n LC LH NP) as (l & P & _ & R & _). exists l. split; [exact P|]. intros key m xs yns h LX F EH.
  assert (LY : length yns = n) by (rewrite <- LX; clear - F; induction F; cbn; congruence). destruct (R key m xs yns h LX LY EH) as (s & E & I & _ & C & IFF). exists s. rewrite IFF. auto.
Qed.
Print Assumptions C60_complete.
(** And the values computed by the code satisfy the constraints only in that case. *)
Theorem C60_wrong_yn : forall K : prime_ops, is_prime_field K -> forall dfc hc, length dfc = MIMC5_DF_ROUNDS -> length hc = MIMC5_HASH_ROUNDS ->
  forall key m xs yns, xs <> [] -> length yns = length xs -> ~ Forall2 (yn_for K dfc key m) xs yns ->
  exists s, prove_circuit K dfc hc key m xs yns (new_cs false) = Ok (tt, s) /\ ~ sat (asg s) (cons s).
Proof.
  intros K PF dfc hc LC LH key m xs yns XN LY NF. assert (NP : 0 < length xs) by (destruct xs; [easy|cbn; lia]). destruct (pospace_params K PF dfc hc (length xs) LC LH NP) as (l & _ & _ & R & _).
  destruct (R key m xs yns (mimc_chain 5 hc key xs) eq_refl LY) as (s & E & _ & _ & C & IFF). { apply multi_mimc5_ok; [exact (F_R (pf_field K PF))|exact LH]. }
  exists s. rewrite C, IFF. auto.
Qed.
Print Assumptions C60_wrong_yn.
(** Fewer yn than responses: synthesis panics. *)
Lemma bindM_panic (K : ops) (A B : Type) (m : M K A) (k : A -> M K B) s : (forall a s', k a s' = Panic) -> bindM m k s = Panic.
Proof. intros E. rewrite bindM_run. destruct (m s) as [[a s']|]; [apply E|reflexivity]. Qed.
Lemma forM_panics (K : ops) (A S : Type) (f : S -> A -> M K S) l x : In x l -> (forall st s, f st x s = Panic) -> forall st s, forM f l st s = Panic.
Proof.
  intros I FX. induction l as [|y l IH]; [easy|]. intros st s. cbn [forM]. destruct I as [->|I]; [rewrite bindM_run; now rewrite FX|]. apply bindM_panic. intros st' s'. now apply IH.
Qed.
Theorem C60_missing_yn : forall K : prime_ops, forall dfc hc (key m : option K) xs yns s, length yns < length xs -> pospace_circuit key xs m dfc yns hc s = Panic.
Proof.
  intros K dfc hc key m xs yns s L. unfold pospace_circuit. destruct (_ && _); [|reflexivity]. apply bindM_panic. intros kv s1. apply bindM_panic. intros mv s2. rewrite bindM_run.
  rewrite (forM_panics _ _ _ _ _ (length yns)); [reflexivity|apply in_seq; lia|]. intros u s3. apply bindM_panic. intros x s4. unfold response_part. apply bindM_panic. intros w s5. apply bindM_panic. intros xl s6. apply bindM_panic. intros xw s7. apply bindM_panic. intros e s8. apply bindM_panic. intros xr s9. apply bindM_panic.
  intros [[[v1 o1] v2] o2] s10. rewrite bindM_run. unfold lift, index. rewrite (proj2 (nth_error_None yns (length yns))) by lia. reflexivity.
Qed.
Print Assumptions C60_missing_yn.
(** Without responses there is nothing to prove. *)
Theorem C60_no_responses : forall K : prime_ops, forall dfc hc (key m : K) yns, length dfc = MIMC5_DF_ROUNDS -> length hc = MIMC5_HASH_ROUNDS ->
  proves (prove_circuit K dfc hc key m [] yns) [] [key; m].
Proof.
  intros K dfc hc key m yns LC LH. eexists. split; [apply (pospace_empty dfc hc (new_cs false) (Some key) (Some m) (map Some yns) key m LC LH); reflexivity|]. split; [reflexivity|]. split; [reflexivity|constructor].
Qed.
Print Assumptions C60_no_responses.
Example C60_example : is_prime_field FrBls /\ exists (xs yns : list FrBls) h, length xs = 2 /\ Forall2 (yn_for FrBls zero_consts (fr 1) (fr 2)) xs yns /\
  multi_mimc5_hash xs (fr 1) zero_consts = Ok h.
Proof.
  split; [exact FrBls_prime_field|]. exists [fr 3; fr 4], (map (fun x => df_low (K := FrBls) zero_consts (fr 1) x (fr 2)) [fr 3; fr 4]), (mimc_chain (K := FrBls) 5 zero_consts (fr 1) [fr 3; fr 4]). split; [reflexivity|]. split.
  - apply (yn_for_iff FrBls FrBls_prime_field); reflexivity.
  - exact (multi_mimc5_ok FrBls_ring [fr 3; fr 4] (fr 1) zero_consts eq_refl).
Qed.

(** * C61: every public statement is accepted *)
Theorem C61_every_statement : forall K : prime_ops, is_prime_field K -> forall dfc hc n l, length dfc = MIMC5_DF_ROUNDS -> length hc = MIMC5_HASH_ROUNDS -> 0 < n ->
  params (param_circuit K dfc hc n) (3 + n) l -> forall key m yns h, length yns = n -> accepts l ([key; m] ++ yns ++ [h]).
Proof.
  intros K PF dfc hc n l LC LH NP P key m yns h LY. destruct (pospace_params K PF dfc hc n LC LH NP) as (l' & P' & _ & _ & X). destruct (params_fun K _ _ _ _ _ P P') as [-> _].
  destruct (X key m yns yns h LY LY) as (a & A1 & AI & SA & _). exists a. split; [exact A1|]. split; [exact AI|exact SA].
Qed.
Print Assumptions C61_every_statement.
(** Even with all x wires prescribed (they are wires 0, 866, 1732, ...): the public values
    need not be related to them. *)
Theorem C61_any_x : forall K : prime_ops, is_prime_field K -> forall dfc hc n l, length dfc = MIMC5_DF_ROUNDS -> length hc = MIMC5_HASH_ROUNDS -> 0 < n ->
  params (param_circuit K dfc hc n) (3 + n) l -> forall key m xs yns h, length xs = n -> length yns = n ->
  exists a : var -> K, a One = f1 /\ (forall i v, nth_error ([key; m] ++ yns ++ [h]) i = Some v -> a (Inst i) = v) /\ sat a l /\
    forall i x, nth_error xs i = Some x -> a (Wit (866 * i)) = x.
Proof.
  intros K PF dfc hc n l LC LH NP P key m xs yns h LX LY. destruct (pospace_params K PF dfc hc n LC LH NP) as (l' & P' & _ & _ & X). destruct (params_fun K _ _ _ _ _ P P') as [-> _].
  destruct (X key m xs yns h LX LY) as (a & A1 & AI & SA & BW). exists a. split; [exact A1|]. split; [exact AI|]. split; [exact SA|]. intros i x I. exact (bit_wire K a 0 866 n xs i x BW I).
Qed.
Print Assumptions C61_any_x.
(** In the protocol: for any 50 challenge indices and any hash, the input assembled by the
    verifier is accepted by the constraints the parameters are generated from, although
    no space was used. *)
Lemma yns_of (K : prime_ops) (challenges : list Z) idxs : Forall (fun i => i < length challenges) idxs -> exists yns : list K, length yns = length idxs /\
  (forall j i, nth_error idxs j = Some i -> exists c, nth_error challenges i = Some c /\ nth_error yns j = Some (of_Z c)) /\
  mapM (fun i => let* yn := index challenges i in Ok (of_Z yn)) idxs = Ok yns /\ response_yn challenges idxs = Ok (map Some yns).
Proof.
  induction 1 as [|i idxs I F IH]; [exists []; split; [reflexivity|split; [intros [|j] i; discriminate|split; reflexivity]]|]. destruct IH as (yns & L & N & E1 & E2).
  destruct (nth_error challenges i) as [c|] eqn:E; [|apply nth_error_None in E; lia]. exists (of_Z c :: yns). split; [cbn; lia|]. split; [|split].
  - intros [|j] i' EI; [injection EI as <-; exists c; split; [exact E|reflexivity]|]. now apply N.
  - cbn [mapM]. unfold index at 1. rewrite E. cbn [bind]. now rewrite E1.
  - unfold response_yn. cbn [mapM map]. unfold index at 1. rewrite E. cbn [bind]. unfold response_yn in E2. now rewrite E2.
Qed.
Theorem C61_no_space_needed : forall K : prime_ops, is_prime_field K -> forall dfc hc l, length dfc = MIMC5_DF_ROUNDS -> length hc = MIMC5_HASH_ROUNDS ->
  params (param_circuit K dfc hc 50) 53 l -> forall key m challenges idxs h, length idxs = 50 -> Forall (fun i => i < length challenges) idxs ->
  exists input, verify_input key m challenges idxs h = Ok input /\ accepts l input.
Proof.
  intros K PF dfc hc l LC LH P key m challenges idxs h LI F. destruct (yns_of K challenges idxs F) as (yns & L & _ & E & _). exists ([key; m] ++ yns ++ [h]). split.
  - unfold verify_input. now rewrite E.
  - apply (C61_every_statement K PF dfc hc 50 l LC LH ltac:(lia) P). lia.
Qed.
Print Assumptions C61_no_space_needed.
(** The expected soundness is therefore false: accepted statements need not have any x. *)
Theorem C61_soundness_refuted : exists dfc hc (key m : FrBls) yn h l, length dfc = MIMC5_DF_ROUNDS /\ length hc = MIMC5_HASH_ROUNDS /\
  params (param_circuit FrBls dfc hc 1) 4 l /\ accepts l [key; m; yn; h] /\ forall x, ~ yn_for FrBls dfc key m x yn.
Proof.
  destruct (pospace_params FrBls FrBls_prime_field zero_consts zero_consts 1 eq_refl eq_refl ltac:(lia)) as (l & P & _).
  exists zero_consts, zero_consts, (fr 1), (fr 2), (fr (2 ^ 20)), (fr 7), l. split; [reflexivity|]. split; [reflexivity|]. split; [exact P|]. split.
  - exact (C61_every_statement FrBls FrBls_prime_field zero_consts zero_consts 1 l eq_refl eq_refl ltac:(lia) P (fr 1) (fr 2) [fr (2 ^ 20)] (fr 7) eq_refl).
  - intros x (y & _ & E). apply (f_equal repr) in E. rewrite !(pf_repr_of FrBls FrBls_prime_field) in E. assert (M : (2 ^ 20 < modulus FrBls)%Z) by reflexivity.
    assert (B : (0 <= repr y mod 2 ^ 20 < 2 ^ 20)%Z) by (apply Z.mod_pos_bound; lia). rewrite (Z.mod_small (2 ^ 20)) in E by (split; [lia|exact M]). rewrite (Z.mod_small (repr y mod 2 ^ 20)) in E by (destruct B; split; [assumption|eapply Z.lt_trans; eassumption]).
    rewrite <- E in B. destruct B as [_ B]. exact (Z.lt_irrefl _ B).
Qed.
Print Assumptions C61_soundness_refuted.

(** * C62: the order of the public inputs *)
Theorem C62_order : forall K : prime_ops, is_prime_field K -> forall dfc hc, length dfc = MIMC5_DF_ROUNDS -> length hc = MIMC5_HASH_ROUNDS ->
  forall (key m : K) xs challenges idxs h, xs <> [] -> length idxs = length xs -> Forall (fun i => i < length challenges) idxs -> multi_mimc5_hash xs key hc = Ok h ->
  exists input yns s, verify_input key m challenges idxs h = Ok input /\ response_yn challenges idxs = Ok yns /\
    pospace_circuit (Some key) (map Some xs) (Some m) dfc yns hc (new_cs false) = Ok (tt, s) /\ inst_val s = input /\ length input = 3 + length xs /\ n_inst s = 3 + length xs.
Proof.
  intros K PF dfc hc LC LH key m xs challenges idxs h XN LI F EH. assert (NP : 0 < length xs) by (destruct xs; [easy|cbn; lia]). destruct (pospace_params K PF dfc hc (length xs) LC LH NP) as (l & _ & _ & R & _).
  destruct (yns_of K challenges idxs F) as (yns & L & _ & E1 & E2). destruct (R key m xs yns h eq_refl ltac:(lia) EH) as (s & E & I & NI & _).
  exists ([key; m] ++ yns ++ [h]), (map Some yns), s. split; [unfold verify_input; now rewrite E1|]. split; [exact E2|]. split; [exact E|]. split; [exact I|]. split; [|exact NI]. rewrite !app_length. cbn [length]. lia.
Qed.
Print Assumptions C62_order.
(** The first two, the i-th yn and the last one by position. *)
Theorem C62_positions : forall K : prime_ops, is_prime_field K -> forall dfc hc, length dfc = MIMC5_DF_ROUNDS -> length hc = MIMC5_HASH_ROUNDS ->
  forall (key m : K) xs yns h s, xs <> [] -> length yns = length xs -> multi_mimc5_hash xs key hc = Ok h ->
  prove_circuit K dfc hc key m xs yns (new_cs false) = Ok (tt, s) ->
  asg s (Inst 0) = key /\ asg s (Inst 1) = m /\ (forall i y, nth_error yns i = Some y -> asg s (Inst (2 + i)) = y) /\ asg s (Inst (2 + length xs)) = h /\ n_inst s = 3 + length xs.
Proof.
  intros K PF dfc hc LC LH key m xs yns h s XN LY EH ES. assert (NP : 0 < length xs) by (destruct xs; [easy|cbn; lia]). destruct (pospace_params K PF dfc hc (length xs) LC LH NP) as (l & _ & _ & R & _).
  destruct (R key m xs yns h eq_refl LY EH) as (s' & E & I & NI & _). assert (s' = s) by congruence. subst s'. pose proof (asg_insts s) as A. rewrite I in A. split; [now apply (A 0)|]. split; [now apply (A 1)|]. split; [|split; [|exact NI]].
  - intros i y EI. apply (A (2 + i)). cbn [app nth_error Nat.add]. rewrite nth_error_app1; [exact EI|]. apply nth_error_Some. congruence.
  - apply (A (2 + length xs)). cbn [app nth_error Nat.add]. rewrite <- LY, nth_error_app2, Nat.sub_diag by lia. reflexivity.
Qed.
Print Assumptions C62_positions.
Example C62_example : verify_input (K := FrBls) (fr 1) (fr 2) [7%Z; 8%Z; 9%Z] [0; 2] (fr 5) = Ok [fr 1; fr 2; fr 7; fr 9; fr 5].
Proof. reflexivity. Qed.

(** * C63: the shape of the circuit *)
Theorem C63_shape : forall K : prime_ops, is_prime_field K -> forall dfc hc n, length dfc = MIMC5_DF_ROUNDS -> length hc = MIMC5_HASH_ROUNDS -> 0 < n ->
  exists l, params (param_circuit K dfc hc n) (3 + n) l /\ length l = 904 * n /\
  forall key m xs yns, length xs = n -> length yns = n -> exists s, prove_circuit K dfc hc key m xs yns (new_cs false) = Ok (tt, s) /\ cons s = l /\ n_inst s = 3 + n.
Proof.
  intros K PF dfc hc n LC LH NP. destruct (pospace_params K PF dfc hc n LC LH NP) as (l & P & LL & R & _). exists l. split; [exact P|]. split; [exact LL|]. intros key m xs yns LX LY.
  destruct (R key m xs yns (mimc_chain 5 hc key xs) LX LY) as (s & E & _ & NI & C & _). { apply multi_mimc5_ok; [exact (F_R (pf_field K PF))|exact LH]. } exists s. auto.
Qed.
Print Assumptions C63_shape.
Theorem C63_different_numbers : forall K : prime_ops, is_prime_field K -> forall dfc hc n n' i i' l l', length dfc = MIMC5_DF_ROUNDS -> length hc = MIMC5_HASH_ROUNDS ->
  params (param_circuit K dfc hc n) i l -> params (param_circuit K dfc hc n') i' l' -> n <> n' -> length l <> length l' /\ i <> i'.
Proof.
  intros K PF dfc hc n n' i i' l l' LC LH P P' NE.
  assert (Q : forall n i l, params (param_circuit K dfc hc n) i l -> length l = 904 * n /\ (i = 3 + n \/ (n = 0 /\ i = 2))).
  { intros k j c Q. destruct (Nat.eq_dec k 0) as [->|NZ].
    - destruct Q as (s & E & NI & C). unfold param_circuit in E. cbn [repeat] in E. rewrite (pospace_empty dfc hc (new_cs true) None None [] f0 f0 LC LH) in E by reflexivity. injection E as <-. rewrite ext_inst in NI. cbn in NI, C. subst. split; [reflexivity|auto].
    - destruct (pospace_params K PF dfc hc k LC LH ltac:(lia)) as (c' & Q' & LL & _). destruct (params_fun K _ _ _ _ _ Q Q') as [-> ->]. auto. }
  destruct (Q _ _ _ P) as [L I], (Q _ _ _ P') as [L' I']. split; [nia|lia].
Qed.
Print Assumptions C63_different_numbers.
(** A wrong number of constants: synthesis panics, in both modes. *)
Theorem C63_wrong_constants : forall K : prime_ops, forall dfc hc (key m : option K) xs yns s, length dfc <> MIMC5_DF_ROUNDS \/ length hc <> MIMC5_HASH_ROUNDS ->
  pospace_circuit key xs m dfc yns hc s = Panic.
Proof.
  intros K dfc hc key m xs yns s [L|L]; unfold pospace_circuit; rewrite (proj2 (Nat.eqb_neq _ _) L); [reflexivity|]. now rewrite Bool.andb_false_r.
Qed.
Print Assumptions C63_wrong_constants.
Example C63_example : length zero_consts = MIMC5_DF_ROUNDS /\ length zero_consts = MIMC5_HASH_ROUNDS /\ Forall (fun i => i < 100) (seq 0 50).
Proof. split; [reflexivity|]. split; [reflexivity|]. apply Forall_forall. intros i I. apply in_seq in I. lia. Qed.

(** * C68: a whole run *)
(** What is used of the Groth16 library: parameters can be generated for fewer than 2^31
    constraints, and record the number of public inputs; a proof can be computed for values
    that satisfy the constraints; verification reports an error (as opposed to an invalid
    proof) exactly when the number of inputs is wrong. *)
Definition groth16 (K : prime_ops) (G : snark K) : Prop := exists arity : PK G -> nat,
  (forall s, setup s = true -> (Z.of_nat (length (cons s)) < 2 ^ 31)%Z -> exists pk, generate G s = Ok pk /\ arity pk = n_inst s) /\
  (forall pk s, sat (asg s) (cons s) -> exists p, prove G pk s = Ok p) /\
  (forall pk p input, check G pk p input = VErr <-> length input <> arity pk).
(** Challenge number i is answerable: some x of the space is mapped to it. *)
Definition answerable (K : prime_ops) (key m : K) (dfc : list K) (challenges : list Z) (i : nat) : Prop :=
  exists yn x, nth_error challenges i = Some (Z.of_nat yn) /\ x < 2 ^ SPACE_N /\ maps_to K key m dfc SPACE_N x yn.

Lemma yn_maps (K : prime_ops) (PF : is_prime_field K) dfc (key m : K) x yn : maps_to K key m dfc SPACE_N x yn -> yn_for K dfc key m (of_Z (Z.of_nat x)) (of_Z (Z.of_nat yn)).
Proof.
  intros (v & E & M). exists v. pose proof (F_R (pf_field K PF) : ring_theory f0 f1 fadd fmul fsub fopp (@eq K)) as RT. split; [rewrite (Radd_comm RT); exact E|]. rewrite <- M. reflexivity.
Qed.
Theorem C68_run : forall (K : prime_ops) (G : snark K), is_prime_field K -> groth16 K G -> forall pr f dfc hc key m rnd,
  length dfc = MIMC5_DF_ROUNDS -> length hc = MIMC5_HASH_ROUNDS -> exists challenges f2,
  create_challenges pr rnd 100 SPACE_N = Ok challenges /\
  ((exists l, NoDup l /\ length l = 50 /\ Forall (answerable K key m dfc challenges) l) -> pospace G pr f dfc hc key m rnd = Ok f2) /\
  (~ (exists l, NoDup l /\ length l = 50 /\ Forall (answerable K key m dfc challenges) l) -> pospace G pr f dfc hc key m rnd = Panic).
Proof.
  intros K G PF (arity & GEN & PRV & CHK) pr f dfc hc key m rnd LC LH. assert (HK : is_ring K) by exact (F_R (pf_field K PF)).
  assert (SN : SPACE_N <= 63) by (unfold SPACE_N; lia). assert (SN' : 3 <= SPACE_N <= 58) by (unfold SPACE_N; lia).
  destruct (C65_range pr rnd 100 SPACE_N SN) as (challenges & EC & LCH & RC).
  assert (NAT : exists cs, challenges = map Z.of_nat cs /\ Forall (fun yn => yn < 2 ^ SPACE_N) cs).
  { exists (map Z.to_nat challenges). clear - RC. assert (P2 : Z.of_nat (2 ^ SPACE_N) = (2 ^ Z.of_nat SPACE_N)%Z) by now rewrite Nat2Z.inj_pow. generalize dependent (2 ^ SPACE_N). intros B P2. rewrite <- P2 in RC. induction RC as [|c l [C0 C1] F IH]; [split; [reflexivity|constructor]|]. destruct IH as [-> IH]. split; [cbn [map]; rewrite Z2Nat.id by lia; f_equal|constructor; [lia|exact IH]].
    now rewrite !map_map; apply map_ext; intros a; rewrite Nat2Z.id. }
  destruct NAT as (cs & -> & FC). rewrite map_length in LCH.
  destruct (C52_answers pr K PF key m dfc hc SPACE_N f cs LC LH SN' FC) as (fa & f2 & xs & idxs & h & EP & EM & ER & LX & ANS & SKIP).
  assert (SMALL : Forall (fun yn => (Z.of_nat ((SPACE_N + 1) * yn) < two64)%Z) cs).
  { eapply Forall_impl; [|exact FC]. cbn beta. intros y Y. pose proof (space_fits SPACE_N (proj2 SN')) as FIT. assert ((SPACE_N + 1) * y <= (SPACE_N + 1) * 2 ^ SPACE_N) by (apply Nat.mul_le_mono_l; apply Nat.lt_le_incl; exact Y). eapply Z.le_lt_trans; [|exact FIT]. now apply Nat2Z.inj_le. }
  destruct (C54_any_file pr K HK key hc SPACE_N f2 cs LH SN SMALL) as (xs' & idxs' & h' & ER' & _ & LE & SO & _ & _ & HH).
  rewrite ER in ER'. injection ER' as <- <- <-.
  assert (ND : NoDup idxs) by (clear - SO; induction SO as [|i l S IH F]; constructor; [intros I; rewrite Forall_forall in F; specialize (F i I); lia|exact IH]).
  assert (IN : Forall (fun i => i < length (map Z.of_nat cs)) idxs).
  { apply Forall_forall. intros i I. apply In_nth_error in I. destruct I as [j J]. assert (JX : j < length xs) by (rewrite LX; apply nth_error_Some; congruence). destruct (nth_error xs j) as [x|] eqn:X; [|apply nth_error_None in X; lia].
    destruct (ANS j x i X J) as (_ & yn & Y & _). rewrite map_length. apply nth_error_Some. congruence. }
  exists (map Z.of_nat cs), f2. split; [exact EC|].
  assert (IFF : (exists l, NoDup l /\ length l = 50 /\ Forall (answerable K key m dfc (map Z.of_nat cs)) l) <-> length idxs = 50).
  { split.
    - intros (l & NDL & LL & FL). destruct (Nat.eq_dec (length idxs) 50) as [|N]; [assumption|]. assert (INC : incl l idxs).
      { intros i I. destruct (in_dec Nat.eq_dec i idxs) as [|NI]; [assumption|]. rewrite Forall_forall in FL. destruct (FL i I) as (yn & x & EY & XR & MT).
        rewrite nth_error_map in EY. destruct (nth_error cs i) as [yn'|] eqn:EY'; [|discriminate]. cbn in EY. injection EY as EY. apply Nat2Z.inj in EY. subst yn'.
        destruct (SKIP i yn EY' NI) as [NO|[LI _]]; [now destruct (NO x XR)|]. unfold RESPONSE_COUNT in LI. contradiction. }
      pose proof (NoDup_incl_length NDL INC). lia.
    - intros LI. exists idxs. split; [exact ND|]. split; [exact LI|]. apply Forall_forall. intros i I. apply In_nth_error in I. destruct I as [j J]. assert (JX : j < length xs) by (rewrite LX; apply nth_error_Some; congruence). destruct (nth_error xs j) as [x|] eqn:X; [|apply nth_error_None in X; lia].
      destruct (ANS j x i X J) as (XR & yn & Y & MT). exists yn, x. split; [now apply map_nth_error|]. split; [exact XR|exact MT]. }
  destruct (pospace_params K PF dfc hc 50 LC LH ltac:(lia)) as (l50 & (s50 & ES & NI & CS) & LL & R & _).
  destruct (GEN s50) as (pk & EG & AR).
  { clear - ES. pose proof (keeps_pospace K None (repeat None 50) None dfc (repeat None 50) hc (new_cs true) tt s50 ES) as E. exact E. } { rewrite CS, LL. reflexivity. }
  assert (ECC : construct_circuit G dfc hc = Ok pk) by (unfold construct_circuit; change RESPONSE_COUNT with 50; unfold param_circuit in ES; rewrite ES; exact EG).
  destruct (yns_of K (map Z.of_nat cs) idxs IN) as (yns & LY & NY & EV & EY).
  assert (RUN : pospace G pr f dfc hc key m rnd = let* proof := response_2 G pk key (map (fun x => of_Z (Z.of_nat x)) xs) m dfc (map Z.of_nat cs) idxs hc in let* _ := verify (check G) pk proof key m (map Z.of_nat cs) idxs h in Ok f2).
  { unfold pospace. rewrite EP. cbn [bind]. rewrite EM. cbn [bind]. unfold CHALLENGE_COUNT. rewrite EC. cbn [bind]. rewrite ER. cbn [bind]. rewrite ECC. reflexivity. }
  rewrite RUN. rewrite IFF. split.
  - intros LI. destruct (R key m (map (fun x => of_Z (Z.of_nat x)) xs) yns h) as (s & EPC & IV & _ & CSS & SATI); [rewrite map_length; lia|lia|exact HH|].
    unfold response_2. rewrite EY. cbn [bind]. unfold prove_circuit in EPC. rewrite EPC. cbn [bind]. destruct (PRV pk s) as (p & EPR).
    { rewrite CSS. apply SATI. clear - ANS NY LX LY PF. revert idxs yns ANS NY LX LY. induction xs as [|x xs IH]; intros [|i idxs] [|y yns] ANS NY LX LY; try discriminate; [constructor|]. cbn [map]. constructor.
      - destruct (ANS 0 x i eq_refl eq_refl) as (_ & yn & Y & MT). destruct (NY 0 i eq_refl) as (c & C & E). rewrite (map_nth_error _ _ _ Y) in C. injection C as <-. cbn in E. injection E as ->. now apply yn_maps.
      - apply (IH idxs yns); [intros j; apply (ANS (S j))|intros j; apply (NY (S j))|now injection LX|now injection LY]. }
    rewrite EPR. cbn [bind]. assert (V : verify (check G) pk p key m (map Z.of_nat cs) idxs h = Ok tt).
    { apply (C64_arity K (PK G) (PROOF G) arity (check G) CHK). split; [exact IN|]. rewrite AR, NI. lia. } rewrite V. reflexivity.
  - intros LI. destruct (response_2 _ _ _ _ _ _ _ _ _) as [p|]; [|reflexivity]. cbn [bind]. destruct (verify (check G) pk p key m (map Z.of_nat cs) idxs h) as [[]|] eqn:V; [|reflexivity].
    apply (C64_arity K (PK G) (PROOF G) arity (check G) CHK) in V. destruct V as [_ V]. rewrite AR, NI in V. lia.
Qed.
Print Assumptions C68_run.
(** The file a run leaves behind is the table of C51, whatever the file held before. *)
Definition table (K : prime_ops) (key m : K) (dfc : list K) (n : nat) (f2 : file) : Prop :=
  8 * length f2 = (n + 1) * 2 ^ n /\ forall y, y < 2 ^ n ->
    let bits := firstn (n + 1) (skipn ((n + 1) * y) (bytes_to_bits f2)) in
    (exists x, x < 2 ^ n /\ maps_to K key m dfc n x y /\ (forall x', x < x' < 2 ^ n -> ~ maps_to K key m dfc n x' y) /\
       exists xb, bits = xb ++ [true] /\ usize_to_bits (Z.of_nat x) n = Some (Ok xb)) \/
    ((forall x, x < 2 ^ n -> ~ maps_to K key m dfc n x y) /\ bits = repeat false (n + 1)).
Lemma run_table (K : prime_ops) (B : file -> res file) : is_prime_field K -> (forall f g, B f = Ok g -> g = f) -> forall pr f dfc (key m : K) n f2,
  length dfc = MIMC5_DF_ROUNDS -> 3 <= n <= 58 -> (let* f := prepare_space pr f n in let* f := mark_space pr f key m dfc n in B f) = Ok f2 -> table K key m dfc n f2.
Proof.
  intros PF HB pr f dfc key m n f2 LC N E. destruct (C51_inverse_table pr K PF key m dfc n f LC N) as (fa & fb & EP & EM & T). rewrite EP in E. cbn [bind] in E. rewrite EM in E. cbn [bind] in E.
  apply HB in E. rewrite E. exact T.
Qed.
Theorem C68_file : forall (K : prime_ops) (G : snark K), is_prime_field K -> forall pr f dfc hc (key m : K) rnd f2,
  length dfc = MIMC5_DF_ROUNDS -> pospace G pr f dfc hc key m rnd = Ok f2 -> table K key m dfc SPACE_N f2.
Proof.
  intros K G PF pr f dfc hc key m rnd f2 LC E. assert (SN' : 3 <= SPACE_N <= 58) by (unfold SPACE_N; lia). revert E. unfold pospace. revert SN'. generalize SPACE_N. intros n N E. refine (run_table K _ PF _ pr f dfc key m n f2 LC N E). clear f f2 E. intros fb g.
  destruct (create_challenges pr rnd CHALLENGE_COUNT n) as [l|]; cbn [bind]; [|discriminate]. destruct (response_1 pr fb l key hc n) as [[[xr ir] xh]|]; cbn [bind]; [|discriminate].
  destruct (construct_circuit G dfc hc) as [pk|]; cbn [bind]; [|discriminate]. destruct (response_2 G pk key xr m dfc l ir hc) as [pf|]; cbn [bind]; [|discriminate].
  destruct (verify (check G) pk pf key m l ir xh); cbn [bind]; [|discriminate]. congruence.
Qed.
Print Assumptions C68_file.
(** The hypotheses can be met, even by a library that calls every proof invalid; and a
    run with 50 answerable challenges exists for every key. *)
Example C68_example_library : groth16 FrBls (mkSnark FrBls nat unit (fun s => Ok (n_inst s)) (fun _ _ => Ok tt) (fun pk _ input => if length input =? pk then VOk false else VErr)).
Proof.
  exists (fun n => n). cbn. split; [intros s _ _; eexists; split; reflexivity|]. split; [intros; now exists tt|]. intros pk p input. destruct (Nat.eqb_spec (length input) pk); split; congruence.
Qed.
Example C68_example_run : forall (K : prime_ops), is_prime_field K -> forall pr (key m : K) dfc, length dfc = MIMC5_DF_ROUNDS -> exists rnd challenges,
  create_challenges pr rnd 100 SPACE_N = Ok challenges /\ Forall (answerable K key m dfc challenges) (seq 0 50) /\ NoDup (seq 0 50).
Proof.
  intros K PF pr key m dfc LC. destruct (df_total K PF key m dfc LC) as (df & D). set (yn := low_bits SPACE_N (df 0)).
  assert (MT : maps_to K key m dfc SPACE_N 0 yn) by now apply (maps_iff K PF key m dfc SPACE_N 0 yn df D).
  destruct (C65_every_list pr SPACE_N (repeat (Z.of_nat yn) 100)) as (rnd & E); [unfold SPACE_N; lia| |].
  { apply Forall_forall. intros c I. apply repeat_spec in I. subst c. pose proof (low_bits_lt SPACE_N (df 0)) as L. fold yn in L. split; [apply Nat2Z.is_nonneg|]. change 2%Z with (Z.of_nat 2). rewrite <- Nat2Z.inj_pow. now apply Nat2Z.inj_lt. }
  rewrite repeat_length in E. exists rnd, (repeat (Z.of_nat yn) 100). split; [exact E|]. split; [|apply seq_NoDup]. apply Forall_forall. intros i I. apply in_seq in I. exists yn, 0. split; [apply nth_error_repeat; lia|]. split; [|exact MT].
  generalize SPACE_N. clear. intros n. induction n; cbn [Nat.pow]; lia.
Qed.

(** * C69: the sloth circuit checks nothing *)
Theorem C69_no_constraints : forall K : prime_ops, params (sloth_circuit (K := K) None None) 1 [].
Proof. intros K. eexists. split; [reflexivity|]. split; reflexivity. Qed.
Print Assumptions C69_no_constraints.
(** Proving: with p different from 0 the three private values are 0 whatever y is. *)
Theorem C69_values : forall K : prime_ops, is_prime_field K -> fadd f1 f1 <> f0 :> K -> forall y p : K, p <> f0 -> exists s,
  sloth_circuit (Some y) (Some p) (new_cs false) = Ok (tt, s) /\ inst_val s = [y] /\ wit_val s = [f0; f0; f0] /\ cons s = [].
Proof.
  intros K PF T2 y p NP. assert (V : sloth_value (Some y) (Some p) = Ok (Some f0)).
  { unfold sloth_value. rewrite (C66_fmod_zero K PF y _ T2). cbn [bind unwrap]. rewrite (C66_fmod_zero K PF _ p NP). reflexivity. }
  unfold sloth_circuit. rewrite bindM_run. cbn [new_input new_cs setup bind fst snd seq forM]. rewrite !bindM_run. unfold lift. rewrite V. cbn [bind fst snd new_witness setup].
  eexists. split; [reflexivity|]. cbn. auto.
Qed.
Print Assumptions C69_values.
Theorem C69_panics : forall K : prime_ops, is_prime_field K -> fadd f1 f1 <> f0 :> K -> forall (y : K) p, p = None \/ p = Some f0 -> sloth_circuit (Some y) p (new_cs false) = Panic.
Proof.
  intros K PF T2 y p NP. assert (V : sloth_value (Some y) p = Panic).
  { unfold sloth_value. rewrite (C66_fmod_zero K PF y _ T2). cbn [bind]. destruct NP as [->| ->]; [reflexivity|]. cbn [bind unwrap]. rewrite (proj2 (C66_fmod_panics K PF _ f0) eq_refl). reflexivity. }
  unfold sloth_circuit. rewrite bindM_run. cbn [new_input new_cs setup bind fst snd seq forM]. rewrite !bindM_run. unfold lift. rewrite V. reflexivity.
Qed.
Print Assumptions C69_panics.
(** So every public value is accepted, for any modulus. *)
Theorem C69_every_statement : forall (K : prime_ops) (y : K), accepts (K := K) [] [y].
Proof. intros K y. exists (fun v => match v with One => f1 | Inst _ => y | Wit _ => f0 end). split; [reflexivity|]. split; [intros [|i] v E; [now injection E as <-|destruct i; discriminate]|constructor]. Qed.
Print Assumptions C69_every_statement.
Example C69_example : fadd f1 f1 <> f0 :> FrBls /\ fr 7 <> fr 0.
Proof. split; intros E; apply (f_equal fr_val) in E; discriminate E. Qed.
