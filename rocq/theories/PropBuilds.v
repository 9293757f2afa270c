(** Property C123: debug and release builds.
    Vocabulary: the functions of the two programs, in a build of either profile ([Debug]: an
    overflow panics, [Release]: it wraps); the storage functions with the offsets of the machine
    come from Machine.  [follows d r]: whatever d returns r returns too. *)
From Coq Require Import String List.
From Verif Require Import Base Legendre Sloth Common Depend Prover Verifier Merkle Postorage Machine Convert Field Mimc Space R1cs Circuits SpaceRun NumTheory SlothFacts BytesFacts DependSpec DependFacts DependDet VdeFacts
  SealSpec SealCore SealFile SealTop SealWitness CommonFacts ParamFacts PropSeal BuildFacts.
Local Open Scope nat_scope.

(** Whatever the debug build of the storage program computes without a panic, the release build
    computes as well, for every input, with whatever offsets the file system takes. *)
Theorem C123_storage : forall lim H params key iv f,
  (forall st, seal_m lim Debug H params key iv f = Ok st -> seal_m lim Release H params key iv f = Ok st) /\
  (forall g, unseal_m lim Debug H params key iv f = Ok g -> unseal_m lim Release H params key iv f = Ok g) /\
  (forall i r, single_unseal_prepare_m lim Debug H params f i = Ok r -> single_unseal_prepare_m lim Release H params f i = Ok r) /\
  (forall a b r, batch_unseal_prepare H Debug params f a b = Ok r -> batch_unseal_prepare H Release params f a b = Ok r) /\
  (forall ks ids deps blocks r, batch_unseal H Debug params key iv ks ids deps blocks = Ok r -> batch_unseal H Release params key iv ks ids deps blocks = Ok r) /\
  (forall ks ids deps threads blocks r, batch_unseal_parallel H Debug params key iv ks ids deps threads blocks (Ok r) -> batch_unseal_parallel H Release params key iv ks ids deps threads blocks (Ok r)) /\
  (forall ks ids deps blocks, batch_unseal_and_verify H Debug params key iv ks ids deps f blocks = Ok tt -> batch_unseal_and_verify H Release params key iv ks ids deps f blocks = Ok tt) /\
  (forall i block a b, batch_verify_m lim Debug f i block a b = Ok tt -> batch_verify_m lim Release f i block a b = Ok tt) /\
  (forall a b g, copy_and_pad_m lim Debug f a b = Ok g -> copy_and_pad_m lim Release f a b = Ok g) /\
  (forall a b c g, copy_and_compress_m lim Debug f a b c = Ok g -> copy_and_compress_m lim Release f a b c = Ok g) /\
  (forall a b t, generate_merkle_tree_from_file_m lim Debug H f a b = Ok t -> generate_merkle_tree_from_file_m lim Release H f a b = Ok t).
Proof.
  intros lim H params key iv f. repeat split; intros.
  - now apply f_seal_m.
  - now apply f_unseal_m.
  - now apply f_single.
  - now apply f_batch_prepare.
  - now apply f_batch.
  - now apply f_parallel.
  - now apply f_batch_verify.
  - now apply f_verify.
  - now apply f_pad.
  - now apply f_compress.
  - now apply f_tree.
Qed.
Print Assumptions C123_storage.
(** A whole run that passes all its checks in the debug build passes them in the release build. *)
Theorem C123_pipeline : forall H H2 params threads count rnd rnd_iv pub cs,
  pipeline H H2 Debug params threads count rnd rnd_iv pub cs (Ok tt) -> pipeline H H2 Release params threads count rnd rnd_iv pub cs (Ok tt).
Proof. exact f_pipeline. Qed.
Print Assumptions C123_pipeline.
(** The same for the space program. *)
Theorem C123_space : forall (K : prime_ops) f (key m : K) consts n,
  (forall g, prepare_space Debug f n = Ok g -> prepare_space Release f n = Ok g) /\
  (forall g, mark_space Debug f key m consts n = Ok g -> mark_space Release f key m consts n = Ok g) /\
  (forall cs r, response_1 Debug f cs key consts n = Ok r -> response_1 Release f cs key consts n = Ok r) /\
  (forall rnd e cs, create_challenges Debug rnd n e = Ok cs -> create_challenges Release rnd n e = Ok cs).
Proof. intros K f key m consts n. repeat split; intros; [now apply f_prepare_space|now apply f_mark|now apply f_response|now apply f_create]. Qed.
Print Assumptions C123_space.
Theorem C123_circuit : forall (K : ops) x1 x2 bits difficulty (s : cs K) r,
  equal_circuit Debug x1 x2 bits difficulty s = Ok r -> equal_circuit Release x1 x2 bits difficulty s = Ok r.
Proof. intros K x1 x2 bits d s r. apply f_equal_circuit. Qed.
Print Assumptions C123_circuit.

(** With settings that the debug build supports, both builds do the same to every file, panics
    included, ... *)
Theorem C123_same : forall H params key iv n m, setting H Debug params key n m ->
  forall f, seal H Debug params key iv f = seal H Release params key iv f /\ unseal H Debug params key iv f = unseal H Release params key iv f.
Proof. intros H params key iv n m SET f. split; [now apply (same_seal H params key n m)|now apply (same_unseal H params key n m)]. Qed.
Print Assumptions C123_same.
(** ... so do whole space runs, and marking and answering for spaces of up to 58 bits. *)
Theorem C123_space_same : forall (K : prime_ops),
  (forall (G : snark K) f df_consts hash_consts key m rnd, pospace G Debug f df_consts hash_consts key m rnd = pospace G Release f df_consts hash_consts key m rnd) /\
  (forall f (key m : K) consts n, n <= 58 -> mark_space Debug f key m consts n = mark_space Release f key m consts n) /\
  (forall f cs (key : K) consts n, n <= 58 -> Forall (fun c => 0 <= c < 2 ^ Z.of_nat n)%Z cs -> response_1 Debug f cs key consts n = response_1 Release f cs key consts n).
Proof. intros K. split; [apply same_pospace|]. split; [intros; now apply same_mark|intros; now apply same_response]. Qed.
Print Assumptions C123_space_same.

(** The converse fails: with the second deterministic rule for short dependencies the debug build
    neither seals nor unseals any file, while the release build does both (C22, C23). *)
Lemma mode_2_table n c : n <> 0 -> c <> 0 -> create_short_depend Debug n c 2 = Panic.
Proof. intros N C. destruct n as [|n]; [congruence|]. destruct c as [|c]; [congruence|]. reflexivity. Qed.
Theorem C123_mode_2 : forall H params key iv f, mode_s params = 2 -> cnt_s params <> 0 -> block_l params <> 0 -> data_l params / block_l params <> 0 ->
  seal H Debug params key iv f = Panic /\ unseal H Debug params key iv f = Panic.
Proof.
  intros H params key iv f MS CS BL NB. unfold seal, unseal, unseal_range, seal_idxs_s, unseal_idxs_s, nblocks. rewrite (proj2 (Nat.eqb_neq _ _) BL). cbn [bind]. rewrite MS. cbn [Nat.eqb negb]. rewrite (mode_2_table _ _ NB CS).
  split; [destruct (seal_idxs_l _ _ _)|destruct (unseal_idxs_l _ _ _)]; reflexivity.
Qed.
Print Assumptions C123_mode_2.
(** Two blocks of two units with that rule: the release build seals the file and gives it back. *)
Definition C123_P : PosPara := mkPosPara 8 2 4 4 3 6 6 2 2 "sloth"%string 0 0 2 5 2.
Definition C123_file : file := firstn 12 ex_file.
Lemma C123_set : setting hsum Release C123_P ex_key 2 2.
Proof.
  split; [apply hsum_32|split; cbn; try lia; reflexivity| |cbn; lia|].
  - cbn [unit_pl C123_P]. change (256 ^ Z.of_nat 3)%Z with 16777216%Z. unfold ex_key. lia.
  - unfold short_modes_fine. cbn [mode_s C123_P]. right. split; [reflexivity|]. split; [reflexivity|]. split; [cbn; lia|]. cbn. lia.
Qed.
Lemma C123_trial : match seal hsum Release C123_P ex_key [] C123_file with Ok st => no_zero (s_log st) | Panic => false end = true.
Proof. vm_compute. reflexivity. Qed.
Lemma C123_sealable : sealable C123_P ex_key 2 2 C123_file.
Proof. apply sealable_b_ok. vm_compute. reflexivity. Qed.
Theorem C123_converse_refuted : exists H params key iv n m f, setting H Release params key n m /\ sound_key H key /\ sealable params key n m f /\
  (exists st, seal H Release params key iv f = Ok st /\ unseal H Release params key iv (s_file st) = Ok f) /\
  forall g, seal H Debug params key iv g = Panic /\ unseal H Debug params key iv g = Panic.
Proof.
  exists hsum, C123_P, ex_key, [], 2, 2, C123_file. split; [exact C123_set|]. split; [exact ex_sound|]. split; [exact C123_sealable|]. split.
  - destruct (C22_seal_total hsum Release C123_P ex_key [] 2 2 C123_set C123_file C123_sealable) as (st & ES & _). exists st. split; [exact ES|].
    apply (C23_unseal_seal hsum Release C123_P ex_key [] 2 2 C123_set C123_file st ex_sound eq_refl C123_sealable ES). pose proof C123_trial as T. rewrite ES in T. now apply no_zero_ok.
  - intros g. apply C123_mode_2; cbn; lia.
Qed.
Print Assumptions C123_converse_refuted.
Example C123_ex : setting hsum Debug (ex_params 2 0 0 0 10) ex_key 3 2 /\
  (exists st, seal hsum Debug (ex_params 2 0 0 0 10) ex_key [] ex_file = Ok st /\ seal hsum Release (ex_params 2 0 0 0 10) ex_key [] ex_file = Ok st) /\
  create_challenges Debug (fun i j => Nat.odd (i + j)) 3 4 = Ok [10; 5; 10]%Z /\ bits_to_usize Debug (repeat true 64) = Panic /\ bits_to_usize Release (repeat true 64) = Ok 18446744073709551615%Z.
Proof.
  assert (S : setting hsum Debug (ex_params 2 0 0 0 10) ex_key 3 2) by (apply ex_setting; [apply hsum_32|cbn; lia|cbn; lia]).
  split; [exact S|]. split; [|repeat split].
  - destruct (C22_seal_total hsum Debug (ex_params 2 0 0 0 10) ex_key [] 3 2 S ex_file (ex_sealable _ _ _ _ _)) as (st & ES & _). exists st. split; [exact ES|]. rewrite <- ES. symmetry. apply (C123_same hsum (ex_params 2 0 0 0 10) ex_key [] 3 2 S).
Qed.
Print Assumptions C123_ex.
