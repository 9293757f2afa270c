(** Property C102: what the iv is needed for.  H is blake3, H2 is SHA-256.  Vocabulary:
    [geometry], [setting], [sound_key] from SealSpec, [layout] from PostorageFacts,
    [restores], [same_block] from PropSpot, [sealing] (an undisturbed run) from PropCrash. *)
From Coq Require Import Strings.Byte Lia Sorted.
From Verif Require Import Base Sloth Common Depend Prover Verifier Merkle Postorage BytesFacts CommonFacts SealSpec SealCore SealFile SealTop SealPad SealZero SealWitness
  MerkleFacts PostorageFacts SpotFacts PropSpot PropCrash CrashFacts AnyLength IvFacts.
Local Open Scope nat_scope.

(** Unsealing any stored file with two ivs: only block 0 of the results can differ. *)
Theorem C102_unseal : forall H pr params key n m, geometry params n m -> (1 < key < 256 ^ Z.of_nat (unit_pl params))%Z ->
  forall iv iv' F G G', unseal H pr params key iv F = Ok G -> unseal H pr params key iv' F = Ok G' ->
  length G = length G' /\ forall x, block_pl params <= x -> nth x G x00 = nth x G' x00.
Proof.
  intros H pr params key n m GEO K iv iv' F G G' E E'. split.
  - rewrite (unseal_length H pr params key iv n m GEO ltac:(lia) F G ltac:(lia) E), (unseal_length H pr params key iv' n m GEO ltac:(lia) F G' ltac:(lia) E'). reflexivity.
  - apply (unseal_iv_beyond H pr params key n m GEO K iv iv' F G G' E E').
Qed.
Print Assumptions C102_unseal.

(** Whoever has the key but not the iv restores everything except the first block. *)
Lemma unit_same params n m G G' i : layout params n m -> length G = length G' -> (forall x, block_pl params <= x -> nth x G x00 = nth x G' x00) -> m <= i ->
  unit_bytes params G i = unit_bytes params G' i.
Proof.
  intros LAY L A I. unfold unit_bytes. f_equal.
  assert (P : block_pl params <= i * unit_pl params) by (rewrite (l_block_pl _ _ _ LAY); now apply Nat.mul_le_mono_r).
  apply (nth_ext _ _ x00 x00); [rewrite !skipn_length; lia|]. intros x X.
  assert (NS : forall l : file, nth x (skipn (i * unit_pl params) l) x00 = nth (i * unit_pl params + x) l x00).
  { intros l. clear. revert l. induction (i * unit_pl params) as [|k IH]; intros l; [reflexivity|]. destruct l as [|a l]; [destruct x; reflexivity|]. apply IH. }
  rewrite !NS. apply A. lia.
Qed.
Lemma blocks_same params n m G G' c c' k : layout params n m -> length G = length G' -> n * block_pl params <= length G ->
  (forall x, block_pl params <= x -> nth x G x00 = nth x G' x00) ->
  copy_and_compress G (data_l params) (unit_l params) (unit_pl params) = Ok c -> copy_and_compress G' (data_l params) (unit_l params) (unit_pl params) = Ok c' ->
  0 < k < n -> same_block params c' c k.
Proof.
  intros LAY L LG A EC EC' K. unfold same_block. rewrite (l_block _ _ _ LAY), !read_units. f_equal. apply map_ext_in. intros j J. apply in_seq in J.
  assert (Q : k * m + j < n * m) by nia.
  replace (k * (m * unit_l params) + j * unit_l params) with ((k * m + j) * unit_l params) by ring.
  rewrite (restored_unit params n m LAY G c) by (auto; lia). rewrite (restored_unit params n m LAY G' c') by (auto; lia). f_equal.
  symmetry. apply (unit_same params n m); auto. nia.
Qed.
Theorem C102_restored : forall H pr params key iv n m origin g st, sealing H pr params key iv n m origin g st ->
  forall iv', exists c, restores H pr params key iv' (s_file st) c /\ length c = data_l params /\ forall k, 0 < k < n -> same_block params c origin k.
Proof.
  intros H pr params key iv n m origin g st SG iv'. destruct (sg_sizes _ _ _ _ _ _ _ _ _ _ SG) as (Lg & GS & LS & _).
  destruct SG as [SET SK KU ML LAY LO EP ES NZ]. pose proof (sound_lt H pr params key n m SET SK) as KB.
  pose proof (unseal_seal H pr params key iv n m SET g st SK ltac:(now left) GS ES NZ) as EU.
  destruct (restored_ex H pr params key iv' n m SET KB LAY (s_file st) ltac:(lia)) as (G' & c & EU' & LG' & EC). exists c.
  assert (EC0 : copy_and_compress g (data_l params) (unit_l params) (unit_pl params) = Ok origin).
  { rewrite (l_unit_pl _ _ _ LAY). apply (compress_pad_id origin); auto; [pose proof (l_unit _ _ _ LAY); lia|]. rewrite (l_data _ _ _ LAY), (l_block _ _ _ LAY). exists (n * m). lia. }
  split; [exists G'; auto|]. split; [now apply (restored_length params n m LAY) in EC|]. intros k K.
  pose proof (set_geom _ _ _ _ _ _ SET) as GEO. pose proof (set_key _ _ _ _ _ _ SET) as SKEY. pose proof (KB []) as KB0.
  destruct (C102_unseal H pr params key n m GEO ltac:(lia) iv iv' (s_file st) g G' EU EU') as (L & A).
  apply (blocks_same params n m g G' origin c k); auto. lia.
Qed.
Print Assumptions C102_restored.

(** The verifier needs the iv for block 0 only: unsealing copies of other blocks, alone, in
    threads or together with the comparison, does not depend on it. *)
Theorem C102_copies : forall H pr params key iv iv' ks before deps, ~ In 0 ks ->
  (forall bs, batch_unseal H pr params key iv ks before deps bs = batch_unseal H pr params key iv' ks before deps bs) /\
  (forall threads bs r, batch_unseal_parallel H pr params key iv ks before deps threads bs r <-> batch_unseal_parallel H pr params key iv' ks before deps threads bs r) /\
  (forall origin bs, batch_unseal_and_verify H pr params key iv ks before deps origin bs = batch_unseal_and_verify H pr params key iv' ks before deps origin bs).
Proof. intros H pr params key iv iv' ks before deps N. split; [|split]; intros; [now apply batch_iv|now apply par_iv|now apply fused_iv]. Qed.
Print Assumptions C102_copies.
(** A challenge without block 0 ends the same way whatever iv the public file holds. *)
Theorem C102_challenge : forall H H2 pr params key iv iv' pub pub', load_data pub = Ok (key, iv) -> load_data pub' = Ok (key, iv') ->
  forall parallel_num origin F leaves tree root r idx o, ~ In 0 idx ->
  challenge H H2 pr params parallel_num origin F pub leaves tree root r idx o <-> challenge H H2 pr params parallel_num origin F pub' leaves tree root r idx o.
Proof.
  intros H H2 pr params key iv iv' pub pub' L L' p origin F leaves tree root r idx o N.
  split; [apply (challenge_iv1 H H2 pr params key iv iv')|apply (challenge_iv1 H H2 pr params key iv' iv)]; auto.
Qed.
Print Assumptions C102_challenge.

(** With one sealing round only the first unit is concerned: the two results agree from the
    second unit on, and as numbers the first units differ, modulo the key, by the difference
    of the two masks. *)
Theorem C102_one_round : forall H pr params key n m, geometry params n m -> 0 < n -> 0 < m -> (1 < key)%Z ->
  (forall d, le2z (H d) < key < 256 ^ Z.of_nat (unit_pl params))%Z -> seal_rounds params = 1 ->
  forall iv iv' F G G', unseal H pr params key iv F = Ok G -> unseal H pr params key iv' F = Ok G' ->
  (forall x, unit_pl params <= x -> nth x G x00 = nth x G' x00) /\
  exists d, ((le2z (firstn (unit_pl params) G) + le2z (H (d ++ iv))) mod key = (le2z (firstn (unit_pl params) G') + le2z (H (d ++ iv'))) mod key)%Z.
Proof.
  intros H pr params key n m GEO N M K1 KB ONE iv iv' F G G' E E'.
  destruct (one_round H pr params key n m GEO KB K1 ONE iv iv' F G G' N M E E') as (A & d & w & V & V'). split; [exact A|]. exists d.
  pose proof (KB []) as KB0. assert (K : (1 < key <= 256 ^ Z.of_nat (unit_pl params))%Z) by lia.
  pose proof (unseal_length H pr params key iv n m GEO K F G ltac:(lia) E) as L. pose proof (unseal_length H pr params key iv' n m GEO K F G' ltac:(lia) E') as L'.
  assert (UL : unit_pl params <= n * block_pl params) by (rewrite (g_block_pl _ _ _ GEO); destruct n as [|n']; [lia|]; destruct m as [|m']; [lia|]; cbn [Nat.mul]; lia).
  rewrite read_file_full in V by lia. rewrite read_file_full in V' by lia. cbn [skipn] in V, V'. rewrite V, V', !Zplus_mod_idemp_l, !Z.sub_add.
  reflexivity.
Qed.
Print Assumptions C102_one_round.

(** Sealing: the other blocks depend on the iv only through the sealed first block. *)
Theorem C102_seal : forall H pr params key n m, geometry params n m -> (1 < key <= 256 ^ Z.of_nat (unit_pl params))%Z ->
  forall iv iv' F st st', seal H pr params key iv F = Ok st -> seal H pr params key iv' F = Ok st' ->
  block_bytes params (s_file st) 0 = block_bytes params (s_file st') 0 -> s_file st = s_file st' /\ s_ids st = s_ids st'.
Proof.
  intros H pr params key n m GEO K iv iv' F st st' E E' EQ. apply (seal_iv H pr params key iv iv' n m GEO K F st st' E E').
  apply (seal_length H pr params key iv n m GEO K) in E. apply (seal_length H pr params key iv' n m GEO K) in E'.
  unfold block_bytes in EQ. cbn [Nat.mul skipn] in EQ. unfold read_file. cbn [skipn]. now rewrite EQ.
Qed.
Print Assumptions C102_seal.

(** So the iv protects one block: unsealing with a wrong one is not noticed, and with the
    shipped number of rounds (2) all other blocks come back. *)
Definition iv_params : PosPara := ex_params 2 0 0 0 0.
Definition iv_params1 : PosPara := ex_params 1 0 0 0 0.
Definition iv_trial : bool :=
  match (let* g := copy_and_pad spot_origin 12 2 in
         let* st := seal hsum Debug iv_params ex_key [x03; x04] g in
         let* G := unseal hsum Debug iv_params ex_key [] (s_file st) in
         let* c := copy_and_compress G 12 2 3 in Ok (st, c)) with
  | Panic => false
  | Ok (st, c) => no_zero (s_log st) && negb (bytes_eqb (read_file c 0 4) (read_file spot_origin 0 4))
  end.
Lemma iv_facts : exists g st c, sealing hsum Debug iv_params ex_key [x03; x04] 3 2 spot_origin g st /\ restores hsum Debug iv_params ex_key [] (s_file st) c /\
  ~ same_block iv_params c spot_origin 0.
Proof.
  assert (E : iv_trial = true) by (vm_compute; reflexivity). unfold iv_trial in E. revert E.
  destruct (copy_and_pad spot_origin 12 2) as [g|] eqn:E0; [|discriminate]. cbn [bind].
  destruct (seal hsum Debug iv_params ex_key [x03; x04] g) as [st|] eqn:E1; [|discriminate]. cbn [bind].
  destruct (unseal hsum Debug iv_params ex_key [] (s_file st)) as [G|] eqn:E2; [|discriminate]. cbn [bind].
  destruct (copy_and_compress G 12 2 3) as [c|] eqn:E3; [|discriminate]. cbn [bind]. intros E.
  apply andb_prop in E as (B1 & B2). apply negb_true_iff in B2.
  exists g, st, c. split; [|split; [exists G; auto|now apply bytes_eqb_neq]].
  constructor; [apply ex_setting; [exact hsum_32|cbn; lia|cbn; lia]|exact ex_sound|unfold ex_key; cbn; lia|reflexivity|constructor; cbn; lia|reflexivity|exact E0|exact E1|now apply no_zero_ok].
Qed.
Theorem C102_iv_needed_refuted : exists g st c, sealing hsum Debug iv_params ex_key [x03; x04] 3 2 spot_origin g st /\
  seal_rounds iv_params = 2 /\ restores hsum Debug iv_params ex_key [] (s_file st) c /\
  ~ same_block iv_params c spot_origin 0 /\ same_block iv_params c spot_origin 1 /\ same_block iv_params c spot_origin 2.
Proof.
  destruct iv_facts as (g & st & c & SG & R & NB). exists g, st, c. split; [exact SG|]. split; [reflexivity|]. split; [exact R|]. split; [exact NB|].
  destruct (C102_restored _ _ _ _ _ _ _ _ _ _ SG []) as (c' & R' & _ & A).
  assert (c' = c) as -> by (destruct R as (G & E & C), R' as (G' & E' & C'); rewrite E in E'; injection E' as <-; rewrite C in C'; now injection C').
  split; apply A; lia.
Qed.
Print Assumptions C102_iv_needed_refuted.
(** The other hypotheses: two ivs in public files under one key, one round, and two ivs with
    which a file is sealed to the same first block. *)
Example C102_ex : (exists pub pub', load_data pub = Ok (ex_key, [x03; x04]) /\ load_data pub' = Ok (ex_key, [x05])) /\ ~ In 0 [1; 2] /\
  geometry iv_params1 3 2 /\ seal_rounds iv_params1 = 1 /\ (1 < ex_key < 256 ^ Z.of_nat (unit_pl iv_params1))%Z /\
  (forall d, le2z (hsum d) < ex_key < 256 ^ Z.of_nat (unit_pl iv_params1))%Z /\
  (exists F G G', unseal hsum Debug iv_params1 ex_key [x03; x04] F = Ok G /\ unseal hsum Debug iv_params1 ex_key [] F = Ok G' /\ firstn 3 G <> firstn 3 G') /\
  (exists st st', seal hsum Debug iv_params1 ex_key [x03; x04; x00; x00; x00] ex_file = Ok st /\ seal hsum Debug iv_params1 ex_key [x03; x04; x00; x00; x01] ex_file = Ok st' /\
     block_bytes iv_params1 (s_file st) 0 = block_bytes iv_params1 (s_file st') 0).
Proof.
  split; [exists (save_data [] ex_key [x03; x04]), (save_data [] ex_key [x05]); split; vm_compute; reflexivity|].
  split; [cbn; lia|]. split; [apply ex_geometry|]. split; [reflexivity|]. split; [unfold ex_key; cbn; lia|].
  assert (KB : forall d, (le2z (hsum d) < ex_key < 256 ^ Z.of_nat (unit_pl iv_params1))%Z).
  { intros d. pose proof (hsum_small d). unfold ex_key. change (256 ^ Z.of_nat (unit_pl iv_params1))%Z with 16777216%Z. lia. }
  split; [exact KB|]. split.
  - assert (T : (match unseal hsum Debug iv_params1 ex_key [x03; x04] ex_file, unseal hsum Debug iv_params1 ex_key [] ex_file with
                 | Ok G, Ok G' => negb (bytes_eqb (firstn 3 G) (firstn 3 G')) | _, _ => false end) = true) by (vm_compute; reflexivity).
    destruct (unseal hsum Debug iv_params1 ex_key [x03; x04] ex_file) as [G|] eqn:E1; [|discriminate].
    destruct (unseal hsum Debug iv_params1 ex_key [] ex_file) as [G'|] eqn:E2; [|discriminate].
    exists ex_file, G, G'. split; [exact E1|]. split; [exact E2|]. apply negb_true_iff in T. now apply bytes_eqb_neq.
  - assert (T : (match seal hsum Debug iv_params1 ex_key [x03; x04; x00; x00; x00] ex_file, seal hsum Debug iv_params1 ex_key [x03; x04; x00; x00; x01] ex_file with
                 | Ok st, Ok st' => bytes_eqb (block_bytes iv_params1 (s_file st) 0) (block_bytes iv_params1 (s_file st') 0) | _, _ => false end) = true) by (vm_compute; reflexivity).
    destruct (seal hsum Debug iv_params1 ex_key [x03; x04; x00; x00; x00] ex_file) as [st|]; [|discriminate].
    destruct (seal hsum Debug iv_params1 ex_key [x03; x04; x00; x00; x01] ex_file) as [st'|]; [|discriminate].
    exists st, st'. split; [reflexivity|]. split; [reflexivity|]. now apply bytes_eqb_eq.
Qed.
