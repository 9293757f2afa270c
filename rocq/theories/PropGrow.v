(** C117: when data change or grow, what was sealed before the first changed block stays
    and sealing goes on from there. *)
From Coq Require Import Strings.String.
From Verif Require Import Base Common Depend Prover Verifier NumTheory BytesFacts SealSpec SealCore SealFile SealTop SealWitness Grow GrowFacts.
From Coq Require Import List.
Import ListNotations.
Local Open Scope nat_scope.

(** C117: g' has n' blocks and its first k blocks are those of g, which has n blocks.  The
    parameters differ in the length of the data only. *)
Theorem C117_from : forall H pr params d' key iv n n' m, setting H pr params key n m -> setting H pr (with_data params d') key n' m -> same_rules params n n' ->
  forall g g' k st, sealable params key n m g -> sealable (with_data params d') key n' m g' -> k <= n -> k <= n' ->
  firstn (k * block_pl params) g = firstn (k * block_pl params) g' -> seal H pr params key iv g = Ok st ->
  exists st' s log, seal H pr (with_data params d') key iv g' = Ok st' /\
  seal_from H pr (with_data params d') key iv k (firstn (k * block_pl params) (s_file st) ++ skipn (k * block_pl params) g') (firstn k (s_ids st)) = Ok s /\
  s_file s = s_file st' /\ s_ids s = s_ids st' /\
  s_log st' = s_log s ++ log /\ length (s_log s) = (n' - k) * (seal_rounds params * m).
Proof.
  intros H pr params d' key iv n n' m SET SET' SR g g' k st SE SE' K K' EG E.
  destruct (seal_total H pr (with_data params d') key iv n' m SET' g' SE') as (st' & E' & _).
  destruct (grow_from H pr params key iv n m d' n' SET SET' SR k g g' st st' K K' SE SE' EG E E') as (s & l & ES & EF & EI & EL & LL).
  exists st', s, l. repeat (split; [assumption|]).
  pose proof (WorkFacts.seal_count H pr (with_data params d') key iv n' m (set_geom _ _ _ _ _ _ SET') g' st' E') as C. cbn [seal_rounds with_data] in C.
  rewrite EL, app_length, LL in C. rewrite Nat.mul_sub_distr_r. lia.
Qed.
Print Assumptions C117_from.

(** The blocks before the first changed one, their hashes and the answers about them. *)
Theorem C117_kept : forall H pr params d' key iv n n' m, setting H pr params key n m -> setting H pr (with_data params d') key n' m -> same_rules params n n' ->
  forall g g' k st st', sealable params key n m g -> sealable (with_data params d') key n' m g' -> k <= n -> k <= n' ->
  firstn (k * block_pl params) g = firstn (k * block_pl params) g' ->
  seal H pr params key iv g = Ok st -> seal H pr (with_data params d') key iv g' = Ok st' ->
  firstn (k * block_pl params) (s_file st') = firstn (k * block_pl params) (s_file st) /\ firstn k (s_ids st') = firstn k (s_ids st) /\
  (forall j, j < k -> single_unseal_prepare H pr (with_data params d') (s_file st') j = single_unseal_prepare H pr params (s_file st) j).
Proof.
  intros H pr params d' key iv n n' m SET SET' SR g g' k st st' SE SE' K K' EG E E'.
  split; [symmetry; exact (grow_file H pr params key iv n m d' n' SET SET' SR k g g' st st' K K' SE SE' EG E E')|].
  split; [|exact (grow_answer H pr params key iv n m d' n' SET SET' SR k g g' st st' K K' SE SE' EG E E')].
  destruct (tabl_ex H pr params key n m SET) as (t & T). destruct (tabl_ex H pr (with_data params d') key n' m SET') as (t' & T').
  pose proof (seal_inv H pr params key iv n m SET t g st T SE E) as [_ IL _ _ _ _]. pose proof (seal_inv H pr (with_data params d') key iv n' m SET' t' g' st' T' SE' E') as [_ IL' _ _ _ _].
  apply list_ext. intros i. destruct (Nat.lt_ge_cases i k) as [I|I].
  - rewrite !nth_error_head by exact I. pose proof (grow_ids H pr params key iv n m d' n' SET SET' SR k g g' st st' K K' SE SE' EG E E' i I) as X. unfold index in X.
    destruct (nth_error (s_ids st) i), (nth_error (s_ids st') i); congruence.
  - rewrite !(proj2 (nth_error_None _ _)); [reflexivity| |]; rewrite firstn_length; lia.
Qed.
Print Assumptions C117_kept.

(** The same parameters, whatever the modes: block k is the first one changed. *)
Theorem C117_update : forall H pr params key iv n m, setting H pr params key n m ->
  forall g g' k st, sealable params key n m g -> sealable params key n m g' -> k <= n ->
  firstn (k * block_pl params) g = firstn (k * block_pl params) g' -> seal H pr params key iv g = Ok st ->
  exists st' s, seal H pr params key iv g' = Ok st' /\
  seal_from H pr params key iv k (firstn (k * block_pl params) (s_file st) ++ skipn (k * block_pl params) g') (firstn k (s_ids st)) = Ok s /\
  s_file s = s_file st' /\ s_ids s = s_ids st' /\ length (s_log s) = (n - k) * (seal_rounds params * m).
Proof.
  intros H pr params key iv n m SET g g' k st SE SE' K EG E.
  assert (W : with_data params (data_l params) = params) by (destruct params; reflexivity).
  pose proof (C117_from H pr params (data_l params) key iv n n m SET) as X. rewrite W in X.
  destruct (X SET (or_introl eq_refl) g g' k st SE SE' K K EG E) as (st' & s & l & E1 & E2 & E3 & E4 & _ & E6). exists st', s. auto 6.
Qed.
Print Assumptions C117_update.

(** The first j blocks of a sealed file, from the run stopped after j blocks. *)
Lemma first_sealed H pr params key iv n m g st j : setting H pr params key n m -> sealable params key n m g -> seal H pr params key iv g = Ok st -> j <= n ->
  exists sj, seal_upto H pr params key iv j g = Ok sj /\ firstn (j * block_pl params) (s_file sj) = firstn (j * block_pl params) (s_file st).
Proof.
  intros SET SE E J. destruct (seal_interrupted H pr params key iv n m SET g st j SE E J) as (sj & EJ & FJ). exists sj. split; [exact EJ|].
  destruct (seal_total H pr params key iv n m SET g SE) as (st2 & E2 & L & _). rewrite E in E2. injection E2 as <-. destruct SE as [LG _].
  assert (j * block_pl params <= n * block_pl params) by (apply Nat.mul_le_mono_r; exact J).
  rewrite FJ. unfold splice. rewrite firstn_app, firstn_length, Nat.min_l by lia. rewrite Nat.sub_diag. cbn [firstn]. rewrite app_nil_r, firstn_firstn. now rewrite Nat.min_id.
Qed.

(** Three blocks sealed; the third one changed and a fourth one added. *)
Definition grown : file := firstn 12 ex_file ++ [x07; x00; x00; x08; x00; x00; x09; x00; x00; x0a; x00; x00].
Definition grow_params : PosPara := ex_params 1 0 0 0 10.
Lemma grow_setting n : n <= 1000 -> setting hsum Debug (with_data grow_params (n * 4)) ex_key n 2.
Proof.
  intros N. split; [apply hsum_32| | | |].
  - split; cbn [block_l data_l unit_pl block_pl with_data grow_params ex_params]; try lia. apply Nat.div_mul. lia.
  - cbn [unit_pl with_data grow_params ex_params]. change (256 ^ Z.of_nat 3)%Z with 16777216%Z. unfold ex_key. lia.
  - cbn [long_modes_fine mode_l with_data grow_params ex_params]. left. lia.
  - cbn [short_modes_fine mode_s with_data grow_params ex_params]. lia.
Qed.
Example C117_ex : exists st st' s, seal hsum Debug grow_params ex_key [] ex_file = Ok st /\
  seal hsum Debug (with_data grow_params 16) ex_key [] grown = Ok st' /\
  seal_from hsum Debug (with_data grow_params 16) ex_key [] 2 (firstn 12 (s_file st) ++ skipn 12 grown) (firstn 2 (s_ids st)) = Ok s /\
  s_file s = s_file st' /\ s_ids s = s_ids st' /\ length (s_log s) = 4 /\ length (s_log st') = 8 /\
  firstn 12 ex_file = firstn 12 grown /\ firstn 12 (s_file st') <> firstn 12 grown.
Proof.
  pose proof (grow_setting 3 ltac:(lia)) as S3. pose proof (grow_setting 4 ltac:(lia)) as S4.
  change (with_data grow_params (3 * 4)) with grow_params in S3. change (4 * 4) with 16 in S4.
  assert (A : sealable grow_params ex_key 3 2 ex_file) by apply ex_sealable.
  assert (B : sealable (with_data grow_params 16) ex_key 4 2 grown) by (apply sealable_b_ok; vm_compute; reflexivity).
  assert (T : match seal_upto hsum Debug (with_data grow_params 16) ex_key [] 1 grown with Ok s => negb (bytes_eqb (firstn 6 (s_file s)) (firstn 6 grown)) | Panic => false end = true) by (vm_compute; reflexivity).
  destruct (seal_total hsum Debug grow_params ex_key [] 3 2 S3 ex_file A) as (st & E & _). exists st.
  assert (SR : same_rules grow_params 3 4). { right. split; [reflexivity|]. intros _. split; lia. }
  destruct (C117_from hsum Debug grow_params 16 ex_key [] 3 4 2 S3 S4 SR ex_file grown 2 st A B ltac:(lia) ltac:(lia) eq_refl E) as (st' & s & l & E1 & E2 & E3 & E4 & _ & E6).
  exists st', s. split; [exact E|]. split; [exact E1|]. split; [exact E2|]. split; [exact E3|]. split; [exact E4|]. split; [exact E6|].
  split; [exact (WorkFacts.seal_count hsum Debug (with_data grow_params 16) ex_key [] 4 2 (set_geom _ _ _ _ _ _ S4) grown st' E1)|].
  split; [reflexivity|]. destruct (first_sealed hsum Debug (with_data grow_params 16) ex_key [] 4 2 grown st' 1 S4 B E1 ltac:(lia)) as (sj & EJ & FJ).
  rewrite EJ in T. apply negb_true_iff in T. apply bytes_eqb_neq in T. intros X. apply T. change (1 * block_pl (with_data grow_params 16)) with 6 in FJ. rewrite FJ.
  transitivity (firstn 6 (firstn 12 (s_file st'))); [now rewrite firstn_firstn|]. rewrite X. reflexivity.
Qed.

(** Without the last condition of the rules: from 256 blocks to 257 the blocks sealed before
    have other dependencies. *)
Definition many (n : nat) : file := flat_map (fun _ => [x01; x00; x00; x02; x00; x00]) (seq 0 n).
Theorem C117_boundary_refuted : exists H params d' key n n' m g g' st st',
  setting H Debug params key n m /\ setting H Debug (with_data params d') key n' m /\ mode_s params = 0 /\ mode_l params = 0 /\
  sealable params key n m g /\ sealable (with_data params d') key n' m g' /\ n < n' /\
  firstn (n * block_pl params) g = firstn (n * block_pl params) g' /\
  seal H Debug params key [] g = Ok st /\ seal H Debug (with_data params d') key [] g' = Ok st' /\
  firstn (3 * block_pl params) (s_file st) <> firstn (3 * block_pl params) (s_file st').
Proof.
  assert (TR : match seal_upto hsum Debug (with_data grow_params (256 * 4)) ex_key [] 3 (many 256), seal_upto hsum Debug (with_data grow_params (257 * 4)) ex_key [] 3 (many 257) with
    | Ok a, Ok b => negb (bytes_eqb (firstn 18 (s_file a)) (firstn 18 (s_file b))) && bytes_eqb (firstn 1536 (many 256)) (firstn 1536 (many 257)) && sealable_b (with_data grow_params (256 * 4)) ex_key 256 2 (many 256) && sealable_b (with_data grow_params (257 * 4)) ex_key 257 2 (many 257)
    | _, _ => false end = true) by (vm_compute; reflexivity).
  pose proof (grow_setting 256 ltac:(lia)) as S1. pose proof (grow_setting 257 ltac:(lia)) as S2.
  destruct (seal_upto hsum Debug (with_data grow_params (256 * 4)) ex_key [] 3 (many 256)) as [a|] eqn:EA; [|discriminate TR].
  destruct (seal_upto hsum Debug (with_data grow_params (257 * 4)) ex_key [] 3 (many 257)) as [b|] eqn:EB; [|discriminate TR].
  apply andb_prop in TR as (TR & B2). apply andb_prop in TR as (TR & B1). apply andb_prop in TR as (TR & EG). apply negb_true_iff in TR. apply bytes_eqb_neq in TR. apply bytes_eqb_eq in EG.
  apply sealable_b_ok in B1, B2.
  destruct (seal_total _ _ _ _ [] _ _ S1 _ B1) as (st & E & _). destruct (seal_total _ _ _ _ [] _ _ S2 _ B2) as (st' & E' & _).
  destruct (first_sealed _ _ _ _ _ _ _ _ _ 3 S1 B1 E ltac:(lia)) as (a' & EA' & FA). destruct (first_sealed _ _ _ _ _ _ _ _ _ 3 S2 B2 E' ltac:(lia)) as (b' & EB' & FB).
  rewrite EA in EA'. injection EA' as <-. rewrite EB in EB'. injection EB' as <-.
  exists hsum, (with_data grow_params (256 * 4)), (257 * 4), ex_key, 256, 257, 2, (many 256), (many 257), st, st'.
  change (with_data (with_data grow_params (256 * 4)) (257 * 4)) with (with_data grow_params (257 * 4)).
  split; [exact S1|]. split; [exact S2|]. split; [reflexivity|]. split; [reflexivity|]. split; [exact B1|]. split; [exact B2|]. split; [lia|]. split; [exact EG|]. split; [exact E|]. split; [exact E'|].
  change (block_pl (with_data grow_params (256 * 4))) with 6 in *. change (block_pl (with_data grow_params (257 * 4))) with 6 in *. rewrite <- FA, <- FB. exact TR.
Qed.
Print Assumptions C117_boundary_refuted.

(** Every later block is to be sealed again: a change in one block changes sealed blocks that
    hold the same data as before. *)
Theorem C117_later_refuted : exists H params key n m g g' st st',
  setting H Debug params key n m /\ sealable params key n m g /\ sealable params key n m g' /\
  skipn (1 * block_pl params) g = skipn (1 * block_pl params) g' /\
  seal H Debug params key [] g = Ok st /\ seal H Debug params key [] g' = Ok st' /\
  read_file (s_file st) (1 * block_pl params) (block_pl params) <> read_file (s_file st') (1 * block_pl params) (block_pl params).
Proof.
  set (g' := [x02; x00; x00; x02; x00; x00] ++ skipn 6 (many 3)).
  assert (TR : match seal_upto hsum Debug grow_params ex_key [] 2 (many 3), seal_upto hsum Debug grow_params ex_key [] 2 g' with
    | Ok a, Ok b => negb (bytes_eqb (read_file (s_file a) 6 6) (read_file (s_file b) 6 6)) && sealable_b grow_params ex_key 3 2 (many 3) && sealable_b grow_params ex_key 3 2 g'
    | _, _ => false end = true) by (vm_compute; reflexivity).
  pose proof (grow_setting 3 ltac:(lia)) as S1. change (with_data grow_params (3 * 4)) with grow_params in S1.
  destruct (seal_upto hsum Debug grow_params ex_key [] 2 (many 3)) as [a|] eqn:EA; [|discriminate TR].
  destruct (seal_upto hsum Debug grow_params ex_key [] 2 g') as [b|] eqn:EB; [|discriminate TR].
  apply andb_prop in TR as (TR & B2). apply andb_prop in TR as (TR & B1). apply negb_true_iff in TR. apply bytes_eqb_neq in TR. apply sealable_b_ok in B1, B2.
  destruct (seal_total _ _ _ _ [] _ _ S1 _ B1) as (st & E & _). destruct (seal_total _ _ _ _ [] _ _ S1 _ B2) as (st' & E' & _).
  destruct (first_sealed _ _ _ _ _ _ _ _ _ 2 S1 B1 E ltac:(lia)) as (a' & EA' & FA). destruct (first_sealed _ _ _ _ _ _ _ _ _ 2 S1 B2 E' ltac:(lia)) as (b' & EB' & FB).
  rewrite EA in EA'. injection EA' as <-. rewrite EB in EB'. injection EB' as <-.
  exists hsum, grow_params, ex_key, 3, 2, (many 3), g', st, st'.
  split; [exact S1|]. split; [exact B1|]. split; [exact B2|]. split; [reflexivity|]. split; [exact E|]. split; [exact E'|].
  change (block_pl grow_params) with 6 in *. change (1 * 6) with 6. change (2 * 6) with 12 in *.
  assert (R : forall F G : file, firstn 12 F = firstn 12 G -> read_file F 6 6 = read_file G 6 6).
  { intros F G X. apply read_file_ext. intros x L. rewrite <- (nth_firstn F 12), <- (nth_firstn G 12) by lia. now rewrite X. }
  rewrite <- (R _ _ FA), <- (R _ _ FB). exact TR.
Qed.
Print Assumptions C117_later_refuted.
