(** Property C95: what a sealed block is made of.  Vocabulary: SealSpec ([setting],
    [sealable], [block_bytes]) and [long_choice] from SealMeaning (the blocks the rule of
    the parameters selects for block k). *)
From Coq Require Import Znumtheory.
From Verif Require Import Base Sloth Common Depend Prover SealSpec SealCore SealFile SealTop SealMeaning SealLocal SealWitness.
Local Open Scope nat_scope.

(** A sealed block is a function of its original block, of the hash of the sealed block
    before it (the iv for block 0) and of the sealed blocks selected as dependencies: two
    sealings, of different files and with different ivs, that agree on these agree on
    the sealed block. *)
Theorem C95_block : forall H pr params key n m, setting H pr params key n m ->
  forall iv iv' f g sf sg k, sealable params key n m f -> sealable params key n m g ->
  seal H pr params key iv f = Ok sf -> seal H pr params key iv' g = Ok sg -> k < n ->
  block_bytes params f k = block_bytes params g k ->
  (k = 0 -> iv = iv') ->
  (k <> 0 -> H (block_bytes params (s_file sf) (k - 1)) = H (block_bytes params (s_file sg) (k - 1))) ->
  (forall bs b, long_choice H pr params n (H (block_bytes params (s_file sf) (k - 1))) k bs -> In b bs ->
     block_bytes params (s_file sf) b = block_bytes params (s_file sg) b) ->
  block_bytes params (s_file sf) k = block_bytes params (s_file sg) k.
Proof. intros H pr params key n m SET iv iv' f g sf sg k. exact (sealed_block_det H pr params key n m SET iv iv' f g sf sg k). Qed.
Print Assumptions C95_block.

(** Everything before block j >= 1, the iv included, reaches the later blocks through the
    sealed blocks only. *)
Theorem C95_resume : forall H pr params key n m, setting H pr params key n m ->
  forall iv iv' f g sf sg j, sealable params key n m f -> sealable params key n m g ->
  seal H pr params key iv f = Ok sf -> seal H pr params key iv' g = Ok sg -> 0 < j ->
  (forall k, k < n -> k < j -> block_bytes params (s_file sf) k = block_bytes params (s_file sg) k) ->
  (forall k, j <= k < n -> block_bytes params f k = block_bytes params g k) ->
  forall k, k < n -> block_bytes params (s_file sf) k = block_bytes params (s_file sg) k.
Proof.
  intros H pr params key n m SET iv iv' f g sf sg j SF SG EF EG J0 EB EP k.
  induction k as [k IH] using (well_founded_induction Wf_nat.lt_wf). intros K.
  destruct (Nat.lt_ge_cases k j) as [L|L]; [now apply EB|].
  apply (C95_block H pr params key n m SET iv iv' f g sf sg k); auto; try lia.
  - intros _. rewrite IH by lia. reflexivity.
  - intros bs b LC I. destruct (long_choice_fun H pr params key n m SET _ k bs bs K LC LC) as (_ & LT).
    rewrite Forall_forall in LT. specialize (LT b I). apply IH; lia.
Qed.
Print Assumptions C95_resume.

(** With one iv: the first j sealed blocks agree exactly if the first j original blocks
    do, as long as no masked number was 0. *)
Theorem C95_prefix : forall H pr params key n m, setting H pr params key n m -> sound_key H key ->
  forall iv f g sf sg, sealable params key n m f -> sealable params key n m g ->
  seal H pr params key iv f = Ok sf -> seal H pr params key iv g = Ok sg ->
  ~ In 0%Z (s_log sf) -> ~ In 0%Z (s_log sg) ->
  forall j, j <= n ->
  firstn (j * block_pl params) (s_file sf) = firstn (j * block_pl params) (s_file sg) <->
  firstn (j * block_pl params) f = firstn (j * block_pl params) g.
Proof.
  intros H pr params key n m SET SK iv f g sf sg SF SG EF EG ZF ZG j J. split.
  - apply (prefix_injective H pr params key n m SET iv); auto.
  - intros E. exact (seal_causal H pr params key iv n m SET f g sf sg j SF SG EF EG J E).
Qed.
Print Assumptions C95_prefix.
(** In particular a change first shows up in its own block. *)
Theorem C95_first_change : forall H pr params key n m, setting H pr params key n m -> sound_key H key ->
  forall iv f g sf sg, sealable params key n m f -> sealable params key n m g ->
  seal H pr params key iv f = Ok sf -> seal H pr params key iv g = Ok sg ->
  ~ In 0%Z (s_log sf) -> ~ In 0%Z (s_log sg) ->
  forall j, j < n ->
  (forall k, k < j -> block_bytes params f k = block_bytes params g k) -> block_bytes params f j <> block_bytes params g j ->
  (forall k, k < j -> block_bytes params (s_file sf) k = block_bytes params (s_file sg) k) /\
  block_bytes params (s_file sf) j <> block_bytes params (s_file sg) j.
Proof.
  intros H pr params key n m SET SK iv f g sf sg SF SG EF EG ZF ZG j J EB NE.
  destruct (seal_total H pr params key iv n m SET f SF) as (s1 & E1 & L1 & _). rewrite EF in E1. injection E1 as <-.
  destruct (seal_total H pr params key iv n m SET g SG) as (s2 & E2 & L2 & _). rewrite EG in E2. injection E2 as <-.
  pose proof (proj1 SF) as LF. pose proof (proj1 SG) as LG.
  assert (BB : forall a b : file, n * block_pl params <= length a -> n * block_pl params <= length b -> forall i, i <= n ->
    (firstn (i * block_pl params) a = firstn (i * block_pl params) b <-> forall k, k < i -> block_bytes params a k = block_bytes params b k)).
  { intros a b La Lb i I. pose proof (Nat.mul_le_mono_r i n (block_pl params) I). rewrite (blk_firstn params a b i) by lia.
    split; intros X k K; specialize (X k K); pose proof (Nat.mul_le_mono_r (S k) n (block_pl params) ltac:(lia)); [rewrite !block_bytes_blk by lia|rewrite !block_bytes_blk in X by lia]; exact X. }
  pose proof (C95_prefix H pr params key n m SET SK iv f g sf sg SF SG EF EG ZF ZG) as P.
  assert (A : forall k, k < j -> block_bytes params (s_file sf) k = block_bytes params (s_file sg) k).
  { apply BB; [lia|lia|lia|]. apply P; [lia|]. apply BB; auto; lia. }
  split; [exact A|]. intros Q. apply NE. assert (X : forall k, k < S j -> block_bytes params f k = block_bytes params g k); [|apply X; lia].
  apply (BB f g LF LG (S j) ltac:(lia)). apply P; [lia|]. apply BB; [lia|lia|lia|]. intros k K. destruct (Nat.eq_dec k j) as [->|]; [exact Q|]. apply A. lia.
Qed.
Print Assumptions C95_first_change.

(** Sealing evaluates the delay function once per unit and round ([s_log] has one entry
    per evaluation). *)
Theorem C95_evaluations : forall H pr params key n m, setting H pr params key n m ->
  forall iv f st, seal H pr params key iv f = Ok st -> length (s_log st) = n * m * seal_rounds params.
Proof. intros H pr params key n m SET iv f st. exact (seal_count H pr params key n m SET iv f st). Qed.
Print Assumptions C95_evaluations.

(** A file changed in block 1 and a second iv with the same effect. *)
Definition ex_file1 : file := firstn 6 ex_file ++ [x01] ++ skipn 7 ex_file.
Example C95_ex : let P := ex_params 2 0 0 0 10 in
  sealable P ex_key 3 2 ex_file /\ sealable P ex_key 3 2 ex_file1 /\
  block_bytes P ex_file 0 = block_bytes P ex_file1 0 /\ block_bytes P ex_file 1 <> block_bytes P ex_file1 1 /\
  (exists st, seal hsum Debug P ex_key [] ex_file = Ok st /\ ~ In 0%Z (s_log st)) /\
  (exists st, seal hsum Debug P ex_key [] ex_file1 = Ok st /\ ~ In 0%Z (s_log st)).
Proof.
  split; [apply ex_sealable|]. split; [apply sealable_b_ok; reflexivity|]. split; [reflexivity|]. split; [discriminate|].
  split; [exact (trial_no_zero _ _ _ _ _ true run_random)|].
  apply trial_no_zero with (b := true). vm_compute. reflexivity.
Qed.
(** Two ivs that the hash does not tell apart: block 0, hence every block, is the same. *)
Definition iv_trial : bool :=
  match seal hsum Debug (ex_params 2 0 0 0 10) ex_key [x05] ex_file, seal hsum Debug (ex_params 2 0 0 0 10) ex_key [x05; x00] ex_file with
  | Ok a, Ok b => bytes_eqb (s_file a) (s_file b) && negb (bytes_eqb (s_file a) ex_file)
  | _, _ => false
  end.
Example C95_iv_ex : iv_trial = true.
Proof. vm_compute. reflexivity. Qed.
