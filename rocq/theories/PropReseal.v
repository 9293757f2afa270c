(** Property C113: lost blocks of a sealed file can be sealed again one by one, and the
    answers do not show that the sealed blocks are stored.  Vocabulary: SealSpec ([setting],
    [sealable], [block_bytes]), [long_choice] from SealMeaning (the blocks the rule of the
    parameters selects for block k), [reseal] and [answer_kept] from Reseal. *)
From Coq Require Import Sorted Znumtheory.
From Verif Require Import Base Sloth Common Depend Prover Verifier BytesFacts SealSpec SealCore SealFile SealTop SealMeaning SealWitness WorkFacts SealLocal Reseal ResealFacts.
Local Open Scope nat_scope.

(** Sealed block k was made with the help of sealed block b; S is the sealed file. *)
Definition depends (H : list byte -> list byte) (pr : profile) (params : PosPara) (n : nat) (S : file) (k b : nat) : Prop :=
  exists bs, long_choice H pr params n (H (block_bytes params S (k - 1))) k bs /\ In b bs.
(** Block b of S is still there in F. *)
Definition intact (params : PosPara) (F S : file) (b : nat) : Prop := block_bytes params F b = block_bytes params S b.

Section Facts.
Context (H : list byte -> list byte) (pr : profile) (params : PosPara) (key : Z) (iv : list byte) (n m : nat).
Hypothesis SET : setting H pr params key n m.
Notation bpl := (block_pl params).
Context (g : file) (st : seal_state).
Hypothesis SE : sealable params key n m g.
Hypothesis E : seal H pr params key iv g = Ok st.

Lemma long_enough : n * bpl <= length (s_file st).
Proof using SET SE E. destruct (seal_total H pr params key iv n m SET g SE) as (st' & E' & L & _). rewrite E in E'. injection E' as <-. rewrite L. apply SE. Qed.
Lemma bytes_blk (F : file) k : k < n -> n * bpl <= length F -> block_bytes params F k = blk params F k.
Proof using SET. clear SE E. intros K L. apply block_bytes_blk. pose proof (Nat.mul_le_mono_r (S k) n bpl ltac:(lia)). lia. Qed.
Lemma pick_depends t k is b : tabl pr params n m t -> k < n -> pick_l H params (fst t) n (H (blk params (s_file st) (k - 1))) k = Ok is -> In b is ->
  depends H pr params n (s_file st) k b /\ b < k.
Proof using SET SE E.
  intros T K EI I. pose proof long_enough as L. split.
  - exists is. split; [|exact I]. rewrite bytes_blk by (auto; lia). exact (pick_choice H pr params n m t _ k is T K EI).
  - destruct (pick_l_ok H params n m (fst t) (hh H pr params key n m SET) (upl_pos _ _ _ _ _ _ SET) (bpl_eq _ _ _ _ _ _ SET) (proj1 (proj2 T)) (H (blk params (s_file st) (k - 1))) k K) as (is' & EI' & FA).
    rewrite EI in EI'. injection EI' as <-. rewrite Forall_forall in FA. auto.
Qed.
Lemma logs_len ks : Forall (fun k => k < n) ks -> length (concat (map (block_log params n m (s_log st)) (rev ks))) = length ks * m * seal_rounds params.
Proof using SET SE E.
  destruct (tabl_ex H pr params key n m SET) as (t & T). intros FK. apply Forall_rev in FK. rewrite <- (rev_length ks). induction (rev ks) as [|k l IH]; [reflexivity|].
  inversion FK; subst. cbn [map concat length]. rewrite app_length, IH by assumption. rewrite (proj2 (logs H pr params key iv n m SET g st SE E t T k ltac:(assumption))). lia.
Qed.
Lemma reseal_gen F ks : n * bpl <= length F -> StronglySorted lt ks -> Forall (fun k => k < n) ks ->
  (forall k b, In k ks -> depends H pr params n (s_file st) k b -> In b ks \/ intact params F (s_file st) b) ->
  exists st', reseal H pr params key iv g F (s_ids st) ks = Ok st' /\
  length (s_file st') = length F /\ s_ids st' = s_ids st /\ s_log st' = concat (map (block_log params n m (s_log st)) (rev ks)) /\
  (forall k, In k ks -> block_bytes params (s_file st') k = block_bytes params (s_file st) k) /\
  (forall x, (forall k, In k ks -> x < k * bpl \/ S k * bpl <= x) -> nth x (s_file st') x00 = nth x F x00).
Proof using SET SE E.
  intros LF SS FK AG. destruct (tabl_ex H pr params key n m SET) as (t & T). pose proof T as (TL & LO & TS & SO). pose proof long_enough as LS.
  destruct (reseal_loop H pr params key iv n m SET g st SE E t T ks F [] SS FK LF) as (G & EG & LG & BG & NG).
  { intros k is b I EI IB. rewrite Forall_forall in FK. destruct (pick_depends t k is b T (FK k I) EI IB) as [D LT]. specialize (FK k I).
    destruct (AG k b I D) as [X|X]; [now left|right]. unfold intact in X. rewrite !bytes_blk in X by (auto; lia). exact X. }
  exists (mkSeal G (s_ids st) (concat (map (block_log params n m (s_log st)) (rev ks)) ++ [])). split; [|cbn [s_file s_ids s_log]; split; [exact LG|split; [reflexivity|split; [apply app_nil_r|split; [|exact NG]]]]].
  - unfold reseal. rewrite (set_nblocks H pr params key n m SET). cbn [bind]. rewrite TL. cbn [bind]. rewrite TS. cbn [bind]. exact EG.
  - intros k I. rewrite Forall_forall in FK. specialize (FK k I). rewrite !bytes_blk by (auto; lia). now apply BG.
Qed.
Lemma blocks_nth (F G : file) : n * bpl <= length F -> n * bpl <= length G -> (forall b, b < n -> block_bytes params F b = block_bytes params G b) -> forall x, x < n * bpl -> nth x F x00 = nth x G x00.
Proof using SET.
  clear SE E. intros LF LG B x X. pose proof (bpl_eq H pr params key n m SET) as BE. assert (B0 : bpl <> 0) by (intros Z0; rewrite Z0 in X; lia).
  assert (K : x / bpl < n) by (apply Nat.div_lt_upper_bound; lia). specialize (B (x / bpl) K). rewrite !bytes_blk in B by auto. unfold blk in B.
  pose proof (Nat.div_mod x bpl B0) as DM. pose proof (Nat.mod_upper_bound x bpl B0) as MB.
  pose proof (read_file_nth F (x / bpl * bpl) bpl (x mod bpl) MB) as A1. pose proof (read_file_nth G (x / bpl * bpl) bpl (x mod bpl) MB) as A2. rewrite B in A1. rewrite A1 in A2. injection A2 as A2.
  replace (x / bpl * bpl + x mod bpl) with x in A2 by lia. exact A2.
Qed.
Lemma outside_block (F G : file) ks : n * bpl <= length F -> n * bpl <= length G -> (forall x, (forall k, In k ks -> x < k * bpl \/ S k * bpl <= x) -> nth x G x00 = nth x F x00) ->
  forall b, b < n -> ~ In b ks -> block_bytes params G b = block_bytes params F b.
Proof using SET.
  clear SE E. intros LF LG N b B NI. rewrite !bytes_blk by auto. apply blk_ext. intros x X. apply N. intros k I. assert (NE : k <> b) by (intros ->; auto).
  destruct (Nat.lt_ge_cases k b) as [C|C]; [right; pose proof (mul_lt_block params k b C)|left; pose proof (mul_lt_block params b k ltac:(lia))]; lia.
Qed.
End Facts.

(** The original g was sealed; of the sealed file F is left.  The blocks ks, in increasing
    order, are sealed again, one at a time, from the original and the hashes of the sealed
    blocks; each depends only on blocks that are still there or are among ks.  Then exactly
    these blocks of the file are replaced, and by what they were; the evaluations of the
    delay function are exactly those that the sealing spent on these blocks. *)
Theorem C113_reseal : forall H pr params key iv n m, setting H pr params key n m ->
  forall g st, sealable params key n m g -> seal H pr params key iv g = Ok st ->
  forall F ks, n * block_pl params <= length F -> StronglySorted lt ks -> Forall (fun k => k < n) ks ->
  (forall k b, In k ks -> depends H pr params n (s_file st) k b -> In b ks \/ intact params F (s_file st) b) ->
  exists st', reseal H pr params key iv g F (s_ids st) ks = Ok st' /\ length (s_file st') = length F /\
  (forall k, In k ks -> block_bytes params (s_file st') k = block_bytes params (s_file st) k) /\
  (forall x, (forall k, In k ks -> x < k * block_pl params \/ S k * block_pl params <= x) -> nth x (s_file st') x00 = nth x F x00) /\
  s_log st' = concat (map (fun k => firstn (seal_rounds params * m) (skipn ((n - 1 - k) * (seal_rounds params * m)) (s_log st))) (rev ks)) /\
  length (s_log st') = length ks * m * seal_rounds params.
Proof.
  intros H pr params key iv n m SET g st SE E F ks LF SS FK AG. destruct (reseal_gen H pr params key iv n m SET g st SE E F ks LF SS FK AG) as (st' & R & L & _ & LG & B & N).
  exists st'. split; [exact R|]. split; [exact L|]. split; [exact B|]. split; [exact N|]. split; [exact LG|]. rewrite LG. exact (logs_len H pr params key iv n m SET g st SE E ks FK).
Qed.
Print Assumptions C113_reseal.

(** So a sealed file that has lost the blocks D is repaired at the price of these blocks
    only, whatever stands in their place. *)
Theorem C113_lost : forall H pr params key iv n m, setting H pr params key n m ->
  forall g st, sealable params key n m g -> seal H pr params key iv g = Ok st ->
  forall F D, length F = length (s_file st) -> StronglySorted lt D -> Forall (fun k => k < n) D ->
  (forall b, b < n -> ~ In b D -> intact params F (s_file st) b) -> (forall x, n * block_pl params <= x -> nth x F x00 = nth x (s_file st) x00) ->
  exists st', reseal H pr params key iv g F (s_ids st) D = Ok st' /\ s_file st' = s_file st /\ length (s_log st') = length D * m * seal_rounds params.
Proof.
  intros H pr params key iv n m SET g st SE E F D LF SS FD IN RE. pose proof (long_enough H pr params key iv n m SET g st SE E) as LS.
  assert (LF' : n * block_pl params <= length F) by lia.
  destruct (reseal_gen H pr params key iv n m SET g st SE E F D LF' SS FD) as (st' & R & L & _ & LG & B & N).
  { intros k b I (bs & LC & IB). rewrite Forall_forall in FD. specialize (FD k I). destruct (long_choice_fun H pr params key n m SET _ k bs bs FD LC LC) as (_ & LT).
    rewrite Forall_forall in LT. specialize (LT b IB). destruct (in_dec Nat.eq_dec b D) as [X|X]; [now left|right]. apply IN; [lia|exact X]. }
  exists st'. split; [exact R|]. split; [|rewrite LG; exact (logs_len H pr params key iv n m SET g st SE E D FD)].
  apply file_ext; [lia|]. intros x _. destruct (Nat.lt_ge_cases x (n * block_pl params)) as [C|C].
  - apply (blocks_nth H pr params key n m SET); [lia|lia| |exact C]. intros b BN. destruct (in_dec Nat.eq_dec b D) as [X|X]; [now apply B|].
    rewrite (outside_block H pr params key n m SET F (s_file st') D LF' ltac:(lia) N b BN X). now apply IN.
  - rewrite <- RE by exact C. apply N. intros k I. right. rewrite Forall_forall in FD. specialize (FD k I). pose proof (mul_lt_block params k n FD). lia.
Qed.
Print Assumptions C113_lost.

(** A prover that has the original and the hashes but not the sealed blocks D gives for any
    block up to k the very answer of the complete sealed file, after it has sealed again
    those of D up to k. *)
Theorem C113_answers : forall H pr params key iv n m, setting H pr params key n m ->
  forall g st, sealable params key n m g -> seal H pr params key iv g = Ok st ->
  forall F D, n * block_pl params <= length F -> StronglySorted lt D -> (forall b, b < n -> ~ In b D -> intact params F (s_file st) b) ->
  forall k, k < n -> let ks := filter (fun b => b <=? k) D in
  exists st', reseal H pr params key iv g F (s_ids st) ks = Ok st' /\ length (s_log st') = length ks * m * seal_rounds params /\
  forall i, i <= k -> answer_kept H pr params (s_ids st) (s_file st') i = single_unseal_prepare H pr params (s_file st) i.
Proof.
  intros H pr params key iv n m SET g st SE E F D LF SS IN k K ks. pose proof (long_enough H pr params key iv n m SET g st SE E) as LS.
  assert (MEM : forall b, In b ks <-> In b D /\ b <= k) by (intros b; unfold ks; rewrite filter_In, Nat.leb_le; tauto).
  assert (FK : Forall (fun b => b < n) ks) by (apply Forall_forall; intros b I; apply MEM in I; lia).
  assert (SK : StronglySorted lt ks).
  { unfold ks. clear - SS. induction SS as [|a l SS IH FA]; [constructor|]. cbn [filter]. destruct (a <=? k); [|exact IH]. constructor; [exact IH|]. apply Forall_forall. intros b I. apply filter_In in I. rewrite Forall_forall in FA. apply FA, I. }
  destruct (reseal_gen H pr params key iv n m SET g st SE E F ks LF SK FK) as (st' & R & L & _ & LG & B & N).
  { intros j b I (bs & LC & IB). apply MEM in I. destruct (long_choice_fun H pr params key n m SET _ j bs bs ltac:(lia) LC LC) as (_ & LT).
    rewrite Forall_forall in LT. specialize (LT b IB). destruct (in_dec Nat.eq_dec b D) as [X|X]; [left; apply MEM; split; [exact X|lia]|right]. apply IN; [lia|exact X]. }
  exists st'. split; [exact R|]. split; [rewrite LG; exact (logs_len H pr params key iv n m SET g st SE E ks FK)|].
  assert (OK : forall b, b <= k -> blk params (s_file st') b = blk params (s_file st) b).
  { intros b BK. rewrite <- !(bytes_blk H pr params key n m SET) by lia. destruct (in_dec Nat.eq_dec b ks) as [X|X]; [now apply B|].
    rewrite (outside_block H pr params key n m SET F (s_file st') ks LF ltac:(lia) N b ltac:(lia) X). apply IN; [lia|]. intros Y. apply X, MEM. auto. }
  intros i I. destruct (tabl_ex H pr params key n m SET) as (t & T). apply (answer_same H pr params key iv n m SET g st SE E t); [exact T|lia|now apply OK|].
  intros is b EI IB. destruct (pick_depends H pr params key iv n m SET g st SE E t i is b T ltac:(lia) EI IB) as [_ LT]. apply OK. lia.
Qed.
Print Assumptions C113_answers.
(** With nothing of the sealed file but the hashes of its blocks: k + 1 blocks of work. *)
Theorem C113_bare : forall H pr params key iv n m, setting H pr params key n m ->
  forall g st, sealable params key n m g -> seal H pr params key iv g = Ok st ->
  forall F, n * block_pl params <= length F -> forall k, k < n ->
  exists st', reseal H pr params key iv g F (s_ids st) (seq 0 (k + 1)) = Ok st' /\ length (s_log st') = (k + 1) * m * seal_rounds params /\
  forall i, i <= k -> answer_kept H pr params (s_ids st) (s_file st') i = single_unseal_prepare H pr params (s_file st) i.
Proof.
  intros H pr params key iv n m SET g st SE E F LF k K.
  assert (SS : forall a c, StronglySorted lt (seq c a)). { induction a as [|a IH]; intros c; [constructor|]. cbn [seq]. constructor; [apply IH|]. apply Forall_forall. intros x I. apply in_seq in I. lia. }
  destruct (C113_answers H pr params key iv n m SET g st SE E F (seq 0 n) LF (SS n 0) ltac:(intros b B NI; exfalso; apply NI, in_seq; lia) k K) as (st' & R & L & A).
  assert (FE : filter (fun b => b <=? k) (seq 0 n) = seq 0 (k + 1)).
  { replace n with ((k + 1) + (n - (k + 1))) by lia. rewrite seq_app, filter_app. assert (X : forall a c, (forall x, In x (seq c a) -> x <= k) -> filter (fun b => b <=? k) (seq c a) = seq c a).
    { induction a as [|a IH]; intros c W; [reflexivity|]. cbn [seq filter]. destruct (Nat.leb_spec c k); [f_equal; apply IH; intros x I; apply W; now right|]. specialize (W c (or_introl eq_refl)). lia. }
    assert (Y : forall a c, k < c -> filter (fun b => b <=? k) (seq c a) = []).
    { induction a as [|a IH]; intros c W; [reflexivity|]. cbn [seq filter]. destruct (Nat.leb_spec c k); [lia|]. apply IH. lia. }
    rewrite X, Y by (try (intros x I; apply in_seq in I); lia). apply app_nil_r. }
  rewrite FE in R, L. rewrite seq_length in L. exists st'. auto.
Qed.
Print Assumptions C113_bare.

(** The condition on the dependencies is needed: block 1, sealed again while the block
    before it is damaged, comes out wrong, and nothing reports it. *)
Definition stale_trial : bool :=
  let P := ex_params 2 0 0 0 10 in
  match seal hsum Debug P ex_key [] ex_file with
  | Ok st => match reseal hsum Debug P ex_key [] ex_file (zeros 6 ++ skipn 6 (s_file st)) (s_ids st) [1] with
             | Ok st' => negb (bytes_eqb (block_bytes P (s_file st') 1) (block_bytes P (s_file st) 1))
             | Panic => false
             end
  | Panic => false
  end.
Lemma stale_set : setting hsum Debug (ex_params 2 0 0 0 10) ex_key 3 2.
Proof. apply ex_setting; [apply hsum_32|cbn; lia|cbn; lia]. Qed.
Theorem C113_any_order_refuted :
  ~ forall H pr params key iv n m, setting H pr params key n m ->
    forall g st, sealable params key n m g -> seal H pr params key iv g = Ok st ->
    forall F k st', length F = length (s_file st) -> k < n -> reseal H pr params key iv g F (s_ids st) [k] = Ok st' ->
    block_bytes params (s_file st') k = block_bytes params (s_file st) k.
Proof.
  intros X. assert (T : stale_trial = true) by (vm_compute; reflexivity). unfold stale_trial in T. cbv zeta in T.
  destruct (seal hsum Debug (ex_params 2 0 0 0 10) ex_key [] ex_file) as [st|] eqn:E; [|discriminate T].
  destruct (reseal hsum Debug (ex_params 2 0 0 0 10) ex_key [] ex_file (zeros 6 ++ skipn 6 (s_file st)) (s_ids st) [1]) as [st'|] eqn:R; [|discriminate T].
  destruct (seal_total hsum Debug (ex_params 2 0 0 0 10) ex_key [] 3 2 stale_set ex_file (ex_sealable 2 0 0 0 10)) as (st1 & E1 & L & _). rewrite E in E1. injection E1 as <-.
  specialize (X hsum Debug (ex_params 2 0 0 0 10) ex_key [] 3 2 stale_set ex_file st (ex_sealable 2 0 0 0 10) E (zeros 6 ++ skipn 6 (s_file st)) 1 st').
  rewrite X in T; [rewrite bytes_eqb_refl in T; discriminate T| |lia|exact R].
  rewrite app_length, skipn_length. change (length (zeros 6)) with 6. assert (length ex_file = 18) by reflexivity. lia.
Qed.
Print Assumptions C113_any_order_refuted.

(** A case: three blocks of two units; blocks 0 and 2 are lost, and block 2 is asked for. *)
Definition other_trial : bool :=
  match seal hsum Debug (ex_params 2 0 0 0 10) ex_key [] ex_file with
  | Ok st => negb (bytes_eqb (block_bytes (ex_params 2 0 0 0 10) (s_file st) 0) (zeros 6))
  | Panic => false
  end.
Example C113_ex : let P := ex_params 2 0 0 0 10 in
  exists st, seal hsum Debug P ex_key [] ex_file = Ok st /\ sealable P ex_key 3 2 ex_file /\ StronglySorted lt [0; 2] /\
  let F := zeros 6 ++ block_bytes P (s_file st) 1 ++ zeros 6 in
  length F = 18 /\ F <> s_file st /\ (forall b, b < 3 -> ~ In b [0; 2] -> intact P F (s_file st) b) /\
  exists st', reseal hsum Debug P ex_key [] ex_file F (s_ids st) [0; 2] = Ok st' /\ s_file st' = s_file st /\ length (s_log st') = 8 /\ length (s_log st) = 12 /\
  answer_kept hsum Debug P (s_ids st) (s_file st') 2 = single_unseal_prepare hsum Debug P (s_file st) 2.
Proof.
  intros P. destruct (seal_total hsum Debug P ex_key [] 3 2 stale_set ex_file (ex_sealable 2 0 0 0 10)) as (st & E & L & _).
  assert (T : other_trial = true) by (vm_compute; reflexivity). unfold other_trial in T. fold P in T. rewrite E in T. apply negb_true_iff in T.
  pose proof (seal_count hsum Debug P ex_key 3 2 stale_set [] ex_file st E) as LC.
  assert (L18 : length (s_file st) = 18) by (rewrite L; reflexivity).
  exists st. split; [exact E|]. split; [apply ex_sealable|]. assert (SS : StronglySorted lt [0; 2]) by (repeat constructor; lia). split; [exact SS|]. intros F.
  assert (L1 : length (block_bytes P (s_file st) 1) = 6). { unfold block_bytes. rewrite firstn_length, skipn_length, L18. reflexivity. }
  assert (LF : length F = 18). { unfold F. rewrite !app_length, L1. reflexivity. }
  assert (IN : forall b, b < 3 -> ~ In b [0; 2] -> intact P F (s_file st) b).
  { intros b B NI. destruct b as [|[|[|b]]]; [destruct NI; now left| |destruct NI; right; now left|lia]. unfold intact, F. generalize (block_bytes P (s_file st) 1) L1. intros l Ll.
    do 6 (destruct l as [|? l]; [discriminate Ll|]). destruct l; [reflexivity|discriminate Ll]. }
  split; [exact LF|]. split.
  - intros Q. rewrite <- Q in T. unfold F, block_bytes at 1 in T. change (block_pl P) with 6 in T. cbn [Nat.mul skipn] in T. rewrite firstn_app in T. change (length (zeros 6)) with 6 in T. rewrite Nat.sub_diag in T. cbn [firstn] in T. rewrite app_nil_r in T.
    vm_compute in T. discriminate T.
  - split; [exact IN|]. destruct (C113_lost hsum Debug P ex_key [] 3 2 stale_set ex_file st (ex_sealable 2 0 0 0 10) E F [0; 2] ltac:(lia) SS ltac:(repeat constructor; lia) IN) as (st' & R & EQ & LG).
    { intros x X. change (3 * block_pl P) with 18 in X. rewrite !nth_overflow by lia. reflexivity. }
    exists st'. split; [exact R|]. split; [exact EQ|]. split; [rewrite LG; reflexivity|]. split; [rewrite LC; reflexivity|].
    destruct (C113_answers hsum Debug P ex_key [] 3 2 stale_set ex_file st (ex_sealable 2 0 0 0 10) E F [0; 2] ltac:(change (block_pl P) with 6; lia) SS IN 2 ltac:(lia)) as (st2 & R2 & _ & A).
    assert (RR : reseal hsum Debug P ex_key [] ex_file F (s_ids st) [0; 2] = Ok st2) by exact R2. rewrite R in RR. injection RR as <-. now apply A.
Qed.
