(** Property C118: the checks do not see from which sealing a block comes, so changed data
    need not be sealed again.  Vocabulary: [judge], [answer] from Gather; [opens],
    [opens_parallel] from PropJudge; [same_block] from PropSpot; [seals_reply] from
    ReplyMeaning; [same_tables] from PropGather. *)
From Coq Require Import Strings.Byte Sorted.
From Verif Require Import Base Sloth Common Depend Prover Verifier Merkle Postorage BytesFacts DependDet DependSpec SealSpec SealTop SealZero SealWitness VerifierFacts ParallelFacts ChallengeFacts
  PostorageFacts SealVerify SealMeaning ReplyMeaning PropMeaning SpotFacts PropSpot PropVerifier PropChance Gather PropGather PropPlain PropJudge.
Local Open Scope nat_scope.

(** What is sent about one block: the block, the hash of the block before and the blocks it
    depends on, as single_unseal_prepare returns them. *)
Notation reply := (list (list byte) * list byte * list (list (list byte)))%type.
(** It is unsealed to block k of the original. *)
Definition works (H : list byte -> list byte) (pr : profile) (params : PosPara) (key : Z) (iv : list byte) (origin : file) (k : nat) (p : reply) : Prop :=
  exists u, batch_unseal H pr params key iv [k] [snd (fst p)] [snd p] [fst (fst p)] = Ok [u] /\ batch_verify origin k u (block_l params) (unit_l params) = Ok tt.
Definition bundle (ps : list reply) : answer := mkAnswer (map (fun p => snd (fst p)) ps) (map snd ps) (map (fun p => fst (fst p)) ps).

Lemma only_map {A B} (f : A -> B) l i a : nth_error l i = Some a -> only i (map f l) = [f a].
Proof. unfold only. revert i. induction l as [|x l IH]; intros [|i] N; try discriminate N; cbn [map skipn]; [now injection N as ->|now apply IH]. Qed.
Lemma only_at {A} (l : list A) i a : nth_error l i = Some a -> only i l = [a].
Proof. unfold only. revert i. induction l as [|x l IH]; intros [|i] N; try discriminate N; cbn [skipn]; [now injection N as ->|now apply IH]. Qed.
Lemma works_one H pr params key iv k (p : reply) idx (ps : list reply) t i : bu_idxs_s pr params = Ok t -> nth_error idx i = Some k -> nth_error ps i = Some p ->
  let a := bundle ps in
  batch_unseal H pr params key iv [k] [snd (fst p)] [snd p] [fst (fst p)] = let* c := bjob H params key iv idx (a_before a) (a_deps a) t (a_blocks a) i in Ok [c].
Proof.
  intros T K P a. rewrite <- (seqn_only H pr params key iv idx (a_before a) (a_deps a) t i (fst (fst p)) (a_blocks a)); [|unfold a, bundle; cbn [a_blocks]; rewrite nth_error_map; now rewrite P|exact T].
  unfold a, bundle. cbn [a_before a_deps]. now rewrite (only_at _ _ _ K), !(only_map _ _ _ _ P).
Qed.

(** C118: an answer is accepted exactly if each of its blocks is, wherever they come from. *)
Theorem C118_blockwise : forall H pr params key iv origin idx ps, idx <> [] -> length ps = length idx ->
  opens H pr params key iv origin idx (bundle ps) <-> Forall2 (works H pr params key iv origin) idx ps.
Proof.
  intros H pr params key iv origin idx ps NE L. destruct (bu_idxs_s pr params) as [t|] eqn:T.
  - assert (LB : length (a_blocks (bundle ps)) = length idx) by (unfold bundle; cbn [a_blocks]; now rewrite map_length). split.
    + intros (out & U & W). rewrite batch_unseal_map, T in U. cbn [bind] in U. rewrite LB in U.
      assert (X : forall i k p, nth_error idx i = Some k -> nth_error ps i = Some p -> works H pr params key iv origin k p).
      { intros i k p K P. destruct (W i k K) as (u & NU & V). exists u. split; [|exact V]. rewrite (works_one H pr params key iv k p idx ps t i T K P). cbn zeta.
        assert (I : i < length idx) by (apply nth_error_Some; congruence). destruct (mapM_nth _ _ _ U i i) as (b & NB & FB); [apply nth_seq; auto|]. rewrite FB. cbn [bind]. congruence. }
      clear - L X. revert ps L X. induction idx as [|k idx IH]; intros [|p ps] L X; try discriminate L; constructor; [exact (X 0 k p eq_refl eq_refl)|].
      apply IH; [now injection L|]. intros i. exact (X (S i)).
    + intros F. assert (X : forall i k, nth_error idx i = Some k -> exists u, bjob H params key iv idx (a_before (bundle ps)) (a_deps (bundle ps)) t (a_blocks (bundle ps)) i = Ok u /\ batch_verify origin k u (block_l params) (unit_l params) = Ok tt).
      { intros i k K. assert (I : i < length ps) by (rewrite L; apply nth_error_Some; congruence). destruct (nth_error ps i) as [p|] eqn:P; [|apply nth_error_None in P; lia].
        assert (WK : works H pr params key iv origin k p). { clear - F K P. revert i K P. induction F as [|x y l l' XY _ IH]; intros [|i] K P; try discriminate K; [injection K as <-; injection P as <-; exact XY|exact (IH i K P)]. }
        destruct WK as (u & U & V). rewrite (works_one H pr params key iv k p idx ps t i T K P) in U. cbn zeta in U. destruct (bjob _ _ _ _ _ _ _ _ _ _) as [c|]; [|discriminate U]. cbn [bind] in U. injection U as ->. eauto. }
      destruct (mapM_exists (bjob H params key iv idx (a_before (bundle ps)) (a_deps (bundle ps)) t (a_blocks (bundle ps))) (fun _ _ => True) (seq 0 (length idx))) as (out & O & _).
      { intros i I. apply in_seq in I. destruct (nth_error idx i) as [k|] eqn:K; [|apply nth_error_None in K; lia]. destruct (X i k K) as (u & U & _). eauto. }
      exists out. split; [rewrite batch_unseal_map, T; cbn [bind]; now rewrite LB|]. intros i k K. destruct (X i k K) as (u & U & V). exists u. split; [|exact V].
      assert (I : i < length idx) by (apply nth_error_Some; congruence). destruct (mapM_nth _ _ _ O i i) as (b & NB & FB); [apply nth_seq; auto|]. congruence.
  - split.
    + intros (out & U & _). rewrite batch_unseal_map, T in U. discriminate U.
    + intros F. destruct F as [|k p idx ps (u & U & _) F]; [congruence|]. rewrite batch_unseal_map, T in U. discriminate U.
Qed.
Print Assumptions C118_blockwise.

(** It depends on that block of the original only. *)
Theorem C118_local : forall H pr params key iv origin origin' k p, same_block params origin origin' k ->
  works H pr params key iv origin k p -> works H pr params key iv origin' k p.
Proof. intros H pr params key iv origin origin' k p SB (u & U & V). exists u. split; [exact U|]. unfold batch_verify in *. unfold same_block in SB. now rewrite <- SB. Qed.
Print Assumptions C118_local.

Lemma works_judge H H2 pr params key iv origin' : same_tables params -> hash32 H2 ->
  forall idx ps, StronglySorted lt idx -> idx <> [] -> Forall2 (works H pr params key iv origin') idx ps ->
  forall pub ids leaves tree root r parallel_num, load_data pub = Ok (key, iv) -> generate_merkle_tree_from_data H2 ids = Ok (leaves, tree, root) -> Forall (fun k => k < length ids) idx ->
  exists proof, judge H H2 pr params parallel_num origin' pub leaves root r idx (H (response_data r (a_blocks (bundle ps)))) (bundle ps) proof (Ok tt).
Proof.
  intros ST HH idx ps SS NE F pub ids leaves tree root r parallel_num LD GT FI.
  destruct (PropPostorage.C46_proofs_verify H2 ids idx HH SS FI NE) as (l & t & rt & p & GT' & _ & _ & V). rewrite GT in GT'. injection GT' as <- <- <-. exists p.
  assert (L : length ps = length idx) by (clear - F; induction F; cbn; auto). pose proof (proj2 (C118_blockwise H pr params key iv origin' idx ps NE L) F) as O.
  destruct (Nat.eq_dec parallel_num 0) as [->|TH]; [apply C116_sequential; eauto 6|].
  destruct (bu_idxs_s pr params) as [t|] eqn:T; [|destruct O as (out & U & _); rewrite batch_unseal_map, T in U; discriminate U].
  apply C116_parallel; [exact TH|exact ST|rewrite (same_tables_bp pr params ST), T; discriminate|]. split; [reflexivity|]. split; [exact V|]. exists key, iv. split; [exact LD|].
  intros i k K. assert (I : i < length ps) by (rewrite L; apply nth_error_Some; congruence). destruct (nth_error ps i) as [q|] eqn:Q; [|apply nth_error_None in Q; lia].
  assert (WK : works H pr params key iv origin' k q). { clear - F K Q. revert i K Q. induction F as [|x y l l' XY _ IH]; intros [|i] K Q; try discriminate K; [injection K as <-; injection Q as <-; exact XY|exact (IH i K Q)]. }
  exists (fst (fst q)). split; [unfold bundle; cbn [a_blocks]; now rewrite nth_error_map, Q|]. unfold bundle; cbn [a_before a_deps]. rewrite (only_at _ _ _ K), !(only_map _ _ _ _ Q).
  destruct WK as (u & -> & W). eauto.
Qed.

(** The data are changed from origin to origin' after sealing.  About a block that is the
    same in both, the old sealed file still answers; about a block that is not, it is enough
    to seal this block alone, with the hash and the dependency blocks of the old file. *)
Theorem C118_update : forall H pr params key iv n m, setting H pr params key n m -> layout params n m -> sound_key H key -> same_tables params ->
  forall origin g st origin' g', copy_and_pad origin (data_l params) (unit_l params) = Ok g -> sealable params key n m g ->
  seal H pr params key iv g = Ok st -> ~ In 0%Z (s_log st) ->
  copy_and_pad origin' (data_l params) (unit_l params) = Ok g' -> sealable params key n m g' ->
  exists b U M,
  (forall k before deps bo, k < n -> single_unseal_prepare H pr params (s_file st) k = Ok (bo, before, deps) ->
     seals_reply H pr params key iv m k before deps (block_units params m g' k) (b k) (U k) (M k)) /\
  forall rep : nat -> reply,
  (forall k, k < n -> exists bo before deps, single_unseal_prepare H pr params (s_file st) k = Ok (bo, before, deps) /\
     (same_block params origin origin' k /\ rep k = (bo, before, deps) \/
      (forall t, t < seal_rounds params * m -> M k t <> 0%Z) /\ rep k = (b k, before, deps))) ->
  forall H2 idx pub ids leaves tree root r parallel_num, hash32 H2 -> StronglySorted lt idx -> idx <> [] -> Forall (fun k => k < n) idx ->
  load_data pub = Ok (key, iv) -> length ids = n -> generate_merkle_tree_from_data H2 ids = Ok (leaves, tree, root) ->
  exists proof, judge H H2 pr params parallel_num origin' pub leaves root r idx (H (response_data r (a_blocks (bundle (map rep idx))))) (bundle (map rep idx)) proof (Ok tt).
Proof.
  intros H pr params key iv n m SET LAY SK ST origin g st origin' g' EP SE E NZ EP' SE'.
  destruct (seal_total H pr params key iv n m SET g SE) as (st2 & E2 & LF & _ & SF & _). rewrite E in E2. injection E2 as <-.
  assert (LN : n * block_pl params <= length (s_file st)) by (destruct SF; assumption).
  assert (UT : mode_s params = 0 \/ (unit_l params <> 0 /\ block_l params / unit_l params = m)) by (right; split; [pose proof (l_unit _ _ _ LAY); lia|apply (units_block params n m LAY)]).
  (* the sealing of each new block alone *)
  assert (NEW : forall k, k < n -> exists bUM : list (list byte) * (nat -> nat -> list byte) * (nat -> Z),
    exists bo before deps, single_unseal_prepare H pr params (s_file st) k = Ok (bo, before, deps) /\
    seals_reply H pr params key iv m k before deps (block_units params m g' k) (fst (fst bUM)) (snd (fst bUM)) (snd bUM) /\
    ((forall t, t < seal_rounds params * m -> snd bUM t <> 0%Z) -> works H pr params key iv origin' k (fst (fst bUM), before, deps))).
  { intros k K. destruct (C72_response H pr params key n m SET (s_file st) k LN K) as (bl & _ & R).
    set (before := if k =? 0 then [] else H (block_bytes params (s_file st) (k - 1))) in *. set (deps := map (block_units params m (s_file st)) bl) in *.
    destruct (C74_forged_accepted H pr params key iv n m SET LAY SK origin' g' EP' SE' [k] ltac:(repeat constructor; exact K) [before] [deps] eq_refl eq_refl) as (bs & U & M & L & S & Z).
    { constructor; [|constructor]. unfold deps. apply Forall_forall. intros b B. apply in_map_iff in B as (x & <- & _). unfold block_units. now rewrite map_length, seq_length. }
    destruct bs as [|b [|]]; try discriminate L. exists (b, U 0, M 0), (block_units params m (s_file st) k), before, deps. cbn [fst snd]. split; [exact R|]. split; [exact (S 0 ltac:(cbn; lia))|].
    intros NM. destruct Z as (Z & _). { intros [|j] t J T; cbn [length] in J; [now apply NM|lia]. }
    exists (block_units params m g' k). cbn [fst snd]. split; [exact Z|]. exact (honest_block H params n m LAY origin' g' k EP' K). }
  destruct (finite_choice n _ ([], fun _ _ => [], fun _ => 0%Z) NEW) as (ch & CH).
  exists (fun k => fst (fst (ch k))), (fun k => snd (fst (ch k))), (fun k => snd (ch k)). split.
  { intros k before deps bo K R. destruct (CH k K) as (bo' & before' & deps' & R' & S & _). rewrite R in R'. injection R' as -> -> ->. exact S. }
  intros rep REP H2 idx pub ids leaves tree root r parallel_num HH SS NE FK LD LI GT.
  apply (works_judge H H2 pr params key iv origin' ST HH) with (ids := ids) (tree := tree); auto; [|rewrite LI; exact FK].
  clear SS NE. induction FK as [|k idx K FK IH]; [constructor|]. cbn [map]. constructor; [|exact IH].
  destruct (REP k K) as (bo & before & deps & R & [[SB ->]|[NM ->]]).
  - apply (C118_local H pr params key iv origin origin' k _ SB).
    destruct (C33_batch_unseal H pr params key iv n m SET g st SK SE E NZ UT [k] ltac:(repeat constructor; exact K)) as (rs & MR & BU). cbn [mapM] in MR. rewrite R in MR. cbn [bind] in MR. injection MR as <-.
    exists (block_units params m g k). split; [exact BU|]. exact (honest_block H params n m LAY origin g k EP K).
  - destruct (CH k K) as (bo' & before' & deps' & R' & _ & W). rewrite R in R'. injection R' as -> -> ->. exact (W NM).
Qed.
Print Assumptions C118_update.

(** Three blocks, the second one changed after sealing. *)
Definition new_origin : file := [x01; x07; x02; x07; x0b; x0c; x0d; x0e; x05; x07; x06; x07].
Definition works_b (origin : file) (k : nat) (p : reply) : bool :=
  match batch_unseal hsum Debug spot_params ex_key [] [k] [snd (fst p)] [snd p] [fst (fst p)] with
  | Ok [u] => match batch_verify origin k u 4 2 with Ok _ => true | Panic => false end
  | _ => false
  end.
Lemma works_b_ok origin k p : works_b origin k p = true -> works hsum Debug spot_params ex_key [] origin k p.
Proof.
  unfold works_b, works. change (block_l spot_params) with 4. change (unit_l spot_params) with 2.
  destruct (batch_unseal hsum Debug spot_params ex_key [] [k] [snd (fst p)] [snd p] [fst (fst p)]) as [[|u [|]]|]; try discriminate. intros V. exists u. split; [reflexivity|]. destruct (batch_verify origin k u 4 2) as [[]|]; [reflexivity|discriminate].
Qed.
(** What sealing the old and the new data gives, the replies of the old file, and the new
    second block sealed alone. *)
Definition update_trial : res (seal_state * seal_state * list reply) :=
  let* g := copy_and_pad spot_origin 12 2 in
  let* g' := copy_and_pad new_origin 12 2 in
  let* st := seal hsum Debug spot_params ex_key [] g in
  let* st' := seal hsum Debug spot_params ex_key [] g' in
  let* p0 := single_unseal_prepare hsum Debug spot_params (s_file st) 0 in
  let* p1 := single_unseal_prepare hsum Debug spot_params (s_file st) 1 in
  let* p2 := single_unseal_prepare hsum Debug spot_params (s_file st) 2 in
  let* b := seal_block_rounds hsum spot_params ex_key [] [] (snd p1) (s_ids st) 1 (block_units spot_params 2 g' 1, []) in
  Ok (st, st', [p0; (fst b, snd (fst p1), snd p1); p2]).
Theorem C118_sealed_again_refuted : exists g g' st st' p0 b p1 p2,
  copy_and_pad spot_origin 12 2 = Ok g /\ copy_and_pad new_origin 12 2 = Ok g' /\
  seal hsum Debug spot_params ex_key [] g = Ok st /\ seal hsum Debug spot_params ex_key [] g' = Ok st' /\
  single_unseal_prepare hsum Debug spot_params (s_file st) 0 = Ok p0 /\ single_unseal_prepare hsum Debug spot_params (s_file st) 1 = Ok p1 /\
  single_unseal_prepare hsum Debug spot_params (s_file st) 2 = Ok p2 /\
  read_file spot_origin 4 4 <> read_file new_origin 4 4 /\ read_file (s_file st) 12 6 <> read_file (s_file st') 12 6 /\
  forall H2 pub ids leaves tree root r parallel_num, hash32 H2 -> load_data pub = Ok (ex_key, []) -> length ids = 3 -> generate_merkle_tree_from_data H2 ids = Ok (leaves, tree, root) ->
  exists proof, judge hsum H2 Debug spot_params parallel_num new_origin pub leaves root r [0; 1; 2]
    (hsum (response_data r (a_blocks (bundle [p0; (b, snd (fst p1), snd p1); p2])))) (bundle [p0; (b, snd (fst p1), snd p1); p2]) proof (Ok tt).
Proof.
  assert (T : match update_trial with
    | Ok (st, st', ps) => negb (bytes_eqb (read_file (s_file st) 12 6) (read_file (s_file st') 12 6)) && negb (bytes_eqb (read_file spot_origin 4 4) (read_file new_origin 4 4)) &&
        forallb (fun kp => works_b new_origin (fst kp) (snd kp)) (combine [0; 1; 2] ps)
    | Panic => false end = true) by (vm_compute; reflexivity).
  unfold update_trial in T.
  destruct (copy_and_pad spot_origin 12 2) as [g|] eqn:E1; [|discriminate T]. cbn [bind] in T.
  destruct (copy_and_pad new_origin 12 2) as [g'|] eqn:E2; [|discriminate T]. cbn [bind] in T.
  destruct (seal hsum Debug spot_params ex_key [] g) as [st|] eqn:E3; [|discriminate T]. cbn [bind] in T.
  destruct (seal hsum Debug spot_params ex_key [] g') as [st'|] eqn:E4; [|discriminate T]. cbn [bind] in T.
  destruct (single_unseal_prepare hsum Debug spot_params (s_file st) 0) as [p0|] eqn:E5; [|discriminate T]. cbn [bind] in T.
  destruct (single_unseal_prepare hsum Debug spot_params (s_file st) 1) as [p1|] eqn:E6; [|discriminate T]. cbn [bind] in T.
  destruct (single_unseal_prepare hsum Debug spot_params (s_file st) 2) as [p2|] eqn:E7; [|discriminate T]. cbn [bind] in T.
  destruct (seal_block_rounds _ _ _ _ _ _ _ _ _) as [b|] eqn:E8; [|discriminate T]. cbn [bind combine forallb fst snd] in T.
  apply andb_prop in T as (T & W). apply andb_prop in T as (T1 & T2). apply negb_true_iff in T1, T2. apply bytes_eqb_neq in T1, T2.
  apply andb_prop in W as (W0 & W). apply andb_prop in W as (W1 & W). apply andb_prop in W as (W2 & _).
  exists g, g', st, st', p0, (fst b), p1, p2. do 7 (split; [first [reflexivity|assumption]|]). split; [exact T2|]. split; [exact T1|].
  intros H2 pub ids leaves tree root r parallel_num HH LD LI GT.
  apply (works_judge hsum H2 Debug spot_params ex_key [] new_origin (or_introl eq_refl) HH) with (ids := ids) (tree := tree); auto.
  - repeat constructor.
  - discriminate.
  - constructor; [exact (works_b_ok _ _ _ W0)|]. constructor; [exact (works_b_ok _ _ _ W1)|]. constructor; [exact (works_b_ok _ _ _ W2)|constructor].
  - rewrite LI. repeat constructor.
Qed.
Print Assumptions C118_sealed_again_refuted.
(** The hypotheses of C118_update are met by these data. *)
Example C118_ex : exists g st g', setting hsum Debug spot_params ex_key 3 2 /\ layout spot_params 3 2 /\ sound_key hsum ex_key /\ same_tables spot_params /\
  copy_and_pad spot_origin 12 2 = Ok g /\ sealable spot_params ex_key 3 2 g /\ seal hsum Debug spot_params ex_key [] g = Ok st /\ ~ In 0%Z (s_log st) /\
  copy_and_pad new_origin 12 2 = Ok g' /\ sealable spot_params ex_key 3 2 g' /\ same_block spot_params spot_origin new_origin 2 /\ ~ same_block spot_params spot_origin new_origin 1.
Proof.
  assert (T : match copy_and_pad spot_origin 12 2, copy_and_pad new_origin 12 2 with
    | Ok g, Ok g' => match seal hsum Debug spot_params ex_key [] g with Ok st => no_zero (s_log st) && sealable_b spot_params ex_key 3 2 g && sealable_b spot_params ex_key 3 2 g' | Panic => false end
    | _, _ => false end = true) by (vm_compute; reflexivity).
  destruct (copy_and_pad spot_origin 12 2) as [g|]; [|discriminate T]. destruct (copy_and_pad new_origin 12 2) as [g'|]; [|discriminate T].
  destruct (seal hsum Debug spot_params ex_key [] g) as [st|] eqn:E; [|discriminate T]. apply andb_prop in T as (T & S2). apply andb_prop in T as (NZ & S1).
  exists g, st, g'. split; [exact spot_setting|]. split; [exact spot_layout|]. split; [exact ex_sound|]. split; [now left|]. split; [reflexivity|]. split; [now apply sealable_b_ok|]. split; [exact E|]. split; [now apply no_zero_ok|].
  split; [reflexivity|]. split; [now apply sealable_b_ok|]. split; [reflexivity|]. intros X. vm_compute in X. discriminate X.
Qed.
