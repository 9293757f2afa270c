(** Property C93: sealing with a deterministic rule for the block dependencies.  H is
    blake3, H2 is SHA-256.  Vocabulary: [setting], [sealable], [sound_key],
    [block_bytes], [unit_bytes] from SealSpec, [seals_block], [short_choice], [chained]
    from SealMeaning, [layout] from PostorageFacts, [restores], [same_block] from
    PropSpot, [leaf_of], [tree_inputs] from MerkleFacts. *)
From Coq Require Import Znumtheory Strings.Byte Strings.String Sorted List.
From Verif Require Import Base Sloth Common Depend Prover Verifier Merkle Postorage BytesFacts CommonFacts DependSpec DependDet SealSpec SealTop SealPad SealZero SealWitness
  ChallengeFacts MerkleFacts SealMeaning ParamFacts PostorageFacts SpotFacts PropSpot DetFacts PropPostorage PropLeaves.
Local Open Scope nat_scope.

(** Sealing uses the blocks the rule lists, unsealing as many blocks from the start of
    the file.  Where the list is 0, 1, 2, ... the block is restored, whatever becomes of
    the others. *)
Theorem C93_block : forall H pr params key iv n m, setting H pr params key n m -> sound_key H key -> mode_l params <> 0 ->
  forall f st G, sealable params key n m f -> seal H pr params key iv f = Ok st -> ~ In 0%Z (s_log st) ->
  unseal H pr params key iv (s_file st) = Ok G ->
  forall k, k < n -> (forall row, long_depend pr k (cnt_l params) (mode_l params) = Ok row -> row = seq 0 (length row)) ->
  block_bytes params G k = block_bytes params f k.
Proof.
  intros H pr params key iv n m SET SK ML f st G SE ES NZ EU k KN R. apply (det_block_restored H pr params key iv n m SET f st G k SK SE ES NZ EU KN).
  intros bs. unfold unseal_choice, long_choice. destruct (mode_l params) as [|q]; [contradiction|]. intros LC. exists bs. split; [exact LC|now apply R].
Qed.
Print Assumptions C93_block.

Lemma zeros_straight row : Forall (fun x => x = 0) row -> NoDup row -> row = seq 0 (length row).
Proof.
  intros F ND. destruct ND as [|x row NI ND]; [reflexivity|]. inversion_clear F as [|? ? -> F'].
  destruct row as [|y row]; [reflexivity|]. inversion_clear F' as [|? ? E ?]. exfalso. apply NI. left. exact E.
Qed.
Lemma back_first (dist : nat -> Z) k c : (dist 0%nat <= Z.of_nat k)%Z -> back_by dist k (S c) = Z.to_nat (Z.of_nat k - dist 0%nat) :: map (fun i => Z.to_nat (Z.of_nat k - dist i)) (filter (fun i => (dist i <=? Z.of_nat k)%Z) (seq 1 c)).
Proof. intros L. unfold back_by. cbn [seq filter]. apply Z.leb_le in L. now rewrite L. Qed.
(** Which blocks these are: the first two with rule 1, the first three with rule 2, the
    first ten with rule 3, and all if the rule lists nothing. *)
Theorem C93_safe_blocks : forall H pr params key n m, setting H pr params key n m -> mode_l params <> 0 ->
  forall k row, k < n -> long_depend pr k (cnt_l params) (mode_l params) = Ok row ->
  (row = seq 0 (length row) <->
   match mode_l params with 1 => cnt_l params = 0 \/ k < 2 | 2 => cnt_l params = 0 \/ k < 3 | 3 => k < 10 | _ => True end).
Proof.
  intros H pr params key n m SET ML k row KN E. pose proof (set_long _ _ _ _ _ _ SET) as L. unfold long_modes_fine in L. unfold long_depend in E.
  assert (T10 : 10 <= k -> k / 10 <> 0) by (intros K Z; apply Nat.div_small_iff in Z; lia).
  assert (D2 : forall c, (c = 0 \/ k < 3) -> back_by dist_2 k c = seq 0 (length (back_by dist_2 k c))).
  { intros c [->|K]; [reflexivity|]. destruct (back_by_props dist_2 k c dist_2_pos dist_2_inj) as (A & B & I). apply zeros_straight; [|exact B].
    apply Forall_forall. intros x X. apply I in X as (i & _ & X). unfold dist_2 in X. assert (0 < 2 ^ Z.of_nat i)%Z by (apply Z.pow_pos_nonneg; lia). lia. }
  assert (N2 : forall c, c <> 0 -> 3 <= k -> back_by dist_2 k c <> seq 0 (length (back_by dist_2 k c))).
  { intros [|c] C K; [contradiction|]. rewrite back_first by (unfold dist_2; cbn; lia). cbn [length seq]. intros Q. injection Q as Q _. unfold dist_2 in Q. cbn in Q. lia. }
  destruct (mode_l params) as [|[|[|[|q]]]]; [contradiction| | | |]; cbn [Nat.eqb] in E.
  - rewrite long_mode_1_spec in E by exact L. injection E as <-. split.
    + intros Q. destruct (Nat.eq_dec (cnt_l params) 0) as [C|C]; [now left|]. right. destruct (Nat.lt_ge_cases k 2) as [K|K]; [exact K|]. exfalso. revert Q.
      destruct (cnt_l params) as [|c]; [contradiction|]. rewrite back_first by (unfold dist_1; cbn; lia). cbn [length seq]. intros Q. injection Q as Q _. unfold dist_1 in Q. cbn in Q. lia.
    + intros [C|K]; [now rewrite C|]. destruct (back_by_props dist_1 k (cnt_l params) dist_1_pos dist_1_inj) as (A & B & _). apply zeros_straight; [|exact B].
      apply Forall_forall. intros x X. rewrite Forall_forall in A. apply A in X. lia.
  - rewrite long_mode_2_spec in E by exact L. injection E as <-. split; [|apply D2].
    intros Q. destruct (Nat.eq_dec (cnt_l params) 0) as [C|C]; [now left|]. right. destruct (Nat.lt_ge_cases k 3) as [K|K]; [exact K|]. now apply N2 in Q.
  - rewrite long_mode_3_is_2, long_mode_2_spec in E by (apply Nat.lt_succ_r, Nat.div_lt_upper_bound; lia). injection E as <-. split.
    + intros Q. destruct (Nat.lt_ge_cases k 10) as [K|K]; [exact K|]. exfalso. revert Q. apply N2; [exact (T10 K)|lia].
    + intros K. apply D2. left. exact (Nat.div_small k 10 K).
  - injection E as <-. split; [intros _; exact I|reflexivity].
Qed.
Print Assumptions C93_safe_blocks.

(** With one sealing round the other blocks can be told exactly: block k is restored if
    and only if for every unit the string hashed when sealing and the string hashed when
    unsealing have the same hash.  They differ in the first part only: unit i of the
    listed stored blocks against unit i of the first stored blocks. *)
Theorem C93_one_round : forall H pr params key iv n m, setting H pr params key n m -> sound_key H key -> mode_l params <> 0 -> seal_rounds params = 1 ->
  forall f st G, sealable params key n m f -> seal H pr params key iv f = Ok st -> ~ In 0%Z (s_log st) ->
  unseal H pr params key iv (s_file st) = Ok G ->
  forall k U row, k < n -> seals_block H pr params key iv n m f (s_file st) k U -> long_depend pr k (cnt_l params) (mode_l params) = Ok row ->
  (block_bytes params G k = block_bytes params f k <->
   forall i us, i < m -> short_choice H pr params n m (U i (i - 1)) i us ->
     let part bs := concat (map (fun b => unit_bytes params (s_file st) (b * m + i)) bs) in
     let rest := concat (map (U i) us) ++ chained H params iv (s_file st) k i in
     H (part row ++ rest) = H (part (seq 0 (length row)) ++ rest)).
Proof.
  intros H pr params key iv n m SET SK ML R1 f st G SE ES NZ EU k U row KN SB ER.
  rewrite (det_one_round H pr params key iv n m SET f st G k U SK R1 SE ES NZ EU KN SB). cbv zeta. unfold unseal_choice, long_choice.
  destruct (mode_l params) as [|q]; [contradiction|]. split.
  - intros X i us I SC. apply (X i row (seq 0 (length row)) us I ER); [now exists row|exact SC].
  - intros X i bs bs' us I LC (row' & LC' & ->) SC. rewrite ER in LC, LC'. injection LC as <-. injection LC' as <-. now apply X.
Qed.
Print Assumptions C93_one_round.

Lemma concat_same {A} (l : nat) (xs ys : list (list A)) : length xs = length ys -> Forall (fun x => length x = l) xs -> Forall (fun x => length x = l) ys -> concat xs = concat ys -> xs = ys.
Proof.
  revert ys. induction xs as [|x xs IH]; intros [|y ys] L FX FY E; try discriminate; [reflexivity|]. inversion_clear FX. inversion_clear FY. cbn [concat] in E.
  apply app_inj_len in E; [|congruence]. destruct E as [-> E]. f_equal. apply IH; auto.
Qed.
(** So a block that reads a wrong one is lost, unless the wrong blocks hold the same bytes
    as the right ones or the hash collides on two strings that sealing and unsealing
    hashed. *)
Theorem C93_lost : forall H pr params key iv n m, setting H pr params key n m -> sound_key H key -> mode_l params <> 0 -> seal_rounds params = 1 ->
  forall f st G, sealable params key n m f -> seal H pr params key iv f = Ok st -> ~ In 0%Z (s_log st) ->
  unseal H pr params key iv (s_file st) = Ok G ->
  forall k U row, k < n -> seals_block H pr params key iv n m f (s_file st) k U -> long_depend pr k (cnt_l params) (mode_l params) = Ok row ->
  block_bytes params G k = block_bytes params f k ->
  (forall i j, i < m -> j < length row -> unit_bytes params (s_file st) (nth j row 0 * m + i) = unit_bytes params (s_file st) (j * m + i)) \/
  exists i us, i < m /\ short_choice H pr params n m (U i (i - 1)) i us /\
    let part bs := concat (map (fun b => unit_bytes params (s_file st) (b * m + i)) bs) in
    let rest := concat (map (U i) us) ++ chained H params iv (s_file st) k i in
    let a := part row ++ rest in let b := part (seq 0 (length row)) ++ rest in a <> b /\ H a = H b.
Proof.
  intros H pr params key iv n m SET SK ML R1 f st G SE ES NZ EU k U row KN SB ER BE.
  pose proof (proj1 (C93_one_round H pr params key iv n m SET SK ML R1 f st G SE ES NZ EU k U row KN SB ER) BE) as X. set (F := s_file st) in *.
  assert (LF : n * block_pl params <= length F) by (destruct (seal_total H pr params key iv n m SET f SE) as (st' & ES' & LS & _); rewrite ES in ES'; injection ES' as <-; unfold F; rewrite LS; apply SE).
  assert (RK : Forall (fun b => b < k) row).
  { apply (long_choice_fun H pr params key n m SET [] k row row KN); unfold long_choice; destruct (mode_l params); [contradiction|exact ER|contradiction|exact ER]. }
  assert (LR : length row <= k) by (apply (long_depend_length H pr params key n m SET); auto).
  set (same := fun i => if list_eq_dec (list_eq_dec Byte.byte_eq_dec) (map (fun b => unit_bytes params F (b * m + i)) row) (map (fun b => unit_bytes params F (b * m + i)) (seq 0 (length row))) then true else false).
  destruct (forallb same (seq 0 m)) eqn:FB.
  - left. intros i j I J. rewrite forallb_forall in FB. assert (Q := FB i ltac:(apply in_seq; lia)). unfold same in Q. destruct (list_eq_dec _ _ _) as [Q'|]; [|discriminate].
    apply (f_equal (fun l => nth_error l j)) in Q'. rewrite !nth_error_map in Q'. rewrite (nth_error_nth' row 0 J), (nth_error_nth' (seq 0 (length row)) 0) in Q' by (rewrite seq_length; exact J).
    rewrite seq_nth in Q' by exact J. now injection Q'.
  - right. assert (EX : exists i, In i (seq 0 m) /\ same i = false).
    { clear - FB. induction (seq 0 m) as [|a l IH]; [discriminate|]. cbn [forallb] in FB. destruct (same a) eqn:S; [destruct (IH FB) as (i & I & E); exists i; split; [now right|exact E]|exists a; split; [now left|exact S]]. }
    destruct EX as (i & I & SF). apply in_seq in I. destruct SB as (_ & _ & US). rewrite R1, Nat.mul_1_l in US. destruct (US i ltac:(lia)) as (bs & us & _ & SC & _). rewrite Nat.mod_small in SC by lia.
    exists i, us. split; [lia|]. split; [exact SC|]. cbv zeta. split; [|now apply X; [lia|]].
    intros Q. apply app_inv_tail in Q. unfold same in SF. destruct (list_eq_dec _ _ _) as [|N]; [discriminate|]. apply N.
    assert (UL : forall b, b < n -> length (unit_bytes params F (b * m + i)) = unit_pl params).
    { intros b B. unfold unit_bytes. rewrite firstn_length, skipn_length. rewrite (bpl_eq H pr params key n m SET) in LF. apply Nat.min_l.
      assert (S (b * m + i) * unit_pl params <= n * m * unit_pl params) by (apply Nat.mul_le_mono_r; nia). nia. }
    apply (concat_same (unit_pl params)); [now rewrite !map_length, seq_length| | |exact Q]; apply Forall_forall; intros x IX; apply in_map_iff in IX as (b & <- & IB); apply UL.
    + rewrite Forall_forall in RK. apply RK in IB. lia.
    + apply in_seq in IB. lia.
Qed.
Print Assumptions C93_lost.

(** The checks before the comparison of the roots do not notice: with any rule, every
    challenge to an honest sealed file passes, for every schedule. *)
Theorem C93_challenges : forall H H2 pr params key iv n m, setting H pr params key n m -> sound_key H key -> layout params n m -> hash32 H2 ->
  (256 ^ Z.of_nat (unit_l params) <= key)%Z ->
  forall origin g st pub leaves tree root, copy_and_pad origin (data_l params) (unit_l params) = Ok g -> seal H pr params key iv g = Ok st -> ~ In 0%Z (s_log st) ->
  load_data pub = Ok (key, iv) -> generate_merkle_tree_from_data H2 (s_ids st) = Ok (leaves, tree, root) ->
  forall idx, StronglySorted lt idx -> Forall (fun i => i < n) idx -> idx <> [] ->
  forall parallel_num r o, challenge H H2 pr params parallel_num origin (s_file st) pub leaves tree root r idx o <-> o = Ok tt.
Proof.
  intros H H2 pr params key iv n m SET SK LAY HH2 KB origin g st pub leaves tree root EP ES NZ LD GT idx S F N parallel_num r o.
  apply (challenge_ok H H2 pr params n m LAY HH2 key iv origin g st SET SK KB EP ES NZ); auto.
Qed.
Print Assumptions C93_challenges.
(** The whole pipeline with any rule: it ends well exactly if the file that unsealing
    produces has the same root as the original. *)
Theorem C93_pipeline : forall H H2 pr params n m, layout params n m -> hash32 H2 ->
  forall rnd_file rnd_iv pub key iv, prepare_params pr (unit_pl params) rnd_iv = Ok (key, iv) ->
  setting H pr params key n m -> sound_key H key -> (256 ^ Z.of_nat (unit_l params) <= key)%Z ->
  forall g st, copy_and_pad (create_random_file rnd_file (data_l params)) (data_l params) (unit_l params) = Ok g -> seal H pr params key iv g = Ok st -> ~ In 0%Z (s_log st) ->
  exists c lo to ro lu tu ru, restores H pr params key iv (s_file st) c /\
  generate_merkle_tree_from_file H2 (create_random_file rnd_file (data_l params)) (data_l params) (block_l params) = Ok (lo, to, ro) /\
  generate_merkle_tree_from_file H2 c (data_l params) (block_l params) = Ok (lu, tu, ru) /\
  forall parallel_num count cs, 0 < count ->
  (forall o, pipeline H H2 pr params parallel_num count rnd_file rnd_iv pub cs o -> o = (if list_eq_dec Byte.byte_eq_dec ro ru then Ok tt else Panic)) /\
  (Forall (fun c => exists fuel idx, create_challenges fuel count (0, n) (snd c) = Some (Ok idx)) cs ->
   pipeline H H2 pr params parallel_num count rnd_file rnd_iv pub cs (if list_eq_dec Byte.byte_eq_dec ro ru then Ok tt else Panic)).
Proof.
  intros H H2 pr params n m LAY HH2 rnd_file rnd_iv pub key iv PP SET SK KB g st EP ES NZ. set (origin := create_random_file rnd_file (data_l params)) in *.
  assert (GS : sealable params key n m g) by (eapply g_sealable; eauto).
  destruct (seal_total H pr params key iv n m SET g GS) as (st' & ES' & LS & _ & _ & IDS). rewrite ES in ES'. injection ES' as <-.
  assert (LF : n * block_pl params <= length (s_file st)) by (rewrite LS; apply GS).
  pose proof (sound_lt H pr params key n m SET SK) as KB'.
  destruct (restored_ex H pr params key iv n m SET KB' LAY (s_file st) LF) as (G & c & EU & LG & EC).
  destruct (file_tree_ok H2 params n m origin HH2 LAY) as (ro & TO & _). destruct (file_tree_ok H2 params n m c HH2 LAY) as (ru & TC & _).
  exists c. do 6 eexists. split; [exists G; auto|]. split; [exact TO|]. split; [exact TC|]. intros parallel_num count cs C0.
  destruct (tree_data_ok H2 (s_ids st)) as (leaves & tree & root & TD).
  { rewrite IDS. pose proof (l_n _ _ _ LAY). destruct n; [lia|discriminate]. }
  assert (SETUP : pipeline_setup H H2 pr params rnd_file rnd_iv pub = Ok (origin, ro, key, iv, st, save_data pub key iv, (leaves, tree, root))).
  { unfold pipeline_setup. fold origin. rewrite TO. cbn [bind]. rewrite EP. cbn [bind]. rewrite PP. cbn [bind]. rewrite ES. cbn [bind]. rewrite TD. reflexivity. }
  assert (FIN : pipeline_finish H H2 pr params ro key iv (s_file st) = (if list_eq_dec Byte.byte_eq_dec ro ru then Ok tt else Panic)).
  { unfold pipeline_finish. rewrite EU. cbn [bind]. rewrite EC. cbn [bind]. rewrite TC. reflexivity. }
  pose proof (saved pr params rnd_iv key iv PP) as SV. split.
  - intros o P. inversion P as [S|a b c' d e f l t r o' S R]; subst; [congruence|].
    rewrite SETUP in S. injection S as <- <- <- <- <- <- <- <- <-. rewrite (data_block params n m LAY) in R.
    apply (challenges_ok H H2 pr params n m LAY HH2 key iv origin g st SET SK KB EP ES NZ parallel_num count) in R; auto. subst o'. exact FIN.
  - intros D. rewrite <- FIN. change (pipeline_finish H H2 pr params ro key iv (s_file st)) with (let* _ := Ok tt in pipeline_finish H H2 pr params ro key iv (s_file st)).
    eapply P_run; [exact SETUP|]. rewrite (data_block params n m LAY). induction D as [|[r draw] cs (fuel & idx & E) D IH]; [constructor|].
    eapply CR_next; [exact E| |exact IH]. cbn [snd] in E. apply challenges_sound in E. destruct E as (S & L & F).
    apply (challenge_ok H H2 pr params n m LAY HH2 key iv origin g st SET SK KB EP ES NZ); auto.
    + eapply Forall_impl; [|exact F]. cbn. intros; lia.
    + intros ->. cbn in L. lia.
Qed.
Print Assumptions C93_pipeline.
(** So a run that ends well has restored every block but the first, or SHA-256 collides. *)
Theorem C93_ends_well : forall H H2 pr params n m, layout params n m -> hash32 H2 ->
  forall rnd_file rnd_iv pub key iv, prepare_params pr (unit_pl params) rnd_iv = Ok (key, iv) ->
  setting H pr params key n m -> sound_key H key -> (256 ^ Z.of_nat (unit_l params) <= key)%Z ->
  forall origin g st c, origin = create_random_file rnd_file (data_l params) ->
  copy_and_pad origin (data_l params) (unit_l params) = Ok g -> seal H pr params key iv g = Ok st -> ~ In 0%Z (s_log st) ->
  restores H pr params key iv (s_file st) c ->
  forall parallel_num count cs, 0 < count -> pipeline H H2 pr params parallel_num count rnd_file rnd_iv pub cs (Ok tt) ->
  (forall k, 1 <= k < n -> same_block params c origin k) \/
  (exists k, 1 <= k <= n /\ let a := read_file origin (k * block_l params) (block_l params) in let b := read_file c (k * block_l params) (block_l params) in
     a <> b /\ H2 a = H2 b) \/
  exists lo to ro lu tu ru x y, generate_merkle_tree_from_file H2 origin (data_l params) (block_l params) = Ok (lo, to, ro) /\
  generate_merkle_tree_from_file H2 c (data_l params) (block_l params) = Ok (lu, tu, ru) /\
  In x (tree_inputs to) /\ In y (tree_inputs tu) /\ x <> y /\ H2 x = H2 y.
Proof.
  intros H H2 pr params n m LAY HH2 rnd_file rnd_iv pub key iv PP SET SK KB origin g st c -> EP ES NZ (G & EU & EC) parallel_num count cs C0 P.
  destruct (C93_pipeline H H2 pr params n m LAY HH2 rnd_file rnd_iv pub key iv PP SET SK KB g st EP ES NZ) as (c' & lo & to & ro & lu & tu & ru & (G' & EU' & EC') & TO & TC & R).
  rewrite EU in EU'. injection EU' as <-. rewrite EC in EC'. injection EC' as <-. apply (R parallel_num count cs C0) in P.
  destruct (list_eq_dec _ ro ru) as [E|]; [|discriminate]. assert (N0 := l_n _ _ _ LAY).
  destruct (C89_passes H2 params n m LAY HH2 (create_random_file rnd_file (data_l params)) c [0]) as [A|A]; [repeat constructor|repeat constructor; lia|discriminate| |left|right; exact A].
  - destruct (C89_decides H2 params n m LAY HH2 (create_random_file rnd_file (data_l params)) c) as (lo' & to' & ro' & lu' & tu' & ru' & TO' & TC' & D).
    rewrite TO in TO'. rewrite TC in TC'. injection TO' as <- <- <-. injection TC' as <- <- <-. rewrite D; [|repeat constructor|repeat constructor; lia|discriminate]. destruct (list_eq_dec _ ro ru); congruence.
  - intros k K. symmetry. apply A. lia.
Qed.
Print Assumptions C93_ends_well.

(** Three blocks, rule 1 listing one block: blocks 0 and 1 are restored, block 2 (which
    depends on block 1, and is unsealed with block 0) is not. *)
Definition det_params : PosPara := ex_params 1 1 1 0 10.
Definition det_trial : bool :=
  match (let* g := copy_and_pad spot_origin 12 2 in
         let* st := seal hsum Debug det_params ex_key [] g in
         let* G := unseal hsum Debug det_params ex_key [] (s_file st) in
         let* c := copy_and_compress G 12 2 3 in
         Ok (st, c)) with
  | Panic => false
  | Ok (st, c) =>
      (length (s_file st) =? 18) && no_zero (s_log st) && bytes_eqb (read_file c 0 4) (read_file spot_origin 0 4) &&
      bytes_eqb (read_file c 4 4) (read_file spot_origin 4 4) && negb (bytes_eqb (read_file c 8 4) (read_file spot_origin 8 4))
  end.
Example C93_ex : setting hsum Debug det_params ex_key 3 2 /\ layout det_params 3 2 /\ sound_key hsum ex_key /\
  long_depend Debug 2 1 1 = Ok [1] /\
  exists g st c, copy_and_pad spot_origin 12 2 = Ok g /\ seal hsum Debug det_params ex_key [] g = Ok st /\ ~ In 0%Z (s_log st) /\
  restores hsum Debug det_params ex_key [] (s_file st) c /\
  same_block det_params c spot_origin 0 /\ same_block det_params c spot_origin 1 /\ ~ same_block det_params c spot_origin 2.
Proof.
  split; [apply ex_setting; [exact hsum_32|cbn; lia|cbn; lia]|]. split; [constructor; cbn; lia|]. split; [exact ex_sound|]. split; [reflexivity|].
  assert (E : det_trial = true) by (vm_compute; reflexivity). unfold det_trial in E. revert E.
  destruct (copy_and_pad spot_origin 12 2) as [g|]; [|discriminate]. cbn [bind].
  destruct (seal hsum Debug det_params ex_key [] g) as [st|] eqn:E1; [|discriminate]. cbn [bind].
  destruct (unseal hsum Debug det_params ex_key [] (s_file st)) as [G|] eqn:E3; [|discriminate]. cbn [bind].
  destruct (copy_and_compress G 12 2 3) as [c|] eqn:E4; [|discriminate]. cbn [bind]. intros E.
  apply andb_prop in E as (E & B5). apply andb_prop in E as (E & B4). apply andb_prop in E as (E & B3). apply andb_prop in E as (B1 & B2). apply negb_true_iff in B5.
  exists g, st, c. split; [reflexivity|]. split; [exact E1|]. split; [now apply no_zero_ok|]. split; [exists G; auto|].
  split; [now apply bytes_eqb_eq|]. split; [now apply bytes_eqb_eq|now apply bytes_eqb_neq].
Qed.
(** The hypotheses of the pipeline theorems, with the key that the code chooses. *)
Definition det_big : PosPara := mkPosPara 378 63 126 126 64 128 128 1 1 "sloth"%string 1 1 0 3 1.
Example C93_pipeline_ex : layout det_big 3 2 /\ prepare_params Debug 64 (fun _ => x05) = Ok (P_512, repeat x05 128) /\ setting hone Debug det_big P_512 3 2 /\
  sound_key hone P_512 /\ (256 ^ Z.of_nat 63 <= P_512)%Z /\
  exists g st, copy_and_pad (create_random_file (fun _ => x02) 378) 378 63 = Ok g /\ seal hone Debug det_big P_512 (repeat x05 128) g = Ok st /\ ~ In 0%Z (s_log st).
Proof.
  assert (HH : hash32 hone) by (intros d; reflexivity). assert (LAY : layout det_big 3 2) by (constructor; cbn; lia).
  assert (SET : setting hone Debug det_big P_512 3 2).
  { constructor; [exact HH|constructor; cbn; lia| |cbn; lia|cbn; lia]. pose proof P_512_fits. change (Z.of_nat (unit_pl det_big)) with 64%Z. lia. }
  split; [exact LAY|]. split; [vm_compute; reflexivity|]. split; [exact SET|]. split; [now apply shipped_sound|]. split; [apply P_512_holds_unit|].
  destruct (padded_units (create_random_file (fun _ => x02) 378) 378 63 ltac:(lia)) as (g & EP & _). exists g.
  assert (GS : sealable det_big P_512 3 2 g) by (apply (g_sealable det_big 3 2 LAY P_512 (create_random_file (fun _ => x02) 378)); [apply P_512_holds_unit|exact EP]).
  destruct (seal_total hone Debug det_big P_512 (repeat x05 128) 3 2 SET g GS) as (st & ES & _). exists st. split; [exact EP|]. split; [exact ES|].
  refine (one_round_no_zero hone Debug det_big 3 2 _ _ g st HH _ LAY SET eq_refl eq_refl EP ES). discriminate.
Qed.
