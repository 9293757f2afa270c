(** Properties C81 and C82: what spot checks decide about an arbitrary stored file, and
    which stored files pass all of them.  H is blake3, H2 is SHA-256.  Vocabulary:
    [setting], [sealable], [sound_key] from SealSpec, [layout] from PostorageFacts,
    [reduced_block] from SpotFacts. *)
From Coq Require Import Znumtheory Strings.Byte Sorted.
From Verif Require Import Base Sloth Common Depend Prover Verifier Merkle Postorage BytesFacts CommonFacts SealSpec SealTop SealPad SealZero SealWitness
  ChallengeFacts MerkleFacts SealMeaning ParamFacts PostorageFacts SpotFacts.
Local Open Scope nat_scope.

(** Block k of two files of data. *)
Definition same_block (params : PosPara) (c origin : file) (k : nat) : Prop :=
  read_file c (k * block_l params) (block_l params) = read_file origin (k * block_l params) (block_l params).
(** What unsealing the stored file F and removing the padding produces. *)
Definition restores (H : list byte -> list byte) (pr : profile) (params : PosPara) (key : Z) (iv : list byte) (F c : file) : Prop :=
  exists G, unseal H pr params key iv F = Ok G /\ copy_and_compress G (data_l params) (unit_l params) (unit_pl params) = Ok c.

(** C81: F is any stored file, honest or not.  It is restored to some file c of the size
    of the data. *)
Theorem C81_restores : forall H pr params key iv n m, setting H pr params key n m ->
  (forall d, (le2z (H d) < key < 256 ^ Z.of_nat (unit_pl params))%Z) -> layout params n m ->
  forall F, n * block_pl params <= length F -> exists c, restores H pr params key iv F c /\ length c = data_l params.
Proof.
  intros H pr params key iv n m SET KB LAY F LF. destruct (restored_ex H pr params key iv n m SET KB LAY F LF) as (G & c & EU & LG & EC).
  exists c. split; [exists G; auto|]. now apply (restored_length params n m LAY) in EC.
Qed.
Print Assumptions C81_restores.
(** A challenge passes, for every schedule and number of threads, exactly if c agrees
    with the original on the challenged blocks; otherwise it panics.  The Merkle tree may
    be over any n block ids. *)
Theorem C81_challenge : forall H H2 pr params key iv n m, setting H pr params key n m ->
  (forall d, (le2z (H d) < key < 256 ^ Z.of_nat (unit_pl params))%Z) -> mode_l params = 0 -> layout params n m -> hash32 H2 ->
  forall F c, n * block_pl params <= length F -> restores H pr params key iv F c ->
  forall origin pub ids leaves tree root, load_data pub = Ok (key, iv) -> length ids = n -> generate_merkle_tree_from_data H2 ids = Ok (leaves, tree, root) ->
  forall idx, StronglySorted lt idx -> Forall (fun i => i < n) idx -> idx <> [] ->
  forall parallel_num r o, challenge H H2 pr params parallel_num origin F pub leaves tree root r idx o <->
  (o = Ok tt /\ forall k, In k idx -> same_block params c origin k) \/
  (o = Panic /\ ~ forall k, In k idx -> same_block params c origin k).
Proof.
  intros H H2 pr params key iv n m SET KB ML LAY HH2 F c LF (G & EU & EC) origin pub ids leaves tree root LD LI GT idx S FI N parallel_num r o.
  destruct (unseal_total H pr params key iv n m SET F KB LF) as (G' & EU' & LG & _). rewrite EU in EU'. injection EU' as <-.
  eapply spot_challenge; eauto. lia.
Qed.
Print Assumptions C81_challenge.
(** Challenging every block is the same as restoring the file and comparing it. *)
Theorem C81_all_blocks : forall H H2 pr params key iv n m, setting H pr params key n m ->
  (forall d, (le2z (H d) < key < 256 ^ Z.of_nat (unit_pl params))%Z) -> mode_l params = 0 -> layout params n m -> hash32 H2 ->
  forall F c, n * block_pl params <= length F -> restores H pr params key iv F c ->
  forall origin pub ids leaves tree root, load_data pub = Ok (key, iv) -> length ids = n -> generate_merkle_tree_from_data H2 ids = Ok (leaves, tree, root) ->
  length origin = data_l params ->
  forall parallel_num r, challenge H H2 pr params parallel_num origin F pub leaves tree root r (seq 0 n) (Ok tt) <-> c = origin.
Proof.
  intros H H2 pr params key iv n m SET KB ML LAY HH2 F c LF RS origin pub ids leaves tree root LD LI GT LO parallel_num r.
  assert (SS : forall q a, StronglySorted lt (seq a q)).
  { induction q as [|q IH]; intros a; cbn [seq]; constructor; auto. apply Forall_forall. intros x I. apply in_seq in I. lia. }
  rewrite (C81_challenge H H2 pr params key iv n m SET KB ML LAY HH2 F c LF RS origin pub ids leaves tree root LD LI GT (seq 0 n)).
  - destruct RS as (G & _ & EC). apply (restored_length params n m LAY) in EC. split.
    + intros [(_ & X)|(C & _)]; [|discriminate]. apply (blocks_equal params n m LAY); auto. intros k K. apply X, in_seq. lia.
    + intros ->. left. split; [reflexivity|]. intros k _. reflexivity.
  - apply SS.
  - apply Forall_forall. intros x I. apply in_seq in I. lia.
  - pose proof (l_n _ _ _ LAY). destruct n; [lia|discriminate].
Qed.
Print Assumptions C81_all_blocks.
(** The single-block check of the driver decides the same about the first ten blocks. *)
Theorem C81_single : forall H pr params key iv n m, setting H pr params key n m ->
  (forall d, (le2z (H d) < key < 256 ^ Z.of_nat (unit_pl params))%Z) -> mode_l params = 0 -> layout params n m -> 10 <= n ->
  forall F c, n * block_pl params <= length F -> restores H pr params key iv F c ->
  forall origin pub, load_data pub = Ok (key, iv) ->
  forall parallel_num o, unseal_single_and_verify H pr params pub origin F parallel_num o <->
  (o = Ok tt /\ forall k, k < 10 -> same_block params c origin k) \/
  (o = Panic /\ ~ forall k, k < 10 -> same_block params c origin k).
Proof.
  intros H pr params key iv n m SET KB ML LAY TEN F c LF (G & EU & EC) origin pub LD parallel_num o.
  destruct (unseal_total H pr params key iv n m SET F KB LF) as (G' & EU' & LG & _). rewrite EU in EU'. injection EU' as <-.
  eapply spot_single; eauto. lia.
Qed.
Print Assumptions C81_single.
(** A whole run of challenges on one stored file: if it passes, the restored file agrees
    with the original on every block drawn in any of them; if not, it differs in a block
    drawn in one of them. *)
Theorem C81_run : forall H H2 pr params key iv n m, setting H pr params key n m ->
  (forall d, (le2z (H d) < key < 256 ^ Z.of_nat (unit_pl params))%Z) -> mode_l params = 0 -> layout params n m -> hash32 H2 ->
  forall F c, n * block_pl params <= length F -> restores H pr params key iv F c ->
  forall origin pub ids leaves tree root, load_data pub = Ok (key, iv) -> length ids = n -> generate_merkle_tree_from_data H2 ids = Ok (leaves, tree, root) ->
  forall parallel_num count cs o, 0 < count -> challenges_run H H2 pr params parallel_num count n origin F pub leaves tree root cs o ->
  (o = Ok tt -> forall r draw, In (r, draw) cs -> exists fuel idx, create_challenges fuel count (0, n) draw = Some (Ok idx) /\ forall k, In k idx -> same_block params c origin k) /\
  (o = Panic -> exists r draw fuel idx, In (r, draw) cs /\ create_challenges fuel count (0, n) draw = Some (Ok idx) /\ ~ forall k, In k idx -> same_block params c origin k).
Proof.
  intros H H2 pr params key iv n m SET KB ML LAY HH2 F c LF RS origin pub ids leaves tree root LD LI GT parallel_num count cs o C0 R.
  assert (CH : forall fuel draw idx, create_challenges fuel count (0, n) draw = Some (Ok idx) -> StronglySorted lt idx /\ Forall (fun i => i < n) idx /\ idx <> []).
  { intros fuel draw idx E. apply challenges_sound in E. destruct E as (S & L & FI). split; [exact S|]. split.
    - eapply Forall_impl; [|exact FI]. cbn. intros; lia.
    - intros ->. cbn in L. lia. }
  pose proof (C81_challenge H H2 pr params key iv n m SET KB ML LAY HH2 F c LF RS origin pub ids leaves tree root LD LI GT) as CC.
  induction R as [|r draw cs fuel P|r draw cs fuel idx P C|r draw cs fuel idx o P C R IH].
  - split; [intros _ r draw []|discriminate].
  - exfalso. revert P. apply (draw_no_panic n); [apply LAY].
  - split; [discriminate|]. intros _. destruct (CH _ _ _ P) as (S & FI & N). apply (CC idx S FI N parallel_num r) in C as [(C & _)|(_ & C)]; [discriminate|].
    exists r, draw, fuel, idx. cbn [In]. auto.
  - destruct (CH _ _ _ P) as (S & FI & N). apply (CC idx S FI N parallel_num r) in C as [(_ & C)|(C & _)]; [|discriminate]. destruct IH as (I1 & I2). split.
    + intros E r' draw' [I|I]; [injection I as <- <-; eauto|apply (I1 E r' draw' I)].
    + intros E. destruct (I2 E) as (r' & draw' & f' & idx' & I & X). exists r', draw', f', idx'. split; [now right|exact X].
Qed.
Print Assumptions C81_run.

(** The shipped parameters: 256 blocks, 512-bit key. *)
Theorem C81_shipped : forall H H2 pr l iv, hash32 H -> hash32 H2 ->
  forall F c, 256 * block_pl (gen_posdata l) <= length F -> restores H pr (gen_posdata l) P_512 iv F c ->
  forall origin pub ids leaves tree root, load_data pub = Ok (P_512, iv) -> length ids = 256 -> generate_merkle_tree_from_data H2 ids = Ok (leaves, tree, root) ->
  forall idx, StronglySorted lt idx -> Forall (fun i => i < 256) idx -> idx <> [] ->
  forall parallel_num r o, challenge H H2 pr (gen_posdata l) parallel_num origin F pub leaves tree root r idx o <->
  (o = Ok tt /\ forall k, In k idx -> same_block (gen_posdata l) c origin k) \/
  (o = Panic /\ ~ forall k, In k idx -> same_block (gen_posdata l) c origin k).
Proof.
  intros H H2 pr l iv HH HH2. destruct (gen_posdata_geometry l) as (U & UP & _ & _ & _ & _ & ML & _).
  apply C81_challenge with (m := units_per_block l); auto; [now apply gen_posdata_setting| |apply gen_posdata_layout].
  intros d. rewrite UP. pose proof (le2z_range (H d)) as R. rewrite HH in R.
  assert (A : (256 ^ Z.of_nat 32 <= P_512)%Z) by (apply Z.leb_le; vm_compute; reflexivity).
  assert (B : (P_512 < 256 ^ Z.of_nat 64)%Z) by (apply Z.ltb_lt; vm_compute; reflexivity). lia.
Qed.
Print Assumptions C81_shipped.

(** Three blocks; the stored file has lost its last block.  The first two are restored,
    the last is not. *)
Definition spot_params : PosPara := ex_params 1 0 0 0 10.
Definition spot_origin : file := [x01; x07; x02; x07; x03; x07; x04; x07; x05; x07; x06; x07].
Definition spot_lost (F : file) : file := firstn 12 F ++ zeros 6.
(** The original with pad bytes 1 instead of 0. *)
Definition spot_pads : file := flat_map (fun k => [z2b (Z.of_nat k + 1); x07; x01]) (seq 0 6).
Definition spot_trial : bool :=
  match (let* g := copy_and_pad spot_origin 12 2 in
         let* st := seal hsum Debug spot_params ex_key [] g in
         let* st' := seal hsum Debug spot_params ex_key [] spot_pads in
         let* G := unseal hsum Debug spot_params ex_key [] (spot_lost (s_file st)) in
         let* c := copy_and_compress G 12 2 3 in
         Ok (s_file st, st', c)) with
  | Panic => false
  | Ok (F, st', c) =>
      (length F =? 18) && (length (s_file st') =? 18) && negb (bytes_eqb (s_file st') F) && no_zero (s_log st') &&
      bytes_eqb (read_file c 0 4) (read_file spot_origin 0 4) && bytes_eqb (read_file c 4 4) (read_file spot_origin 4 4) &&
      negb (bytes_eqb (read_file c 8 4) (read_file spot_origin 8 4))
  end.
Lemma spot_facts : exists g st st' G c, copy_and_pad spot_origin 12 2 = Ok g /\ seal hsum Debug spot_params ex_key [] g = Ok st /\
  seal hsum Debug spot_params ex_key [] spot_pads = Ok st' /\ unseal hsum Debug spot_params ex_key [] (spot_lost (s_file st)) = Ok G /\
  copy_and_compress G 12 2 3 = Ok c /\ length (s_file st) = 18 /\ length (s_file st') = 18 /\ s_file st' <> s_file st /\ ~ In 0%Z (s_log st') /\
  read_file c 0 4 = read_file spot_origin 0 4 /\ read_file c 4 4 = read_file spot_origin 4 4 /\ read_file c 8 4 <> read_file spot_origin 8 4.
Proof.
  assert (E : spot_trial = true) by (vm_compute; reflexivity). unfold spot_trial in E. revert E.
  destruct (copy_and_pad spot_origin 12 2) as [g|]; [|discriminate]. cbn [bind].
  destruct (seal hsum Debug spot_params ex_key [] g) as [st|] eqn:E1; [|discriminate]. cbn [bind].
  destruct (seal hsum Debug spot_params ex_key [] spot_pads) as [st'|] eqn:E2; [|discriminate]. cbn [bind].
  destruct (unseal hsum Debug spot_params ex_key [] (spot_lost (s_file st))) as [G|] eqn:E3; [|discriminate]. cbn [bind].
  destruct (copy_and_compress G 12 2 3) as [c|] eqn:E4; [|discriminate]. cbn [bind]. intros E.
  apply andb_prop in E as (E & B7). apply andb_prop in E as (E & B6). apply andb_prop in E as (E & B5). apply andb_prop in E as (E & B4).
  apply andb_prop in E as (E & B3). apply andb_prop in E as (B1 & B2). apply Nat.eqb_eq in B1, B2. apply negb_true_iff in B3, B7.
  exists g, st, st', G, c. repeat (split; [first [reflexivity|assumption|now apply bytes_eqb_neq|now apply no_zero_ok|now apply bytes_eqb_eq]|]). now apply bytes_eqb_neq.
Qed.
Lemma spot_layout : layout spot_params 3 2.
Proof. constructor; cbn; lia. Qed.
Lemma spot_setting : setting hsum Debug spot_params ex_key 3 2.
Proof. apply ex_setting; [exact hsum_32|cbn; lia|cbn; lia]. Qed.
Example C81_ex : setting hsum Debug spot_params ex_key 3 2 /\ layout spot_params 3 2 /\ sound_key hsum ex_key /\
  exists F c, length F = 18 /\ restores hsum Debug spot_params ex_key [] F c /\
  same_block spot_params c spot_origin 0 /\ same_block spot_params c spot_origin 1 /\ ~ same_block spot_params c spot_origin 2.
Proof.
  split; [exact spot_setting|]. split; [exact spot_layout|]. split; [exact ex_sound|].
  destruct spot_facts as (g & st & st' & G & c & _ & _ & _ & EU & EC & L & _ & _ & _ & B).
  exists (spot_lost (s_file st)), c. split; [unfold spot_lost; rewrite app_length, firstn_length, L; reflexivity|]. split; [exists G; auto|]. exact B.
Qed.

(** C82: two stored files that agree before block k and unseal to the same block k have
    the same block k, if unsealing it needs only numbers 1 .. key - 1 ([reduced_block]). *)
Theorem C82_first_damage : forall H pr params key iv n m, setting H pr params key n m -> sound_key H key -> mode_l params = 0 -> layout params n m ->
  forall F F' G G' k, n * block_pl params <= length F -> n * block_pl params <= length F' ->
  unseal H pr params key iv F = Ok G -> unseal H pr params key iv F' = Ok G' -> k < n ->
  (forall b, b < k -> block_bytes params F b = block_bytes params F' b) ->
  reduced_block H pr params key iv n m F k -> reduced_block H pr params key iv n m F' k ->
  block_bytes params G k = block_bytes params G' k -> block_bytes params F k = block_bytes params F' k.
Proof.
  intros H pr params key iv n m SET SK ML LAY F F' G G' k LF LF' EU EU' K BEF RB RB' E.
  pose proof (sound_lt H pr params key n m SET SK) as KB.
  destruct (unseal_total H pr params key iv n m SET F KB LF) as (G1 & E1 & LG & _). rewrite EU in E1. injection E1 as <-.
  destruct (unseal_total H pr params key iv n m SET F' KB LF') as (G1 & E1 & LG' & _). rewrite EU' in E1. injection E1 as <-.
  apply (first_damage H pr params key iv n m SET KB ML LAY F F' G G' k); auto; try lia. destruct SK; auto.
Qed.
Print Assumptions C82_first_damage.
(** The honest sealed file qualifies when no masked number was 0. *)
Theorem C82_sealed_reduced : forall H pr params key iv n m, setting H pr params key n m -> sound_key H key -> mode_l params = 0 -> layout params n m ->
  forall f st, sealable params key n m f -> seal H pr params key iv f = Ok st -> ~ In 0%Z (s_log st) ->
  forall k, k < n -> reduced_block H pr params key iv n m (s_file st) k.
Proof.
  intros H pr params key iv n m SET SK ML LAY f st FS ES NZ k K.
  apply (sealed_reduced H pr params key iv n m SET (sound_lt H pr params key n m SET SK) ML LAY f st); auto.
Qed.
Print Assumptions C82_sealed_reduced.
(** The first damaged block: F agrees with the honest file before block k but not in it.
    If its unsealed pad bytes in block k are zero, block k is not restored, and by
    C81_challenge every challenge that includes k panics. *)
Theorem C82_caught : forall H pr params key iv n m, setting H pr params key n m -> sound_key H key -> mode_l params = 0 -> layout params n m ->
  (256 ^ Z.of_nat (unit_l params) <= key)%Z ->
  forall origin g st, length origin = data_l params -> copy_and_pad origin (data_l params) (unit_l params) = Ok g ->
  seal H pr params key iv g = Ok st -> ~ In 0%Z (s_log st) ->
  forall F G c k, n * block_pl params <= length F -> k < n -> (forall b, b < k -> block_bytes params F b = block_bytes params (s_file st) b) ->
  block_bytes params F k <> block_bytes params (s_file st) k -> reduced_block H pr params key iv n m F k ->
  unseal H pr params key iv F = Ok G -> restores H pr params key iv F c ->
  (forall q, k * m <= q < (k + 1) * m -> nth (q * unit_pl params + unit_l params) G x00 = x00) ->
  ~ same_block params c origin k.
Proof.
  intros H pr params key iv n m SET SK ML LAY KU origin g st LO EP ES NZ F G c k LF K BEF NE RB EU (G1 & E1 & EC) PAD SB. rewrite EU in E1. injection E1 as <-.
  apply NE. clear NE. pose proof (sound_lt H pr params key n m SET SK) as KB.
  destruct (unseal_total H pr params key iv n m SET F KB LF) as (G1 & E1 & LG & _). rewrite EU in E1. injection E1 as <-.
  destruct (pad_sealable params key n m origin g) as (Lg & GS & PU); auto; try apply LAY.
  { rewrite (l_data _ _ _ LAY), (l_block _ _ _ LAY). reflexivity. }
  destruct (seal_total H pr params key iv n m SET g GS) as (st' & ES' & LS & _). rewrite ES in ES'. injection ES' as <-.
  pose proof (unseal_seal H pr params key iv n m SET g st SK ltac:(now left) GS ES NZ) as EU'.
  apply (first_damage H pr params key iv n m SET KB ML LAY F (s_file st) G g); auto; try lia.
  - destruct SK; auto.
  - eapply C82_sealed_reduced; eauto.
  - apply (block_of_units H pr params key n m SET); auto; try lia. intros i I.
    assert (Q : k * m + i < n * m) by nia. rewrite PU by exact Q. rewrite <- (same_block_unit params n m LAY c origin k i SB I).
    rewrite (restored_unit params n m LAY G c) by (auto; lia). rewrite <- (firstn_skipn (unit_l params) (unit_bytes params G (k * m + i))) at 1. f_equal.
    pose proof (PAD (k * m + i) ltac:(lia)) as P. assert (LU : (k * m + i) * unit_pl params + unit_l params < length G).
    { rewrite (l_block_pl _ _ _ LAY) in LF. rewrite LG. pose proof (l_unit_pl _ _ _ LAY). assert (S (k * m + i) * unit_pl params <= n * m * unit_pl params) by (apply Nat.mul_le_mono_r; lia). nia. }
    unfold unit_bytes. rewrite skipn_firstn_comm, skipn_skipn', (l_unit_pl _ _ _ LAY). replace (unit_l params + 1 - unit_l params) with 1 by lia. rewrite <- (l_unit_pl _ _ _ LAY).
    destruct (skipn _ G) as [|x l] eqn:E.
    + apply (f_equal (@length _)) in E. rewrite skipn_length in E. cbn in E. lia.
    + cbn [firstn]. f_equal. rewrite <- P. rewrite <- (firstn_skipn ((k * m + i) * unit_pl params + unit_l params) G) at 1. rewrite E, app_nth2; rewrite firstn_length_le by lia; [|lia]. now rewrite Nat.sub_diag.
Qed.
Print Assumptions C82_caught.
(** Hence there is one such file that restores the original with zero pad bytes: the
    honest one. *)
Theorem C82_replica : forall H pr params key iv n m, setting H pr params key n m -> sound_key H key -> mode_l params = 0 -> layout params n m ->
  (256 ^ Z.of_nat (unit_l params) <= key)%Z ->
  forall origin g st, length origin = data_l params -> copy_and_pad origin (data_l params) (unit_l params) = Ok g ->
  seal H pr params key iv g = Ok st -> ~ In 0%Z (s_log st) ->
  forall F G, n * block_pl params <= length F -> (forall k, k < n -> reduced_block H pr params key iv n m F k) ->
  unseal H pr params key iv F = Ok G -> restores H pr params key iv F origin ->
  (forall q, q < n * m -> nth (q * unit_pl params + unit_l params) G x00 = x00) ->
  forall k, k < n -> block_bytes params F k = block_bytes params (s_file st) k.
Proof.
  intros H pr params key iv n m SET SK ML LAY KU origin g st LO EP ES NZ F G LF RB EU RS PAD k. induction k as [k IH] using (well_founded_induction Wf_nat.lt_wf). intros K.
  destruct (list_eq_dec Byte.byte_eq_dec (block_bytes params F k) (block_bytes params (s_file st) k)) as [E|NE]; [exact E|exfalso].
  apply (C82_caught H pr params key iv n m SET SK ML LAY KU origin g st LO EP ES NZ F G origin k LF K); auto.
  - intros b B. apply IH; lia.
  - intros q Q. apply PAD. nia.
  - reflexivity.
Qed.
Print Assumptions C82_replica.
(** The pad bytes are not checked: sealing the original with any other pad bytes gives a
    stored file that is restored to the original too, and so passes every challenge. *)
Theorem C82_pad_bytes_unchecked : forall H pr params key iv n m, setting H pr params key n m -> sound_key H key -> mode_l params = 0 -> layout params n m ->
  forall origin g' st', length origin = data_l params -> sealable params key n m g' ->
  (forall q, q < n * m -> firstn (unit_l params) (unit_bytes params g' q) = read_file origin (q * unit_l params) (unit_l params)) ->
  seal H pr params key iv g' = Ok st' -> ~ In 0%Z (s_log st') -> restores H pr params key iv (s_file st') origin.
Proof.
  intros H pr params key iv n m SET SK ML LAY origin g' st' LO GS DATA ES NZ. exists g'. split; [apply (unseal_seal H pr params key iv n m SET g' st' SK); auto; now left|].
  assert (EX : exists c, copy_and_compress g' (data_l params) (unit_l params) (unit_pl params) = Ok c).
  { eexists. apply compress_val; [pose proof (l_unit _ _ _ LAY); lia|rewrite (l_unit_pl _ _ _ LAY); lia]. }
  destruct EX as (c & EC). rewrite EC. f_equal. apply (blocks_equal params n m LAY); [now apply (restored_length params n m LAY) in EC|exact LO|].
  intros k K. rewrite (l_block _ _ _ LAY), !read_units. f_equal. apply map_ext_in. intros j J. apply in_seq in J.
  replace (k * (m * unit_l params) + j * unit_l params) with ((k * m + j) * unit_l params) by lia.
  rewrite <- DATA by nia. apply (restored_unit params n m LAY); auto; [apply GS|nia].
Qed.
Print Assumptions C82_pad_bytes_unchecked.

(** So a file accepted on every block, for which unsealing never leaves the range
    1 .. key - 1, need not be the honest one. *)
Theorem C82_accepted_is_honest_refuted : exists g st F, copy_and_pad spot_origin 12 2 = Ok g /\ seal hsum Debug spot_params ex_key [] g = Ok st /\
  length F = length (s_file st) /\ F <> s_file st /\ (forall k, k < 3 -> reduced_block hsum Debug spot_params ex_key [] 3 2 F k) /\
  restores hsum Debug spot_params ex_key [] F spot_origin.
Proof.
  destruct spot_facts as (g & st & st' & G & c & EP & ES & ES' & _ & _ & L & L' & NE & NZ & _).
  assert (GS : sealable spot_params ex_key 3 2 spot_pads) by (apply sealable_b_ok; reflexivity).
  exists g, st, (s_file st'). split; [exact EP|]. split; [exact ES|]. split; [congruence|]. split; [exact NE|]. split.
  - eapply C82_sealed_reduced; eauto using spot_setting, ex_sound, spot_layout.
  - apply (C82_pad_bytes_unchecked hsum Debug spot_params ex_key [] 3 2) with (g' := spot_pads); auto using spot_setting, ex_sound, spot_layout.
    intros q Q. change (3 * 2) with 6 in Q. do 6 (destruct q as [|q]; [reflexivity|]). lia.
Qed.
Print Assumptions C82_accepted_is_honest_refuted.
(** A file whose last block alone differs from the honest one, with zero pad bytes: it meets
    the hypotheses of C82_caught. *)
Definition caught_other : file := [x01; x07; x02; x07; x03; x07; x04; x07; x05; x07; x06; x09].
Definition caught_trial : bool :=
  match (let* g := copy_and_pad spot_origin 12 2 in
         let* st := seal hsum Debug spot_params ex_key [] g in
         let* g' := copy_and_pad caught_other 12 2 in
         let* st' := seal hsum Debug spot_params ex_key [] g' in
         Ok (st, g', st')) with
  | Panic => false
  | Ok (st, g', st') => no_zero (s_log st) && no_zero (s_log st') && (length (s_file st') =? 18) &&
      bytes_eqb (block_bytes spot_params (s_file st') 0) (block_bytes spot_params (s_file st) 0) && bytes_eqb (block_bytes spot_params (s_file st') 1) (block_bytes spot_params (s_file st) 1) &&
      negb (bytes_eqb (block_bytes spot_params (s_file st') 2) (block_bytes spot_params (s_file st) 2)) &&
      sealable_b spot_params ex_key 3 2 g' && bytes_eqb [nth 14 g' x00; nth 17 g' x00] [x00; x00]
  end.
Example C82_ex : exists g st F G, copy_and_pad spot_origin 12 2 = Ok g /\ seal hsum Debug spot_params ex_key [] g = Ok st /\ ~ In 0%Z (s_log st) /\
  length F = 18 /\ (forall b, b < 2 -> block_bytes spot_params F b = block_bytes spot_params (s_file st) b) /\
  block_bytes spot_params F 2 <> block_bytes spot_params (s_file st) 2 /\ reduced_block hsum Debug spot_params ex_key [] 3 2 F 2 /\
  unseal hsum Debug spot_params ex_key [] F = Ok G /\ forall q, 4 <= q < 6 -> nth (q * 3 + 2) G x00 = x00.
Proof.
  assert (E : caught_trial = true) by (vm_compute; reflexivity). unfold caught_trial in E. revert E.
  destruct (copy_and_pad spot_origin 12 2) as [g|]; [|discriminate]. cbn [bind].
  destruct (seal hsum Debug spot_params ex_key [] g) as [st|] eqn:E1; [|discriminate]. cbn [bind].
  destruct (copy_and_pad caught_other 12 2) as [g'|]; [|discriminate]. cbn [bind].
  destruct (seal hsum Debug spot_params ex_key [] g') as [st'|] eqn:E2; [|discriminate]. cbn [bind]. intros E.
  apply andb_prop in E as (E & B8). apply andb_prop in E as (E & B7). apply andb_prop in E as (E & B6). apply andb_prop in E as (E & B5). apply andb_prop in E as (E & B4).
  apply andb_prop in E as (E & B3). apply andb_prop in E as (B1 & B2). apply Nat.eqb_eq in B3. apply negb_true_iff in B6. apply bytes_eqb_eq in B4, B5, B8. apply bytes_eqb_neq in B6. apply sealable_b_ok in B7. apply no_zero_ok in B1, B2.
  exists g, st, (s_file st'), g'. split; [reflexivity|]. split; [exact E1|]. split; [exact B1|]. split; [exact B3|]. split; [intros [|[|b]] B; [exact B4|exact B5|lia]|]. split; [exact B6|]. split; [|split].
  - apply (C82_sealed_reduced hsum Debug spot_params ex_key [] 3 2) with (f := g'); auto using spot_setting, ex_sound, spot_layout.
  - apply (unseal_seal hsum Debug spot_params ex_key [] 3 2 spot_setting g' st' ex_sound); auto. now left.
  - intros q Q. injection B8 as B8 B9. destruct (Nat.eq_dec q 4) as [->|]; [exact B8|]. assert (q = 5) as -> by lia. exact B9.
Qed.
