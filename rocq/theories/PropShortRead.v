(** Property C97: copying, sealing, unsealing and restoring when the operating system
    delivers fewer bytes than asked for.  H is blake3.
    Vocabulary: [seal_os] etc. from ShortRead, [as_read] from ShortReadFacts, [setting],
    [sound_key], [sealable], [block_bytes] from SealSpec, [layout] from PostorageFacts,
    [same_block] from PropSpot, [plain_rows] from SealTop.  [os k q] is the number of bytes that the q-th read
    made for block k delivers; for reads that are never made its value is immaterial. *)
From Coq Require Import Znumtheory Strings.Byte.
From Verif Require Import Base Sloth Common Depend Prover BytesFacts CommonFacts SealSpec SealCore SealFile SealTop SealPad SealZero SealWitness
  ChallengeFacts SealMeaning ParamFacts PostorageFacts SpotFacts PropSpot ShortRead ShortReadFacts.
Local Open Scope nat_scope.

(** If every read is complete, these are the functions of all other theorems. *)
Theorem C97_complete : forall H pr params key iv os f, (forall k q, block_pl params <= os k q) ->
  seal_os H pr params key iv os f = seal H pr params key iv f /\ unseal_os H pr params key iv os f = unseal H pr params key iv f.
Proof.
  intros H pr params key iv os f FU.
  assert (RB : forall k q g i, read_block_os params (os k q) g i = read_block params g i) by (intros; unfold read_block_os, read_block; now rewrite read_os_full by apply FU).
  split.
  - unfold seal_os, seal. destruct (nblocks params) as [n|]; [|reflexivity]. cbn [bind]. destruct (seal_idxs_l pr params n) as [tl|]; [|reflexivity]. cbn [bind].
    destruct (seal_idxs_s pr params n) as [ts|]; [|reflexivity]. cbn [bind]. apply foldM_ext. intros k st _. unfold seal_block_os, seal_block. rewrite RB.
    destruct (read_block params (s_file st) k) as [b|]; [|reflexivity]. cbn [bind].
    assert (D : seal_depend_blocks_os H params (fun j => os k (1 + j)) tl n (s_file st) (s_ids st) k = seal_depend_blocks H params tl n (s_file st) (s_ids st) k).
    { assert (X : forall l, mapM (fun j => let* i := index l j in read_block_os params (os k (1 + j)) (s_file st) i) (seq 0 (length l)) = mapM (fun i => read_block params (s_file st) i) l).
      { intros l. rewrite <- (mapM_index_all (fun i => read_block params (s_file st) i)). apply mapM_ext. intros j _. destruct (index l j); [|reflexivity]. cbn [bind]. apply RB. }
      unfold seal_depend_blocks_os, seal_depend_blocks. destruct (mode_l params =? 0).
      - match goal with |- (let* _ := ?X in _) = _ => destruct X as [l|] end; [|reflexivity]. cbn [bind]. apply X.
      - destruct (index tl k) as [l|]; [|reflexivity]. cbn [bind]. apply X. }
    rewrite D. reflexivity.
  - unfold unseal_os, unseal. destruct (nblocks params) as [n|]; [|reflexivity]. cbn [bind]. destruct (unseal_idxs_l pr params n) as [tl|]; [|reflexivity]. cbn [bind].
    destruct (unseal_idxs_s pr params n) as [ts|]; [|reflexivity]. cbn [bind]. apply foldM_ext. intros i g _. unfold unseal_block_os, unseal_block. set (k := n - 1 - i).
    assert (B : unseal_before_id_os H params (os k 0) g k = unseal_before_id H params g k) by (unfold unseal_before_id_os, unseal_before_id; now rewrite read_os_full by apply FU).
    rewrite B, RB. destruct (read_block params g k) as [b|]; [|reflexivity]. cbn [bind].
    assert (D : unseal_depend_blocks_os H params (fun j => os k (2 + j)) tl n g (unseal_before_id H params g k) k = unseal_depend_blocks H params tl n g (unseal_before_id H params g k) k).
    { unfold unseal_depend_blocks_os, unseal_depend_blocks. destruct (mode_l params =? 0).
      - match goal with |- (let* _ := ?X in _) = _ => destruct X as [l|] end; [|reflexivity]. cbn [bind]. apply mapM_ext. intros j _. destruct (index l j); [|reflexivity]. cbn [bind]. apply RB.
      - destruct (index tl k); [|reflexivity]. cbn [bind]. apply mapM_ext. intros j _. apply RB. }
    rewrite D. reflexivity.
Qed.
Print Assumptions C97_complete.

(** The two copies never notice a short read: they work on the bytes that arrived, with
    zeros for the rest. *)
Theorem C97_copies : forall os f data_l unit_l unit_pl,
  copy_and_pad_os os f data_l unit_l = copy_and_pad (as_read os unit_l f) data_l unit_l /\
  copy_and_compress_os os f data_l unit_l unit_pl = copy_and_compress (as_read os unit_pl f) data_l unit_l unit_pl.
Proof.
  intros os f d u up. split.
  - unfold copy_and_pad_os, copy_and_pad. destruct (u =? 0); [reflexivity|]. f_equal. rewrite !(fold_concat _ (seq 0 (d / u))). cbn [app]. f_equal.
    apply map_ext. intros cnt. now rewrite read_as_read.
  - unfold copy_and_compress_os, copy_and_compress. destruct (u =? 0); [reflexivity|]. apply foldM_ext. intros cnt g _. now rewrite read_as_read.
Qed.
Print Assumptions C97_copies.

(** Sealing: short reads never make it fail, and the public block ids are those of the
    stored blocks. *)
Theorem C97_seal : forall H pr params key iv n m, setting H pr params key n m -> forall os f, sealable params key n m f ->
  exists st, seal_os H pr params key iv os f = Ok st /\ length (s_file st) = length f /\
  skipn (n * block_pl params) (s_file st) = skipn (n * block_pl params) f /\ sealable params key n m (s_file st) /\
  s_ids st = map (fun k => H (block_bytes params (s_file st) k)) (seq 0 n).
Proof.
  intros H pr params key iv n m SET os f S. destruct (tabl_ex H pr params key n m SET) as (t & T).
  destruct (seal_os_inv H pr params key iv n m SET t os f T S) as (st & E & [SL IL SB SR SI]).
  exists st. split; [exact E|]. split; [exact SL|]. destruct S as [FL FU]. split; [|split].
  - apply file_ext; [rewrite !skipn_length; lia|]. intros x X. rewrite !nth_skipn. apply SR. lia.
  - apply (file_ok_sealable H pr params key n m SET). split; [lia|]. intros k K. destruct (SB k K) as (z & (d & _ & _ & _ & B & _) & _). exact B.
  - apply list_ext. intros k. destruct (Nat.lt_ge_cases k n) as [K|K].
    + specialize (SI k K). unfold index in SI. destruct (nth_error (s_ids st) k) as [x|] eqn:N; [|discriminate].
      injection SI as ->. rewrite nth_error_map. rewrite nth_error_nth' with (d := 0) by (rewrite seq_length; exact K).
      rewrite seq_nth by exact K. cbn [option_map plus]. rewrite (block_bytes_blk params); [reflexivity|].
      pose proof (mul_lt_block params k n K). lia.
    + transitivity (@None (list byte)); [apply nth_error_None; lia|]. symmetry. apply nth_error_None.
      rewrite map_length, seq_length. exact K.
Qed.
Print Assumptions C97_seal.
(** If only reads of the blocks being sealed are short, the stored file and the block ids
    are exactly those of sealing the file as it was delivered: what did not arrive is lost
    and nothing shows it. *)
Theorem C97_seal_own : forall H pr params key iv n m, setting H pr params key n m -> forall os f, sealable params key n m f ->
  length f = n * block_pl params -> (forall k j, block_pl params <= os k (1 + j)) ->
  let f' := as_read (fun k => os k 0) (block_pl params) f in
  exists st st', seal_os H pr params key iv os f = Ok st /\ seal H pr params key iv f' = Ok st' /\ s_file st = s_file st' /\ s_ids st = s_ids st'.
Proof.
  intros H pr params key iv n m SET os f S LF DE f'. destruct (tabl_ex H pr params key n m SET) as (t & T). pose proof T as (_ & TL & _ & TS).
  assert (EB : forall k, blk params f' k = read_os (os k 0) f (k * block_pl params) (block_pl params)) by (intros k; unfold blk, f'; apply (read_as_read (fun k => os k 0))).
  pose proof (sealable_file_ok H pr params key n m SET f S) as [FL FB].
  assert (S' : sealable params key n m f').
  { apply (file_ok_sealable H pr params key n m SET). split; [unfold f'; now rewrite as_read_length|]. intros k K. rewrite EB.
    apply (short_block_ok params key m (upl_pos H pr params key n m SET) (bpl_eq H pr params key n m SET)). now apply FB. }
  destruct (seal_os_inv H pr params key iv n m SET t os f T S) as (st & E & [SL IL SB SR SI]).
  destruct (seal_ok H pr params key iv n m SET t f' T S') as (st' & E' & [SL' IL' SB' SR' SI' SG']).
  assert (BE : forall k, k < n -> blk params (s_file st) k = blk params (s_file st') k).
  { apply (sealed_blk_unique H params key iv n m (fst t) (snd t) (hh H pr params key n m SET) (upl_pos H pr params key n m SET) (bpl_eq H pr params key n m SET) TL f' f'); auto.
    - intros k K. destruct (SB k K) as (zs & (d & D0 & D1 & D2 & D3 & D4) & _). exists zs, d. rewrite EB. split; [apply D1, DE|auto].
    - intros k K. destruct (SB' k K) as (zs & B & _). eauto. }
  assert (LE : length (s_file st) = length (s_file st')) by (rewrite SL, SL'; unfold f'; now rewrite as_read_length).
  exists st, st'. split; [exact E|]. split; [exact E'|]. split.
  - rewrite <- (firstn_skipn (n * block_pl params) (s_file st)), <- (firstn_skipn (n * block_pl params) (s_file st')). f_equal.
    + apply (blk_firstn params); auto; lia.
    + rewrite !skipn_all2 by lia. reflexivity.
  - apply list_ext. intros k. destruct (Nat.lt_ge_cases k n) as [K|K].
    + specialize (SI k K). specialize (SI' k K). unfold index in SI, SI'. destruct (nth_error (s_ids st) k), (nth_error (s_ids st') k); try discriminate.
      injection SI as ->. injection SI' as ->. now rewrite BE.
    + transitivity (@None (list byte)); [apply nth_error_None; lia|]. symmetry. apply nth_error_None. lia.
Qed.
Print Assumptions C97_seal_own.

(** Restoring after short reads: every block whose own reads while unsealing were complete,
    and whose dependencies were read completely while sealing, comes back as it was
    delivered when it was sealed, whatever happened to the others. *)
Theorem C97_restored : forall H pr params key iv n m, setting H pr params key n m -> sound_key H key -> plain_rows pr params n ->
  forall os f st, sealable params key n m f -> seal_os H pr params key iv os f = Ok st -> ~ In 0%Z (s_log st) ->
  forall os', exists G, unseal_os H pr params key iv os' (s_file st) = Ok G /\ length G = length f /\
  forall k, k < n -> (forall j, block_pl params <= os k (1 + j)) -> (forall j, block_pl params <= os' k j) ->
  block_bytes params G k = firstn (os k 0) (block_bytes params f k) ++ zeros (block_pl params - os k 0).
Proof.
  intros H pr params key iv n m SET SK PR os f st S E NZ os'. destruct (tabl_ex H pr params key n m SET) as (t & T). pose proof T as (_ & TL & _ & TS).
  destruct (seal_os_inv H pr params key iv n m SET t os f T S) as (st' & E' & [SL IL SB SR SI]). rewrite E in E'. injection E' as <-. destruct S as [FL FU].
  pose proof (sound_lt H pr params key n m SET SK) as KB.
  destruct (unseal_os_inv H pr params key iv n m SET t os' (s_file st) T PR KB ltac:(lia)) as (G & EG & [UL ULo UT UB]).
  exists G. split; [exact EG|]. split; [congruence|]. intros k K FD FO. pose proof (mul_lt_block params k n K) as LK.
  rewrite !(block_bytes_blk params) by lia. destruct (UB k ltac:(lia) FO) as (deps & us & D & B & ->).
  destruct (SB k K) as (zs & (deps' & D0 & D1 & D2 & D3 & D4) & IZ). rewrite (D1 FD) in D. injection D as <-.
  destruct (frounds_ok H params key (hh H pr params key n m SET) (k1 H pr params key n m SET) (k2 H pr params key n m SET) (snd t) deps' (sfx H params iv (s_file st) k) m _ TS D0 D2) as (us' & z & _ & F' & G').
  specialize (F' []). rewrite D4 in F'. injection F' as <- EZ. rewrite !app_nil_r in EZ. subst z.
  rewrite (G' (sound_good H key SK) ltac:(intros X; apply NZ, IZ, X)) in B. injection B as <-.
  rewrite com_units_concat, concat_chunks by (rewrite read_os_length; apply (bpl_eq H pr params key n m SET)). apply read_os_eq.
Qed.
Print Assumptions C97_restored.

(** Unsealing any stored file: short reads never make it fail and damage only the blocks
    whose own reads were short. *)
Theorem C97_unseal : forall H pr params key iv n m, setting H pr params key n m -> (forall d, (le2z (H d) < key < 256 ^ Z.of_nat (unit_pl params))%Z) -> plain_rows pr params n ->
  forall F, n * block_pl params <= length F -> exists G0, unseal H pr params key iv F = Ok G0 /\
  forall os, exists G, unseal_os H pr params key iv os F = Ok G /\ length G = length F /\ skipn (n * block_pl params) G = skipn (n * block_pl params) F /\
  forall k, k < n -> (forall j, block_pl params <= os k j) -> block_bytes params G k = block_bytes params G0 k.
Proof.
  intros H pr params key iv n m SET KB PR F LF. destruct (tabl_ex H pr params key n m SET) as (t & T).
  destruct (unseal_os_inv H pr params key iv n m SET t (fun _ _ => block_pl params) F T PR KB LF) as (G0 & E0 & [L0 _ _ B0]).
  exists G0. split; [rewrite <- E0; symmetry; apply C97_complete; auto|]. intros os.
  destruct (unseal_os_inv H pr params key iv n m SET t os F T PR KB LF) as (G & E & [L1 _ T1 B1]). exists G. split; [exact E|]. split; [exact L1|]. split.
  - apply file_ext; [rewrite !skipn_length; lia|]. intros x X. rewrite !nth_skipn. apply T1. lia.
  - intros k K FU. pose proof (mul_lt_block params k n K) as LK. rewrite !(block_bytes_blk params) by lia.
    destruct (B0 k ltac:(lia) ltac:(auto)) as (d & us & D & B & ->). destruct (B1 k ltac:(lia) FU) as (d' & us' & D' & B' & ->). rewrite D in D'. injection D' as <-. rewrite B in B'. now injection B' as <-.
Qed.
Print Assumptions C97_unseal.

(** The whole way: pad, seal, unseal, remove the padding.  No short read anywhere makes a
    step fail; a block all of whose reads were complete comes back. *)
Record complete (params : PosPara) (m : nat) (os_pad os_compress : nat -> nat) (os_seal os_unseal : nat -> nat -> nat) (k : nat) : Prop := {
  co_pad : forall i, k * m <= i < (k + 1) * m -> unit_l params <= os_pad i;
  co_seal : forall q, block_pl params <= os_seal k q;
  co_unseal : forall q, block_pl params <= os_unseal k q;
  co_compress : forall i, k * m <= i < (k + 1) * m -> unit_l params <= os_compress i
}.
Theorem C97_whole : forall H pr params key iv n m, setting H pr params key n m -> sound_key H key -> (256 ^ Z.of_nat (unit_l params) <= key)%Z -> plain_rows pr params n -> layout params n m ->
  forall origin, length origin = data_l params ->
  forall os1, exists g, copy_and_pad_os os1 origin (data_l params) (unit_l params) = Ok g /\
  forall os2, exists st, seal_os H pr params key iv os2 g = Ok st /\ (~ In 0%Z (s_log st) ->
  forall os3, exists G, unseal_os H pr params key iv os3 (s_file st) = Ok G /\
  forall os4, exists c, copy_and_compress_os os4 G (data_l params) (unit_l params) (unit_pl params) = Ok c /\ length c = data_l params /\
  forall k, k < n -> complete params m os1 os4 os2 os3 k -> same_block params c origin k).
Proof.
  intros H pr params key iv n m SET SK KU PR LAY origin LO os1. pose proof (l_unit _ _ _ LAY) as U0.
  destruct (padded_units (as_read os1 (unit_l params) origin) (data_l params) (unit_l params) ltac:(lia)) as (g & EP & _).
  exists g. split; [rewrite (proj1 (C97_copies os1 origin _ _ 0)); exact EP|].
  assert (DL : data_l params = n * (m * unit_l params)) by (rewrite (l_data _ _ _ LAY), (l_block _ _ _ LAY); reflexivity).
  destruct (pad_sealable params key n m _ g U0 (l_unit_pl _ _ _ LAY) (l_block_pl _ _ _ LAY) DL KU EP) as (Lg & GS & PU).
  intros os2. destruct (C97_seal H pr params key iv n m SET os2 g GS) as (st & ES & LS & _). exists st. split; [exact ES|]. intros NZ os3.
  destruct (C97_restored H pr params key iv n m SET SK PR os2 g st GS ES NZ os3) as (G & EU & LG & BG). exists G. split; [exact EU|]. intros os4.
  assert (DU : data_l params / unit_l params = n * m) by (rewrite DL, Nat.mul_assoc; apply Nat.div_mul; lia).
  destruct (compress_os_ok os4 G (data_l params) (unit_l params) (unit_pl params) ltac:(lia) ltac:(rewrite (l_unit_pl _ _ _ LAY); lia)) as (c & EC & LC & CN).
  exists c. split; [exact EC|]. split; [rewrite LC, DU, DL; lia|]. intros k K [C1 C2 C3 C4].
  pose proof (BG k K ltac:(auto) C3) as BK. rewrite firstn_all2 in BK by (unfold block_bytes; rewrite firstn_length; specialize (C2 0); lia).
  replace (block_pl params - os2 k 0) with 0 in BK by (specialize (C2 0); lia). cbn [zeros repeat] in BK. rewrite app_nil_r in BK.
  unfold same_block. rewrite (l_block _ _ _ LAY). apply file_ext; [now rewrite !read_file_length|]. intros x X. rewrite read_file_length in X.
  rewrite (nth_error_nth _ _ x00 (read_file_nth c _ _ x X)), (nth_error_nth _ _ x00 (read_file_nth origin _ _ x X)).
  set (u := unit_l params) in *. pose proof (Nat.div_mod x u ltac:(lia)) as DM. pose proof (Nat.mod_upper_bound x u ltac:(lia)) as MB. set (i := x / u) in *. set (r := x mod u) in *.
  assert (IM : i < m) by (apply Nat.div_lt_upper_bound; lia).
  replace (k * (m * u) + x) with ((k * m + i) * u + r) by lia. assert (KM : k * m + i < n * m) by nia.
  rewrite CN by (rewrite ?DU; lia). pose proof (C4 (k * m + i) ltac:(nia)) as C4'. destruct (Nat.ltb_spec r (os4 (k * m + i))); [|lia].
  assert (E1 : nth ((k * m + i) * unit_pl params + r) G x00 = nth ((k * m + i) * unit_pl params + r) g x00).
  { assert (W : i * unit_pl params + r < block_pl params) by (rewrite (l_block_pl _ _ _ LAY); pose proof (l_unit_pl _ _ _ LAY); fold u in H1; nia).
    replace ((k * m + i) * unit_pl params + r) with (k * block_pl params + (i * unit_pl params + r)) by (rewrite (l_block_pl _ _ _ LAY); lia).
    apply (f_equal (fun l => nth (i * unit_pl params + r) l x00)) in BK. unfold block_bytes in BK. rewrite !nth_firstn, !nth_skipn in BK by exact W. exact BK. }
  rewrite E1. specialize (PU (k * m + i) KM). apply (f_equal (fun l => nth r l x00)) in PU. unfold unit_bytes in PU.
  rewrite nth_firstn, nth_skipn in PU by (rewrite (l_unit_pl _ _ _ LAY); fold u; lia). rewrite PU. rewrite app_nth1 by (rewrite read_file_length; exact MB).
  rewrite (nth_error_nth _ _ x00 (read_file_nth _ ((k * m + i) * u) u r MB)). rewrite as_read_at by exact MB. pose proof (C1 (k * m + i) ltac:(nia)).
  destruct (Nat.ltb_spec r (os1 (k * m + i))); [reflexivity|lia].
Qed.
Print Assumptions C97_whole.

(** Short reads lose data without any sign of it: one short read while copying, while
    reading the block to be sealed, while reading a dependency, or while unsealing, and all
    four steps succeed, but the file that comes back is not the original. *)
Definition one_short (k c : nat) : nat -> nat := fun k' => if k' =? k then c else 6.
Definition short_at (k q c : nat) : nat -> nat -> nat := fun k' q' => if (k' =? k) && (q' =? q) then c else 6.
Definition run_os (os1 os4 : nat -> nat) (os2 os3 : nat -> nat -> nat) : res (seal_state * file) :=
  let* g := copy_and_pad_os os1 spot_origin 12 2 in
  let* st := seal_os hsum Debug spot_params ex_key [x03; x04] os2 g in
  let* G := unseal_os hsum Debug spot_params ex_key [x03; x04] os3 (s_file st) in
  let* c := copy_and_compress_os os4 G 12 2 3 in
  Ok (st, c).
(** Everything but block [k] comes back. *)
Definition loses (k : nat) (os1 os4 : nat -> nat) (os2 os3 : nat -> nat -> nat) : Prop :=
  exists st c, run_os os1 os4 os2 os3 = Ok (st, c) /\ ~ In 0%Z (s_log st) /\ forall j, j < 3 -> (same_block spot_params c spot_origin j <-> j <> k).
Definition loses_b (k : nat) (os1 os4 : nat -> nat) (os2 os3 : nat -> nat -> nat) : bool :=
  match run_os os1 os4 os2 os3 with
  | Panic => false
  | Ok (st, c) => SealWitness.no_zero (s_log st) && forallb (fun j => Bool.eqb (bytes_eqb (read_file c (j * 4) 4) (read_file spot_origin (j * 4) 4)) (negb (j =? k))) (seq 0 3)
  end.
Lemma loses_ok k os1 os4 os2 os3 : loses_b k os1 os4 os2 os3 = true -> loses k os1 os4 os2 os3.
Proof.
  unfold loses_b, loses. destruct (run_os os1 os4 os2 os3) as [[st c]|]; [|discriminate]. intros E. apply andb_prop in E as (E1 & E2).
  exists st, c. split; [reflexivity|]. split; [now apply no_zero_ok|]. intros j J. rewrite forallb_forall in E2. specialize (E2 j ltac:(apply in_seq; lia)). apply eqb_prop in E2.
  unfold same_block. change (block_l spot_params) with 4. destruct (Nat.eqb_spec j k); cbn [negb] in E2; [apply bytes_eqb_neq in E2|apply bytes_eqb_eq in E2]; tauto.
Qed.
Theorem C97_noticed_refuted :
  let full := fun _ : nat => 6 in let full2 := fun _ _ : nat => 6 in
  loses 2 (one_short 5 1) full full2 full2 /\ loses 1 full full (short_at 1 0 4) full2 /\
  loses 1 full full (short_at 1 1 0) full2 /\ loses 2 full full full2 (short_at 2 0 0) /\
  loses 2 full full full2 (short_at 2 1 5) /\ loses 0 full (one_short 1 1) full2 full2.
Proof.
  assert (E : loses_b 2 (one_short 5 1) (fun _ => 6) (fun _ _ => 6) (fun _ _ => 6) && loses_b 1 (fun _ => 6) (fun _ => 6) (short_at 1 0 4) (fun _ _ => 6) &&
    loses_b 1 (fun _ => 6) (fun _ => 6) (short_at 1 1 0) (fun _ _ => 6) && loses_b 2 (fun _ => 6) (fun _ => 6) (fun _ _ => 6) (short_at 2 0 0) &&
    loses_b 2 (fun _ => 6) (fun _ => 6) (fun _ _ => 6) (short_at 2 1 5) && loses_b 0 (fun _ => 6) (one_short 1 1) (fun _ _ => 6) (fun _ _ => 6) = true) by (vm_compute; reflexivity).
  apply andb_prop in E as (E & E6). apply andb_prop in E as (E & E5). apply andb_prop in E as (E & E4). apply andb_prop in E as (E & E3). apply andb_prop in E as (E1 & E2).
  cbv zeta. split; [exact (loses_ok _ _ _ _ _ E1)|]. split; [exact (loses_ok _ _ _ _ _ E2)|]. split; [exact (loses_ok _ _ _ _ _ E3)|].
  split; [exact (loses_ok _ _ _ _ _ E4)|]. split; [exact (loses_ok _ _ _ _ _ E5)|exact (loses_ok _ _ _ _ _ E6)].
Qed.
Print Assumptions C97_noticed_refuted.
(** The hypotheses of the theorems above are met: here one block of three lost a read. *)
Example C97_hypotheses : setting hsum Debug spot_params ex_key 3 2 /\ sound_key hsum ex_key /\ (256 ^ Z.of_nat (unit_l spot_params) <= ex_key)%Z /\
  plain_rows Debug spot_params 3 /\ layout spot_params 3 2 /\ length spot_origin = data_l spot_params /\
  complete spot_params 2 (fun _ => 6) (fun _ => 6) (short_at 1 0 4) (fun _ _ => 6) 2 /\ ~ complete spot_params 2 (fun _ => 6) (fun _ => 6) (short_at 1 0 4) (fun _ _ => 6) 1.
Proof.
  split; [apply ex_setting; [exact hsum_32|cbn; lia|cbn; lia]|]. split; [exact ex_sound|]. split; [cbn; unfold ex_key; lia|]. split; [now left|]. split; [exact spot_layout|]. split; [reflexivity|].
  split.
  - constructor; intros; cbn; lia.
  - intros [_ C _ _]. specialize (C 0). cbn in C. lia.
Qed.
