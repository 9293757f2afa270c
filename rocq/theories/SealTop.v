(** The sealing theorems in terms of [seal] and [unseal]. *)
From Verif Require Import Base Legendre Sloth Common Depend Prover NumTheory SlothFacts BytesFacts
  DependSpec DependFacts DependDet VdeFacts SealSpec SealCore SealFile.
From Coq Require Import Znumtheory.
Local Open Scope nat_scope.

(** * Tables *)
Lemma mapM_rows (f : nat -> res (list nat)) (P : nat -> list nat -> Prop) num :
  (forall k, k < num -> exists row, f k = Ok row /\ P k row) ->
  exists t, mapM f (seq 0 num) = Ok t /\ forall k, k < num -> exists row, f k = Ok row /\ index t k = Ok row /\ P k row.
Proof.
  intros E. destruct (mapM_exists f (fun k r => f k = Ok r /\ P k r) (seq 0 num)) as (t & M & _).
  { intros k K. apply in_seq in K. destruct (E k ltac:(lia)) as (row & R & PR). exists row. auto. }
  exists t. split; [exact M|]. intros k K. destruct (E k K) as (row & R & PR). exists row. repeat split; auto.
  assert (N : nth_error (seq 0 num) k = Some k).
  { rewrite nth_error_nth' with (d := 0) by (rewrite seq_length; exact K). now rewrite seq_nth. }
  destruct (mapM_index f _ _ _ _ M N) as (b & Eb & I). rewrite R in Eb. now injection Eb as <-.
Qed.

Lemma long_depend_ok pr params n k : long_modes_fine params n -> k < n -> mode_l params <> 0 ->
  exists row, long_depend pr k (cnt_l params) (mode_l params) = Ok row /\ Forall (fun x => x < k) row.
Proof.
  unfold long_modes_fine, long_depend. intros L K NZ.
  destruct (mode_l params) as [|[|[|[|q]]]]; [contradiction| | | |]; cbn [Nat.eqb].
  - rewrite long_mode_1_spec by exact L. eexists. split; [reflexivity|].
    apply (back_by_props dist_1 k _ dist_1_pos dist_1_inj).
  - rewrite long_mode_2_spec by exact L. eexists. split; [reflexivity|].
    apply (back_by_props dist_2 k _ dist_2_pos dist_2_inj).
  - rewrite long_mode_3_is_2, long_mode_2_spec.
    + eexists. split; [reflexivity|]. apply (back_by_props dist_2 k _ dist_2_pos dist_2_inj).
    + apply Nat.lt_succ_r, Nat.div_lt_upper_bound; lia.
  - eauto.
Qed.
Lemma alternating_neq index i : alternating index i <> Z.of_nat index.
Proof.
  unfold alternating. assert (0 < 2 ^ Z.of_nat i)%Z by (apply Z.pow_pos_nonneg; lia).
  destruct (Nat.even i) eqn:E; [lia|]. destruct i as [|i]; [discriminate|].
  rewrite Nat2Z.inj_succ, Z.pow_succ_r by lia.
  rewrite Nat2Z.inj_succ, Z.pow_succ_r in * by lia. lia.
Qed.
(** The closest neighbour: the unit before, or unit 1 for unit 0. *)
Lemma odd_first n k : k < n -> 2 <= n -> firstn 1 (odd_neighbours n k) = [match k with 0 => 1 | S j => j end].
Proof.
  intros K N. unfold odd_neighbours. replace (n + k) with (S (n + k - 1)) by lia. cbn [seq flat_map]. unfold nb_at at 1.
  cbn [Nat.mul Nat.add]. destruct k as [|k]; cbn [Nat.leb Nat.add app Nat.sub].
  - destruct (Nat.ltb_spec 1 n); [reflexivity|lia].
  - rewrite Nat.sub_0_r. reflexivity.
Qed.
Lemma short_depend_ok pr params n m k : short_modes_fine pr params n m -> k < m -> mode_s params <> 0 ->
  m <= n /\ exists row, short_depend pr n k (cnt_s params) (mode_s params) = Ok row /\ Forall (fun x => x < m /\ x <> k) row.
Proof.
  unfold short_modes_fine, short_depend. intros L K NZ.
  destruct (mode_s params) as [|[|[|q]]]; [contradiction| | |]; cbn [Nat.eqb].
  - pose proof (proj2 (short_mode_1_spec n k (cnt_s params))) as E. destruct L as [L|(LE & [Z|(C1 & M2)])].
    + subst m. split; [lia|]. eexists. split; [exact E|]. apply (short_mode_1_props n k (cnt_s params)) in E; tauto.
    + split; [exact LE|]. eexists. split; [exact E|]. rewrite Z. constructor.
    + split; [exact LE|]. eexists. split; [exact E|]. rewrite C1, odd_first by lia. constructor; [|constructor]. destruct k; lia.
  - destruct L as [[L0 L]|(-> & -> & C & B)].
    + split; [exact L|]. rewrite L0. exists []. auto.
    + split; [lia|]. rewrite short_mode_2_release by assumption. eexists. split; [reflexivity|].
      apply Forall_forall. intros x X. apply in_map_iff in X as (z & <- & Z). apply take_while_In in Z as (Z1 & Z2).
      apply in_map_iff in Z1 as (i & <- & _). pose proof (alternating_neq k i).
      apply andb_true_iff in Z2 as [A1 A2]. apply Z.leb_le in A1. apply Z.ltb_lt in A2. lia.
  - split; [exact L|]. eauto.
Qed.

Lemma long_table pr params n : long_modes_fine params n ->
  exists t, seal_idxs_l pr params n = Ok t /\ long_ok params t n.
Proof.
  intros L. unfold seal_idxs_l, long_ok. destruct (Nat.eqb_spec (mode_l params) 0) as [E|NE]; cbn [negb].
  - exists []. split; [reflexivity|]. unfold long_modes_fine in L. rewrite E in L. exact L.
  - unfold create_long_depend.
    destruct (mapM_rows (fun idx => long_depend pr idx (cnt_l params) (mode_l params)) (fun k r => Forall (fun x => x < k) r) n)
      as (t & E & R); [intros; apply (long_depend_ok pr params n); auto|].
    exists t. split; [exact E|]. intros k K. destruct (R k K) as (row & _ & I & F). eauto.
Qed.
Lemma short_table pr params n m : short_modes_fine pr params n m ->
  (mode_s params <> 0 -> n <= m \/ exists t, seal_idxs_s pr params n = Ok t) ->
  exists t, seal_idxs_s pr params n = Ok t /\ short_ok params t m.
Proof.
  intros S. unfold seal_idxs_s, short_ok. destruct (Nat.eqb_spec (mode_s params) 0) as [E|NE]; cbn [negb]; intros RET.
  - exists []. split; [reflexivity|]. unfold short_modes_fine in S. rewrite E in S. exact S.
  - unfold create_short_depend in *. destruct (RET NE) as [LE|(t & ET)].
    + destruct (mapM_rows (fun idx => short_depend pr n idx (cnt_s params) (mode_s params)) (fun k r => Forall (fun x => x < m /\ x <> k) r) n)
        as (t & E & R); [intros k K; apply (short_depend_ok pr params n m); auto; lia|].
      exists t. split; [exact E|]. intros k K.
      destruct (short_depend_ok pr params n m k S K NE) as (MN & _).
      destruct (R k ltac:(lia)) as (row & _ & I & F). eauto.
    + exists t. split; [exact ET|]. intros k K. destruct (short_depend_ok pr params n m k S K NE) as (MN & row & E & F).
      assert (N : nth_error (seq 0 n) k = Some k).
      { rewrite nth_error_nth' with (d := 0) by (rewrite seq_length; lia). rewrite seq_nth by lia. reflexivity. }
      destruct (mapM_index _ _ _ _ _ ET N) as (b & Eb & I). rewrite E in Eb. injection Eb as <-. eauto.
Qed.
Lemma short_returns pr params n m : short_modes_fine pr params n m -> mode_s params <> 0 ->
  exists t, seal_idxs_s pr params n = Ok t.
Proof.
  intros S NZ. unfold seal_idxs_s, create_short_depend. apply Nat.eqb_neq in NZ as NZ'. rewrite NZ'. cbn [negb].
  destruct (mapM_rows (fun idx => short_depend pr n idx (cnt_s params) (mode_s params)) (fun _ _ => True) n) as (t & E & _); [|eauto].
  intros k K. unfold short_modes_fine, short_depend in *. destruct (mode_s params) as [|[|[|q]]]; [contradiction| | |]; cbn [Nat.eqb].
  - rewrite (proj2 (short_mode_1_spec n k (cnt_s params))). eauto.
  - destruct S as [[-> _]|(-> & -> & C & B)]; [exists []; auto|]. rewrite short_mode_2_release by assumption. eauto.
  - eauto.
Qed.
Lemma short_table' pr params n m : short_modes_fine pr params n m ->
  exists t, seal_idxs_s pr params n = Ok t /\ short_ok params t m.
Proof. intros S. apply (short_table pr params n m S). intros NZ. right. now apply (short_returns pr params n m). Qed.

Lemma unseal_idxs_l_eq pr params n : unseal_idxs_l pr params n = seal_idxs_l pr params n. Proof. reflexivity. Qed.
Lemma unseal_idxs_s_eq pr params n : unseal_idxs_s pr params n = seal_idxs_s pr params n. Proof. reflexivity. Qed.

(** * Files *)
Section Top.
Context (H : list byte -> list byte) (pr : profile) (params : PosPara) (key : Z) (iv : list byte) (n m : nat).
Hypothesis SET : setting H pr params key n m.
Notation upl := (unit_pl params).
Notation bpl := (block_pl params).

Lemma set_nblocks : nblocks params = Ok n.
Proof.
  destruct SET as [_ [B0 BN _ _] _ _ _]. unfold nblocks. apply Nat.eqb_neq in B0. rewrite B0. now rewrite BN.
Qed.
Lemma bpl_eq : bpl = m * upl. Proof. apply SET. Qed.
Lemma upl_pos : 0 < upl. Proof. apply SET. Qed.
Lemma k1 : (1 < key)%Z. Proof. apply SET. Qed.
Lemma k2 : (key <= 256 ^ Z.of_nat upl)%Z. Proof. apply SET. Qed.
Lemma hh : hash_ok H. Proof. exact (set_hash _ _ _ _ _ _ SET). Qed.

Lemma block_bytes_blk f k : S k * bpl <= length f -> block_bytes params f k = blk params f k.
Proof. intros L. unfold block_bytes, blk. rewrite read_file_full by lia. reflexivity. Qed.
Lemma unit_of_block f k i : S k * bpl <= length f -> i < m ->
  nth_error (chunks upl m (blk params f k)) i = Some (unit_bytes params f (k * m + i)).
Proof.
  intros L I. unfold chunks. rewrite nth_error_map. rewrite nth_error_nth' with (d := 0) by (rewrite seq_length; exact I).
  rewrite seq_nth by exact I. cbn [option_map plus]. f_equal. unfold chunk, unit_bytes.
  rewrite <- block_bytes_blk by exact L. unfold block_bytes.
  rewrite skipn_firstn_comm, firstn_firstn, skipn_skipn'. rewrite bpl_eq.
  assert (upl <= m * upl - i * upl) by (rewrite <- Nat.mul_sub_distr_r; nia).
  rewrite Nat.min_l by lia. f_equal. f_equal. lia.
Qed.
Lemma sealable_file_ok f : sealable params key n m f -> file_ok params key n m f.
Proof.
  intros [L U]. split; [exact L|]. intros k K. pose proof (mul_lt_block params k n K) as LK.
  destruct (chunks_shaped params m bpl_eq f k) as [CL CF]. split; [exact CL|].
  apply Forall_forall. intros u I. split; [rewrite Forall_forall in CF; now apply CF|].
  apply In_nth_error in I as (i & I).
  assert (IM : i < m) by (rewrite <- CL; apply nth_error_Some; congruence).
  rewrite unit_of_block in I by lia. injection I as <-. apply U. nia.
Qed.
Lemma file_ok_sealable f : file_ok params key n m f -> sealable params key n m f.
Proof.
  intros [L B]. split; [exact L|]. intros q Q. assert (M0 : m <> 0) by nia.
  pose proof (Nat.div_mod q m M0) as E. pose proof (Nat.mod_upper_bound q m M0) as R.
  assert (K : q / m < n) by (apply Nat.div_lt_upper_bound; lia).
  pose proof (mul_lt_block params (q / m) n K) as LK.
  destruct (B (q / m) K) as [_ F]. rewrite Forall_forall in F.
  assert (X : unit_ok params key (unit_bytes params f q)).
  { apply F. apply nth_error_In with (n := q mod m). rewrite unit_of_block by lia. do 2 f_equal. lia. }
  apply X.
Qed.

Definition tabl (t : list (list nat) * list (list nat)) : Prop :=
  seal_idxs_l pr params n = Ok (fst t) /\ long_ok params (fst t) n /\
  seal_idxs_s pr params n = Ok (snd t) /\ short_ok params (snd t) m.
Lemma tabl_ex : exists t, tabl t.
Proof.
  destruct (long_table pr params n (set_long _ _ _ _ _ _ SET)) as (a & A1 & A2).
  destruct (short_table' pr params n m (set_short _ _ _ _ _ _ SET)) as (b & B1 & B2).
  exists (a, b). repeat split; auto.
Qed.

Lemma seal_unfold t f : tabl t -> seal H pr params key iv f =
  foldM (seal_block H params key iv (fst t) (snd t) n) (seq 0 n) (mkSeal f (repeat [] n) []).
Proof. intros (A & _ & B & _). unfold seal. rewrite set_nblocks. cbn [bind]. rewrite A. cbn [bind]. rewrite B. reflexivity. Qed.
Lemma seal_upto_unfold t j f : tabl t -> j <= n -> seal_upto H pr params key iv j f =
  foldM (seal_block H params key iv (fst t) (snd t) n) (seq 0 j) (mkSeal f (repeat [] n) []).
Proof.
  intros (A & _ & B & _) J. unfold seal_upto. rewrite set_nblocks. cbn [bind]. rewrite A. cbn [bind]. rewrite B. cbn [bind].
  replace n with (j + (n - j)) at 2 by lia. rewrite seq_app, firstn_app, seq_length, Nat.sub_diag. cbn [firstn].
  rewrite firstn_all2 by (rewrite seq_length; lia). now rewrite app_nil_r.
Qed.
Lemma unseal_range_unfold t i d f : tabl t -> i + d <= n -> unseal_range H pr params key iv i d f =
  foldM (unseal_block H params key iv (fst t) (snd t) n) (seq i d) f.
Proof.
  intros (A & _ & B & _) J. unfold unseal_range. rewrite set_nblocks. cbn [bind]. rewrite unseal_idxs_l_eq, A. cbn [bind].
  rewrite unseal_idxs_s_eq, B. cbn [bind]. f_equal.
  replace n with (i + (d + (n - i - d))) by lia. rewrite !seq_app, skipn_app, seq_length, Nat.sub_diag.
  rewrite skipn_all2 by (rewrite seq_length; lia). cbn [skipn app plus].
  rewrite firstn_app, seq_length, Nat.sub_diag. cbn [firstn]. rewrite app_nil_r. apply firstn_all2. rewrite seq_length. lia.
Qed.
Lemma unseal_range_all f : unseal_range H pr params key iv 0 n f = unseal H pr params key iv f.
Proof.
  unfold unseal_range, unseal. rewrite set_nblocks. cbn [bind skipn].
  destruct (unseal_idxs_l pr params n); [|reflexivity]. cbn [bind]. destruct (unseal_idxs_s pr params n); [|reflexivity]. cbn [bind].
  rewrite firstn_all2 by (rewrite seq_length; lia). reflexivity.
Qed.

Lemma seal_upto_ok t f j : tabl t -> sealable params key n m f -> j <= n ->
  exists st, seal_upto H pr params key iv j f = Ok st /\ sealed_upto H params key iv n m (fst t) (snd t) j f st.
Proof.
  intros T S J. rewrite (seal_upto_unfold t) by assumption.
  destruct T as (_ & TL & _ & TS).
  destruct (seal_loop_from H params key iv n m (fst t) (snd t) hh k1 k2 upl_pos bpl_eq TS TL f 0 (mkSeal f (repeat [] n) []) j
     (sealable_file_ok f S) J (sealed_upto_0 H params key iv n m (fst t) (snd t) f)) as (st & E & SU & _).
  eauto.
Qed.
Lemma seal_is_upto f : seal H pr params key iv f = seal_upto H pr params key iv n f.
Proof. destruct tabl_ex as (t & T). rewrite (seal_unfold t), (seal_upto_unfold t) by auto. reflexivity. Qed.
Lemma seal_ok t f : tabl t -> sealable params key n m f ->
  exists st, seal H pr params key iv f = Ok st /\ sealed_upto H params key iv n m (fst t) (snd t) n f st.
Proof. intros T S. rewrite seal_is_upto. now apply seal_upto_ok. Qed.
Lemma seal_inv t f st : tabl t -> sealable params key n m f -> seal H pr params key iv f = Ok st ->
  sealed_upto H params key iv n m (fst t) (snd t) n f st.
Proof. intros T S E. destruct (seal_ok t f T S) as (st' & E' & SU). rewrite E in E'. now injection E' as <-. Qed.

Lemma nth_skipn {A} (l : list A) k i d : nth i (skipn k l) d = nth (k + i) l d.
Proof. revert l. induction k as [|k IH]; intros [|x l]; cbn; auto. destruct i; reflexivity. Qed.
Lemma nth_firstn {A} (l : list A) k i d : i < k -> nth i (firstn k l) d = nth i l d.
Proof. revert l i. induction k as [|k IH]; intros [|x l] [|i] L; cbn; try lia; auto. apply IH. lia. Qed.
Lemma splice_file j (a b g : file) : length a = length b -> length g = length b -> j * bpl <= length b ->
  (forall x, x < j * bpl -> nth x g x00 = nth x a x00) -> (forall x, j * bpl <= x -> nth x g x00 = nth x b x00) ->
  g = splice params j a b.
Proof.
  intros L1 L2 L3 E1 E2. apply file_ext.
  - unfold splice. rewrite app_length, firstn_length, skipn_length. lia.
  - intros x X. unfold splice. destruct (Nat.lt_ge_cases x (j * bpl)) as [C|C].
    + rewrite app_nth1 by (rewrite firstn_length; lia). rewrite nth_firstn by exact C. auto.
    + rewrite app_nth2 by (rewrite firstn_length; lia). rewrite firstn_length, nth_skipn.
      replace (j * bpl + (x - Nat.min (j * bpl) (length a))) with x by lia. auto.
Qed.

(** C22 *)
Theorem seal_total f : sealable params key n m f ->
  exists st, seal H pr params key iv f = Ok st
  /\ length (s_file st) = length f
  /\ skipn (n * bpl) (s_file st) = skipn (n * bpl) f
  /\ sealable params key n m (s_file st)
  /\ s_ids st = map (fun k => H (block_bytes params (s_file st) k)) (seq 0 n).
Proof.
  intros S. destruct tabl_ex as (t & T). destruct (seal_ok t f T S) as (st & E & [SL IL SB SR SI SG]).
  exists st. split; [exact E|]. split; [exact SL|]. destruct S as [FL FU]. split; [|split].
  - apply file_ext; [rewrite !skipn_length; lia|]. intros x X. rewrite !nth_skipn. apply SR. lia.
  - apply file_ok_sealable. split; [lia|]. intros k K. destruct (SB k K) as (z & (d & _ & _ & B & _) & _). exact B.
  - apply list_ext. intros k. destruct (Nat.lt_ge_cases k n) as [K|K].
    + specialize (SI k K). unfold index in SI. destruct (nth_error (s_ids st) k) as [x|] eqn:N; [|discriminate].
      injection SI as ->. rewrite nth_error_map. rewrite nth_error_nth' with (d := 0) by (rewrite seq_length; exact K).
      rewrite seq_nth by exact K. cbn [option_map plus]. rewrite block_bytes_blk; [reflexivity|].
      pose proof (mul_lt_block params k n K). lia.
    + transitivity (@None (list byte)); [apply nth_error_None; lia|]. symmetry. apply nth_error_None.
      rewrite map_length, seq_length. exact K.
Qed.

Lemma sound_good : sound_key H key -> good_key H key. Proof. intros []. unfold good_key. auto. Qed.

Lemma no_zero_blocks t f st : sealed_upto H params key iv n m (fst t) (snd t) n f st -> ~ In 0%Z (s_log st) ->
  forall k, k < n -> exists zs, block_sealed H params key iv n m (fst t) (snd t) f (s_file st) k zs /\ ~ In 0%Z zs.
Proof. intros [_ _ SB _ _ _] NZ k K. destruct (SB k K) as (zs & B & I). exists zs. split; [exact B|]. intros X. apply NZ, I, X. Qed.

(** C28 and C23/C24 *)
Definition plain_rows : Prop := mode_l params = 0 \/
  forall k row, k < n -> long_depend pr k (cnt_l params) (mode_l params) = Ok row -> row = seq 0 (length row).
Lemma plain_rows_ok t : tabl t -> plain_rows -> rows_ok params n (fst t).
Proof.
  intros (A & _) [M|R]; [now left|]. destruct (Nat.eq_dec (mode_l params) 0) as [M|M]; [now left|]. right.
  intros k row K I. apply (R k row K). unfold seal_idxs_l in A. apply Nat.eqb_neq in M. rewrite M in A. cbn [negb] in A.
  unfold create_long_depend in A.
  assert (N : nth_error (seq 0 n) k = Some k).
  { rewrite nth_error_nth' with (d := 0) by (rewrite seq_length; exact K). now rewrite seq_nth. }
  destruct (mapM_index _ _ _ _ _ A N) as (b & Eb & I'). rewrite I in I'. injection I' as <-. exact Eb.
Qed.

Theorem unseal_partial_run f st i d : sound_key H key -> plain_rows -> sealable params key n m f ->
  seal H pr params key iv f = Ok st -> ~ In 0%Z (s_log st) -> i + d <= n ->
  unseal_range H pr params key iv i d (splice params (n - i) (s_file st) f) = Ok (splice params (n - (i + d)) (s_file st) f).
Proof.
  intros SK PR S E NZ L. destruct tabl_ex as (t & T). pose proof (seal_inv t f st T S E) as SU.
  rewrite (unseal_range_unfold t) by assumption. pose proof T as (TA & TL & TB & TS).
  pose proof (no_zero_blocks t f st SU NZ) as NB. destruct SU as [SL IL SB SR SI SG]. destruct S as [FL FU].
  assert (BL : forall q, (n - q) * bpl <= n * bpl) by (intros; apply Nat.mul_le_mono_r; lia).
  pose proof (BL i) as Bi. pose proof (BL (i + d)) as Bd.
  destruct (unseal_loop_from H params key iv n m (fst t) (snd t) hh k1 k2 upl_pos bpl_eq TS TL f (s_file st)
      (splice params (n - i) (s_file st) f) i d (sound_good SK) (plain_rows_ok t T PR) SL ltac:(lia) L ltac:(intros; apply NB; lia)) as (G & EG & [U1 U2 U3]).
  - split.
    + unfold splice. rewrite app_length, firstn_length, skipn_length. lia.
    + intros x X. unfold splice. rewrite app_nth1 by (rewrite firstn_length; lia). now rewrite nth_firstn.
    + intros x X. unfold splice. rewrite app_nth2 by (rewrite firstn_length; lia). rewrite firstn_length, nth_skipn. f_equal. lia.
  - rewrite EG. f_equal. apply splice_file; auto; lia.
Qed.
Lemma splice_0 a b : splice params 0 a b = b. Proof. reflexivity. Qed.
Lemma splice_n f st : sealable params key n m f -> seal H pr params key iv f = Ok st ->
  splice params n (s_file st) f = s_file st.
Proof.
  intros S E. destruct tabl_ex as (t & T). pose proof (seal_inv t f st T S E) as [SL IL SB SR SI SG]. destruct S as [FL FU].
  symmetry. apply splice_file; auto.
Qed.
Theorem unseal_seal f st : sound_key H key -> plain_rows -> sealable params key n m f ->
  seal H pr params key iv f = Ok st -> ~ In 0%Z (s_log st) -> unseal H pr params key iv (s_file st) = Ok f.
Proof.
  intros SK PR S E NZ. rewrite <- unseal_range_all.
  pose proof (unseal_partial_run f st 0 n SK PR S E NZ ltac:(lia)) as X.
  rewrite Nat.sub_0_r, splice_n in X by assumption. cbn [plus] in X. rewrite Nat.sub_diag, splice_0 in X. exact X.
Qed.

(** C27 *)
Theorem seal_interrupted f st j : sealable params key n m f -> seal H pr params key iv f = Ok st -> j <= n ->
  exists sj, seal_upto H pr params key iv j f = Ok sj /\ s_file sj = splice params j (s_file st) f.
Proof.
  intros S E J. destruct tabl_ex as (t & T). pose proof (seal_inv t f st T S E) as [SL IL SB SR SI SG].
  destruct (seal_upto_ok t f j T S J) as (sj & Ej & [SLj ILj SBj SRj SIj SGj]). exists sj. split; [exact Ej|].
  pose proof T as (_ & TL & _ & TS). destruct S as [FL FU].
  assert (JB : j * bpl <= n * bpl) by (apply Nat.mul_le_mono_r; lia).
  apply splice_file; auto; [lia|]. intros x X.
  assert (B0 : bpl <> 0) by nia. pose proof (Nat.div_mod x bpl B0) as Dx. pose proof (Nat.mod_upper_bound x bpl B0) as Rx.
  assert (K : x / bpl < j) by (apply Nat.div_lt_upper_bound; lia).
  assert (EB : blk params (s_file sj) (x / bpl) = blk params (s_file st) (x / bpl)).
  { apply (sealed_blk_unique H params key iv n m (fst t) (snd t) hh upl_pos bpl_eq TL f f _ _ j); auto.
    - intros k Kk. destruct (SBj k Kk) as (z & B & _). eauto.
    - intros k Kk. destruct (SB k ltac:(lia)) as (z & B & _). eauto. }
  pose proof (read_file_nth (s_file sj) (x / bpl * bpl) bpl (x mod bpl) Rx) as N1.
  pose proof (read_file_nth (s_file st) (x / bpl * bpl) bpl (x mod bpl) Rx) as N2.
  unfold blk in EB. rewrite EB, N2 in N1. injection N1 as N1.
  replace (x / bpl * bpl + x mod bpl) with x in N1 by lia. now symmetry.
Qed.

(** C26 *)
Lemma blk_firstn f g j : j * bpl <= length f -> j * bpl <= length g -> 
  (firstn (j * bpl) f = firstn (j * bpl) g <-> forall k, k < j -> blk params f k = blk params g k).
Proof.
  intros Lf Lg. split.
  - intros E k K. apply blk_ext. intros x X. pose proof (mul_lt_block params k j K).
    rewrite <- (nth_firstn f (j * bpl)), <- (nth_firstn g (j * bpl)) by lia. now rewrite E.
  - intros E. apply file_ext; [rewrite !firstn_length; lia|]. intros x X. rewrite firstn_length in X.
    rewrite !nth_firstn by lia.
    assert (B0 : bpl <> 0) by nia. pose proof (Nat.div_mod x bpl B0) as Dx. pose proof (Nat.mod_upper_bound x bpl B0) as Rx.
    assert (K : x / bpl < j) by (apply Nat.div_lt_upper_bound; lia).
    specialize (E _ K). unfold blk in E.
    pose proof (read_file_nth f (x / bpl * bpl) bpl (x mod bpl) Rx) as N1.
    pose proof (read_file_nth g (x / bpl * bpl) bpl (x mod bpl) Rx) as N2.
    rewrite E, N2 in N1. injection N1 as N1. replace (x / bpl * bpl + x mod bpl) with x in N1 by lia. now symmetry.
Qed.
Theorem seal_causal f g sf sg k : sealable params key n m f -> sealable params key n m g ->
  seal H pr params key iv f = Ok sf -> seal H pr params key iv g = Ok sg -> k <= n ->
  firstn (k * bpl) f = firstn (k * bpl) g -> firstn (k * bpl) (s_file sf) = firstn (k * bpl) (s_file sg).
Proof.
  intros Sf Sg Ef Eg K EQ. destruct tabl_ex as (t & T).
  pose proof (seal_inv t f sf T Sf Ef) as [SL1 IL1 SB1 SR1 SI1 SG1].
  pose proof (seal_inv t g sg T Sg Eg) as [SL2 IL2 SB2 SR2 SI2 SG2].
  pose proof T as (_ & TL & _ & TS). destruct Sf as [FL1 _], Sg as [FL2 _].
  assert (KB : k * bpl <= n * bpl) by (apply Nat.mul_le_mono_r; lia).
  apply blk_firstn; try lia. rewrite blk_firstn in EQ by lia.
  apply (sealed_blk_unique H params key iv n m (fst t) (snd t) hh upl_pos bpl_eq TL f g); auto.
  - intros q Kk. destruct (SB1 q ltac:(lia)) as (z & B & _). eauto.
  - intros q Kk. destruct (SB2 q ltac:(lia)) as (z & B & _). eauto.
Qed.

(** C29 *)
Theorem seal_injective f g sf sg : sound_key H key -> sealable params key n m f -> sealable params key n m g ->
  seal H pr params key iv f = Ok sf -> seal H pr params key iv g = Ok sg ->
  ~ In 0%Z (s_log sf) -> ~ In 0%Z (s_log sg) -> s_file sf = s_file sg -> f = g.
Proof.
  intros SK Sf Sg Ef Eg Z1 Z2 EQ. destruct tabl_ex as (t & T). pose proof T as (_ & TL & _ & TS).
  pose proof (seal_inv t f sf T Sf Ef) as U1. pose proof (seal_inv t g sg T Sg Eg) as U2.
  pose proof (no_zero_blocks t f sf U1 Z1) as N1. pose proof (no_zero_blocks t g sg U2 Z2) as N2.
  destruct U1 as [SL1 IL1 SB1 SR1 SI1 SG1]. destruct U2 as [SL2 IL2 SB2 SR2 SI2 SG2].
  destruct Sf as [FL1 _], Sg as [FL2 _].
  assert (FN : firstn (n * bpl) f = firstn (n * bpl) g).
  { apply blk_firstn; try lia. intros k K. destruct (N1 k K) as (z1 & B1 & Y1). destruct (N2 k K) as (z2 & B2 & Y2).
    rewrite <- EQ in B2.
    destruct (block_unseal H params key iv n m (fst t) (snd t) hh k1 k2 upl_pos bpl_eq TS TL _ _ _ _ (sound_good SK) B1 Y1 K) as (d1 & D1 & R1).
    destruct (block_unseal H params key iv n m (fst t) (snd t) hh k1 k2 upl_pos bpl_eq TS TL _ _ _ _ (sound_good SK) B2 Y2 K) as (d2 & D2 & R2).
    rewrite D1 in D2. injection D2 as <-. rewrite R1 in R2. injection R2 as R2.
    rewrite <- (com_chunks params m bpl_eq f k), <- (com_chunks params m bpl_eq g k). now rewrite R2. }
  rewrite <- (firstn_skipn (n * bpl) f), <- (firstn_skipn (n * bpl) g). rewrite FN. f_equal.
  assert (LL : length f = length g) by congruence.
  apply file_ext; [rewrite !skipn_length; lia|]. intros x X. rewrite !nth_skipn.
  rewrite <- SR1, <- SR2 by lia. now rewrite EQ.
Qed.
End Top.
