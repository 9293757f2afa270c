(** What a zero residue does to the round trip; totality of unsealing. *)
From Verif Require Import Base Legendre Sloth Common Depend Prover NumTheory SlothFacts BytesFacts
  DependSpec DependFacts DependDet VdeFacts SealSpec SealCore SealFile SealTop.
From Coq Require Import Znumtheory.
Local Open Scope nat_scope.

Lemma inv_of_zero p t : prime p -> (p mod 4 = 3)%Z -> (7 <= p)%Z -> t <> 0 ->
  (sloth_inv (Z.abs (sloth 0 p t)) p t = 4 \/ sloth_inv (Z.abs (sloth 0 p t)) p t = p - 4)%Z.
Proof.
  intros P P4 P7 T. destruct t as [|[|t]]; [contradiction| |].
  - left. rewrite sloth_zero_1 by assumption. cbn [sloth_inv Z.abs]. apply sloth_inv_1; assumption.
  - right. rewrite Z.abs_eq; [apply sloth_inv_zero_ge2; assumption|].
    rewrite sloth_zero_ge2 by assumption. assert (1 <= sloth 2 p t <= p - 1)%Z by (apply sloth_range; auto; lia). lia.
Qed.
Lemma modadd_val u h p a : (0 < p)%Z -> modadd u h p = Ok a -> le2z a = ((le2z u + le2z h) mod p)%Z /\ length a = length u.
Proof.
  intros P E. unfold modadd in E. destruct (Z.eqb_spec p 0); [lia|]. unfold pad_exact in E.
  destruct (Nat.leb_spec (length (z2le (Z.rem (le2z u + le2z h) p))) (length u)); [|discriminate]. injection E as <-.
  pose proof (le2z_nonneg u). pose proof (le2z_nonneg h).
  split; [|rewrite app_length, zeros_length; lia].
  rewrite le2z_app_zeros, le2z_z2le, Z.rem_mod_nonneg by lia.
  pose proof (Z.mod_pos_bound (le2z u + le2z h) p P). rewrite Z.abs_eq; lia.
Qed.

Section Zero.
Context (H : list byte -> list byte) (params : PosPara) (key : Z).
Notation upl := (unit_pl params).
Hypothesis HH : hash_ok H.
Hypothesis K1 : (1 < key)%Z.
Hypothesis K2 : (key <= 256 ^ Z.of_nat upl)%Z.
Context (idxs_s : list (list nat)) (deps : list (list (list byte))) (sf : list byte) (m : nat).
Hypothesis SOK : short_ok params idxs_s m.
Hypothesis DOK : deps_ok m deps.

(** One step touches one unit. *)
Lemma fstep_other c l i c' l' q : fstep H params key idxs_s deps sf m (c, l) i = Ok (c', l') -> q <> i ->
  nth_error c' q = nth_error c q /\ length c' = length c.
Proof.
  clear - params. intros E N. unfold fstep in E. apply bind_ok in E as (d & _ & E). apply bind_ok in E as (u & _ & E).
  apply bind_ok in E as (a & _ & E). apply bind_ok in E as (c2 & E2 & E). injection E as <- <-.
  unfold set_index in E2. destruct (i <? length c); [|discriminate]. injection E2 as <-.
  split; [apply nth_error_upd_neq; lia|apply upd_length].
Qed.
Lemma bstep_other c i c' q : bstep H params key idxs_s deps sf m c i = Ok c' -> q <> i -> nth_error c' q = nth_error c q.
Proof.
  clear - params. intros E N. unfold bstep in E. apply bind_ok in E as (d & _ & E). apply bind_ok in E as (u & _ & E).
  apply bind_ok in E as (a & _ & E). unfold set_index in E. destruct (i <? length c); [|discriminate]. injection E as <-.
  apply nth_error_upd_neq; lia.
Qed.
Lemma foldF_other l : forall c lg c' lg' q, foldM (fstep H params key idxs_s deps sf m) l (c, lg) = Ok (c', lg') -> ~ In q l ->
  nth_error c' q = nth_error c q.
Proof.
  induction l as [|i l IH]; intros c lg c' lg' q E N; cbn [foldM] in E; [now injection E as <- <-|].
  apply bind_ok in E as ([c1 l1] & E1 & E). cbn [In] in N.
  rewrite (IH _ _ _ _ _ E) by tauto. apply (fstep_other _ _ _ _ _ q E1). intros ->. tauto.
Qed.
Lemma foldB_other l : forall c c' q, foldM (bstep H params key idxs_s deps sf m) l c = Ok c' -> ~ In q l ->
  nth_error c' q = nth_error c q.
Proof.
  induction l as [|i l IH]; intros c c' q E N; cbn [foldM] in E; [now injection E as <-|].
  apply bind_ok in E as (c1 & E1 & E). cbn [In] in N.
  rewrite (IH _ _ _ E) by tauto. apply (bstep_other _ _ _ q E1). intros ->. tauto.
Qed.

(** The integers of one pass over fresh units. *)
Lemma pass_log c0 l : NoDup l -> forall c lg c' lg',
  (forall q, In q l -> nth_error c q = nth_error c0 q) ->
  foldM (fstep H params key idxs_s deps sf m) l (c, lg) = Ok (c', lg') ->
  forall z, In z lg' -> In z lg \/ exists i u d, In i l /\ nth_error c0 i = Some u /\ z = ((le2z u + le2z (H d)) mod key)%Z.
Proof.
  intros ND. induction ND as [|i l NI ND IH]; intros c lg c' lg' E0 E z Z; cbn [foldM] in E; [injection E as <- <-; auto|].
  apply bind_ok in E as ([c1 l1] & E1 & E).
  destruct (IH c1 l1 c' lg') with (z := z) as [I|(i' & u & d & I & U & V)]; auto.
  - intros q Q. rewrite <- E0 by now right. apply (fstep_other _ _ _ _ _ q E1). intros ->. contradiction.
  - unfold fstep in E1. apply bind_ok in E1 as (d & _ & E1). apply bind_ok in E1 as (u & U & E1).
    apply bind_ok in E1 as (a & A & E1). apply bind_ok in E1 as (c2 & _ & E1). injection E1 as <- <-.
    cbn [In] in I. destruct I as [<-|I]; [|now left]. right. exists i, u, d. split; [now left|].
    split; [|apply modadd_val in A; [apply A|lia]].
    rewrite <- E0 by now left. unfold index in U. destruct (nth_error c i); [|discriminate]. now injection U as <-.
  - right. exists i', u, d. split; [now right|]. auto.
Qed.

(** A zero residue at the last step. *)
Lemma zero_step cur i log cur' : good_key H key -> (7 <= key)%Z -> vde_rounds params <> 0 -> block_ok params key m cur -> i < m ->
  fstep H params key idxs_s deps sf m (cur, log) i = Ok (cur', 0%Z :: log) ->
  forall r, bstep H params key idxs_s deps sf m cur' i = Ok r -> nth_error r i <> nth_error cur i.
Proof.
  intros G P7 T [L F] I E r R. unfold fstep in E. apply bind_ok in E as (d & Ed & E). apply bind_ok in E as (u & Eu & E).
  apply bind_ok in E as (a & Ea & E). apply bind_ok in E as (c2 & E2 & E). injection E as <- V.
  rewrite set_index_ok in E2 by lia. injection E2 as <-. set (v := vde a key (vde_rounds params) (vde_mode params) upl) in *.
  unfold bstep in R. rewrite md_upd in R by assumption. rewrite Ed in R. cbn [bind] in R.
  rewrite index_upd_eq in R by lia. cbn [bind] in R. apply bind_ok in R as (w & Ew & R).
  rewrite set_index_ok in R by (rewrite upd_length; lia). injection R as <-. rewrite upd_upd, nth_error_upd_eq by lia.
  intros X. assert (w = u).
  { unfold index in Eu. rewrite <- X in Eu. now injection Eu. }
  subst w. pose proof (hash_lt H key d G) as Hd. destruct G as (P & P4 & PB).
  apply modadd_val in Ea as [Va La]; [|lia]. rewrite V in Va.
  unfold modsub in Ew. destruct (Z.eqb_spec key 0); [lia|]. unfold pad_exact in Ew.
  set (y := vde_inv v key (vde_rounds params) (vde_mode params) upl) in *.
  destruct (_ <=? length y); [|discriminate]. injection Ew as Ew. apply (f_equal le2z) in Ew.
  pose proof (le2z_nonneg y). pose proof (le2z_nonneg (H d)).
  rewrite le2z_app_zeros, le2z_z2le, Z.rem_mod_nonneg in Ew by lia.
  pose proof (Z.mod_pos_bound (le2z y + key - le2z (H d)) key ltac:(lia)) as RB. rewrite Z.abs_eq in Ew by lia.
  assert (Y : le2z y = 4%Z \/ le2z y = (key - 4)%Z).
  { unfold y. rewrite vde_inv_val. unfold v. rewrite vde_val, V.
    destruct (inv_of_zero key (vde_rounds params) P P4 P7 T) as [Q|Q]; rewrite Q; lia. }
  rewrite <- Ew in Va. rewrite Zplus_mod_idemp_l in Va.
  replace (le2z y + key - le2z (H d) + le2z (H d))%Z with (le2z y + 1 * key)%Z in Va by ring.
  rewrite Z_mod_plus_full, Z.mod_small in Va by lia. lia.
Qed.

Lemma pass_zero j : good_key H key -> (7 <= key)%Z -> vde_rounds params <> 0 -> j <= m -> forall cur cur' zs, block_ok params key m cur ->
  foldM (fstep H params key idxs_s deps sf m) (seq 0 j) (cur, []) = Ok (cur', zs) -> In 0%Z zs ->
  forall r, foldM (bstep H params key idxs_s deps sf m) (rev (seq 0 j)) cur' = Ok r -> exists i, nth_error r i <> nth_error cur i.
Proof.
  intros G P7 T. induction j as [|j IH]; intros J cur cur' zs B E Z r R.
  - injection E as <- <-. contradiction.
  - rewrite seq_S in E. rewrite foldM_app in E. cbn [plus] in E.
    destruct (loop_undo (block_ok params key m) (good_key H key) (fstep H params key idxs_s deps sf m) (bstep H params key idxs_s deps sf m) (seq 0 j))
      with (b := cur) as (c1 & z1 & B1 & F1 & G1).
    { intros i b I Bb. apply in_seq in I. apply fstep_ok; auto; lia. }
    { exact B. }
    rewrite F1 in E. cbn [bind foldM] in E. apply bind_ok in E as ([c2 l2] & E2 & E). injection E as -> ->.
    rewrite app_nil_r in E2. destruct (fstep_ok H params key HH K1 K2 idxs_s deps sf m j c1 SOK DOK ltac:(lia) B1) as (c2 & z2 & B2 & F2 & G2).
    pose proof (F2 z1) as F2'. rewrite E2 in F2'. injection F2' as -> ->.
    rewrite seq_S, rev_app_distr in R. cbn [plus rev app foldM] in R. apply bind_ok in R as (c3 & E3 & R).
    destruct (in_dec Z.eq_dec 0%Z z2) as [IZ|NZ].
    + exists j. assert (N1 : nth_error c1 j = nth_error cur j).
      { apply (foldF_other (seq 0 j) cur [] c1 (z1 ++ [])); [apply F1|]. rewrite in_seq. lia. }
      rewrite <- N1. assert (N3 : nth_error r j = nth_error c3 j).
      { apply (foldB_other (rev (seq 0 j)) c3 r); [exact R|]. rewrite <- in_rev, in_seq. lia. }
      rewrite N3. apply (zero_step c1 j z1 c2 G P7 T B1 ltac:(lia)); [|exact E3].
      pose proof E2 as E2'. unfold fstep in E2'. apply bind_ok in E2' as (d & _ & E'). apply bind_ok in E' as (u & _ & E').
      apply bind_ok in E' as (a & _ & E'). apply bind_ok in E' as (c4 & _ & E'). injection E' as _ X.
      assert (z2 = [le2z a]).
      { apply (app_inv_tail z1). rewrite <- X. reflexivity. }
      subst z2. cbn [In] in IZ. destruct IZ as [IZ|[]]. rewrite IZ in E2. exact E2.
    + rewrite (G2 G NZ) in E3. injection E3 as <-. apply (IH ltac:(lia) cur c1 z1 B); auto.
      * rewrite F1. now rewrite app_nil_r.
      * apply in_app_or in Z as [Z|Z]; [contradiction|exact Z].
Qed.
End Zero.

Section Top2.
Context (H : list byte -> list byte) (pr : profile) (params : PosPara) (key : Z) (iv : list byte) (n m : nat).
Hypothesis SET : setting H pr params key n m.
Notation upl := (unit_pl params).
Notation bpl := (block_pl params).

Lemma sound_lt : sound_key H key -> (forall d, le2z (H d) < key < 256 ^ Z.of_nat upl)%Z.
Proof.
  intros [P P4 PB] d. split; [apply PB|]. pose proof (k2 H pr params key n m SET) as K2. pose proof (upl_pos H pr params key n m SET) as U.
  assert (key <> 256 ^ Z.of_nat upl)%Z; [|lia]. intros E.
  replace (Z.of_nat upl) with (Z.succ (Z.of_nat (upl - 1))) in E by lia.
  rewrite Z.pow_succ_r in E by lia. change 256%Z with (64 * 4)%Z in E at 1.
  rewrite E in P4. replace (64 * 4 * 256 ^ Z.of_nat (upl - 1))%Z with (0 + (64 * 256 ^ Z.of_nat (upl - 1)) * 4)%Z in P4 by ring.
  rewrite Z_mod_plus_full in P4. discriminate.
Qed.

(** One pass of unsealing over any file: every block is computed from the file as
    it was at the start. *)
Lemma unseal_blocks t F G d : (forall d, le2z (H d) < key < 256 ^ Z.of_nat upl)%Z -> long_ok params (fst t) n -> short_ok params (snd t) m -> rows_ok params n (fst t) ->
  d <= n -> n * bpl <= length F -> 
  (length G = length F /\ (forall x, x < n * bpl -> nth x G x00 = nth x F x00) /\ (forall x, n * bpl <= x -> nth x G x00 = nth x F x00)) ->
  exists G', foldM (unseal_block H params key iv (fst t) (snd t) n) (seq 0 d) G = Ok G' /\ length G' = length F
   /\ (forall x, x < (n - d) * bpl -> nth x G' x00 = nth x F x00)
   /\ (forall x, n * bpl <= x -> nth x G' x00 = nth x F x00)
   /\ (forall k, n - d <= k < n -> exists deps us, Dfun H params (fst t) n F k = Ok deps /\ shaped params m us
         /\ brounds H params key (snd t) deps (sfx H params iv F k) m (chunks upl m (blk params F k)) = Ok us
         /\ blk params G' k = com_units us).
Proof.
  intros KB TL TS R D LF (GL & GE & GT).
  pose proof (hh H pr params key n m SET) as hh. pose proof (k1 H pr params key n m SET) as k1. pose proof (k2 H pr params key n m SET) as k2.
  pose proof (upl_pos H pr params key n m SET) as U0. pose proof (bpl_eq H pr params key n m SET) as BP.
  induction d as [|d IH].
  - exists G. split; [reflexivity|]. split; [exact GL|]. rewrite Nat.sub_0_r. split; [exact GE|]. split; [exact GT|]. intros k K. lia.
  - destruct (IH ltac:(lia)) as (G1 & E1 & L1 & A1 & B1 & C1). rewrite seq_S, foldM_app, E1. cbn [bind foldM plus].
    assert (KX : exists k, k = n - 1 - d) by eauto. destruct KX as (k & HK). assert (KN : k < n) by lia.
    pose proof (unseal_block_eq H params key iv n m (fst t) (snd t) U0 BP G1 k KN R) as UE.
    replace (n - 1 - k) with d in UE by lia. rewrite UE. clear UE. pose proof (mul_lt_block params k n KN) as MK.
    assert (EK : forall i, i <= k -> blk params G1 i = blk params F i).
    { intros i I. apply blk_ext. intros x X. apply A1. pose proof (mul_lt_block params i (n - d) ltac:(lia)). lia. }
    destruct (Dfun_ok H params n m (fst t) hh U0 BP TL F k KN) as (deps & ED & DO).
    rewrite (Dfun_ext H params n m (fst t) hh U0 BP TL G1 F k KN) by (intros; apply EK; lia). rewrite ED. cbn [bind].
    rewrite (sfx_ext H params iv G1 F k) by (intros; apply EK; lia). rewrite (EK k ltac:(lia)).
    destruct (brounds_ok H params key hh k1 k2 (snd t) deps (sfx H params iv F k) m _ TS DO KB (chunks_shaped params m BP F k)) as (us & EB & SH).
    rewrite EB. cbn [bind]. eexists. split; [reflexivity|].
    assert (CL : length (com_units us) = bpl).
    { destruct SH as [SL SF]. rewrite com_units_concat, (concat_length_uniform upl) by exact SF. now rewrite SL. }
    split; [rewrite write_at_length by lia; exact L1|]. split; [|split].
    + intros x X. rewrite write_at_nth by lia. replace (n - S d) with k in X by lia. destruct (Nat.leb_spec (k * bpl) x); [lia|].
      cbn [andb]. apply A1. replace (n - d) with (S k) by lia. lia.
    + intros x X. rewrite write_at_nth by lia. rewrite CL. destruct (Nat.ltb_spec x (k * bpl + bpl)); [lia|]. rewrite andb_false_r. auto.
    + intros i I. destruct (Nat.eq_dec i k) as [->|N].
      * exists deps, us. split; [exact ED|]. split; [exact SH|]. split; [exact EB|]. apply write_blk_same; [rewrite L1; lia|exact CL].
      * destruct (C1 i ltac:(lia)) as (d' & us' & X1 & X2 & X3 & X4). exists d', us'. repeat split; auto; try apply X2.
        rewrite write_blk_other; [|rewrite L1; lia|exact CL|exact N]. exact X4.
Qed.

(** The rows unsealing really uses: row k of a deterministic mode is replaced by
    0, 1, 2, ... of the same length. *)
Definition used_rows (rows : list (list nat)) : list (list nat) :=
  if mode_l params =? 0 then rows else map (fun row => seq 0 (length row)) rows.
Lemma index_map {A B} (g : A -> B) l i : index (map g l) i = let* x := index l i in Ok (g x).
Proof. unfold index. rewrite nth_error_map. now destruct (nth_error l i). Qed.
Lemma unseal_block_used rows ts G i : unseal_block H params key iv rows ts n G i = unseal_block H params key iv (used_rows rows) ts n G i.
Proof.
  unfold unseal_block. set (idx := n - 1 - i).
  assert (X : forall bid, unseal_depend_blocks H params rows n G bid idx = unseal_depend_blocks H params (used_rows rows) n G bid idx).
  { intros bid. unfold unseal_depend_blocks, used_rows. destruct (mode_l params =? 0); [reflexivity|]. rewrite index_map.
    destruct (index rows idx) as [row|]; [|reflexivity]. cbn [bind]. now rewrite seq_length. }
  now rewrite X.
Qed.
Lemma long_depend_length k row : k < n -> mode_l params <> 0 -> long_depend pr k (cnt_l params) (mode_l params) = Ok row -> length row <= k.
Proof.
  intros K NZ E. assert (X : Forall (fun x => x < k) row /\ NoDup row).
  { pose proof (set_long _ _ _ _ _ _ SET) as L. unfold long_modes_fine in L. unfold long_depend in E.
    destruct (mode_l params) as [|[|[|[|q]]]]; [contradiction| | | |]; cbn [Nat.eqb] in E.
    - rewrite long_mode_1_spec in E by exact L. injection E as <-. destruct (back_by_props dist_1 k (cnt_l params) dist_1_pos dist_1_inj) as (A & B & _). now split.
    - rewrite long_mode_2_spec in E by exact L. injection E as <-. destruct (back_by_props dist_2 k (cnt_l params) dist_2_pos dist_2_inj) as (A & B & _). now split.
    - rewrite long_mode_3_is_2, long_mode_2_spec in E by (apply Nat.lt_succ_r, Nat.div_lt_upper_bound; lia). injection E as <-.
      match goal with |- Forall _ (back_by _ _ ?c) /\ _ => destruct (back_by_props dist_2 k c dist_2_pos dist_2_inj) as (A & B & _) end. now split.
    - injection E as <-. split; constructor. }
  destruct X as [A B]. rewrite <- (seq_length k 0). apply NoDup_incl_length; [exact B|]. intros x I. rewrite Forall_forall in A. apply A in I. apply in_seq. lia.
Qed.
Lemma used_ok t : tabl pr params n m t -> long_ok params (used_rows (fst t)) n /\ rows_ok params n (used_rows (fst t)).
Proof.
  intros (A & TL & _). unfold used_rows. destruct (Nat.eqb_spec (mode_l params) 0) as [M|M]; [split; [exact TL|now left]|].
  assert (N : forall k row, k < n -> index (fst t) k = Ok row -> length row <= k).
  { intros k row K I. apply long_depend_length; auto. unfold seal_idxs_l in A. apply Nat.eqb_neq in M. rewrite M in A. cbn [negb] in A. unfold create_long_depend in A.
    assert (N : nth_error (seq 0 n) k = Some k) by (rewrite nth_error_nth' with (d := 0) by (rewrite seq_length; exact K); now rewrite seq_nth).
    destruct (mapM_index _ _ _ _ _ A N) as (b & Eb & I'). rewrite I in I'. injection I' as <-. exact Eb. }
  unfold long_ok in *. apply Nat.eqb_neq in M as M'. rewrite M' in *. split.
  - intros k K. destruct (TL k K) as (row & I & _). exists (seq 0 (length row)). rewrite index_map, I. split; [reflexivity|].
    apply Forall_forall. intros x X. apply in_seq in X. pose proof (N k row K I). lia.
  - right. intros k row K. rewrite index_map. destruct (index (fst t) k); [|discriminate]. intros E. injection E as <-. now rewrite seq_length.
Qed.
(** Unsealing any file, in every mode. *)
Lemma unseal_used t F : (forall d, le2z (H d) < key < 256 ^ Z.of_nat upl)%Z -> tabl pr params n m t -> n * bpl <= length F ->
  exists G, unseal H pr params key iv F = Ok G /\ length G = length F
   /\ (forall x, n * bpl <= x -> nth x G x00 = nth x F x00)
   /\ (forall k, k < n -> exists deps us, Dfun H params (used_rows (fst t)) n F k = Ok deps /\ shaped params m us
         /\ brounds H params key (snd t) deps (sfx H params iv F k) m (chunks upl m (blk params F k)) = Ok us
         /\ blk params G k = com_units us).
Proof.
  intros KB T LF. rewrite <- (unseal_range_all H pr params key iv n m SET), (unseal_range_unfold H pr params key iv n m SET t) by (auto; lia).
  rewrite (foldM_ext _ (unseal_block H params key iv (used_rows (fst t)) (snd t) n)) by (intros; apply unseal_block_used). destruct (used_ok t T) as [A B].
  destruct (unseal_blocks (used_rows (fst t), snd t) F F n KB A (proj2 (proj2 (proj2 T))) B ltac:(lia) LF ltac:(auto)) as (G & E & L & _ & X & C).
  exists G. split; [exact E|]. split; [exact L|]. split; [exact X|]. intros k K. apply C. lia.
Qed.

(** Unsealing any file of the right size returns and changes nothing outside the
    blocks. *)
Theorem unseal_total F : (forall d, le2z (H d) < key < 256 ^ Z.of_nat upl)%Z -> n * bpl <= length F ->
  exists G, unseal H pr params key iv F = Ok G /\ length G = length F /\ skipn (n * bpl) G = skipn (n * bpl) F.
Proof.
  intros KB LF. destruct (tabl_ex H pr params key n m SET) as (t & T).
  destruct (unseal_used t F KB T LF) as (G & E & L & B & _).
  exists G. split; [exact E|]. split; [exact L|].
  apply file_ext; [rewrite !skipn_length; lia|]. intros x X. rewrite !nth_skipn. apply B. lia.
Qed.

(** With a single sealing round, the file is restored exactly when no masked unit
    was zero. *)
Theorem one_round_exact f st : sound_key H key -> (7 <= key)%Z -> plain_rows pr params n -> seal_rounds params = 1 -> vde_rounds params <> 0 ->
  sealable params key n m f -> seal H pr params key iv f = Ok st ->
  (unseal H pr params key iv (s_file st) = Ok f <-> ~ In 0%Z (s_log st)).
Proof.
  intros SK P7 PR SR VR S E. split; [|intros NZ; eapply unseal_seal; eauto]. intros UE Z0.
  destruct (tabl_ex H pr params key n m SET) as (t & T). pose proof (seal_inv H pr params key iv n m SET t f st T S E) as [SL IL SB SRR SI SG].
  pose proof (hh H pr params key n m SET) as hh. pose proof (k1 H pr params key n m SET) as k1. pose proof (k2 H pr params key n m SET) as k2.
  pose proof (upl_pos H pr params key n m SET) as U0. pose proof (bpl_eq H pr params key n m SET) as BP.
  pose proof T as (_ & TL & _ & TS). destruct S as [FL FU].
  destruct (SG _ Z0) as (k & zs & K & (deps & D & B & B' & Fr) & IZ).
  rewrite <- (unseal_range_all H pr params key iv n m SET), (unseal_range_unfold H pr params key iv n m SET t) in UE by (auto; lia).
  destruct (unseal_blocks t (s_file st) (s_file st) n (sound_lt SK) TL TS (plain_rows_ok pr params n m t T PR) ltac:(lia) ltac:(lia) ltac:(auto))
    as (G & EG & _ & _ & _ & C).
  rewrite UE in EG. injection EG as <-. destruct (C k ltac:(lia)) as (d' & us & D' & SH & EB & EQ).
  rewrite D in D'. injection D' as <-. apply (f_equal (chunks upl m)) in EQ. rewrite chunks_com in EQ by exact SH. subst us.
  unfold brounds in EB. unfold frounds in Fr. rewrite SR in *. cbn [seq foldM] in *.
  specialize (Fr []). apply bind_ok in Fr as (x & Fr & Ex). injection Ex as ->. rewrite app_nil_r in Fr.
  apply bind_ok in EB as (y & EB & Ey). injection Ey as ->.
  destruct (Dfun_ok H params n m (fst t) hh U0 BP TL (s_file st) k K) as (d' & D' & DO). rewrite D in D'. injection D' as <-.
  destruct (pass_zero H params key hh k1 k2 (snd t) deps _ m TS DO m (sound_good H key SK) P7 VR ltac:(lia) _ _ _ B Fr IZ _ EB) as (i & NE).
  now apply NE.
Qed.

(** Padded data, one round and a hash that is never all zero: no zero residue. *)
Theorem padded_no_zero f st : seal_rounds params = 1 -> (forall d, 256 ^ Z.of_nat (upl - 1) + le2z (H d) <= key)%Z ->
  (forall d, le2z (H d) <> 0%Z) -> n * bpl <= length f ->
  (forall q, q < n * m -> (le2z (unit_bytes params f q) < 256 ^ Z.of_nat (upl - 1))%Z) ->
  seal H pr params key iv f = Ok st -> sealable params key n m f /\ ~ In 0%Z (s_log st).
Proof.
  intros SR KB HN FL FU E.
  assert (S : sealable params key n m f) by (split; [exact FL|]; intros q Q; specialize (FU q Q); specialize (KB []); pose proof (le2z_nonneg (H [])); lia).
  split; [exact S|]. intros Z0.
  destruct (tabl_ex H pr params key n m SET) as (t & T). pose proof (seal_inv H pr params key iv n m SET t f st T S E) as [SL IL SB SRR SI SG].
  destruct (SG _ Z0) as (k & zs & K & (deps & D & B & B' & Fr) & IZ).
  unfold frounds in Fr. rewrite SR in *. cbn [seq foldM] in *.
  specialize (Fr []). apply bind_ok in Fr as (x & Fr & Ex). injection Ex as ->. rewrite app_nil_r in Fr.
  pose proof (hh H pr params key n m SET) as hh. pose proof (k1 H pr params key n m SET) as k1.
  destruct (pass_log H params key k1 (snd t) deps _ m (chunks upl m (blk params f k)) (seq 0 m) (seq_NoDup m 0) _ _ _ _
     (fun q _ => eq_refl) Fr _ IZ) as [[]|(i & u & d & I & U & V)].
  apply in_seq in I. pose proof (mul_lt_block params k n K). rewrite (unit_of_block H pr params key n m SET) in U by lia. injection U as <-.
  specialize (FU (k * m + i) ltac:(nia)). pose proof (le2z_nonneg (unit_bytes params f (k * m + i))).
  specialize (KB d). pose proof (le2z_nonneg (H d)).
  rewrite Z.mod_small in V by lia. specialize (HN d). lia.
Qed.
End Top2.

(** Every 32-byte hash is below a 257-bit key. *)
Lemma big_key_mask H key : hash32 H -> (2 ^ 256 <= key)%Z -> forall d, (le2z (H d) < key)%Z.
Proof.
  intros HH K d. pose proof (le2z_range (H d)) as R. rewrite (HH d) in R. change (256 ^ Z.of_nat 32)%Z with (2 ^ 256)%Z in R. lia.
Qed.
