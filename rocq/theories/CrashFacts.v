(** What a killed run leaves behind, and what can be made of it (C90, C91). *)
From Coq Require Import Znumtheory Strings.Byte Sorted.
From Verif Require Import Base Legendre Sloth Common Depend Prover Verifier Postorage Crash NumTheory SlothFacts BytesFacts CommonFacts
  DependSpec DependFacts DependDet VdeFacts SealSpec SealCore SealFile SealTop SealPad SealZero VerifierFacts SealVerify SealMeaning PostorageFacts SpotFacts LocalFacts.
Local Open Scope nat_scope.

Lemma app_cut (A X : file) x : nth x (A ++ X) x00 = if x <? length A then nth x A x00 else nth (x - length A) X x00.
Proof. destruct (Nat.ltb_spec x (length A)); [now rewrite app_nth1|now rewrite app_nth2]. Qed.
Lemma nth_cut (S f : file) p x : p <= length S -> length S = length f ->
  nth x (firstn p S ++ skipn p f) x00 = if x <? p then nth x S x00 else nth x f x00.
Proof.
  intros L E. rewrite app_cut, firstn_length, Nat.min_l by lia. destruct (Nat.ltb_spec x p); [now apply nth_firstn|].
  rewrite nth_skipn. f_equal. lia.
Qed.
Lemma read_file_nth' f b l k : k < l -> nth k (read_file f b l) x00 = nth (b + k) f x00.
Proof. intros K. apply nth_error_nth with (d := x00). now apply read_file_nth. Qed.

Section CrashF.
Context (H : list byte -> list byte) (pr : profile) (params : PosPara) (key : Z) (iv : list byte) (n m : nat).
Hypothesis SET : setting H pr params key n m.
Notation bpl := (block_pl params).
Notation upl := (unit_pl params).
Notation tabl := (SealTop.tabl pr params n m).
Let HASH := hh H pr params key n m SET.
Let UPOS := upl_pos H pr params key n m SET.
Let BEQ := bpl_eq H pr params key n m SET.

Lemma seal_block_written t f j st : tabl t -> sealable params key n m f -> j < n -> sealed_upto H params key iv n m (fst t) (snd t) j f st ->
  exists us log' ids', 
  (let* cur_block := read_block params (s_file st) j in
   let* depend_blocks := seal_depend_blocks H params (fst t) n (s_file st) (s_ids st) j in
   seal_block_rounds H params key iv (snd t) depend_blocks (s_ids st) j (cur_block, s_log st)) = Ok (us, log') /\
  length (com_units us) = bpl /\
  seal_block H params key iv (fst t) (snd t) n st j = Ok (mkSeal (write_at (s_file st) (j * bpl) (com_units us)) ids' log').
Proof.
  intros T S J SU. pose proof (sealable_file_ok H pr params key n m SET f S) as [FL FB]. destruct SU as [SL IL SB SR SI SG].
  destruct T as (_ & TL & _ & TS).
  assert (LJ : Datatypes.S j * bpl <= n * bpl) by (apply mul_lt_block; lia).
  assert (EJ : blk params (s_file st) j = blk params f j) by (apply blk_ext; intros x X; apply SR; lia).
  unfold seal_block. rewrite (read_block_ok params m UPOS BEQ). cbn [bind].
  assert (ID : j <> 0 -> index (s_ids st) (j - 1) = Ok (H (blk params (s_file st) (j - 1)))) by (intros; apply SI; lia).
  rewrite seal_depend_blocks_D by exact ID.
  destruct (Dfun_ok H params n m (fst t) HASH UPOS BEQ TL (s_file st) j J) as (deps & ED & DO). rewrite ED. cbn [bind].
  rewrite (seal_block_rounds_frounds H params key iv (snd t) deps (s_ids st) j m _ _ (H (blk params (s_file st) (j - 1)))); [|apply chunks_length|exact ID].
  fold (sfx H params iv (s_file st) j). rewrite EJ.
  destruct (frounds_ok H params key HASH (k1 H pr params key n m SET) (k2 H pr params key n m SET) (snd t) deps (sfx H params iv (s_file st) j) m (chunks upl m (blk params f j)) TS DO (FB j J))
    as (us' & zs & B' & F & G).
  rewrite F. cbn [bind]. rewrite set_index_ok by lia. cbn [bind]. exists us', (zs ++ s_log st). eexists. split; [reflexivity|]. split; [|reflexivity].
  now apply (com_len params key m BEQ).
Qed.

Lemma torn_write (S f : file) a p k : length S = length f -> a + p <= length S ->
  write_at (firstn a S ++ skipn a f) a (firstn k (read_file S a p)) = firstn (a + Nat.min k p) S ++ skipn (a + Nat.min k p) f.
Proof.
  intros E L. assert (RL : length (firstn k (read_file S a p)) = Nat.min k p) by (rewrite firstn_length, read_file_length; reflexivity).
  assert (L1 : forall q, q <= length S -> length (firstn q S ++ skipn q f) = length S) by (intros; rewrite app_length, firstn_length, skipn_length; lia).
  apply file_ext.
  - rewrite write_at_length by (rewrite RL, L1; lia). rewrite !L1; lia.
  - intros x _. rewrite write_at_nth by (rewrite RL, L1; lia). rewrite RL, !nth_cut by lia.
    destruct (Nat.leb_spec a x) as [C|C]; cbn [andb].
    + destruct (Nat.ltb_spec x (a + Nat.min k p)) as [D|D].
      * rewrite nth_firstn by lia. rewrite read_file_nth' by lia. f_equal. lia.
      * destruct (Nat.ltb_spec x a); [lia|]. reflexivity.
    + destruct (Nat.ltb_spec x a); [|lia]. destruct (Nat.ltb_spec x (a + Nat.min k p)); [reflexivity|lia].
Qed.

Theorem seal_crash_eq f st j k : sealable params key n m f -> seal H pr params key iv f = Ok st -> j < n ->
  seal_crash H pr params key iv j k f = Ok (firstn (j * bpl + Nat.min k bpl) (s_file st) ++ skipn (j * bpl + Nat.min k bpl) f).
Proof.
  intros S E J. destruct (tabl_ex H pr params key n m SET) as (t & T).
  destruct (seal_upto_ok H pr params key iv n m SET t f j T S ltac:(lia)) as (sj & EJ & SU).
  destruct (seal_block_written t f j sj T S J SU) as (us & log' & ids' & W & LU & B).
  destruct (seal_interrupted H pr params key iv n m SET f st j S E ltac:(lia)) as (sj' & EJ' & FJ). rewrite EJ in EJ'. injection EJ' as <-.
  destruct (seal_interrupted H pr params key iv n m SET f st (Datatypes.S j) S E ltac:(lia)) as (s1 & E1 & F1).
  rewrite (seal_upto_unfold H pr params key iv n m SET t) in E1, EJ by (assumption || lia). rewrite seq_S, foldM_app, EJ in E1. cbn [bind foldM plus] in E1. rewrite B in E1. cbn [bind] in E1. injection E1 as <-. cbn [s_file] in F1.
  assert (SL : length (s_file st) = length f) by (destruct (seal_total H pr params key iv n m SET f S) as (st' & X & Y & _); rewrite E in X; injection X as <-; exact Y).
  assert (LJ : Datatypes.S j * bpl <= n * bpl) by (apply mul_lt_block; lia). pose proof (proj1 S) as FL.
  assert (UB : com_units us = read_file (s_file st) (j * bpl) bpl).
  { rewrite <- (write_blk_same params (s_file sj) j us); [|destruct SU; lia|exact LU]. rewrite F1. unfold blk. apply read_file_ext. intros x X. unfold splice. rewrite nth_cut by lia.
    destruct (Nat.ltb_spec x (Datatypes.S j * bpl)); [reflexivity|lia]. }
  unfold seal_crash. rewrite (seal_upto_unfold H pr params key iv n m SET t) by (assumption || lia). rewrite EJ. cbn [bind]. rewrite (set_nblocks H pr params key n m SET). cbn [bind].
  pose proof T as (A1 & _ & A2 & _). rewrite A1. cbn [bind]. rewrite A2. cbn [bind].
  destruct (read_block params (s_file sj) j) as [cb|]; [|discriminate]. cbn [bind] in W |- *.
  destruct (seal_depend_blocks H params (fst t) n (s_file sj) (s_ids sj) j) as [db|]; [|discriminate]. cbn [bind] in W |- *. rewrite W. cbn [bind].
  rewrite UB, FJ. f_equal. unfold splice. apply torn_write; lia.
Qed.

(** Unsealing the blocks before b touches and needs nothing else. *)
Theorem unseal_below f st b X : sound_key H key -> plain_rows pr params n -> sealable params key n m f ->
  seal H pr params key iv f = Ok st -> ~ In 0%Z (s_log st) -> b <= n -> length X = length f - b * bpl ->
  unseal_range H pr params key iv (n - b) b (firstn (b * bpl) (s_file st) ++ X) = Ok (firstn (b * bpl) f ++ X).
Proof.
  intros SK PR S E NZ BN LX. destruct (tabl_ex H pr params key n m SET) as (t & T). pose proof (seal_inv H pr params key iv n m SET t f st T S E) as SU.
  rewrite (unseal_range_unfold H pr params key iv n m SET t) by (assumption || lia). pose proof T as (TA & TL & TB & TS).
  pose proof (no_zero_blocks H params key iv n m t f st SU NZ) as NB. destruct SU as [SL IL SB SR SI SG]. destruct S as [FL FU].
  assert (BL : b * bpl <= n * bpl) by (apply Nat.mul_le_mono_r; lia).
  set (f' := firstn (b * bpl) f ++ X). set (F' := firstn (b * bpl) (s_file st) ++ X).
  assert (LF' : length F' = length f') by (unfold F', f'; rewrite !app_length, !firstn_length; lia).
  assert (Lf' : length f' = length f) by (unfold f'; rewrite app_length, firstn_length; lia).
  assert (NF : forall x, x < b * bpl -> nth x F' x00 = nth x (s_file st) x00).
  { intros x C. unfold F'. rewrite app_cut, firstn_length, Nat.min_l by lia. destruct (Nat.ltb_spec x (b * bpl)); [|lia]. apply nth_firstn. lia. }
  assert (Nf : forall x, x < b * bpl -> nth x f' x00 = nth x f x00).
  { intros x C. unfold f'. rewrite app_cut, firstn_length, Nat.min_l by lia. destruct (Nat.ltb_spec x (b * bpl)); [|lia]. apply nth_firstn. lia. }
  assert (NX : forall x, b * bpl <= x -> nth x F' x00 = nth x f' x00).
  { intros x C. unfold F', f'. rewrite !app_cut, !firstn_length, !Nat.min_l by lia. destruct (Nat.ltb_spec x (b * bpl)); [lia|reflexivity]. }
  assert (BF : forall k, k < b -> blk params F' k = blk params (s_file st) k).
  { intros k K. apply blk_ext. intros x [_ C]. apply NF. pose proof (mul_lt_block params k b K). lia. }
  assert (Bf : forall k, k < b -> blk params f' k = blk params f k).
  { intros k K. apply blk_ext. intros x [_ C]. apply Nf. pose proof (mul_lt_block params k b K). lia. }
  destruct (unseal_loop_from H params key iv n m (fst t) (snd t) HASH (k1 H pr params key n m SET) (k2 H pr params key n m SET) UPOS BEQ TS TL f' F' F' (n - b) b
     (sound_good H key SK) (plain_rows_ok pr params n m t T PR) LF' ltac:(lia) ltac:(lia)) as (G & EG & [U1 U2 U3]).
  - intros k K. destruct (NB k ltac:(lia)) as (zs & (d & D1 & D2 & D3 & D4) & NZs). exists zs. split; [|exact NZs]. exists d.
    rewrite (Dfun_ext H params n m (fst t) HASH UPOS BEQ TL F' (s_file st)) by (try lia; intros; apply BF; lia).
    rewrite (sfx_ext H params iv F' (s_file st)) by (intros; apply BF; lia). rewrite BF, Bf by lia. auto.
  - replace (n - (n - b)) with b by lia. split; [reflexivity|reflexivity|exact NX].
  - rewrite EG. f_equal. replace (n - (n - b + b)) with 0 in * by lia. apply file_ext; [lia|]. intros x _. apply U3. lia.
Qed.

Theorem unseal_crash_eq f st i k : sound_key H key -> plain_rows pr params n -> sealable params key n m f ->
  seal H pr params key iv f = Ok st -> ~ In 0%Z (s_log st) -> i < n ->
  unseal_crash H pr params key iv i k (s_file st)
  = Ok (firstn ((n - 1 - i) * bpl) (s_file st) ++ firstn k (block_bytes params f (n - 1 - i)) ++ skipn k (block_bytes params (s_file st) (n - 1 - i)) ++ skipn ((n - i) * bpl) f).
Proof.
  intros SK PR S E NZ I.
  assert (SL : length (s_file st) = length f) by (destruct (seal_total H pr params key iv n m SET f S) as (st' & X & Y & _); rewrite E in X; injection X as <-; exact Y).
  pose proof (unseal_partial_run H pr params key iv n m SET f st 0 i SK PR S E NZ ltac:(lia)) as U0.
  rewrite Nat.sub_0_r, (splice_n H pr params key iv n m SET) in U0 by assumption. cbn [plus] in U0.
  unfold unseal_crash. rewrite U0. cbn [bind]. rewrite (set_nblocks H pr params key n m SET). cbn [bind].
  destruct (tabl_ex H pr params key n m SET) as (t & T). pose proof T as (TA & TL & TB & TS).
  rewrite (unseal_idxs_l_eq pr params), TA. cbn [bind]. rewrite (unseal_idxs_s_eq pr params), TB. cbn [bind].
  set (b := n - 1 - i) in *. replace (n - i) with (Datatypes.S b) in * by lia.
  pose proof (seal_inv H pr params key iv n m SET t f st T S E) as SU. pose proof (no_zero_blocks H params key iv n m t f st SU NZ b ltac:(lia)) as (zs & BS & NZs).
  destruct (block_unseal H params key iv n m (fst t) (snd t) HASH (k1 H pr params key n m SET) (k2 H pr params key n m SET) UPOS BEQ TS TL f (s_file st) b zs (sound_good H key SK) BS NZs ltac:(lia)) as (deps & D & B).
  set (G := splice params (Datatypes.S b) (s_file st) f). pose proof (proj1 S) as FL.
  assert (LB : Datatypes.S b * bpl <= n * bpl) by (apply mul_lt_block; lia).
  assert (GN : forall x, nth x G x00 = if x <? Datatypes.S b * bpl then nth x (s_file st) x00 else nth x f x00) by (intros; unfold G, splice; apply nth_cut; lia).
  assert (EJ : forall q, q <= b -> blk params G q = blk params (s_file st) q).
  { intros q Q. apply blk_ext. intros x X. rewrite GN. pose proof (mul_lt_block params q (Datatypes.S b) ltac:(lia)). destruct (Nat.ltb_spec x (Datatypes.S b * bpl)); [reflexivity|lia]. }
  rewrite (read_block_ok params m UPOS BEQ). cbn [bind]. rewrite before_id_D.
  assert (X : unseal_depend_blocks H params (fst t) n G (if b =? 0 then [] else H (blk params G (b - 1))) b = Dfun H params (fst t) n G b).
  { destruct (plain_rows_ok pr params n m t T PR) as [M|R].
    - destruct (Nat.eqb_spec b 0) as [Z|NZ'].
      + unfold unseal_depend_blocks, Dfun, pick_l. rewrite M, Z. reflexivity.
      + now apply (unseal_depend_blocks_D H params n m (fst t) UPOS BEQ).
    - destruct (Nat.eq_dec (mode_l params) 0) as [M|M].
      + destruct (Nat.eqb_spec b 0) as [Z|NZ'].
        * unfold unseal_depend_blocks, Dfun, pick_l. rewrite M, Z. reflexivity.
        * now apply (unseal_depend_blocks_D H params n m (fst t) UPOS BEQ).
      + apply unseal_depend_blocks_D'; auto; [lia|]. intros row Er. apply (R b); [lia|exact Er]. }
  rewrite X. rewrite (Dfun_ext H params n m (fst t) HASH UPOS BEQ TL G (s_file st) b) by (try lia; intros; apply EJ; lia). rewrite D. cbn [bind].
  rewrite (unseal_block_rounds_brounds H params key iv (snd t) deps b m); [|apply chunks_length].
  assert (Y : (if b =? 0 then iv else if b =? 0 then [] else H (blk params G (b - 1))) = sfx H params iv G b) by (unfold sfx; destruct (b =? 0); reflexivity).
  rewrite Y, (sfx_ext H params iv G (s_file st)) by (intros; apply EJ; lia). rewrite EJ, B by lia. cbn [bind]. rewrite (com_chunks params m BEQ). f_equal.
  rewrite !(block_bytes_blk) by lia. pose proof (blk_len params f b) as BL1. pose proof (blk_len params (s_file st) b) as BL2.
  assert (GL : length G = length f) by (unfold G, splice; rewrite app_length, firstn_length, skipn_length; lia).
  assert (WL : length (firstn k (blk params f b)) = Nat.min k bpl) by (rewrite firstn_length, BL1; reflexivity).
  apply file_ext.
  - rewrite write_at_length by (rewrite WL; lia). rewrite !app_length, !firstn_length, !skipn_length. lia.
  - intros x _. rewrite write_at_nth by (rewrite WL; lia). rewrite WL, GN. rewrite !app_cut, !firstn_length, !skipn_length, BL1, BL2.
    rewrite (Nat.min_l (b * bpl)) by lia. destruct (Nat.ltb_spec x (b * bpl)) as [C|C].
    + destruct (Nat.leb_spec (b * bpl) x); [lia|]. cbn [andb]. rewrite nth_firstn by lia. destruct (Nat.ltb_spec x (Datatypes.S b * bpl)); [reflexivity|lia].
    + destruct (Nat.leb_spec (b * bpl) x); [|lia]. cbn [andb]. destruct (Nat.ltb_spec x (b * bpl + Nat.min k bpl)) as [D1|D1].
      * destruct (Nat.ltb_spec (x - b * bpl) (Nat.min k bpl)); [|lia]. reflexivity.
      * destruct (Nat.ltb_spec (x - b * bpl) (Nat.min k bpl)); [lia|].
        destruct (Nat.ltb_spec x (Datatypes.S b * bpl)) as [Q|Q].
        -- destruct (Nat.ltb_spec (x - b * bpl - Nat.min k bpl) (bpl - k)); [|lia]. rewrite nth_skipn. unfold blk. rewrite read_file_nth' by lia. f_equal. lia.
        -- destruct (Nat.ltb_spec (x - b * bpl - Nat.min k bpl) (bpl - k)); [lia|]. rewrite nth_skipn. f_equal. lia.
Qed.
End CrashF.
