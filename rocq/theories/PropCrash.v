(** Properties C90 and C91: a run of seal_and_unseal killed at any byte of any write, and
    what can be made of the files it leaves behind.
    Vocabulary: [run_crash] from Crash, [setting], [sound_key], [block_bytes] from
    SealSpec, [layout] from PostorageFacts, [restores], [same_block] from PropSpot. *)
From Coq Require Import Znumtheory Strings.Byte Sorted.
From Verif Require Import Base Sloth Common Depend Prover Verifier Merkle Postorage Crash BytesFacts CommonFacts SealSpec SealFile SealTop SealPad SealZero SealWitness
  ChallengeFacts MerkleFacts SealMeaning ParamFacts PostorageFacts SpotFacts PropSpot LocalFacts PropLocal PropPostorage Driver DriverFacts PropDriver CrashFacts.
Local Open Scope nat_scope.

(** An undisturbed run: g is the padded original, st what sealing it gives. *)
Record sealing (H : list byte -> list byte) (pr : profile) (params : PosPara) (key : Z) (iv : list byte) (n m : nat) (origin g : file) (st : seal_state) : Prop := {
  sg_setting : setting H pr params key n m;
  sg_key : sound_key H key;
  sg_fits : (256 ^ Z.of_nat (unit_l params) <= key)%Z;
  sg_mode : mode_l params = 0;
  sg_layout : layout params n m;
  sg_origin : length origin = data_l params;
  sg_padded : copy_and_pad origin (data_l params) (unit_l params) = Ok g;
  sg_sealed : seal H pr params key iv g = Ok st;
  sg_no_zero : ~ In 0%Z (s_log st)
}.

Section Facts.
Context H pr params key iv n m origin g st (SG : sealing H pr params key iv n m origin g st).
Notation bpl := (block_pl params).
Lemma sg_sizes : length g = n * bpl /\ sealable params key n m g /\ length (s_file st) = n * bpl /\ 0 < bpl.
Proof.
  destruct SG. destruct (pad_sealable params key n m origin g) as (Lg & GS & PU); auto; try apply sg_layout0.
  { rewrite (l_data _ _ _ sg_layout0), (l_block _ _ _ sg_layout0). reflexivity. }
  destruct (seal_total H pr params key iv n m sg_setting0 g GS) as (st' & ES' & LS & _). rewrite sg_sealed0 in ES'. injection ES' as <-.
  assert (E : length g = n * bpl) by (rewrite Lg, (l_block_pl _ _ _ sg_layout0); lia).
  split; [exact E|]. split; [exact GS|]. split; [congruence|]. rewrite (l_block_pl _ _ _ sg_layout0), (l_unit_pl _ _ _ sg_layout0). pose proof (l_m _ _ _ sg_layout0). nia.
Qed.
Lemma sg_undo : unseal H pr params key iv (s_file st) = Ok g /\ copy_and_compress g (data_l params) (unit_l params) (unit_pl params) = Ok origin.
Proof. destruct SG. now apply (unseal_compress H pr params n m sg_layout0 key iv origin g st sg_setting0 sg_key0 sg_fits0 sg_padded0 sg_sealed0 sg_no_zero0 _ eq_refl sg_origin0). Qed.
Lemma sg_count : data_l params / block_l params = n.
Proof. destruct SG. now apply (data_block params n m). Qed.
End Facts.

(** C90: the contents of the three files after a kill, exactly: untouched; a part of the
    padded original; sealed up to some byte p; sealed, with part of the public data
    written; unsealed down to somewhere in block b; all unsealed, with a part of the
    original written out. *)
Theorem C90_states : forall H pr params key iv n m origin g st, sealing H pr params key iv n m origin g st ->
  forall rnd_iv, prepare_params pr (unit_pl params) rnd_iv = Ok (key, iv) ->
  forall sealed0 pub0 unsealed0 should_unseal S P U,
  run_crash H pr params rnd_iv origin sealed0 pub0 unsealed0 should_unseal S P U <->
  (S = sealed0 /\ P = pub0 /\ U = unsealed0) \/
  (exists p, S = firstn p g /\ P = pub0 /\ U = unsealed0) \/
  (exists p, p <= n * block_pl params /\ S = firstn p (s_file st) ++ skipn p g /\ P = pub0 /\ U = unsealed0) \/
  (exists p, S = s_file st /\ P = save_data_upto p pub0 key iv /\ U = unsealed0) \/
  (should_unseal = true /\ exists b p, b < n /\
     S = firstn (b * block_pl params) (s_file st) ++ firstn p (block_bytes params g b) ++ skipn p (block_bytes params (s_file st) b) ++ skipn ((b + 1) * block_pl params) g /\
     P = save_data pub0 key iv /\ U = unsealed0) \/
  (should_unseal = true /\ exists p, S = g /\ P = save_data pub0 key iv /\ U = firstn p origin).
Proof.
  intros H pr params key iv n m origin g st SG rnd PP sealed0 pub0 unsealed0 su S P U.
  destruct (sg_sizes _ _ _ _ _ _ _ _ _ _ SG) as (Lg & GS & LS & B0). destruct (sg_undo _ _ _ _ _ _ _ _ _ _ SG) as (UE & CE). pose proof (sg_count _ _ _ _ _ _ _ _ _ _ SG) as CN.
  destruct SG as [SET SK KU ML LAY LO EP ES NZ].
  assert (N0 : 0 < n) by apply LAY. set (bpl := block_pl params) in *.
  split.
  - intros [|g' k EP'|g' key' iv' j k F EP' PP' J C|g' key' iv' st' k EP' PP' ES'|g' key' iv' st' i k F SU EP' PP' ES' I C|g' key' iv' st' u c k SU EP' PP' ES' EU EC].
    + left. auto.
    + right; left. rewrite EP in EP'. injection EP' as <-. eauto.
    + rewrite EP in EP'. injection EP' as <-. rewrite PP in PP'. injection PP' as <- <-. rewrite CN in J.
      rewrite (seal_crash_eq H pr params key iv n m SET g st j k GS ES J) in C. injection C as <-. right; right; left.
      exists (j * bpl + Nat.min k bpl). split; [|auto]. assert (j * bpl + bpl <= n * bpl) by (replace (j * bpl + bpl) with (Datatypes.S j * bpl) by lia; apply Nat.mul_le_mono_r; lia). lia.
    + rewrite EP in EP'. injection EP' as <-. rewrite PP in PP'. injection PP' as <- <-. rewrite ES in ES'. injection ES' as <-. right; right; right; left. eauto.
    + rewrite EP in EP'. injection EP' as <-. rewrite PP in PP'. injection PP' as <- <-. rewrite ES in ES'. injection ES' as <-. rewrite CN in I.
      rewrite (unseal_crash_eq H pr params key iv n m SET g st i k SK (or_introl ML) GS ES NZ I) in C. injection C as <-. right; right; right; right; left.
      split; [exact SU|]. exists (n - 1 - i), k. replace (n - 1 - i + 1) with (n - i) by lia. split; [lia|auto].
    + rewrite EP in EP'. injection EP' as <-. rewrite PP in PP'. injection PP' as <- <-. rewrite ES in ES'. injection ES' as <-.
      rewrite UE in EU. injection EU as <-. rewrite CE in EC. injection EC as <-. do 5 right. eauto.
  - intros [(-> & -> & ->)|[(p & -> & -> & ->)|[(p & LE & -> & -> & ->)|[(p & -> & -> & ->)|[(SU & b & p & BN & -> & -> & ->)|(SU & p & -> & -> & ->)]]]]].
    + constructor.
    + eapply RC_pad; eauto.
    + assert (D : exists j k, j < n /\ p = j * bpl + Nat.min k bpl).
      { destruct (Nat.eq_dec p (n * bpl)) as [->|NE].
        - exists (n - 1), bpl. split; [lia|]. rewrite Nat.min_id. replace (n * bpl) with ((n - 1 + 1) * bpl) by (f_equal; lia). lia.
        - pose proof (Nat.div_mod p bpl ltac:(lia)). pose proof (Nat.mod_upper_bound p bpl ltac:(lia)). exists (p / bpl), (p mod bpl). split; [apply Nat.div_lt_upper_bound; lia|lia]. }
      destruct D as (j & k & J & ->). apply (RC_seal _ _ _ _ _ _ _ _ _ g key iv j k); auto; [now rewrite CN|]. apply (seal_crash_eq H pr params key iv n m SET g st j k GS ES J).
    + eapply RC_save; eauto.
    + apply (RC_unseal _ _ _ _ _ _ _ _ _ g key iv st (n - 1 - b) p); auto; [rewrite CN; lia|].
      rewrite (unseal_crash_eq H pr params key iv n m SET g st (n - 1 - b) p SK (or_introl ML) GS ES NZ ltac:(lia)). replace (n - 1 - (n - 1 - b)) with b by lia. replace (n - (n - 1 - b)) with (b + 1) by lia. reflexivity.
    + eapply RC_compress; eauto.
Qed.
Print Assumptions C90_states.

(** C91: killed while sealing, at byte p.  Unsealing the finished blocks (the last
    iterations of the loop) brings back everything but the first bytes of one block. *)
Theorem C91_killed_sealing : forall H pr params key iv n m origin g st, sealing H pr params key iv n m origin g st ->
  forall p, p <= n * block_pl params -> let b := p / block_pl params in
  exists G, unseal_range H pr params key iv (n - b) b (firstn p (s_file st) ++ skipn p g) = Ok G /\ length G = length g /\
  forall x, ~ (b * block_pl params <= x < p) -> nth x G x00 = nth x g x00.
Proof.
  intros H pr params key iv n m origin g st SG p LE b.
  destruct (sg_sizes _ _ _ _ _ _ _ _ _ _ SG) as (Lg & GS & LS & B0). destruct SG as [SET SK KU ML LAY LO EP ES NZ]. set (bpl := block_pl params) in *.
  assert (BN : b <= n) by (unfold b; apply Nat.div_le_upper_bound; lia). assert (BP : b * bpl <= p) by (unfold b; pose proof (Nat.div_mod p bpl ltac:(lia)); lia).
  assert (BB : b * bpl <= n * bpl) by (apply Nat.mul_le_mono_r; exact BN).
  set (F := firstn p (s_file st) ++ skipn p g). assert (LF : length F = n * bpl) by (unfold F; rewrite app_length, firstn_length, skipn_length; lia).
  assert (EF : F = firstn (b * bpl) (s_file st) ++ skipn (b * bpl) F).
  { rewrite <- (firstn_skipn (b * bpl) F) at 1. f_equal. unfold F. rewrite firstn_app, firstn_firstn, firstn_length, Nat.min_l by lia.
    replace (b * bpl - Nat.min p (length (s_file st))) with 0 by lia. cbn [firstn]. apply app_nil_r. }
  pose proof (unseal_below H pr params key iv n m SET g st b (skipn (b * bpl) F) SK (or_introl ML) GS ES NZ BN) as UB. fold bpl in UB. rewrite <- EF in UB. rewrite UB by (rewrite skipn_length; lia). clear UB.
  eexists. split; [reflexivity|]. split; [rewrite app_length, firstn_length, skipn_length; fold bpl; lia|].
  intros x NX. fold bpl. rewrite app_cut, firstn_length, Nat.min_l by lia. destruct (Nat.ltb_spec x (b * bpl)); [now apply nth_firstn|].
  rewrite nth_skipn. replace (b * bpl + (x - b * bpl)) with x by lia. unfold F. rewrite nth_cut by lia. destruct (Nat.ltb_spec x p); [lia|reflexivity].
Qed.
Print Assumptions C91_killed_sealing.

(** Killed while unsealing, after p bytes of block b.  Going on with the next block brings
    back everything but the last bytes of block b. *)
Theorem C91_killed_unsealing : forall H pr params key iv n m origin g st, sealing H pr params key iv n m origin g st ->
  forall b p, b < n ->
  exists G, unseal_range H pr params key iv (n - b) b
    (firstn (b * block_pl params) (s_file st) ++ firstn p (block_bytes params g b) ++ skipn p (block_bytes params (s_file st) b) ++ skipn ((b + 1) * block_pl params) g) = Ok G /\
  length G = length g /\ forall x, ~ (b * block_pl params + p <= x < (b + 1) * block_pl params) -> nth x G x00 = nth x g x00.
Proof.
  intros H pr params key iv n m origin g st SG b p BN.
  destruct (sg_sizes _ _ _ _ _ _ _ _ _ _ SG) as (Lg & GS & LS & B0). destruct SG as [SET SK KU ML LAY LO EP ES NZ]. set (bpl := block_pl params) in *.
  assert (BB : (b + 1) * bpl <= n * bpl) by (apply Nat.mul_le_mono_r; lia).
  assert (L1 : length (block_bytes params g b) = bpl) by (unfold block_bytes; rewrite firstn_length, skipn_length; fold bpl; lia).
  assert (L2 : length (block_bytes params (s_file st) b) = bpl) by (unfold block_bytes; rewrite firstn_length, skipn_length; fold bpl; lia).
  set (X := firstn p (block_bytes params g b) ++ skipn p (block_bytes params (s_file st) b) ++ skipn ((b + 1) * bpl) g).
  assert (LX : length X = n * bpl - b * bpl) by (unfold X; rewrite !app_length, firstn_length, !skipn_length, L1, L2; lia).
  pose proof (unseal_below H pr params key iv n m SET g st b X SK (or_introl ML) GS ES NZ ltac:(lia)) as UB. fold bpl in UB. rewrite UB by lia. clear UB.
  eexists. split; [reflexivity|]. split; [rewrite app_length, firstn_length; fold bpl; lia|].
  intros x NX. fold bpl. rewrite app_cut, firstn_length, Nat.min_l by lia. destruct (Nat.ltb_spec x (b * bpl)); [now apply nth_firstn|].
  unfold X. rewrite app_cut, firstn_length, L1. destruct (Nat.ltb_spec (x - b * bpl) (Nat.min p bpl)) as [C|C].
  - rewrite nth_firstn by lia. unfold block_bytes. fold bpl. rewrite nth_firstn by lia. rewrite nth_skipn. f_equal. lia.
  - rewrite app_cut, skipn_length, L2. destruct (Nat.ltb_spec (x - b * bpl - Nat.min p bpl) (bpl - p)); [lia|]. rewrite nth_skipn. f_equal. lia.
Qed.
Print Assumptions C91_killed_unsealing.

(** Calling unseal again from the start restores the blocks that are still sealed, with
    any other iv all of them but block 0.  F is either of the two files above. *)
Theorem C91_again : forall H pr params key iv n m origin g st, sealing H pr params key iv n m origin g st ->
  forall b F, b <= n -> length F = length g -> firstn (b * block_pl params) F = firstn (b * block_pl params) (s_file st) ->
  forall iv', exists c, restores H pr params key iv' F c /\ forall q, q < b -> (q = 0 -> iv' = iv) -> same_block params c origin q.
Proof.
  intros H pr params key iv n m origin g st SG b F BN LF AG iv'.
  destruct (sg_sizes _ _ _ _ _ _ _ _ _ _ SG) as (Lg & GS & LS & B0). destruct (sg_undo _ _ _ _ _ _ _ _ _ _ SG) as (UE & CE). destruct SG as [SET SK KU ML LAY LO EP ES NZ].
  pose proof (sound_lt H pr params key n m SET SK) as KB.
  destruct (C81_restores H pr params key iv' n m SET KB LAY F ltac:(lia)) as (c & R & LC). exists c. split; [exact R|]. intros q Q IV.
  apply (C87_restored H pr params key n m SET KB LAY iv' iv F (s_file st) c origin q); auto; try lia; [exists g; auto|].
  intros r RB. apply (reads_le H pr params key n m SET F q r ltac:(lia)) in RB. unfold block_bytes.
  assert (E : forall f : file, length f = n * block_pl params -> firstn (block_pl params) (skipn (r * block_pl params) f) = firstn (block_pl params) (skipn (r * block_pl params) (firstn (b * block_pl params) f))).
  { intros f L. rewrite skipn_firstn_comm, firstn_firstn. f_equal. assert ((r + 1) * block_pl params <= b * block_pl params) by (apply Nat.mul_le_mono_r; lia). lia. }
  rewrite (E F), (E (s_file st)) by lia. now rewrite AG.
Qed.
Print Assumptions C91_again.

(** Calling unseal again from the start is not harmless: blocks that were back already are
    transformed a second time.  Here unsealing was killed before it wrote block 1. *)
Definition crash_trial : bool :=
  match (let* g := copy_and_pad spot_origin 12 2 in
         let* st := seal hsum Debug spot_params ex_key [x03; x04] g in
         let* F := unseal_crash hsum Debug spot_params ex_key [x03; x04] 1 0 (s_file st) in
         let* G := unseal hsum Debug spot_params ex_key [x03; x04] F in
         let* c := copy_and_compress G 12 2 3 in
         Ok (g, st, F, c)) with
  | Panic => false
  | Ok (g, st, F, c) =>
      SealWitness.no_zero (s_log st) && bytes_eqb (block_bytes spot_params F 2) (block_bytes spot_params g 2) &&
      negb (bytes_eqb (read_file c 8 4) (read_file spot_origin 8 4)) && bytes_eqb (read_file c 4 4) (read_file spot_origin 4 4)
  end.
Theorem C91_idempotent_refuted : exists g st F c, sealing hsum Debug spot_params ex_key [x03; x04] 3 2 spot_origin g st /\
  unseal_crash hsum Debug spot_params ex_key [x03; x04] 1 0 (s_file st) = Ok F /\ block_bytes spot_params F 2 = block_bytes spot_params g 2 /\
  restores hsum Debug spot_params ex_key [x03; x04] F c /\ ~ same_block spot_params c spot_origin 2 /\ same_block spot_params c spot_origin 1.
Proof.
  assert (E : crash_trial = true) by (vm_compute; reflexivity). unfold crash_trial in E. revert E.
  destruct (copy_and_pad spot_origin 12 2) as [g|] eqn:E0; [|discriminate]. cbn [bind].
  destruct (seal hsum Debug spot_params ex_key [x03; x04] g) as [st|] eqn:E1; [|discriminate]. cbn [bind].
  destruct (unseal_crash hsum Debug spot_params ex_key [x03; x04] 1 0 (s_file st)) as [F|] eqn:E2; [|discriminate]. cbn [bind].
  destruct (unseal hsum Debug spot_params ex_key [x03; x04] F) as [G|] eqn:E3; [|discriminate]. cbn [bind].
  destruct (copy_and_compress G 12 2 3) as [c|] eqn:E4; [|discriminate]. cbn [bind]. intros E.
  apply andb_prop in E as (E & B4). apply andb_prop in E as (E & B3). apply andb_prop in E as (B1 & B2). apply negb_true_iff in B3. apply bytes_eqb_eq in B2.
  exists g, st, F, c. split.
  { constructor; auto; [apply ex_setting; [exact hsum_32|cbn; lia|cbn; lia]|exact ex_sound|cbn; unfold ex_key; lia|exact spot_layout|now apply no_zero_ok]. }
  split; [exact E2|]. split; [exact B2|]. split; [exists G; auto|]. split; [now apply bytes_eqb_neq|now apply bytes_eqb_eq].
Qed.
Print Assumptions C91_idempotent_refuted.

(** The driver's own runs are of this kind, the shipped parameters included (C80_shipped). *)
Theorem C90_driver : forall H pr params n m, driver_ok H pr params n m -> forall c, no_zero H pr params c ->
  exists key iv g st, prepare_params pr (unit_pl params) (r_rnd_iv c) = Ok (key, iv) /\
    sealing H pr params key iv n m (create_random_file (r_rnd_file c) (data_l params)) g st.
Proof.
  intros H pr params n m DO c NZ. pose proof (do_layout _ _ _ _ _ DO) as LAY.
  destruct (random_file (r_rnd_file c) (data_l params)) as [LO _].
  assert (PP := prepare_params_ok pr (unit_pl params) (r_rnd_iv c) (do_size _ _ _ _ _ DO)).
  set (key := if _ =? _ then _ else _) in PP. set (iv := map _ _) in PP. clearbody key iv.
  destruct (do_key _ _ _ _ _ DO _ _ _ PP) as (SET & SK & KB).
  assert (U0 : unit_l params <> 0) by (pose proof (l_unit _ _ _ LAY); lia).
  destruct (padded_units (create_random_file (r_rnd_file c) (data_l params)) (data_l params) (unit_l params) U0) as (g & EP & _).
  assert (SE : sealable params key n m g) by (eapply g_sealable; eauto).
  destruct (seal_total H pr params key iv n m SET g SE) as (st & ES & _).
  exists key, iv, g, st. split; [exact PP|]. constructor; auto; [apply (do_mode _ _ _ _ _ DO)|apply (NZ key iv g st PP EP ES)].
Qed.
Print Assumptions C90_driver.
Example C90_ex : exists key iv g st, prepare_params Debug 64 (fun _ => x05) = Ok (key, iv) /\
  sealing hone Debug ten_params key iv 10 1 (create_random_file (fun _ => x02) 630) g st /\
  run_crash hone Debug ten_params (fun _ => x05) (create_random_file (fun _ => x02) 630) [] [] [] false (firstn 100 (s_file st) ++ skipn 100 g) [] [].
Proof.
  destruct (C90_driver hone Debug ten_params 10 1 ten_ok (mkRun true false false false 0 (fun _ => x02) (fun _ => x05) (fun i => i)) (ten_no_zero _)) as (key & iv & g & st & PP & SG).
  exists key, iv, g, st. split; [exact PP|]. split; [exact SG|]. apply (C90_states _ _ _ _ _ _ _ _ _ _ SG _ PP). do 2 right. left. exists 100. repeat split. cbn; lia.
Qed.
