(** Property C109: which files are sealed files.
    Vocabulary: [setting], [sealable], [sound_key] from SealSpec, the equations of
    SealMeaning, [seals_masked] and [canonical_file] from OntoFacts. *)
From Coq Require Import Strings.Byte Lia.
From Verif Require Import Base Sloth Common Depend Prover Verifier SlothFacts BytesFacts CommonFacts SealSpec SealCore SealFile SealTop SealZero SealWitness SealVerify SealMeaning
  PropSeal PropMeaning PostorageFacts LocalFacts SpotFacts PropSpot OntoFacts.
From Verif Require ShortReadFacts.
Local Open Scope nat_scope.

(** The numbers logged while sealing are the masked numbers of the sealing equations. *)
Theorem C109_masks : forall H pr params key iv n m, setting H pr params key n m ->
  forall f st, sealable params key n m f -> seal H pr params key iv f = Ok st ->
  exists U M, (forall k, k < n -> seals_masked H pr params key iv n m f (s_file st) k (U k) (M k)) /\
  forall z, In z (s_log st) <-> exists k q, k < n /\ q < seal_rounds params * m /\ z = M k q.
Proof. intros H pr params key iv n m SET f st. exact (log_masks H pr params key iv n m SET f st). Qed.
Print Assumptions C109_masks.

Section P.
Context (H : list byte -> list byte) (pr : profile) (params : PosPara) (key : Z) (iv : list byte) (n m : nat).
Hypothesis SET : setting H pr params key n m.
Hypothesis SK : sound_key H key.
Hypothesis ML : mode_l params = 0.
Notation T := (seal_rounds params * m).

Lemma unsealed_small F G k U : unseals_block H pr params key iv n m F G k U -> forall t, t <= T -> forall i, i < m ->
  (exists q, q < t /\ m - 1 - q mod m = i) -> (0 <= le2z (U t i) < key)%Z.
Proof.
  intros (U0 & UE & US). pose proof (k1 _ _ _ _ _ _ SET) as K1. induction t as [|t IH]; intros L i IM (q & Q & QI); [lia|].
  destruct (US t ltac:(lia)) as (bs & us & _ & _ & LU & EU & NU). destruct (Nat.eq_dec i (m - 1 - t mod m)) as [E|N].
  - rewrite E, EU. apply Z.mod_pos_bound. lia.
  - rewrite NU by assumption. apply IH; [lia|exact IM|]. exists q. split; [|exact QI]. destruct (Nat.eq_dec q t) as [->|]; [congruence|lia].
Qed.
Lemma onto_back F : 1 <= seal_rounds params -> n * block_pl params <= length F -> canonical_file H pr params key iv n m F ->
  exists G st, unseal H pr params key iv F = Ok G /\ sealable params key n m G /\ seal H pr params key iv G = Ok st /\ s_file st = F /\ ~ In 0%Z (s_log st).
Proof.
  intros R LF (G0 & U & C). pose proof (sound_lt H pr params key n m SET SK) as KB.
  destruct (unseal_total H pr params key iv n m SET F KB LF) as (G & EG & LG & TG).
  destruct (proj1 (unseal_iff H pr params key iv n m SET F G KB LF) EG) as (_ & _ & V & SV).
  (* the same states, ending in G *)
  assert (C' : forall k, k < n -> unseals_block H pr params key iv n m F G k (U k) /\ forall t, t < T -> (1 <= le2z (U k t (m - 1 - t mod m)%nat) <= key - 1)%Z).
  { intros k KN. destruct (C k KN) as (UB & NZ). split; [|exact NZ]. destruct UB as (U0 & UE & US). split; [exact U0|]. split; [|exact US].
    destruct (SV k KN) as (V0 & VE & VS). intros i IM. rewrite <- VE by exact IM.
    assert (X : forall t, t <= T -> forall i, i < m -> U k t i = V k t i); [|now apply X].
    induction t as [|t IH]; intros L j JM; [rewrite U0, V0 by exact JM; reflexivity|]. specialize (IH ltac:(lia)).
    destruct (US t ltac:(lia)) as (bs & us & LC & SC & LU & EU & NU). destruct (VS t ltac:(lia)) as (bs' & us' & LC' & SC' & LV & EV & NV). cbv zeta in *.
    assert (IM' : m - 1 - t mod m < m) by lia. set (x := m - 1 - t mod m) in *. destruct (Nat.eq_dec j x) as [->|NE]; [|rewrite NU, NV by assumption; now apply IH].
    destruct (unseal_choice_fun H pr params key n m SET _ _ _ _ KN LC LC') as [<- _]. rewrite (IH (x - 1)) in SC by lia.
    destruct (short_choice_fun H pr params key n m SET _ _ _ _ IM' SC SC') as [<- UM].
    apply le2z_inj; [congruence|]. rewrite EU, EV, (IH x) by exact IM'.
    assert (D2 : map (U k t) us = map (V k t) us) by (apply map_ext_in; intros u I; rewrite Forall_forall in UM; apply IH, UM, I). now rewrite D2. }
  assert (SG : sealable params key n m G).
  { split; [lia|]. intros x XL. destruct (Nat.eq_dec m 0) as [M0|M0]; [rewrite M0, Nat.mul_0_r in XL; lia|].
    pose proof (Nat.div_mod x m M0) as DM. pose proof (Nat.mod_upper_bound x m M0) as XM. assert (KN : x / m < n) by (apply Nat.div_lt_upper_bound; [exact M0|lia]).
    destruct (C' (x / m) KN) as ((U0 & UE & US) & _). rewrite (Nat.mul_comm m) in DM. rewrite DM, <- UE by exact XM.
    apply (unsealed_small F G (x / m) (U (x / m)) (conj U0 (conj UE US)) T (Nat.le_refl _) (x mod m) XM). exists (m - 1 - x mod m). split; [nia|]. rewrite Nat.mod_small by lia. lia. }
  assert (SM : forall k, k < n -> exists W M, seals_masked H pr params key iv n m G F k W M /\ forall q, q < T -> M q <> 0%Z).
  { intros k KN. destruct (C' k KN) as (UB & NZ). eexists _, _. split; [exact (block_forth H pr params key iv n m SET SK ML F G k (U k) KN LF UB NZ)|].
    intros q Q. cbv beta. destruct (back_index params m q Q) as [IX _]. specialize (NZ (T - S q) ltac:(lia)). rewrite IX in NZ.
    destruct SK as [PK P4 _]. pose proof (sloth_inv_range key PK P4 (vde_rounds params) _ NZ). lia. }
  assert (SB : exists W, forall k, k < n -> seals_block H pr params key iv n m G F k (W k)).
  { destruct (ReplyMeaning.finite_choice n (fun k W => seals_block H pr params key iv n m G F k W) (fun _ _ => [])) as (W & HW); [|eauto].
    intros k KN. destruct (SM k KN) as (W & M & (S & _) & _). eauto. }
  destruct (proj2 (seal_iff H pr params key iv n m SET G F SG)) as (st & ES & SF); [split; [lia|]; split; [now symmetry|exact SB]|].
  exists G, st. split; [exact EG|]. split; [exact SG|]. split; [exact ES|]. split; [exact SF|].
  intros Z. destruct (log_masks H pr params key iv n m SET G st SG ES) as (W & M & HM & LOG). apply LOG in Z as (k & q & KN & Q & EZ). rewrite SF in HM.
  destruct (HM k KN) as (W1 & W2). destruct (SM k KN) as (W' & M' & (W1' & W2') & NZ). apply (NZ q Q). rewrite EZ.
  destruct W1 as (A0 & AE & AS). destruct W1' as (B0 & BE & BS).
  assert (X : forall t, t <= T -> forall i, i < m -> W k t i = W' t i).
  { induction t as [|t IH]; intros L i IM; [rewrite A0, B0 by exact IM; reflexivity|]. specialize (IH ltac:(lia)). assert (M0 : m <> 0) by lia. pose proof (Nat.mod_upper_bound t m M0) as TM.
    destruct (AS t ltac:(lia)) as (bs & us & LC & SC & LU & EU & NU). destruct (BS t ltac:(lia)) as (bs' & us' & LC' & SC' & LV & EV & NV). cbv zeta in *. set (j := t mod m) in *.
    destruct (Nat.eq_dec i j) as [->|NE]; [|rewrite NU, NV by assumption; now apply IH].
    destruct (long_choice_fun H pr params key n m SET _ _ _ _ KN LC LC') as [<- _]. rewrite (IH (j - 1)) in SC by lia.
    destruct (short_choice_fun H pr params key n m SET _ _ _ _ TM SC SC') as [<- UM]. apply le2z_inj; [congruence|]. rewrite EU, EV, (IH j) by exact TM.
    assert (D2 : map (W k t) us = map (W' t) us) by (apply map_ext_in; intros u I; rewrite Forall_forall in UM; apply IH, UM, I). now rewrite D2. }
  destruct (back_index params m q Q) as [_ M0]. pose proof (Nat.mod_upper_bound q m M0) as TM. destruct (W2 q Q) as (bs & us & LC & SC & EM), (W2' q Q) as (bs' & us' & LC' & SC' & EM'). cbv zeta in *. set (j := q mod m) in *.
  destruct (long_choice_fun H pr params key n m SET _ _ _ _ KN LC LC') as [<- _]. rewrite (X q ltac:(lia) (j - 1)) in SC by lia.
  destruct (short_choice_fun H pr params key n m SET _ _ _ _ TM SC SC') as [<- UM]. rewrite EM, EM', (X q ltac:(lia) j) by exact TM.
  assert (D2 : map (W k q) us = map (W' q) us) by (apply map_ext_in; intros u I; rewrite Forall_forall in UM; apply X; [lia|apply UM, I]). now rewrite D2.
Qed.
Lemma onto_forth f st : sealable params key n m f -> seal H pr params key iv f = Ok st -> ~ In 0%Z (s_log st) -> canonical_file H pr params key iv n m (s_file st).
Proof.
  intros SE E NZ. destruct (log_masks H pr params key iv n m SET f st SE E) as (U & M & SM & LOG).
  exists f, (fun k t => U k (T - t)). intros k KN. apply (block_back H pr params key iv n m SET SK ML f (s_file st) k (U k) (M k) KN SE (SM k KN)).
  intros t TL Z. apply NZ, LOG. eauto.
Qed.
End P.

(** The files that sealing without a zero residue may produce are exactly those in whose
    unsealing the inverse delay function is only given numbers from 1 .. key - 1. *)
Theorem C109_image : forall H pr params key iv n m, setting H pr params key n m -> sound_key H key -> mode_l params = 0 -> 1 <= seal_rounds params ->
  forall F, n * block_pl params <= length F ->
  canonical_file H pr params key iv n m F <->
  exists f st, sealable params key n m f /\ seal H pr params key iv f = Ok st /\ s_file st = F /\ ~ In 0%Z (s_log st).
Proof.
  intros H pr params key iv n m SET SK ML R F LF. split.
  - intros C. destruct (onto_back H pr params key iv n m SET SK ML F R LF C) as (G & st & _ & SG & E & EF & NZ). eauto 6.
  - intros (f & st & SE & E & <- & NZ). now apply (onto_forth H pr params key iv n m SET SK ML f).
Qed.
Print Assumptions C109_image.
(** Unsealing such a file, sealed or not, is undone by sealing. *)
Theorem C109_reseal : forall H pr params key iv n m, setting H pr params key n m -> sound_key H key -> mode_l params = 0 -> 1 <= seal_rounds params ->
  forall F, n * block_pl params <= length F -> canonical_file H pr params key iv n m F ->
  exists G st, unseal H pr params key iv F = Ok G /\ seal H pr params key iv G = Ok st /\ s_file st = F /\ ~ In 0%Z (s_log st).
Proof.
  intros H pr params key iv n m SET SK ML R F LF C. destruct (onto_back H pr params key iv n m SET SK ML F R LF C) as (G & st & EG & SG & E & EF & NZ). eauto 6.
Qed.
Print Assumptions C109_reseal.
(** With one round: exactly the files whose units are numbers from 1 .. key - 1. *)
Theorem C109_one_round : forall H pr params key iv n m, setting H pr params key n m -> sound_key H key -> seal_rounds params = 1 ->
  forall F, n * block_pl params <= length F ->
  canonical_file H pr params key iv n m F <-> forall x, x < n * m -> (1 <= le2z (unit_bytes params F x) <= key - 1)%Z.
Proof.
  intros H pr params key iv n m SET SK R F LF.
  assert (KEEP : forall G k U, unseals_block H pr params key iv n m F G k U -> forall t, t < m -> U t (m - 1 - t) = unit_bytes params F (k * m + (m - 1 - t))).
  { intros G k U (U0 & UE & US) t TM. rewrite <- U0 by lia. rewrite R, Nat.mul_1_l in US.
    assert (X : forall s, s <= t -> U s (m - 1 - t) = U 0 (m - 1 - t)); [|now apply X]. induction s as [|s IH]; intros L; [reflexivity|].
    destruct (US s ltac:(lia)) as (bs & us & _ & _ & _ & _ & NU). rewrite Nat.mod_small in NU by lia. rewrite NU by lia. apply IH. lia. }
  split.
  - intros (G & U & C) x XL. destruct (Nat.eq_dec m 0) as [M0|M0]; [rewrite M0, Nat.mul_0_r in XL; lia|].
    pose proof (Nat.div_mod x m M0) as DM. pose proof (Nat.mod_upper_bound x m M0) as XM. assert (KN : x / m < n) by (apply Nat.div_lt_upper_bound; [exact M0|lia]).
    destruct (C (x / m) KN) as (UB & NZ). rewrite R, Nat.mul_1_l in NZ. specialize (NZ (m - 1 - x mod m) ltac:(lia)). rewrite (Nat.mod_small (m - 1 - x mod m) m) in NZ by lia.
    rewrite (KEEP G (x / m) (U (x / m)) UB) in NZ by lia. replace (x / m * m + (m - 1 - (m - 1 - x mod m))) with x in NZ by lia. exact NZ.
  - intros A. pose proof (sound_lt H pr params key n m SET SK) as KB. destruct (unseal_total H pr params key iv n m SET F KB LF) as (G & EG & _).
    destruct (proj1 (unseal_iff H pr params key iv n m SET F G KB LF) EG) as (_ & _ & U & SU). exists G, U. intros k KN. split; [now apply SU|].
    intros t TL. rewrite R, Nat.mul_1_l in TL. rewrite Nat.mod_small by exact TL. rewrite (KEEP G k (U k) (SU k KN) t TL). apply A. nia.
Qed.
Print Assumptions C109_one_round.
(** So whoever chooses the data may choose it such that the sealed file is one unit over and
    over: nothing makes a sealed file as long to describe as the data. *)
Theorem C109_repetitive : forall H pr params key iv n m, setting H pr params key n m -> sound_key H key -> mode_l params = 0 -> seal_rounds params = 1 ->
  forall u, length u = unit_pl params -> (1 <= le2z u <= key - 1)%Z ->
  exists f st, sealable params key n m f /\ length f = n * block_pl params /\ seal H pr params key iv f = Ok st /\ s_file st = concat (repeat u (n * m)) /\ ~ In 0%Z (s_log st).
Proof.
  intros H pr params key iv n m SET SK ML R u LU RU. set (F := concat (repeat u (n * m))).
  assert (LF : length F = n * block_pl params) by (unfold F; rewrite concat_repeat_length, LU, (bpl_eq _ _ _ _ _ _ SET), Nat.mul_assoc; reflexivity).
  assert (UB : forall x, x < n * m -> unit_bytes params F x = u).
  { intros x XL. unfold F, unit_bytes. replace (n * m) with (x + S (n * m - x - 1)) by lia. rewrite repeat_app, concat_app.
    rewrite skipn_app, skipn_all2 by (rewrite concat_repeat_length, LU; lia). rewrite concat_repeat_length, LU, Nat.sub_diag. cbn [skipn app repeat concat].
    rewrite firstn_app, LU, Nat.sub_diag, firstn_O, app_nil_r, <- LU. apply firstn_all. }
  destruct (onto_back H pr params key iv n m SET SK ML F) as (G & st & EG & SG & E & EF & NZ); [lia|lia| |].
  - apply (C109_one_round H pr params key iv n m SET SK R F); [lia|]. intros x XL. now rewrite UB.
  - exists G, st. split; [exact SG|]. split; [|auto]. destruct (seal_total H pr params key iv n m SET G SG) as (st' & E' & LS & _). rewrite E in E'. injection E' as <-. congruence.
Qed.
Print Assumptions C109_repetitive.

(** Sealing several times over, each time with an iv of its own, is undone by unsealing as
    many times in the opposite order. *)
Inductive sealed_with (H : list byte -> list byte) (pr : profile) (params : PosPara) (key : Z) : list (list byte) -> file -> file -> Prop :=
| SW_none : forall f, sealed_with H pr params key [] f f
| SW_more : forall iv ivs f st F, seal H pr params key iv f = Ok st -> ~ In 0%Z (s_log st) ->
    sealed_with H pr params key ivs (s_file st) F -> sealed_with H pr params key (iv :: ivs) f F.
Theorem C109_layers : forall H pr params key n m, setting H pr params key n m -> sound_key H key -> mode_l params = 0 ->
  forall ivs f F, sealable params key n m f -> sealed_with H pr params key ivs f F ->
  foldM (fun g iv => unseal H pr params key iv g) (rev ivs) F = Ok f.
Proof.
  intros H pr params key n m SET SK ML ivs f F SE SW. induction SW as [f|iv ivs f st F E NZ SW IH]; [reflexivity|].
  destruct (seal_total H pr params key iv n m SET f SE) as (st' & E' & _ & _ & SS & _). rewrite E in E'. injection E' as <-.
  cbn [rev]. rewrite foldM_snoc, (IH SS). cbn [bind]. now apply (C23_unseal_seal H pr params key iv n m SET f st).
Qed.
Print Assumptions C109_layers.

(** A file is the padded form of an original exactly when it has the right length and a zero
    at the end of every unit; so of the sealed files the driver only leaves those that unseal
    to such a file. *)
Theorem C109_padded : forall g data_l unit_l, unit_l <> 0 ->
  (exists f, copy_and_pad f data_l unit_l = Ok g) <->
  (length g = data_l / unit_l * (unit_l + 1) /\ forall k, k < data_l / unit_l -> nth (k * (unit_l + 1) + unit_l) g x00 = x00).
Proof.
  intros g dl ul U. split.
  - intros (f & E). destruct (padded_units f dl ul U) as (g' & E' & L & P). rewrite E in E'. injection E' as <-. split; [exact L|].
    intros k K. specialize (P k K). apply (f_equal (fun l => nth ul l x00)) in P. rewrite nth_firstn, nth_skipn in P by lia. rewrite P.
    rewrite app_nth2 by (rewrite read_file_length; lia). rewrite read_file_length, Nat.sub_diag. reflexivity.
  - intros (L & Z). destruct (padded_units (concat (map (fun k => firstn ul (skipn (k * (ul + 1)) g)) (seq 0 (dl / ul)))) dl ul U) as (g' & E & L' & P).
    set (f := concat _) in *. exists f. rewrite E. f_equal. apply file_ext; [congruence|]. intros x XL. rewrite L' in XL.
    assert (M0 : ul + 1 <> 0) by lia. pose proof (Nat.div_mod x (ul + 1) M0) as DM. pose proof (Nat.mod_upper_bound x (ul + 1) M0) as XM.
    set (k := x / (ul + 1)) in *. set (i := x mod (ul + 1)) in *. assert (K : k < dl / ul) by (apply Nat.div_lt_upper_bound; [exact M0|lia]).
    specialize (P k K). apply (f_equal (fun l => nth i l x00)) in P. rewrite nth_firstn, nth_skipn in P by lia. replace (k * (ul + 1) + i) with x in P by lia. rewrite P. clear P.
    destruct (Nat.eq_dec i ul) as [EI|NI].
    + rewrite app_nth2 by (rewrite read_file_length; lia). rewrite read_file_length, EI, Nat.sub_diag. cbn [nth]. symmetry. etransitivity; [|apply (Z k K)]. f_equal. lia.
    + rewrite app_nth1 by (rewrite read_file_length; lia). assert (I : i < ul) by lia. rewrite (nth_error_nth _ _ x00 (read_file_nth f (k * ul) ul i I)). unfold f.
      assert (LU : forall j, j < dl / ul -> length (firstn ul (skipn (j * (ul + 1)) g)) = ul).
      { intros j J. rewrite firstn_length, skipn_length, L. assert ((j + 1) * (ul + 1) <= dl / ul * (ul + 1)) by (apply Nat.mul_le_mono_r; lia). lia. }
      rewrite (ShortReadFacts.nth_concat_uniform ul).
      * rewrite (nth_indep _ [] (firstn ul (skipn (0 * (ul + 1)) g))) by (rewrite map_length, seq_length; exact K).
        rewrite (map_nth (fun k => firstn ul (skipn (k * (ul + 1)) g))), seq_nth by exact K. cbn [Nat.add]. rewrite nth_firstn, nth_skipn by lia. f_equal. lia.
      * apply Forall_forall. intros y Y. apply in_map_iff in Y as (j & <- & J). apply in_seq in J. apply LU. lia.
      * rewrite map_length, seq_length. exact K.
      * lia.
Qed.
Print Assumptions C109_padded.

(** Without the condition it fails: the file of zeros unseals to a file that seals to
    something else. *)
Definition zeros_trial : bool :=
  match unseal hsum Debug spot_params ex_key [] (zeros 18) with
  | Ok G => match seal hsum Debug spot_params ex_key [] G with Ok st => negb (bytes_eqb (s_file st) (zeros 18)) | Panic => false end
  | Panic => false
  end.
Lemma zeros_bad : zeros_trial = true.
Proof. vm_compute. reflexivity. Qed.
Theorem C109_any_file_refuted :
  ~ (forall H pr params key iv n m, setting H pr params key n m -> sound_key H key -> mode_l params = 0 -> 1 <= seal_rounds params ->
     forall F G st, length F = n * block_pl params -> unseal H pr params key iv F = Ok G -> seal H pr params key iv G = Ok st -> s_file st = F).
Proof.
  intros X. pose proof zeros_bad as Z. unfold zeros_trial in Z. destruct (unseal _ _ _ _ _ _) as [G|] eqn:EG; [|discriminate].
  destruct (seal _ _ _ _ _ _) as [st|] eqn:ES; [|discriminate]. pose proof spot_setting as SP. pose proof (X _ _ _ _ _ _ _ SP ex_sound eq_refl (Nat.le_refl 1) (zeros 18) G st eq_refl EG ES) as Y.
  rewrite Y, bytes_eqb_refl in Z. discriminate.
Qed.
Print Assumptions C109_any_file_refuted.
(** Unsealing in the order of sealing does not give the file back. *)
Definition order_params : PosPara := ex_params 1 0 0 1 0.
Definition order_trial : bool :=
  match seal hsum Debug order_params ex_key [x03; x04] ex_file with
  | Ok a => match seal hsum Debug order_params ex_key [x05; x06] (s_file a) with
    | Ok b => match unseal hsum Debug order_params ex_key [x03; x04] (s_file b) with
      | Ok g => match unseal hsum Debug order_params ex_key [x05; x06] g with Ok h => negb (bytes_eqb h ex_file) && sealable_b order_params ex_key 3 2 ex_file && no_zero (s_log a) && no_zero (s_log b) | Panic => false end
      | Panic => false end
    | Panic => false end
  | Panic => false
  end.
Lemma order_bad : order_trial = true.
Proof. vm_compute. reflexivity. Qed.
Theorem C109_order_refuted :
  ~ (forall H pr params key n m, setting H pr params key n m -> sound_key H key -> mode_l params = 0 ->
     forall ivs f F, sealable params key n m f -> sealed_with H pr params key ivs f F -> foldM (fun g iv => unseal H pr params key iv g) ivs F = Ok f).
Proof.
  intros X. assert (SP : setting hsum Debug order_params ex_key 3 2) by (apply ex_setting; [exact hsum_32|cbn; lia|cbn; lia]).
  specialize (X hsum Debug order_params ex_key 3 2 SP ex_sound eq_refl [[x03; x04]; [x05; x06]] ex_file). pose proof order_bad as Z. unfold order_trial in Z.
  destruct (seal hsum Debug order_params ex_key [x03; x04] ex_file) as [a|] eqn:EA; [|discriminate]. destruct (seal hsum Debug order_params ex_key [x05; x06] (s_file a)) as [b|] eqn:EB; [|discriminate].
  specialize (X (s_file b)). cbn [foldM] in X. destruct (unseal hsum Debug order_params ex_key [x03; x04] (s_file b)) as [g|]; [|discriminate]. cbn [bind] in X.
  destruct (unseal hsum Debug order_params ex_key [x05; x06] g) as [h|]; [|discriminate]. cbn [bind] in X.
  apply andb_prop in Z as (Z & NB). apply andb_prop in Z as (Z & NA). apply andb_prop in Z as (Z & SE). apply sealable_b_ok in SE. apply no_zero_ok in NA, NB.
  specialize (X SE (SW_more _ _ _ _ _ _ _ _ _ EA NA (SW_more _ _ _ _ _ _ _ _ _ EB NB (SW_none _ _ _ _ _)))). apply (f_equal (fun r => match r with Ok y => y | Panic => [] end)) in X. cbv beta iota in X.
  rewrite X, bytes_eqb_refl in Z. discriminate.
Qed.
Print Assumptions C109_order_refuted.
(** Cases that meet the hypotheses: a file sealed in two rounds, and one unit over and over. *)
Definition two_trial : bool := match seal hsum Debug (ex_params 2 0 0 0 10) ex_key [] ex_file with Ok st => no_zero (s_log st) && negb (bytes_eqb (s_file st) ex_file) | Panic => false end.
Lemma two_good : two_trial = true.
Proof. vm_compute. reflexivity. Qed.
Example C109_ex : setting hsum Debug (ex_params 2 0 0 0 10) ex_key 3 2 /\ sound_key hsum ex_key /\
  exists F, F <> ex_file /\ length F = 18 /\ canonical_file hsum Debug (ex_params 2 0 0 0 10) ex_key [] 3 2 F.
Proof.
  destruct C23_ex as (SP & SK & SE & _). split; [exact SP|]. split; [exact SK|]. pose proof two_good as Z. unfold two_trial in Z.
  destruct (seal_total hsum Debug _ ex_key [] 3 2 SP ex_file SE) as (st & E & L & _). rewrite E in Z. apply andb_prop in Z as (NZ & NE). apply no_zero_ok in NZ.
  exists (s_file st). split; [|split; [exact L|now apply (onto_forth hsum Debug _ ex_key [] 3 2 SP SK eq_refl ex_file)]]. intros Q. rewrite Q, bytes_eqb_refl in NE. discriminate NE.
Qed.
Example C109_ex_repetitive : setting hsum Debug spot_params ex_key 3 2 /\ sound_key hsum ex_key /\ mode_l spot_params = 0 /\ seal_rounds spot_params = 1 /\
  length [x05; x00; x00] = unit_pl spot_params /\ (1 <= le2z [x05; x00; x00] <= ex_key - 1)%Z.
Proof. split; [exact spot_setting|]. split; [exact ex_sound|]. repeat split; vm_compute; discriminate. Qed.
