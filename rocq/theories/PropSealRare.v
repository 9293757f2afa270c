(** Property C122: how many files sealing cannot give back.
    Vocabulary: [setting], [sound_key] and [sealable] from SealSpec, [seal] and [unseal] from
    Prover.  A file is [full] if it consists of exactly the blocks that sealing works on, all of
    whose units are numbers below the key. *)
From Verif Require Import Base Legendre Sloth Common Depend Prover NumTheory SlothFacts BytesFacts DependSpec DependFacts DependDet VdeFacts SealSpec SealCore SealFile SealTop SealWitness CommonFacts ParamFacts PropSeal SealRareFacts.
Local Open Scope nat_scope.

Definition full (params : PosPara) (key : Z) (n m : nat) (F : file) : Prop := length F = n * block_pl params /\ sealable params key n m F.
(** Sealing meets a zero: some unit, with its mask added, is 0 modulo the key when the delay
    function is applied to it (the numbers it is applied to are the log of the run). *)
Definition meets_zero (H : list byte -> list byte) (pr : profile) (params : PosPara) (key : Z) (iv : list byte) (F : file) : Prop :=
  exists st, seal H pr params key iv F = Ok st /\ In 0%Z (s_log st).
(** Sealing and then unsealing gives the file back. *)
Definition comes_back (H : list byte -> list byte) (pr : profile) (params : PosPara) (key : Z) (iv : list byte) (F : file) : Prop :=
  exists st, seal H pr params key iv F = Ok st /\ unseal H pr params key iv (s_file st) = Ok F.

Lemma full_valid H pr params key n m : setting H pr params key n m -> forall F, full params key n m F <-> valid params key n m F.
Proof.
  intros SET F. split; [intros [L S]; now apply (valid_sealable H pr)|]. intros [L B]. split; [exact L|]. apply (file_ok_sealable _ _ _ _ _ _ SET). split; [lia|exact B].
Qed.
(** There are key^(n m) full files ... *)
Theorem C122_all : forall H pr params key n m, setting H pr params key n m ->
  exists L, NoDup L /\ Z.of_nat (length L) = (key ^ Z.of_nat (n * m))%Z /\ forall F, In F L <-> full params key n m F.
Proof.
  intros H pr params key n m SET. destruct (all_files H pr params key n m SET) as (L & ND & LL & AL). exists L. split; [exact ND|]. split; [exact LL|].
  intros F. rewrite AL. symmetry. now apply (full_valid H pr).
Qed.
Print Assumptions C122_all.
(** ... and for every hash and iv at most n m rounds key^(n m - 1) of them meet a zero: a share of
    n m rounds in key. *)
Theorem C122_rare : forall H pr params key iv n m, setting H pr params key n m -> sound_key H key ->
  forall L, NoDup L -> (forall F, In F L -> full params key n m F /\ meets_zero H pr params key iv F) ->
  (Z.of_nat (length L) <= Z.of_nat (n * m * seal_rounds params) * key ^ Z.of_nat (n * m - 1))%Z.
Proof.
  intros H pr params key iv n m SET SK L ND AL. destruct (tabl_ex H pr params key n m SET) as (t & T).
  pose proof (zero_count H pr params key iv n m SET (sound_good _ _ SK) t T L ND) as B. unfold all_steps in B. rewrite !Nat2Z.inj_mul.
  replace (Z.of_nat n * Z.of_nat m * Z.of_nat (seal_rounds params) * key ^ Z.of_nat (n * m - 1))%Z with (Z.of_nat n * (Z.of_nat (seal_rounds params) * (Z.of_nat m * key ^ Z.of_nat (n * m - 1))))%Z by ring.
  apply B. intros F IF. destruct (AL F IF) as [FF MZ]. split; [now apply (full_valid H pr params key n m SET)|exact MZ].
Qed.
Print Assumptions C122_rare.
(** So at most as many do not come back. *)
Theorem C122_lost : forall H pr params key iv n m, setting H pr params key n m -> sound_key H key -> mode_l params = 0 ->
  forall L, NoDup L -> (forall F, In F L -> full params key n m F /\ ~ comes_back H pr params key iv F) ->
  (Z.of_nat (length L) <= Z.of_nat (n * m * seal_rounds params) * key ^ Z.of_nat (n * m - 1))%Z.
Proof.
  intros H pr params key iv n m SET SK M L ND AL. apply (C122_rare H pr params key iv n m SET SK L ND). intros F IF. destruct (AL F IF) as [FF NC]. split; [exact FF|]. destruct FF as [LF SF].
  destruct (C22_seal_total H pr params key iv n m SET F SF) as (st & ES & _). exists st. split; [exact ES|]. destruct (in_dec Z.eq_dec 0%Z (s_log st)) as [I|NI]; [exact I|]. elim NC. exists st. split; [exact ES|]. now apply (C23_unseal_seal H pr params key iv n m SET F st SK M SF ES).
Qed.
Print Assumptions C122_lost.
(** It does happen: whatever follows the first unit of a full file, some value of the first unit
    makes sealing meet a zero. *)
Theorem C122_some : forall H pr params key iv n m, setting H pr params key n m -> sound_key H key -> 0 < n -> 0 < m -> 0 < seal_rounds params ->
  forall F, full params key n m F -> exists G, full params key n m G /\ skipn (unit_pl params) G = skipn (unit_pl params) F /\ meets_zero H pr params key iv G.
Proof.
  intros H pr params key iv n m SET SK N M R F FF. destruct (tabl_ex H pr params key n m SET) as (t & T). apply (full_valid H pr params key n m SET) in FF.
  destruct (zero_somewhere H pr params key iv n m SET (sound_good _ _ SK) t T F FF N M R) as (G & st & VG & EG & ES & IZ). exists G. split; [now apply (full_valid H pr params key n m SET)|]. split; [exact EG|]. exists st. auto.
Qed.
Print Assumptions C122_some.
(** Seen from the other side: all but as few full files are what sealing makes of some full file,
    so hardly any file can be told from a sealed one by what it contains. *)
Definition sealed_from (H : list byte -> list byte) (pr : profile) (params : PosPara) (key : Z) (iv : list byte) (n m : nat) (S : file) : Prop :=
  exists F st, full params key n m F /\ seal H pr params key iv F = Ok st /\ s_file st = S.
Theorem C122_hit : forall H pr params key iv n m, setting H pr params key n m -> sound_key H key -> mode_l params = 0 ->
  forall L, NoDup L -> (forall S, In S L -> full params key n m S /\ ~ sealed_from H pr params key iv n m S) ->
  (Z.of_nat (length L) <= Z.of_nat (n * m * seal_rounds params) * key ^ Z.of_nat (n * m - 1))%Z.
Proof.
  intros H pr params key iv n m SET SK M L ND AL. destruct (C122_all H pr params key n m SET) as (A & NA & _ & IA).
  pose (bad := fun F => match seal H pr params key iv F with Ok st => existsb (Z.eqb 0) (s_log st) | Panic => false end).
  pose (im := fun F => match seal H pr params key iv F with Ok st => s_file st | Panic => F end).
  assert (TOT : forall F, In F A -> exists st, seal H pr params key iv F = Ok st /\ full params key n m (s_file st)).
  { intros F IF. apply IA in IF as [LF SF]. destruct (C22_seal_total H pr params key iv n m SET F SF) as (st & ES & LS & _ & SS & _). exists st. split; [exact ES|]. split; [congruence|exact SS]. }
  assert (BB : (Z.of_nat (length (filter bad A)) <= Z.of_nat (n * m * seal_rounds params) * key ^ Z.of_nat (n * m - 1))%Z).
  { apply (C122_rare H pr params key iv n m SET SK); [now apply NoDup_filter|]. intros F IF. apply filter_In in IF as [IF BF]. split; [now apply IA|]. destruct (TOT F IF) as (st & ES & _). exists st. split; [exact ES|]. unfold bad in BF. rewrite ES in BF.
    apply existsb_exists in BF as (q & IQ & EQ). apply Z.eqb_eq in EQ. now subst q. }
  apply Z.le_trans with (Z.of_nat (length (filter bad A))); [|exact BB]. apply Nat2Z.inj_le.
  pose proof (filter_split bad A) as FS. set (good := filter (fun F => negb (bad F)) A) in *.
  assert (NI : NoDup (map im good)).
  { apply nodup_map; [now apply NoDup_filter|]. intros F G IF IG E. apply filter_In in IF as [IF BF]. apply filter_In in IG as [IG BG].
    assert (BK : forall X, In X A -> negb (bad X) = true -> unseal H pr params key iv (im X) = Ok X).
    { intros X IX BX. destruct (TOT X IX) as (st & ES & _). unfold im. rewrite ES. apply (C23_unseal_seal H pr params key iv n m SET X st SK M); [now apply IA|exact ES|]. intros I0. unfold bad in BX. rewrite ES in BX. apply negb_true_iff in BX.
      assert (existsb (Z.eqb 0) (s_log st) = true) by (apply existsb_exists; exists 0%Z; split; [exact I0|reflexivity]). congruence. }
    pose proof (BK F IF BF) as E1. rewrite E in E1. rewrite (BK G IG BG) in E1. congruence. }
  assert (NL : NoDup (L ++ map im good)).
  { apply NoDup_app'; [exact ND|exact NI|]. intros S IS II. apply in_map_iff in II as (F & EF & IF). apply filter_In in IF as [IF _]. destruct (AL S IS) as [_ NS]. apply NS. destruct (TOT F IF) as (st & ES & _). exists F, st. split; [now apply IA|]. split; [exact ES|]. unfold im in EF. now rewrite ES in EF. }
  assert (LE : length (L ++ map im good) <= length A).
  { apply NoDup_incl_length; [exact NL|]. intros S IS. apply in_app_or in IS as [IS|IS]; [apply IA; now apply AL|]. apply in_map_iff in IS as (F & EF & IF). apply filter_In in IF as [IF _]. destruct (TOT F IF) as (st & ES & FS'). unfold im in EF. rewrite ES in EF. subst S. now apply IA. }
  rewrite app_length, map_length in LE. lia.
Qed.
Print Assumptions C122_hit.
(** With the shipped parameters: fewer than one full file in 2^490. *)
Lemma few_units l : (Z.of_nat (256 * units_per_block l * seal_rounds (gen_posdata l)) <= 2 ^ 21)%Z.
Proof. unfold gen_posdata, units_per_block. destruct (l =? 1); [|destruct (l =? 4); [|destruct (l =? 16)]]; cbn [seal_rounds]; vm_compute; discriminate. Qed.
Theorem C122_shipped : forall H pr l iv, hash32 H ->
  forall L, NoDup L -> (forall F, In F L -> full (gen_posdata l) P_512 256 (units_per_block l) F /\ ~ comes_back H pr (gen_posdata l) P_512 iv F) ->
  (Z.of_nat (length L) * 2 ^ 490 <= P_512 ^ Z.of_nat (256 * units_per_block l))%Z.
Proof.
  intros H pr l iv HH L ND AL. destruct (gen_posdata_geometry l) as (_ & _ & _ & _ & _ & M & ML & _).
  pose proof (C122_lost H pr (gen_posdata l) P_512 iv 256 (units_per_block l) (gen_posdata_setting H pr l HH) (shipped_sound H HH) ML L ND AL) as B.
  pose proof (few_units l) as FU. pose proof P_512_fits as PF.
  set (u := units_per_block l) in *. set (c := 256 * u * seal_rounds (gen_posdata l)) in *. clearbody u c. clear AL.
  assert (S1 : (Z.of_nat (256 * u) = 1 + Z.of_nat (256 * u - 1))%Z) by lia.
  rewrite S1, Z.pow_add_r, Z.pow_1_r by lia. set (q := (P_512 ^ Z.of_nat (256 * u - 1))%Z) in *.
  assert (Q : (0 <= q)%Z) by (apply Z.pow_nonneg; lia). clearbody q.
  assert (E : (2 ^ 21 * 2 ^ 490 = 2 ^ 511)%Z) by (rewrite <- Z.pow_add_r by lia; reflexivity).
  assert (D : (0 <= 2 ^ 509)%Z) by (apply Z.pow_nonneg; lia). generalize dependent (2 ^ 511)%Z. revert D. generalize (2 ^ 509)%Z. assert (W : (0 <= 2 ^ 490)%Z) by (apply Z.pow_nonneg; lia). revert W FU. generalize (2 ^ 490)%Z (2 ^ 21)%Z. clear - B Q. intros w a W FU d D e PF E.
  apply Z.le_trans with (Z.of_nat c * q * w)%Z; [apply Z.mul_le_mono_nonneg_r; assumption|].
  apply Z.le_trans with (a * w * q)%Z; [|].
  - replace (Z.of_nat c * q * w)%Z with (Z.of_nat c * (w * q))%Z by ring. replace (a * w * q)%Z with (a * (w * q))%Z by ring. apply Z.mul_le_mono_nonneg_r; [now apply Z.mul_nonneg_nonneg|exact FU].
  - apply Z.mul_le_mono_nonneg_r; [exact Q|]. lia.
Qed.
Print Assumptions C122_shipped.

(** A concrete case: three blocks of two units, two rounds, a key of 24 bits. *)
Definition C122_P : PosPara := ex_params 2 0 0 0 10.
Lemma C122_set : setting hsum Debug C122_P ex_key 3 2.
Proof. apply ex_setting; [apply hsum_32|cbn; lia|cbn; lia]. Qed.
Lemma C122_moved_b : match seal hsum Debug C122_P ex_key [] ex_file with Ok st => bytes_eqb (s_file st) ex_file | Panic => true end = false.
Proof. vm_compute. reflexivity. Qed.
Lemma C122_moved st : seal hsum Debug C122_P ex_key [] ex_file = Ok st -> s_file st <> ex_file.
Proof. intros E. pose proof C122_moved_b as B. rewrite E in B. now apply bytes_eqb_neq. Qed.
Example C122_ex : full C122_P ex_key 3 2 ex_file /\ comes_back hsum Debug C122_P ex_key [] ex_file /\
  (exists S, full C122_P ex_key 3 2 S /\ sealed_from hsum Debug C122_P ex_key [] 3 2 S /\ S <> ex_file) /\
  (exists G, full C122_P ex_key 3 2 G /\ skipn 3 G = skipn 3 ex_file /\ meets_zero hsum Debug C122_P ex_key [] G) /\
  forall L, NoDup L -> (forall F, In F L -> full C122_P ex_key 3 2 F /\ ~ comes_back hsum Debug C122_P ex_key [] F) -> (Z.of_nat (length L) <= 12 * 16777199 ^ 5)%Z.
Proof.
  assert (FX : full C122_P ex_key 3 2 ex_file) by (split; [reflexivity|apply ex_sealable]).
  split; [exact FX|]. split; [|split; [|split]].
  - destruct (trial_no_zero _ _ _ _ _ _ run_random) as (st & ES & NZ). exists st. split; [exact ES|]. exact (C23_unseal_seal hsum Debug C122_P ex_key [] 3 2 C122_set ex_file st ex_sound eq_refl (proj2 FX) ES NZ).
  - destruct (C22_seal_total hsum Debug C122_P ex_key [] 3 2 C122_set ex_file (proj2 FX)) as (st & ES & LS & _ & SS & _). exists (s_file st). split; [split; [rewrite LS; reflexivity|exact SS]|]. split; [exists ex_file, st; auto|]. exact (C122_moved st ES).
  - exact (C122_some hsum Debug C122_P ex_key [] 3 2 C122_set ex_sound ltac:(lia) ltac:(lia) ltac:(cbn; lia) ex_file FX).
  - intros L ND AL. exact (C122_lost hsum Debug C122_P ex_key [] 3 2 C122_set ex_sound eq_refl L ND AL).
Qed.
Print Assumptions C122_ex.
