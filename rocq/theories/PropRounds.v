(** Property C124: unsealing with another number of rounds of the delay function.
    Vocabulary: [setting], [sound_key] and [sealable] from SealSpec, [full] and [meets_zero] from
    PropSealRare; [with_delay P t] is P with t rounds of the delay function per step. *)
From Coq Require Import String List Znumtheory Lia.
From Verif Require Import Base Sloth Common Depend Prover Verifier SlothFacts BytesFacts CommonFacts SealSpec SealCore SealFile SealTop SealZero SealWitness SealVerify SealMeaning
  PostorageFacts OntoFacts PropOnto PropSeal FixedFacts SealRareFacts PropSealRare RoundsFacts ParamFacts Primes.
Local Open Scope nat_scope.

(** At most 4^d of the numbers 1 .. p - 1 are the same before and after d rounds, ... *)
Theorem C124_fixed : forall p, prime p -> (p mod 4 = 3)%Z -> forall d, 1 <= d ->
  forall L, NoDup L -> (forall x, In x L -> (1 <= x <= p - 1)%Z /\ sloth x p d = x) -> length L <= 4 ^ d.
Proof. exact fixed_count. Qed.
Print Assumptions C124_fixed.
(** ... and these are the numbers on which t and t + d rounds agree, so the delay function with
    another number of rounds is another function nearly everywhere. *)
Theorem C124_differ : forall p, prime p -> (p mod 4 = 3)%Z -> forall t d, 1 <= d ->
  forall L, NoDup L -> (forall x, In x L -> (1 <= x <= p - 1)%Z /\ sloth x p (t + d) = sloth x p t) -> length L <= 4 ^ d.
Proof.
  intros p PP P4 t d D L ND HL. apply (fixed_count p PP P4 d D L ND). intros x I. destruct (HL x I) as [X E]. split; [exact X|]. now apply (agree_fixed p PP P4 t d x X).
Qed.
Print Assumptions C124_differ.
(** The file comes back if the two numbers of rounds agree on everything the delay function was
    applied to, ... *)
Theorem C124_back : forall H pr P key iv n m, setting H pr P key n m -> sound_key H key -> mode_l P = 0 ->
  forall t f st, sealable P key n m f -> seal H pr P key iv f = Ok st -> ~ In 0%Z (s_log st) ->
  (forall z, In z (s_log st) -> sloth z key t = sloth z key (vde_rounds P)) ->
  unseal H pr (with_delay P t) key iv (s_file st) = Ok f.
Proof. intros H pr P key iv n m SET SK ML t. exact (agree_back H pr P key iv n m SET SK ML t). Qed.
Print Assumptions C124_back.
(** ... and, with one round of sealing, only then. *)
Theorem C124_exactly : forall H pr P key iv n m, setting H pr P key n m -> sound_key H key -> mode_l P = 0 -> seal_rounds P = 1 ->
  forall t f st, sealable P key n m f -> seal H pr P key iv f = Ok st -> ~ In 0%Z (s_log st) ->
  unseal H pr (with_delay P t) key iv (s_file st) = Ok f <-> forall z, In z (s_log st) -> sloth z key t = sloth z key (vde_rounds P).
Proof.
  intros H pr P key iv n m SET SK ML R t f st SE E NZ. split.
  - exact (back_agree H pr P key iv n m SET SK ML t f st R SE E NZ).
  - now apply agree_back with n m.
Qed.
Print Assumptions C124_exactly.

(** Sealed with P and unsealed with t rounds of the delay function, the file comes back. *)
Definition comes_back_with (H : list byte -> list byte) (pr : profile) (P : PosPara) (key : Z) (iv : list byte) (t : nat) (F : file) : Prop :=
  exists st, seal H pr P key iv F = Ok st /\ unseal H pr (with_delay P t) key iv (s_file st) = Ok F.

Section Count.
Context (H : list byte -> list byte) (pr : profile) (P : PosPara) (key : Z) (iv : list byte) (n m : nat).
Hypothesis SET : setting H pr P key n m.
Hypothesis SK : sound_key H key.
Hypothesis ML : mode_l P = 0.
Hypothesis R : seal_rounds P = 1.
Context (t d : nat) (D1 : 1 <= d) (TD : t = vde_rounds P + d \/ vde_rounds P = t + d).

Definition all_fixed : list Z := filter (fun x => Z.eqb (sloth x key d) x) (map Z.of_nat (seq 1 (Z.to_nat (key - 1)))).
Lemma all_fixed_count : length all_fixed <= 4 ^ d.
Proof using SET SK ML R D1 TD.
  destruct SK as [PK P4 _]. apply (fixed_count key PK P4 d D1).
  - apply NoDup_filter. apply FinFun.Injective_map_NoDup; [intros a b; lia|apply seq_NoDup].
  - intros x I. apply filter_In in I as [I E]. apply in_map_iff in I as (y & <- & I). apply in_seq in I. apply Z.eqb_eq in E. split; [lia|exact E].
Qed.
Lemma all_fixed_In x : (1 <= x <= key - 1)%Z -> sloth x key d = x -> In x all_fixed.
Proof using SET SK ML R D1 TD.
  intros X E. apply filter_In. split; [|now apply Z.eqb_eq]. apply in_map_iff. exists (Z.to_nat x). split; [lia|]. apply in_seq. lia.
Qed.
Definition sealed_nums (F : file) : list Z :=
  match seal H pr P key iv F with Ok st => map (fun x => le2z (unit_bytes P (s_file st) x)) (seq 0 (n * m)) | Panic => [] end.

Lemma still_count L : NoDup L ->
  (forall F, In F L -> full P key n m F /\ ~ meets_zero H pr P key iv F /\ comes_back_with H pr P key iv t F) -> length L <= 4 ^ (d * (n * m)).
Proof using SET SK ML R D1 TD.
  intros ND HL. rewrite Nat.pow_mul_r, <- (map_length sealed_nums L).
  apply (Nat.le_trans _ (length (map (fun x => sloth x key (vde_rounds P)) all_fixed) ^ (n * m))).
  2:{ rewrite map_length. apply Nat.pow_le_mono_l, all_fixed_count. }
  assert (BPL : block_pl P = m * unit_pl P) by apply SET.
  apply count_words.
  - apply nodup_map; [exact ND|]. intros f g IF IG E. unfold sealed_nums in E.
    destruct (HL f IF) as ((LF & SF) & NF & (sf & EF & _)), (HL g IG) as ((LG & SG) & NG & (sg & EG & _)). rewrite EF, EG in E.
    destruct (seal_total H pr P key iv n m SET f SF) as (s0 & E0 & LSF & _). rewrite EF in E0. injection E0 as <-.
    destruct (seal_total H pr P key iv n m SET g SG) as (s0 & E0 & LSG & _). rewrite EG in E0. injection E0 as <-.
    apply (C29_seal_injective H pr P key iv n m SET f g sf sg SK SF SG EF EG).
    + intros Z0. apply NF. exists sf. auto.
    + intros Z0. apply NG. exists sg. auto.
    + assert (L1 : length (s_file sf) = n * m * unit_pl P) by (rewrite LSF, LF, BPL; lia).
      assert (L2 : length (s_file sg) = n * m * unit_pl P) by (rewrite LSG, LG, BPL; lia).
      apply (pieces_ext (unit_pl P) (n * m) _ _ L1 L2). intros x X. apply le2z_inj.
      * rewrite !firstn_length, !skipn_length, L1, L2. reflexivity.
      * pose proof (f_equal (fun l => nth x l 0%Z) E) as N. cbv beta in N.
        rewrite !(nth_indep _ 0%Z (le2z (unit_bytes P (s_file sf) 0))) in N by (rewrite map_length, seq_length; exact X).
        rewrite (map_nth (fun x => le2z (unit_bytes P (s_file sf) x)) (seq 0 (n * m)) 0 x), seq_nth in N by exact X.
        rewrite (nth_indep _ _ (le2z (unit_bytes P (s_file sg) 0))) in N by (rewrite map_length, seq_length; exact X).
        rewrite (map_nth (fun x => le2z (unit_bytes P (s_file sg) x)) (seq 0 (n * m)) 0 x), seq_nth in N by exact X. exact N.
  - intros v I. apply in_map_iff in I as (f & <- & IF). destruct (HL f IF) as ((LF & SF) & NF & (st & E & UN)).
    unfold sealed_nums. rewrite E. split; [now rewrite map_length, seq_length|]. apply Forall_forall. intros z I. apply in_map_iff in I as (x & <- & IX). apply in_seq in IX.
    assert (NZ : ~ In 0%Z (s_log st)) by (intros Z0; apply NF; exists st; auto).
    pose proof (back_agree H pr P key iv n m SET SK ML t f st R SF E NZ UN) as AG.
    destruct (log_masks H pr P key iv n m SET f st SF E) as (U & M & SM & LM).
    assert (M0 : m <> 0) by (intros ->; lia). pose proof (Nat.div_mod x m M0) as DM. pose proof (Nat.mod_upper_bound x m M0) as XM.
    assert (KN : x / m < n) by (apply Nat.div_lt_upper_bound; [exact M0|lia]).
    set (k := x / m) in *. set (q := x mod m) in *. clearbody k q.
    assert (IL : In (M k q) (s_log st)) by (apply LM; exists k, q; split; [exact KN|split; [rewrite R; lia|reflexivity]]).
    destruct (SM k KN) as (SB & MS). pose proof (one_round_states H pr key iv n m P f (s_file st) k (U k) R SB (S q) ltac:(lia) q XM) as ST.
    rewrite (proj2 (Nat.ltb_lt q (S q))) in ST by lia. destruct SB as (_ & _ & US). destruct (US q ltac:(rewrite R; lia)) as (bs & us & LC & SC & _ & EU & _).
    destruct (MS q ltac:(rewrite R; lia)) as (bs1 & us1 & LC1 & SC1 & EM). cbv zeta in *. rewrite (Nat.mod_small q) in * by exact XM.
    destruct (long_choice_fun H pr P key n m SET _ _ _ _ KN LC LC1) as [<- _]. destruct (short_choice_fun H pr P key n m SET _ _ _ _ XM SC SC1) as [<- _].
    rewrite <- EM in EU. replace x with (k * m + q) by lia. rewrite <- ST, EU.
    pose proof (k1 _ _ _ _ _ _ SET) as K1. destruct SK as [PK P4 _].
    assert (RM : (1 <= M k q <= key - 1)%Z).
    { assert (M k q <> 0%Z) by (intros Z0; apply NZ; now rewrite <- Z0). assert (0 <= M k q < key)%Z by (rewrite EM; apply Z.mod_pos_bound; lia). lia. }
    rewrite Z.abs_eq by (pose proof (sloth_range key PK P4 (vde_rounds P) (M k q) RM); lia).
    apply in_map_iff. exists (M k q). split; [reflexivity|]. apply all_fixed_In; [exact RM|]. specialize (AG _ IL).
    destruct TD as [TD'|TD']; rewrite TD' in AG.
    + now apply (agree_fixed key PK P4 (vde_rounds P) d _ RM).
    + symmetry in AG. now apply (agree_fixed key PK P4 t d _ RM).
Qed.
End Count.

(** With one round of sealing and d rounds of the delay function too many or too few, at most
    4^(d n m) of the key^(n m) full files come back, not counting those that meet a zero. *)
Theorem C124_few : forall H pr P key iv n m, setting H pr P key n m -> sound_key H key -> mode_l P = 0 -> seal_rounds P = 1 ->
  forall t d, 1 <= d -> t = vde_rounds P + d \/ vde_rounds P = t + d ->
  forall L, NoDup L -> (forall F, In F L -> full P key n m F /\ ~ meets_zero H pr P key iv F /\ comes_back_with H pr P key iv t F) ->
  length L <= 4 ^ (d * (n * m)).
Proof. intros H pr P key iv n m SET SK ML R t d D1 TD. exact (still_count H pr P key iv n m SET SK ML R t d D1 TD). Qed.
Print Assumptions C124_few.
(** Counting those as well: at most 4^(d n m) + n m key^(n m - 1). *)
Theorem C124_hardly : forall H pr P key iv n m, setting H pr P key n m -> sound_key H key -> mode_l P = 0 -> seal_rounds P = 1 ->
  forall t d, 1 <= d -> t = vde_rounds P + d \/ vde_rounds P = t + d ->
  forall L, NoDup L -> (forall F, In F L -> full P key n m F /\ comes_back_with H pr P key iv t F) ->
  (Z.of_nat (length L) <= 4 ^ (Z.of_nat (d * (n * m))) + Z.of_nat (n * m) * key ^ Z.of_nat (n * m - 1))%Z.
Proof.
  intros H pr P key iv n m SET SK ML R t d D1 TD L ND HL.
  pose (b := fun F => match seal H pr P key iv F with Ok st => existsb (Z.eqb 0) (s_log st) | Panic => false end).
  assert (B : forall F, b F = true <-> meets_zero H pr P key iv F).
  { intros F. unfold b, meets_zero. destruct (seal H pr P key iv F) as [st|]; [|split; [discriminate|intros (st & E & _); discriminate E]].
    rewrite existsb_exists. split; [intros (z & I & E); apply Z.eqb_eq in E; subst z; eauto|intros (s0 & E & I)]. injection E as ->. exists 0%Z. split; [exact I|reflexivity]. }
  rewrite (filter_split b L), Nat2Z.inj_add.
  pose proof (C122_rare H pr P key iv n m SET SK (filter b L) (NoDup_filter _ ND)) as A. rewrite R, Nat.mul_1_r in A.
  assert (C : length (filter (fun x => negb (b x)) L) <= 4 ^ (d * (n * m))).
  { apply (C124_few H pr P key iv n m SET SK ML R t d D1 TD); [now apply NoDup_filter|]. intros F I. apply filter_In in I as [I N]. destruct (HL F I) as [FU CB].
    split; [exact FU|]. split; [|exact CB]. intros MZ. apply B in MZ. rewrite MZ in N. discriminate N. }
  apply inj_le in C. rewrite Nat2Z.inj_pow in C. change (Z.of_nat 4) with 4%Z in C.
  assert (A' : (Z.of_nat (length (filter b L)) <= Z.of_nat (n * m) * key ^ Z.of_nat (n * m - 1))%Z).
  { apply A. intros F I. apply filter_In in I as [I T]. split; [apply HL, I|now apply B]. }
  lia.
Qed.
Print Assumptions C124_hardly.

(** The name of the delay function among the parameters (postorage.rs 41) has no effect on
    sealing or unsealing. *)
Definition with_mode (P : PosPara) (s : string) : PosPara :=
  mkPosPara (data_l P) (unit_l P) (block_l P) (big_block_l P) (unit_pl P) (block_pl P) (big_block_pl P)
            (seal_rounds P) (vde_rounds P) s (mode_l P) (cnt_l P) (mode_s P) (cnt_s P) (leaves_to_prove_count P).
Lemma setting_mode H pr P key n m s : setting H pr P key n m -> setting H pr (with_mode P s) key n m.
Proof. intros [A [B1 B2 B3 B4] C D E]. split; [exact A|split; assumption|exact C|exact D|exact E]. Qed.
Theorem C124_name : forall H pr P key iv n m s, setting H pr P key n m ->
  (forall f st, sealable P key n m f -> seal H pr P key iv f = Ok st ->
     exists st', seal H pr (with_mode P s) key iv f = Ok st' /\ s_file st' = s_file st) /\
  ((forall d, le2z (H d) < key < 256 ^ Z.of_nat (unit_pl P))%Z ->
   forall F G, n * block_pl P <= length F -> unseal H pr P key iv F = Ok G -> unseal H pr (with_mode P s) key iv F = Ok G).
Proof.
  intros H pr P key iv n m s SET. pose proof (setting_mode H pr P key n m s SET) as SET'. split.
  - intros f st SE E. apply (seal_iff H pr (with_mode P s) key iv n m SET' f (s_file st) SE).
    exact (proj1 (seal_iff H pr P key iv n m SET f (s_file st) SE) (ex_intro _ st (conj E eq_refl))).
  - intros KB F G LF E. apply (unseal_iff H pr (with_mode P s) key iv n m SET' F G KB LF). exact (proj1 (unseal_iff H pr P key iv n m SET F G KB LF) E).
Qed.
Print Assumptions C124_name.

(** Three blocks of two units, one round of sealing, two of the delay function: with three the
    data do not come back. *)
Definition C124_P : PosPara := ex_params 1 0 0 0 10.
Lemma C124_set : setting hsum Debug C124_P ex_key 3 2.
Proof. apply ex_setting; [apply hsum_32|cbn; lia|cbn; lia]. Qed.
Lemma C124_lost_b : match seal hsum Debug C124_P ex_key [] ex_file with
  | Ok st => match unseal hsum Debug (with_delay C124_P 3) ex_key [] (s_file st) with Ok g => bytes_eqb g ex_file || existsb (Z.eqb 0) (s_log st) | Panic => true end
  | Panic => true end = false.
Proof. vm_cast_no_check (@eq_refl bool false). Qed.
Example C124_ex : full C124_P ex_key 3 2 ex_file /\ ~ meets_zero hsum Debug C124_P ex_key [] ex_file /\
  ~ comes_back_with hsum Debug C124_P ex_key [] 3 ex_file /\ comes_back_with hsum Debug C124_P ex_key [] 2 ex_file /\
  forall L, NoDup L -> (forall F, In F L -> full C124_P ex_key 3 2 F /\ comes_back_with hsum Debug C124_P ex_key [] 3 F) ->
  (Z.of_nat (length L) <= 4096 + 6 * 16777199 ^ 5)%Z.
Proof.
  assert (FX : full C124_P ex_key 3 2 ex_file) by (split; [reflexivity|apply ex_sealable]). pose proof C124_lost_b as B.
  destruct (seal_total hsum Debug C124_P ex_key [] 3 2 C124_set ex_file (proj2 FX)) as (st & ES & _). rewrite ES in B.
  destruct (unseal hsum Debug (with_delay C124_P 3) ex_key [] (s_file st)) as [g|] eqn:EU; [|discriminate B]. apply Bool.orb_false_iff in B as [B1 B2].
  assert (NZ : ~ In 0%Z (s_log st)). { intros I. assert (X : existsb (Z.eqb 0) (s_log st) = true) by (apply existsb_exists; exists 0%Z; split; [exact I|reflexivity]). congruence. }
  split; [exact FX|]. split; [|split; [|split]].
  - intros (s0 & E & I). rewrite ES in E. injection E as <-. exact (NZ I).
  - intros (s0 & E & U). rewrite ES in E. injection E as <-. rewrite EU in U. injection U as ->. exact (bytes_eqb_neq _ _ B1 eq_refl).
  - exists st. split; [exact ES|]. apply (C124_back hsum Debug C124_P ex_key [] 3 2 C124_set ex_sound eq_refl 2 ex_file st (proj2 FX) ES NZ). reflexivity.
  - intros L ND AL. exact (C124_hardly hsum Debug C124_P ex_key [] 3 2 C124_set ex_sound eq_refl eq_refl 3 1 ltac:(lia) (or_introl eq_refl) L ND AL).
Qed.
Print Assumptions C124_ex.
(** "A wrong number of rounds is noticed" is false: here is a file that sealing leaves as it is,
    however many rounds of the delay function are used. *)
Definition C124_Q (t : nat) : PosPara := mkPosPara 2 1 2 2 1 2 2 1 t "sloth"%string 0 0 0 0 1.
Lemma C124_Q_set t : setting hzero Debug (C124_Q t) 19 1 2.
Proof. split; [apply hzero_32|split; cbn; try lia; reflexivity|cbn; lia|cbn; left; lia|cbn; lia]. Qed.
Lemma C124_Q_sound : sound_key hzero 19.
Proof. split; [exact pr_19|reflexivity|]. intros d. reflexivity. Qed.
Lemma C124_Q_fix : forall t, sloth 7 19 t = 7%Z /\ sloth 11 19 t = 11%Z.
Proof.
  assert (E7 : single_sloth 7 19 = 7%Z) by (vm_compute; reflexivity). assert (E11 : single_sloth 11 19 = 11%Z) by (vm_compute; reflexivity).
  induction t as [|t IH]; [split; reflexivity|]. cbn [sloth]. rewrite E7, E11. exact IH.
Qed.
Lemma C124_Q_seal : exists st, seal hzero Debug (C124_Q 1) 19 [] [x07; x0b] = Ok st /\ s_file st = [x07; x0b] /\ s_log st = [11; 7]%Z.
Proof. eexists. split; [vm_compute; reflexivity|]. split; reflexivity. Qed.
Theorem C124_noticed_refuted : exists H key f P n m, setting H Debug P key n m /\ sound_key H key /\ mode_l P = 0 /\ seal_rounds P = 1 /\ vde_rounds P = 1 /\ 0 < n * m /\
  full P key n m f /\ ~ meets_zero H Debug P key [] f /\ forall t, comes_back_with H Debug P key [] t f.
Proof.
  exists hzero, 19%Z, [x07; x0b], (C124_Q 1), 1, 2. split; [apply C124_Q_set|]. split; [exact C124_Q_sound|]. do 3 (split; [reflexivity|]). split; [lia|].
  assert (SE : sealable (C124_Q 1) 19 1 2 [x07; x0b]) by (apply sealable_b_ok; vm_compute; reflexivity).
  destruct C124_Q_seal as (st & ES & EF & EL). split; [split; [reflexivity|exact SE]|]. split.
  - intros (s0 & E & I). rewrite ES in E. injection E as <-. rewrite EL in I. destruct I as [I|[I|[]]]; discriminate I.
  - intros t. exists st. split; [exact ES|]. apply (C124_back hzero Debug (C124_Q 1) 19 [] 1 2 (C124_Q_set 1) C124_Q_sound eq_refl t _ st SE ES).
    + rewrite EL. intros [I|[I|[]]]; discriminate I.
    + rewrite EL. destruct (C124_Q_fix t) as [A7 A11], (C124_Q_fix 1) as [B7 B11]. intros z [<-|[<-|[]]]; cbn [vde_rounds C124_Q]; congruence.
Qed.
Print Assumptions C124_noticed_refuted.
