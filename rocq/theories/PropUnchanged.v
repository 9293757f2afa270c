(** Property C126: how many files sealing leaves as they are.
    Vocabulary: [setting] and [sound_key] from SealSpec, [full] and [meets_zero] from
    PropSealRare. *)
From Coq Require Import String List Znumtheory Lia.
From Verif Require Import Base Sloth Common Depend Prover Verifier SlothFacts BytesFacts CommonFacts SealSpec SealCore SealFile SealTop SealZero SealWitness SealVerify SealMeaning
  PostorageFacts OntoFacts PropSeal FixedFacts SealRareFacts PropSealRare RoundsFacts PropRounds UnchangedFacts.
Local Open Scope nat_scope.

(** Sealing leaves the file as it is. *)
Definition left_alone (H : list byte -> list byte) (pr : profile) (P : PosPara) (key : Z) (iv : list byte) (F : file) : Prop :=
  exists st, seal H pr P key iv F = Ok st /\ s_file st = F.
(** For every hash and iv: with one round of sealing and t > 0 of the delay function at most
    4^t key^(n m - 1) of the key^(n m) full files are left as they are without meeting a zero, ... *)
Theorem C126_rare : forall H pr P key iv n m, setting H pr P key n m -> sound_key H key -> seal_rounds P = 1 -> 0 < n -> 0 < m -> 1 <= vde_rounds P ->
  forall L, NoDup L -> (forall F, In F L -> full P key n m F /\ ~ meets_zero H pr P key iv F /\ left_alone H pr P key iv F) ->
  (Z.of_nat (length L) <= key ^ Z.of_nat (n * m - 1) * 4 ^ Z.of_nat (vde_rounds P))%Z.
Proof. intros H pr P key iv n m SET SK R N0 M0 D1 L ND HL. exact (unchanged_count H pr P key iv n m SET SK R N0 M0 D1 L ND HL). Qed.
Print Assumptions C126_rare.
(** ... and (4^t + n m) key^(n m - 1) altogether. *)
Theorem C126_all : forall H pr P key iv n m, setting H pr P key n m -> sound_key H key -> seal_rounds P = 1 -> 0 < n -> 0 < m -> 1 <= vde_rounds P ->
  forall L, NoDup L -> (forall F, In F L -> full P key n m F /\ left_alone H pr P key iv F) ->
  (Z.of_nat (length L) <= (4 ^ Z.of_nat (vde_rounds P) + Z.of_nat (n * m)) * key ^ Z.of_nat (n * m - 1))%Z.
Proof.
  intros H pr P key iv n m SET SK R N0 M0 D1 L ND HL.
  pose (b := fun F => match seal H pr P key iv F with Ok st => existsb (Z.eqb 0) (s_log st) | Panic => false end).
  assert (B : forall F, b F = true <-> meets_zero H pr P key iv F).
  { intros F. unfold b, meets_zero. destruct (seal H pr P key iv F) as [st|]; [|split; [discriminate|intros (st & E & _); discriminate E]].
    rewrite existsb_exists. split; [intros (z & I & E); apply Z.eqb_eq in E; subst z; eauto|intros (s0 & E & I)]. injection E as ->. exists 0%Z. split; [exact I|reflexivity]. }
  rewrite (filter_split b L), Nat2Z.inj_add.
  pose proof (C122_rare H pr P key iv n m SET SK (filter b L) (NoDup_filter _ ND)) as A. rewrite R, Nat.mul_1_r in A.
  assert (C : (Z.of_nat (length (filter (fun x => negb (b x)) L)) <= key ^ Z.of_nat (n * m - 1) * 4 ^ Z.of_nat (vde_rounds P))%Z).
  { apply (C126_rare H pr P key iv n m SET SK R N0 M0 D1); [now apply NoDup_filter|]. intros F I. apply filter_In in I as [I N]. destruct (HL F I) as [FU CB].
    split; [exact FU|]. split; [|exact CB]. intros MZ. apply B in MZ. rewrite MZ in N. discriminate N. }
  assert (A' : (Z.of_nat (length (filter b L)) <= Z.of_nat (n * m) * key ^ Z.of_nat (n * m - 1))%Z).
  { apply A. intros F I. apply filter_In in I as [I T]. split; [apply HL, I|now apply B]. }
  lia.
Qed.
Print Assumptions C126_all.
(** "Sealing always changes the file" is false. *)
Theorem C126_changes_refuted : exists H key f P n m, setting H Debug P key n m /\ sound_key H key /\ seal_rounds P = 1 /\ vde_rounds P = 1 /\ 0 < n * m /\
  full P key n m f /\ ~ meets_zero H Debug P key [] f /\ left_alone H Debug P key [] f.
Proof.
  exists hzero, 19%Z, [x07; x0b], (C124_Q 1), 1, 2. split; [apply C124_Q_set|]. split; [exact C124_Q_sound|]. do 2 (split; [reflexivity|]). split; [lia|].
  destruct C124_Q_seal as (st & ES & EF & EL). split; [split; [reflexivity|apply sealable_b_ok; vm_compute; reflexivity]|]. split.
  - intros (s0 & E & I). rewrite ES in E. injection E as <-. rewrite EL in I. destruct I as [I|[I|[]]]; discriminate I.
  - exists st. split; [exact ES|exact EF].
Qed.
Print Assumptions C126_changes_refuted.
Example C126_ex : full C124_P ex_key 3 2 ex_file /\ ~ meets_zero hsum Debug C124_P ex_key [] ex_file /\
  forall L, NoDup L -> (forall F, In F L -> full C124_P ex_key 3 2 F /\ left_alone hsum Debug C124_P ex_key [] F) ->
  (Z.of_nat (length L) <= 22 * 16777199 ^ 5)%Z.
Proof.
  destruct C124_ex as (FX & NZ & _). split; [exact FX|]. split; [exact NZ|].
  intros L ND AL. exact (C126_all hsum Debug C124_P ex_key [] 3 2 C124_set ex_sound eq_refl ltac:(lia) ltac:(lia) ltac:(cbn; lia) L ND AL).
Qed.
Print Assumptions C126_ex.
