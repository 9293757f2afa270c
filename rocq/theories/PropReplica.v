(** Property C127: when two ivs give the same sealed file.
    Vocabulary: [setting], [sound_key] and [sealable] from SealSpec, [short_choice] (the units a
    unit depends on) from SealMeaning. *)
From Coq Require Import Znumtheory Lia.
From Verif Require Import Base Sloth Common Depend Prover Verifier SlothFacts BytesFacts CommonFacts SealSpec SealCore SealFile SealTop SealZero SealWitness SealVerify SealMeaning
  PostorageFacts OntoFacts PropSeal RoundsFacts.
Local Open Scope nat_scope.

Section Replica.
Context (H : list byte -> list byte) (pr : profile) (P : PosPara) (key : Z) (n m : nat).
Hypothesis SET : setting H pr P key n m.
Hypothesis SK : sound_key H key.
Hypothesis R : seal_rounds P = 1.
Hypothesis N0 : 0 < n.
Hypothesis M0 : 0 < m.

(** The first step of sealing. *)
Lemma first_step iv f st : sealable P key n m f -> seal H pr P key iv f = Ok st -> ~ In 0%Z (s_log st) ->
  forall units, short_choice H pr P n m (unit_bytes P f 0) 0 units ->
  let z := ((le2z (unit_bytes P f 0) + le2z (H (concat (map (unit_bytes P f) units) ++ iv))) mod key)%Z in
  z <> 0%Z /\ le2z (unit_bytes P (s_file st) 0) = sloth z key (vde_rounds P).
Proof using SET SK R N0 M0.
  intros SE E NZ units SC. destruct (log_masks H pr P key iv n m SET f st SE E) as (U & M & SM & LM). destruct (SM 0 N0) as (SB & MS).
  pose proof (one_round_states H pr key iv n m P f (s_file st) 0 (U 0) R SB) as ST. destruct SB as (_ & _ & US).
  assert (Q : 0 < seal_rounds P * m) by (rewrite R; lia).
  destruct (US 0 Q) as (bs & us & LC & SC1 & _ & EU & _). destruct (MS 0 Q) as (bs1 & us1 & LC1 & SC2 & EM). cbv zeta in *. rewrite Nat.mod_0_l in * by lia.
  destruct (long_choice_fun H pr P key n m SET _ _ _ _ N0 LC LC1) as [<- BB]. destruct (short_choice_fun H pr P key n m SET _ _ _ _ M0 SC1 SC2) as [<- UM].
  assert (BN : bs = []) by (destruct bs as [|b bs]; [reflexivity|apply Forall_cons_iff in BB as [BB _]; lia]). rewrite BN in *. clear LC LC1 BB.
  rewrite (ST 1 ltac:(lia) 0 M0) in EU. change (0 - 1) with 0 in SC1. rewrite (ST 0 ltac:(lia) 0 M0) in SC1, EU, EM. change (0 <? 1) with true in EU. change (0 <? 0) with false in *. cbv iota in *. change (0 * m + 0) with 0 in *.
  destruct (short_choice_fun H pr P key n m SET _ _ _ _ M0 SC SC1) as [<- _].
  assert (D : map (U 0 0) units = map (unit_bytes P f) units).
  { apply map_ext_in. intros u I. rewrite Forall_forall in UM. rewrite (ST 0 ltac:(lia) u (UM u I)). reflexivity. }
  rewrite D in *. unfold chained in *. change (0 =? 0) with true in *. cbv iota in *. cbn [map concat app] in *. rewrite <- EM in *.
  assert (NM : M 0 0 <> 0%Z) by (intros Z0; apply NZ, LM; exists 0, 0; split; [exact N0|]; split; [exact Q|now symmetry]).
  split; [exact NM|]. rewrite EU. apply Z.abs_eq. destruct SK as [PK P4 _]. pose proof (k1 _ _ _ _ _ _ SET) as K1.
  assert (0 <= M 0%nat 0%nat < key)%Z by (rewrite EM; apply Z.mod_pos_bound; lia). pose proof (sloth_range key PK P4 (vde_rounds P) (M 0 0)). lia.
Qed.
Lemma same_masks iv iv' f st : sealable P key n m f -> seal H pr P key iv f = Ok st ->
  forall units, short_choice H pr P n m (unit_bytes P f 0) 0 units ->
  le2z (H (concat (map (unit_bytes P f) units) ++ iv)) = le2z (H (concat (map (unit_bytes P f) units) ++ iv')) ->
  exists st', seal H pr P key iv' f = Ok st' /\ s_file st' = s_file st.
Proof using SET SK R N0 M0.
  intros SE E units SC EQ. apply (seal_iff H pr P key iv' n m SET f (s_file st) SE).
  destruct (proj1 (seal_iff H pr P key iv n m SET f (s_file st) SE) (ex_intro _ st (conj E eq_refl))) as (LF & TF & U & SU).
  split; [exact LF|]. split; [exact TF|]. exists U. intros k KN. destruct (SU k KN) as (U0 & UE & US). pose proof (one_round_states H pr key iv n m P f (s_file st) k (U k) R (SU k KN)) as ST.
  split; [exact U0|]. split; [exact UE|]. intros q Q. destruct (US q Q) as (bs & us & LC & SC1 & LU & EU & NU). cbv zeta in *.
  exists bs, us. split; [exact LC|]. split; [exact SC1|]. split; [exact LU|]. split; [|exact NU]. rewrite EU. do 4 f_equal.
  rewrite R, Nat.mul_1_l in Q. rewrite (Nat.mod_small q) in * by exact Q. unfold chained. destruct (Nat.eqb_spec q 0) as [->|]; [|reflexivity]. destruct (Nat.eqb_spec k 0) as [->|]; [|reflexivity].
  pose proof (proj2 (long_choice_fun H pr P key n m SET _ _ _ _ N0 LC LC)) as BB. assert (BN : bs = []) by (destruct bs as [|b bs]; [reflexivity|apply Forall_cons_iff in BB as [BB _]; lia]). rewrite BN.
  change (0 - 1) with 0 in SC1. rewrite (ST 0 ltac:(lia) 0 M0) in SC1. change (0 <? 0) with false in SC1. cbv iota in SC1. change (0 * m + 0) with 0 in SC1.
  destruct (short_choice_fun H pr P key n m SET _ _ _ _ M0 SC SC1) as [<- UM].
  assert (D : map (U 0 0) units = map (unit_bytes P f) units).
  { apply map_ext_in. intros u I. rewrite Forall_forall in UM. rewrite (ST 0 ltac:(lia) u (UM u I)). reflexivity. }
  rewrite D. cbn [map concat app]. exact EQ.
Qed.
End Replica.

(** With one round of sealing, and no zero met, the two sealed files are equal exactly when the
    hash gives the first unit the same mask with both ivs. *)
Theorem C127_exactly : forall H pr P key n m, setting H pr P key n m -> sound_key H key -> seal_rounds P = 1 -> 0 < n -> 0 < m ->
  forall iv iv' f st st', sealable P key n m f -> seal H pr P key iv f = Ok st -> seal H pr P key iv' f = Ok st' -> ~ In 0%Z (s_log st) -> ~ In 0%Z (s_log st') ->
  forall units, short_choice H pr P n m (unit_bytes P f 0) 0 units ->
  let d := concat (map (unit_bytes P f) units) in
  s_file st = s_file st' <-> H (d ++ iv) = H (d ++ iv').
Proof.
  intros H pr P key n m SET SK R N0 M0 iv iv' f st st' SE E E' NZ NZ' units SC d. split.
  - intros EF. destruct (first_step H pr P key n m SET SK R N0 M0 iv f st SE E NZ units SC) as [A B]. destruct (first_step H pr P key n m SET SK R N0 M0 iv' f st' SE E' NZ' units SC) as [A' B'].
    cbv zeta in *. fold d in A, B, A', B'. rewrite EF, B' in B. destruct SK as [PK P4 MK]. pose proof (k1 _ _ _ _ _ _ SET) as K1.
    set (u := le2z (unit_bytes P f 0)) in *. set (h := le2z (H (d ++ iv))) in *. set (h' := le2z (H (d ++ iv'))) in *.
    pose proof (Z.mod_pos_bound (u + h) key ltac:(lia)) as R1. pose proof (Z.mod_pos_bound (u + h') key ltac:(lia)) as R2.
    assert (EM : ((u + h') mod key = (u + h) mod key)%Z).
    { rewrite <- (sloth_round_trip key PK P4 (vde_rounds P) ((u + h') mod key)%Z) by lia. rewrite B. apply sloth_round_trip; [exact PK|exact P4|lia]. }
    assert (h' = h).
    { pose proof (MK (d ++ iv)) as X1. pose proof (MK (d ++ iv')) as X2. fold h in X1. fold h' in X2. pose proof (le2z_nonneg (H (d ++ iv))) as Y1. pose proof (le2z_nonneg (H (d ++ iv'))) as Y2. fold h in Y1. fold h' in Y2.
      rewrite <- (Z.mod_small h' key), <- (Z.mod_small h key) by lia. replace h' with ((u + h') - u)%Z by ring. replace h with ((u + h) - u)%Z by ring.
      rewrite (Zminus_mod (u + h')), (Zminus_mod (u + h)), EM. reflexivity. }
    apply le2z_inj; [now rewrite !(set_hash _ _ _ _ _ _ SET)|now symmetry].
  - intros EH. destruct (same_masks H pr P key n m SET SK R N0 M0 iv iv' f st SE E units SC) as (s0 & E0 & EF); [fold d; now rewrite EH|].
    rewrite E' in E0. injection E0 as <-. now symmetry.
Qed.
Print Assumptions C127_exactly.
(** The same mask gives the same sealed file also when a zero is met. *)
Theorem C127_same : forall H pr P key n m, setting H pr P key n m -> sound_key H key -> seal_rounds P = 1 -> 0 < n -> 0 < m ->
  forall iv iv' f st, sealable P key n m f -> seal H pr P key iv f = Ok st ->
  forall units, short_choice H pr P n m (unit_bytes P f 0) 0 units ->
  H (concat (map (unit_bytes P f) units) ++ iv) = H (concat (map (unit_bytes P f) units) ++ iv') ->
  exists st', seal H pr P key iv' f = Ok st' /\ s_file st' = s_file st.
Proof. intros H pr P key n m SET SK R N0 M0 iv iv' f st SE E units SC EH. apply (same_masks H pr P key n m SET SK R N0 M0 iv iv' f st SE E units SC). now rewrite EH. Qed.
Print Assumptions C127_same.
(** So two different ivs that give the same sealed file show a collision of the hash. *)
Theorem C127_collision : forall H pr P key n m, setting H pr P key n m -> sound_key H key -> seal_rounds P = 1 -> 0 < n -> 0 < m ->
  forall iv iv' f st st', sealable P key n m f -> seal H pr P key iv f = Ok st -> seal H pr P key iv' f = Ok st' -> ~ In 0%Z (s_log st) -> ~ In 0%Z (s_log st') ->
  iv <> iv' -> s_file st = s_file st' -> exists x y, x <> y /\ H x = H y.
Proof.
  intros H pr P key n m SET SK R N0 M0 iv iv' f st st' SE E E' NZ NZ' NE EF.
  destruct (log_masks H pr P key iv n m SET f st SE E) as (U & M & SM & LM). destruct (SM 0 N0) as (SB & _). pose proof (one_round_states H pr key iv n m P f (s_file st) 0 (U 0) R SB 0 ltac:(lia) 0 M0) as ST. destruct SB as (_ & _ & US).
  destruct (US 0 ltac:(rewrite R; lia)) as (bs & us & _ & SC & _). cbv zeta in SC. rewrite Nat.mod_0_l in SC by lia. change (0 - 1) with 0 in SC. rewrite ST in SC.
  pose proof (proj1 (C127_exactly H pr P key n m SET SK R N0 M0 iv iv' f st st' SE E E' NZ NZ' us SC) EF) as EQ. cbv zeta in EQ.
  eexists _, _. split; [|exact EQ]. intros X. apply app_inv_head in X. exact (NE X).
Qed.
Print Assumptions C127_collision.
(** A hash that reads its data from the end, so that the iv counts. *)
Definition hend (d : list byte) : list byte := hsum (rev d).
Lemma hend_32 : hash32 hend.
Proof. intros d. apply hsum_32. Qed.
Definition C127_P : PosPara := ex_params 1 0 0 0 10.
Lemma C127_set H : hash32 H -> setting H Debug C127_P ex_key 3 2.
Proof. intros H32. apply ex_setting; [exact H32|cbn; lia|cbn; lia]. Qed.
Definition C127_pair (H : list byte -> list byte) (iv iv' : list byte) (same : bool) : bool :=
  match seal H Debug C127_P ex_key iv ex_file, seal H Debug C127_P ex_key iv' ex_file with
  | Ok a, Ok b => no_zero (s_log a) && no_zero (s_log b) && Bool.eqb (bytes_eqb (s_file a) (s_file b)) same
  | _, _ => false end.
Lemma C127_apart_b : C127_pair hend [x01] [x02] false = true.
Proof. vm_cast_no_check (@eq_refl bool true). Qed.
Lemma C127_same_b : C127_pair hsum [x01] [x02] true = true.
Proof. vm_cast_no_check (@eq_refl bool true). Qed.
Lemma C127_sealable : sealable C127_P ex_key 3 2 ex_file.
Proof. apply sealable_b_ok. vm_compute. reflexivity. Qed.
Lemma hend_sound : sound_key hend ex_key.
Proof. destruct ex_sound as [A B C]. split; [exact A|exact B|]. intros d. apply C. Qed.
Lemma C127_pair_ok H iv iv' same : C127_pair H iv iv' same = true ->
  exists st st', seal H Debug C127_P ex_key iv ex_file = Ok st /\ seal H Debug C127_P ex_key iv' ex_file = Ok st' /\
    ~ In 0%Z (s_log st) /\ ~ In 0%Z (s_log st') /\ (if same then s_file st = s_file st' else s_file st <> s_file st').
Proof.
  unfold C127_pair. destruct (seal H Debug C127_P ex_key iv ex_file) as [a|]; [|intros X; discriminate X]. destruct (seal H Debug C127_P ex_key iv' ex_file) as [b|]; [|intros X; discriminate X].
  intros E. apply andb_prop in E as [E E3]. apply andb_prop in E as [E1 E2]. exists a, b. split; [reflexivity|]. split; [reflexivity|]. split; [now apply no_zero_ok|]. split; [now apply no_zero_ok|].
  apply Bool.eqb_prop in E3. destruct same; [now apply bytes_eqb_eq|now apply bytes_eqb_neq].
Qed.
(** Sealing does not by itself give different files under different ivs: it depends on the hash. *)
Theorem C127_distinct_refuted : ~ forall H pr P key n m, setting H pr P key n m -> sound_key H key -> seal_rounds P = 1 -> 0 < n -> 0 < m ->
  forall iv iv' f st st', sealable P key n m f -> seal H pr P key iv f = Ok st -> seal H pr P key iv' f = Ok st' -> ~ In 0%Z (s_log st) -> ~ In 0%Z (s_log st') ->
  iv <> iv' -> s_file st <> s_file st'.
Proof.
  intros X. destruct (C127_pair_ok _ _ _ _ C127_same_b) as (st & st' & E & E' & Z1 & Z2 & EF).
  refine (X hsum Debug C127_P ex_key 3 2 (C127_set _ hsum_32) ex_sound eq_refl _ _ [x01] [x02] ex_file st st' C127_sealable E E' Z1 Z2 _ EF); [lia|lia|].
  intros Y. injection Y as Y. discriminate Y.
Qed.
Print Assumptions C127_distinct_refuted.
(** Both cases occur: two ivs whose sealed files differ, and so do the hashes; and two with the
    same sealed file, which give a collision. *)
Example C127_ex :
  (exists st st', seal hend Debug C127_P ex_key [x01] ex_file = Ok st /\ seal hend Debug C127_P ex_key [x02] ex_file = Ok st' /\ s_file st <> s_file st' /\
    forall units, short_choice hend Debug C127_P 3 2 (unit_bytes C127_P ex_file 0) 0 units ->
    hend (concat (map (unit_bytes C127_P ex_file) units) ++ [x01]) <> hend (concat (map (unit_bytes C127_P ex_file) units) ++ [x02])) /\
  (exists x y, x <> y /\ hsum x = hsum y).
Proof.
  split.
  - destruct (C127_pair_ok _ _ _ _ C127_apart_b) as (st & st' & E & E' & Z1 & Z2 & NF). exists st, st'. split; [exact E|]. split; [exact E'|]. split; [exact NF|].
    intros units SC EH. apply NF. apply (C127_exactly hend Debug C127_P ex_key 3 2 (C127_set _ hend_32) hend_sound eq_refl ltac:(lia) ltac:(lia) [x01] [x02] ex_file st st' C127_sealable E E' Z1 Z2 units SC). exact EH.
  - destruct (C127_pair_ok _ _ _ _ C127_same_b) as (st & st' & E & E' & Z1 & Z2 & EF).
    refine (C127_collision hsum Debug C127_P ex_key 3 2 (C127_set _ hsum_32) ex_sound eq_refl _ _ [x01] [x02] ex_file st st' C127_sealable E E' Z1 Z2 _ EF); [lia|lia|].
    intros Y. injection Y as Y. discriminate Y.
Qed.
