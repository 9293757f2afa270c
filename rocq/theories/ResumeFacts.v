(** Proofs for property C125: unsealing with fewer rounds of sealing than sealing. *)
From Coq Require Import Znumtheory Lia.
From Verif Require Import Base Sloth Common Depend Prover Verifier SlothFacts BytesFacts CommonFacts VdeFacts SealSpec SealCore SealFile SealTop SealZero SealVerify SealMeaning
  PostorageFacts OntoFacts PropOnto PropSeal.
Local Open Scope nat_scope.

(** The same parameters with r rounds of sealing (postorage.rs 27-55, field seal_rounds). *)
Definition with_rounds (P : PosPara) (r : nat) : PosPara :=
  mkPosPara (data_l P) (unit_l P) (block_l P) (big_block_l P) (unit_pl P) (block_pl P) (big_block_pl P)
            r (vde_rounds P) (vde_mode P) (mode_l P) (cnt_l P) (mode_s P) (cnt_s P) (leaves_to_prove_count P).
Lemma setting_rounds H pr P key n m r : setting H pr P key n m -> setting H pr (with_rounds P r) key n m.
Proof. intros [A [B1 B2 B3 B4] C D E]. split; [exact A|split; assumption|exact C|exact D|exact E]. Qed.

Section Resume.
Context (H : list byte -> list byte) (pr : profile) (P : PosPara) (key : Z) (iv : list byte) (n m : nat).
Hypothesis SET : setting H pr P key n m.
Hypothesis SK : sound_key H key.
Hypothesis ML : mode_l P = 0.
Context (r' : nat) (RR : r' <= seal_rounds P).
Notation P' := (with_rounds P r').
Notation T := (seal_rounds P * m).
Notation T' := (r' * m).
Let SET' : setting H pr P' key n m := setting_rounds H pr P key n m r' SET.

Lemma states_good f F k U : sealable P key n m f -> k < n -> seals_block H pr P key iv n m f F k U ->
  forall t, t <= T -> forall i, i < m -> length (U t i) = unit_pl P /\ (le2z (U t i) < key)%Z.
Proof using SET SK ML RR.
  intros (LF & LK) KN (U0 & UE & US). pose proof (k1 _ _ _ _ _ _ SET) as K1. induction t as [|t IH]; intros L i IM.
  - rewrite U0 by exact IM. split; [now apply (unit_bytes_length H pr P key n m SET)|]. apply LK. nia.
  - destruct (US t L) as (bs & us & LC & SC & LU & EU & NU). destruct (Nat.eq_dec i (t mod m)) as [->|NE]; [|rewrite NU by assumption; apply IH; [apply Nat.lt_le_incl; exact L|exact IM]].
    split; [exact LU|]. rewrite EU. apply sloth_abs; [exact K1|]. apply Z.mod_pos_bound. apply Z.lt_trans with 1%Z; [reflexivity|exact K1].
Qed.

Theorem fewer f st : sealable P key n m f -> seal H pr P key iv f = Ok st -> ~ In 0%Z (s_log st) ->
  exists U G st', (forall k, k < n -> seals_block H pr P key iv n m f (s_file st) k (U k)) /\
  unseal H pr P' key iv (s_file st) = Ok G /\ length G = length f /\ skipn (n * block_pl P) G = skipn (n * block_pl P) f /\
  (forall k i, k < n -> i < m -> unit_bytes P G (k * m + i) = U k ((seal_rounds P - r') * m) i) /\
  seal H pr P' key iv G = Ok st' /\ s_file st' = s_file st.
Proof using SET SK ML RR.
  intros SE E NZ. destruct (log_masks H pr P key iv n m SET f st SE E) as (U & M & SM & LM).
  destruct (seal_total H pr P key iv n m SET f SE) as (st0 & E0 & LS & TS & _). rewrite E in E0. injection E0 as <-. set (F := s_file st) in *.
  pose proof (sound_lt H pr P' key n m SET' SK) as KB.
  assert (LF : n * block_pl P' <= length F) by (cbn [block_pl with_rounds]; rewrite LS; apply SE).
  destruct (unseal_total H pr P' key iv n m SET' F KB LF) as (G & EG & LG & TG). cbn [block_pl with_rounds] in TG.
  destruct (proj1 (unseal_iff H pr P' key iv n m SET' F G KB LF) EG) as (_ & _ & V & SV).
  assert (UB : forall k, k < n -> unseals_block H pr P key iv n m F f k (fun t => U k (T - t))).
  { intros k KN. apply (block_back H pr P key iv n m SET SK ML f F k (U k) (M k) KN SE (SM k KN)).
    intros q Q Z0. apply NZ, LM. exists k, q. split; [exact KN|]. split; [exact Q|]. now symmetry. }
  assert (TT : T' <= T) by (apply Nat.mul_le_mono_r; exact RR).
  assert (X : forall k, k < n -> forall t, t <= T' -> forall i, i < m -> V k t i = U k (T - t) i).
  { intros k KN. destruct (UB k KN) as (U0 & UE & US). destruct (SV k KN) as (V0 & VE & VS). cbv beta in *.
    induction t as [|t IH]; intros L j JM; [rewrite V0, U0 by exact JM; reflexivity|]. specialize (IH ltac:(lia)).
    destruct (US t ltac:(lia)) as (bs & us & LC & SC & LU & EU & NU). destruct (VS t ltac:(exact L)) as (bs' & us' & LC' & SC' & LV & EV & NV). cbv zeta in *.
    assert (IM' : m - 1 - t mod m < m) by lia. set (x := m - 1 - t mod m) in *. destruct (Nat.eq_dec j x) as [->|NE]; [|rewrite NU, NV by assumption; now apply IH].
    destruct (unseal_choice_fun H pr P key n m SET _ _ _ _ KN LC LC') as [<- _]. rewrite (IH (x - 1)) in SC' by lia.
    destruct (short_choice_fun H pr P key n m SET _ _ _ _ IM' SC SC') as [<- UM].
    apply le2z_inj; [transitivity (unit_pl P); [exact LV|symmetry; exact LU]|]. rewrite EU, EV, (IH x) by exact IM'.
    assert (D2 : map (V k t) us = map (U k (T - t)) us) by (apply map_ext_in; intros u I; rewrite Forall_forall in UM; apply IH, UM, I). rewrite D2. reflexivity. }
  assert (GU : forall k i, k < n -> i < m -> unit_bytes P G (k * m + i) = U k ((seal_rounds P - r') * m) i).
  { intros k i KN IM. destruct (SV k KN) as (_ & VE & _). rewrite Nat.mul_sub_distr_r, <- (X k KN T' (Nat.le_refl _) i IM). symmetry. now apply VE. }
  assert (SG : sealable P' key n m G).
  { split; [rewrite LG; exact LF|]. intros x XL. destruct (Nat.eq_dec m 0) as [M0|M0]; [rewrite M0, Nat.mul_0_r in XL; lia|].
    pose proof (Nat.div_mod x m M0) as DM. pose proof (Nat.mod_upper_bound x m M0) as XM. assert (KN : x / m < n) by (apply Nat.div_lt_upper_bound; [exact M0|lia]).
    rewrite (Nat.mul_comm m) in DM. rewrite DM. change (unit_bytes P' G) with (unit_bytes P G). rewrite GU by assumption.
    apply (states_good f F (x / m) (U (x / m)) SE KN (proj1 (SM _ KN))); [nia|exact XM]. }
  destruct (proj2 (seal_iff H pr P' key iv n m SET' G F SG)) as (st' & ES & SF).
  - split; [now symmetry|]. split; [now symmetry|]. exists (fun k q => U k ((seal_rounds P - r') * m + q)). intros k KN.
    destruct (SM k KN) as ((U0 & UE & US) & _). split; [|split].
    + intros i IM. rewrite Nat.add_0_r. symmetry. now apply GU.
    + intros i IM. cbn [seal_rounds with_rounds]. replace ((seal_rounds P - r') * m + r' * m) with T by (rewrite <- Nat.mul_add_distr_r; f_equal; lia). now apply UE.
    + cbn [seal_rounds with_rounds]. intros q Q. assert (M0 : m <> 0) by (intros ->; lia).
      destruct (US ((seal_rounds P - r') * m + q)) as (bs & us & W); [rewrite Nat.mul_sub_distr_r; lia|].
      replace (((seal_rounds P - r') * m + q) mod m) with (q mod m) in W by (rewrite (Nat.add_comm _ q), Nat.mod_add by exact M0; reflexivity).
      exists bs, us. rewrite Nat.add_succ_r. exact W.
  - exists U, G, st'. split; [intros k KN; apply SM, KN|]. split; [exact EG|]. split; [lia|]. split; [congruence|]. split; [exact GU|]. split; [exact ES|exact SF].
Qed.
End Resume.
