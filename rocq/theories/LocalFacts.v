(** Which stored blocks a restored block comes from (C87), and what a crash while saving
    the public data leaves behind (C88). *)
From Coq Require Import Znumtheory Strings.Byte Sorted.
From Verif Require Import Base Legendre Sloth Common Depend Prover Verifier Postorage NumTheory SlothFacts BytesFacts CommonFacts
  DependSpec DependFacts DependDet VdeFacts SealSpec SealCore SealFile SealTop SealZero VerifierFacts SealVerify SealMeaning PostorageFacts SpotFacts.
Local Open Scope nat_scope.

(** Restoring block k of the stored file F reads block b: the block itself, the one
    before it, and the blocks chosen by the dependency rule. *)
Inductive reads (H : list byte -> list byte) (pr : profile) (params : PosPara) (n : nat) (F : file) (k : nat) : nat -> Prop :=
| reads_self : reads H pr params n F k k
| reads_before b : S b = k -> reads H pr params n F k b
| reads_long bs b : unseal_choice H pr params n (H (block_bytes params F (k - 1))) k bs -> In b bs -> reads H pr params n F k b.

Section Local.
Context (H : list byte -> list byte) (pr : profile) (params : PosPara) (key : Z) (n m : nat).
Hypothesis SET : setting H pr params key n m.
Notation bpl := (block_pl params).

Lemma unseals_block_local iv iv' F F' G G' k U V : k < n ->
  n * bpl <= length F -> n * bpl <= length F' -> n * bpl <= length G -> n * bpl <= length G' ->
  (k = 0 -> iv = iv') -> (forall b, reads H pr params n F k b -> block_bytes params F b = block_bytes params F' b) ->
  unseals_block H pr params key iv n m F G k U -> unseals_block H pr params key iv' n m F' G' k V ->
  block_bytes params G k = block_bytes params G' k.
Proof.
  intros KN LF LF' LG LG' IV RD (U0 & UE & US) (V0 & VE & VS).
  assert (ID : k = 0 \/ block_bytes params F (k - 1) = block_bytes params F' (k - 1)).
  { destruct (Nat.eq_dec k 0); [now left|right; apply RD, reads_before; lia]. }
  assert (UB : forall b, b < n -> reads H pr params n F k b -> forall i, i < m -> unit_bytes params F (b * m + i) = unit_bytes params F' (b * m + i)).
  { intros b BN R. apply (units_of_block H pr params key n m SET); auto. }
  assert (X : forall t, t <= seal_rounds params * m -> forall i, i < m -> U t i = V t i).
  { induction t as [|t IH]; intros L i IM; [rewrite U0, V0 by exact IM; apply UB; [exact KN|constructor|exact IM]|]. specialize (IH ltac:(lia)).
    destruct (US t ltac:(lia)) as (bs & us & LC & SC & LU & EU & NU). destruct (VS t ltac:(lia)) as (bs' & us' & LC' & SC' & LV & EV & NV).
    assert (TM : m - 1 - t mod m < m) by lia. set (j := m - 1 - t mod m) in *.
    destruct (Nat.eq_dec i j) as [->|NE]; [|rewrite NU, NV by assumption; now apply IH].
    assert (LCF : unseal_choice H pr params n (H (block_bytes params F (k - 1))) k bs').
    { destruct ID as [Z|Z]; [|now rewrite Z]. subst k. revert LC'. unfold unseal_choice, long_choice. cbn [Nat.eqb]. tauto. }
    destruct (unseal_choice_fun H pr params key n m SET _ _ _ _ KN LC LCF) as [<- BK].
    rewrite (IH (j - 1)) in SC by lia. destruct (short_choice_fun H pr params key n m SET _ _ _ _ TM SC SC') as [<- UM].
    apply le2z_inj; [congruence|]. rewrite EU, EV. rewrite (IH j) by exact TM.
    assert (D2 : map (U t) us = map (V t) us) by (apply map_ext_in; intros u I; rewrite Forall_forall in UM; apply IH, UM, I).
    assert (D1 : map (fun b => unit_bytes params F (b * m + j)) bs = map (fun b => unit_bytes params F' (b * m + j)) bs).
    { apply map_ext_in. intros b I. rewrite Forall_forall in BK. pose proof (BK b I). apply UB; [lia|now apply (reads_long _ _ _ _ _ _ bs)|exact TM]. }
    assert (D3 : chained H params iv F k j = chained H params iv' F' k j).
    { unfold chained. destruct (j =? 0); [|reflexivity]. destruct (Nat.eqb_spec k 0); [auto|]. destruct ID as [|Z]; [lia|now rewrite Z]. }
    now rewrite D1, D2, D3. }
  apply (block_of_units H pr params key n m SET); try assumption. intros i IM. rewrite <- UE, <- VE by exact IM. apply X; [lia|exact IM].
Qed.

Hypothesis KB : forall d, (le2z (H d) < key < 256 ^ Z.of_nat (unit_pl params))%Z.
Theorem unseal_local iv iv' F F' G G' k : k < n -> n * bpl <= length F -> n * bpl <= length F' ->
  unseal H pr params key iv F = Ok G -> unseal H pr params key iv' F' = Ok G' ->
  (k = 0 -> iv = iv') -> (forall b, reads H pr params n F k b -> block_bytes params F b = block_bytes params F' b) ->
  block_bytes params G k = block_bytes params G' k.
Proof.
  intros KN LF LF' E E' IV RD.
  apply (unseal_iff H pr params key iv n m SET F G KB LF) in E as (LG & _ & U & SU).
  apply (unseal_iff H pr params key iv' n m SET F' G' KB LF') in E' as (LG' & _ & V & SV).
  apply (unseals_block_local iv iv' F F' G G' k (U k) (V k)); auto; lia.
Qed.
Lemma reads_le F k b : k < n -> reads H pr params n F k b -> b <= k.
Proof.
  clear KB. intros KN [|b' E|bs b' LC I]; try lia. destruct (unseal_choice_fun H pr params key n m SET _ _ _ _ KN LC LC) as [_ BK].
  rewrite Forall_forall in BK. apply BK in I. lia.
Qed.
(** Few blocks are read. *)
Lemma reads_few F k : mode_l params = 0 -> n * bpl <= length F -> k < n -> exists l, length l <= (if cnt_l params =? 0 then k / 10 + 1 else cnt_l params) + 2 /\ forall b, reads H pr params n F k b <-> In b l.
Proof.
  clear KB. intros ML LF KN. destruct (response_ok H pr params key n m SET F k LF KN) as (bs & LC & _).
  assert (LB : length bs <= (if cnt_l params =? 0 then k / 10 + 1 else cnt_l params)).
  { revert LC. unfold long_choice. rewrite ML. destruct (Nat.eqb_spec k 0); [intros ->; cbn; lia|]. intros LC. apply long_mode_random_props in LC. tauto. }
  exists (k :: (if k =? 0 then [] else [k - 1]) ++ bs). split.
  - cbn [length]. rewrite app_length. destruct (k =? 0); cbn [length]; lia.
  - intros b. split.
    + intros [|b' E|bs' b' LC' I]; [now left|right; apply in_or_app; left; subst k; cbn; left; lia|].
      right. apply in_or_app. right. apply unseal_random in LC'; [|exact ML]. destruct (long_choice_fun H pr params key n m SET _ _ _ _ KN LC LC') as [<- _]. exact I.
    + intros [<-|I]; [constructor|]. apply in_app_or in I as [I|I].
      * destruct (Nat.eqb_spec k 0); [destruct I|]. destruct I as [<-|[]]. apply reads_before. lia.
      * apply (reads_long _ _ _ _ _ _ bs); [now apply unseal_random|exact I].
Qed.

(** One sealing round: the iv enters the last step only. *)
Theorem iv_one_round iv iv' F G G' : seal_rounds params = 1 -> 0 < n -> 0 < m -> n * bpl <= length F ->
  unseal H pr params key iv F = Ok G -> unseal H pr params key iv' F = Ok G' ->
  (forall i, 0 < i < n * m -> unit_bytes params G i = unit_bytes params G' i) /\
  exists p, (unit_bytes params G 0 = unit_bytes params G' 0 <-> H (p ++ iv) = H (p ++ iv')).
Proof.
  intros R1 N0 M0 LF E E'. pose proof E as EE. pose proof E' as EE'.
  apply (unseal_iff H pr params key iv n m SET F G KB LF) in E as (LG & _ & U & SU).
  apply (unseal_iff H pr params key iv' n m SET F G' KB LF) in E' as (LG' & _ & V & SV).
  pose proof (SU 0 N0) as (U0 & UE & US). pose proof (SV 0 N0) as (V0 & VE & VS). rewrite R1 in *. rewrite Nat.mul_1_l in *.
  assert (X : forall t, t < m -> forall i, i < m -> U 0 t i = V 0 t i).
  { induction t as [|t IH]; intros L i IM; [now rewrite U0, V0|]. specialize (IH ltac:(lia)).
    destruct (US t ltac:(lia)) as (bs & us & LC & SC & LU & EU & NU). destruct (VS t ltac:(lia)) as (bs' & us' & LC' & SC' & LV & EV & NV).
    rewrite Nat.mod_small in * by lia. set (j := m - 1 - t) in *. assert (TM : j < m) by (unfold j; lia).
    destruct (Nat.eq_dec i j) as [->|NE]; [|rewrite NU, NV by assumption; now apply IH].
    destruct (unseal_choice_fun H pr params key n m SET _ _ _ _ N0 LC LC') as [<- BK].
    rewrite (IH (j - 1)) in SC by lia. destruct (short_choice_fun H pr params key n m SET _ _ _ _ TM SC SC') as [<- UM].
    apply le2z_inj; [congruence|]. rewrite EU, EV. rewrite (IH j) by exact TM.
    assert (D2 : map (U 0 t) us = map (V 0 t) us) by (apply map_ext_in; intros u I; rewrite Forall_forall in UM; apply IH, UM, I).
    assert (D3 : chained H params iv F 0 j = chained H params iv' F 0 j) by (unfold chained; replace (j =? 0) with false by (symmetry; apply Nat.eqb_neq; unfold j; lia); reflexivity).
    now rewrite D2, D3. }
  destruct (US (m - 1) ltac:(lia)) as (bs & us & LC & SC & LU & EU & NU). destruct (VS (m - 1) ltac:(lia)) as (bs' & us' & LC' & SC' & LV & EV & NV).
  rewrite Nat.mod_small in * by lia. rewrite Nat.sub_diag in *. replace (S (m - 1)) with m in * by lia.
  destruct (unseal_choice_fun H pr params key n m SET _ _ _ _ N0 LC LC') as [<- BK].
  rewrite (X (m - 1)) in SC by lia. destruct (short_choice_fun H pr params key n m SET _ _ _ _ M0 SC SC') as [<- UM].
  assert (D2 : map (U 0 (m - 1)) us = map (V 0 (m - 1)) us) by (apply map_ext_in; intros u I; rewrite Forall_forall in UM; apply X; [lia|apply UM, I]).
  split.
  - intros i I. destruct (Nat.lt_ge_cases i m) as [C|C].
    + pose proof (UE i C) as A. pose proof (VE i C) as B. cbn [Nat.mul Nat.add] in A, B. rewrite <- A, <- B, NU, NV by lia. apply X; lia.
    + replace i with ((i / m) * m + i mod m) by (pose proof (Nat.div_mod_eq i m); lia).
      apply (units_of_block H pr params key n m SET); [lia|lia|apply Nat.div_lt_upper_bound; lia| |apply Nat.mod_upper_bound; lia].
      apply (unseal_local iv iv' F F G G'); auto; [apply Nat.div_lt_upper_bound; lia|]. intros Q. apply Nat.div_small_iff in Q; lia.
  - exists (concat (map (fun b => unit_bytes params F (b * m + 0)) bs) ++ concat (map (V 0 (m - 1)) us)).
    pose proof (UE 0 M0) as A. pose proof (VE 0 M0) as B. cbn [Nat.mul Nat.add] in A, B. rewrite <- A, <- B. rewrite D2 in EU.
    rewrite (X (m - 1) ltac:(lia) 0 M0) in EU. unfold chained in EU, EV. cbn [Nat.eqb] in EU, EV. rewrite app_assoc in EU, EV.
    set (a := H _) in EU. set (b := H _) in EV. fold a b.
    pose proof (KB) as KB'. assert (RA : (0 <= le2z a < key)%Z) by (split; [apply le2z_range|apply KB']). assert (RB : (0 <= le2z b < key)%Z) by (split; [apply le2z_range|apply KB']).
    split.
    + intros Q. apply (f_equal le2z) in Q. rewrite EU, EV in Q. apply le2z_inj; [unfold a, b; now rewrite !(set_hash _ _ _ _ _ _ SET)|].
      set (x := Z.abs _) in Q. clear -Q RA RB.
      assert (Z0 : ((le2z a - le2z b) mod key = 0)%Z).
      { replace (le2z a - le2z b)%Z with ((x - le2z b) - (x - le2z a))%Z by lia. rewrite Zminus_mod, Q, Z.sub_diag. apply Z.mod_0_l. lia. }
      apply Z.mod_divide in Z0 as (q & Z0); [|lia]. assert (q = 0)%Z by nia. lia.
    + intros Q. apply le2z_inj; [congruence|]. now rewrite EU, EV, Q.
Qed.
End Local.

(** * A crash while the public data is saved *)

(** How many bytes save_data writes. *)
Definition saved_length (key : Z) (iv : list byte) : nat := 16 + length (decimal key) + length iv.

Lemma enc_bytes_length l : length (enc_bytes l) = 8 + length l.
Proof. unfold enc_bytes. rewrite app_length, enc_le_length. lia. Qed.
Lemma dec_short l j : (Z.of_nat (length l) < 2 ^ 64)%Z -> j < length (enc_bytes l) -> dec_bytes (firstn j (enc_bytes l)) = Panic.
Proof.
  intros L J. rewrite enc_bytes_length in J. unfold dec_bytes. rewrite firstn_length, enc_bytes_length. rewrite Nat.min_l by lia.
  destruct (Nat.ltb_spec j 8) as [C|C]; [reflexivity|]. rewrite firstn_firstn, Nat.min_l by lia.
  assert (F8 : firstn 8 (enc_bytes l) = enc_le 8 (Z.of_nat (length l))).
  { unfold enc_bytes. rewrite firstn_app, enc_le_length, firstn_all2 by (rewrite enc_le_length; lia). cbn [Nat.sub firstn]. now rewrite app_nil_r. }
  rewrite F8, enc_le_val by (change (256 ^ Z.of_nat 8)%Z with (2 ^ 64)%Z; lia).
  rewrite skipn_length, firstn_length, enc_bytes_length. rewrite (proj2 (Z.ltb_lt _ _)) by lia. reflexivity.
Qed.

Section Torn.
Context (key : Z) (iv : list byte).
Hypothesis L1 : (Z.of_nat (length (decimal key)) < 2 ^ 64)%Z.
Hypothesis L2 : (Z.of_nat (length iv) < 2 ^ 64)%Z.
Theorem torn_fresh k : k < saved_length key iv -> load_data (save_data_upto k [] key iv) = Panic.
Proof.
  unfold saved_length. intros K. unfold save_data_upto, load_data. rewrite write_start, skipn_nil, app_nil_r.
  rewrite firstn_app. destruct (Nat.lt_ge_cases k (length (enc_bytes (decimal key)))) as [C|C].
  - replace (k - length (enc_bytes (decimal key))) with 0 by lia. cbn [firstn]. rewrite app_nil_r. now rewrite dec_short by assumption.
  - rewrite firstn_all2 by exact C. rewrite dec_enc by exact L1. cbn [bind]. rewrite enc_bytes_length in *. now rewrite dec_short by (auto; rewrite enc_bytes_length; lia).
Qed.
(** Over an earlier save of the same key and an iv of the same length. *)
Theorem torn_over iv0 f k : length iv0 = length iv ->
  let j := k - (16 + length (decimal key)) in
  load_data (save_data_upto k (save_data f key iv0) key iv) = Ok (key, firstn j iv ++ skipn j iv0).
Proof.
  intros LI j. unfold save_data_upto. rewrite write_start. unfold save_data at 1. rewrite write_start.
  set (D := enc_bytes (decimal key)). set (h := enc_le 8 (Z.of_nat (length iv))).
  assert (LD : length D = 8 + length (decimal key)) by apply enc_bytes_length. assert (Lh : length h = 8) by apply enc_le_length.
  assert (E0 : enc_bytes iv0 = h ++ iv0) by (unfold enc_bytes, h; now rewrite LI). assert (E1 : enc_bytes iv = h ++ iv) by reflexivity.
  rewrite E0, E1. set (tl := skipn (length (D ++ h ++ iv0)) f).
  assert (X : firstn k (D ++ h ++ iv) ++ skipn (length (firstn k (D ++ h ++ iv))) ((D ++ h ++ iv0) ++ tl) = (D ++ h ++ (firstn j iv ++ skipn j iv0)) ++ tl).
  { rewrite firstn_length, !app_length. rewrite <- !app_assoc.
    assert (P : forall (p a b : list byte) q, q <= length p -> firstn q (p ++ a) ++ skipn q (p ++ b) = p ++ b).
    { intros p a b q Q. rewrite firstn_app, skipn_app. replace (q - length p) with 0 by lia. cbn [firstn skipn]. rewrite app_nil_r, app_assoc, firstn_skipn. reflexivity. }
    destruct (Nat.le_gt_cases k (length D + length h)) as [C|C].
    - assert (J : j = 0) by (unfold j; lia). rewrite J. cbn [firstn skipn app]. rewrite Nat.min_l by lia. rewrite (app_assoc D h iv), (app_assoc D h (iv0 ++ tl)).
      apply P. rewrite app_length. exact C.
    - assert (J : j = k - (length D + length h)) by (unfold j; lia).
      rewrite (app_assoc D h iv), (app_assoc D h (iv0 ++ tl)). rewrite firstn_app, skipn_app, app_length.
      rewrite (firstn_all2 (D ++ h)) by (rewrite app_length; lia). rewrite (skipn_all2 (D ++ h)) by (rewrite app_length; lia). cbn [app].
      rewrite <- J. rewrite <- !app_assoc. do 3 f_equal. rewrite skipn_app.
      destruct (Nat.le_gt_cases j (length iv)) as [CJ|CJ].
      + rewrite Nat.min_l by lia. rewrite <- J. replace (j - length iv0) with 0 by lia. reflexivity.
      + rewrite Nat.min_r by lia. replace (length D + (length h + length iv) - (length D + length h)) with (length iv) by lia.
        rewrite (@skipn_all2 _ (length iv) iv0), (@skipn_all2 _ j iv0) by lia. replace (length iv - length iv0) with 0 by lia. reflexivity. }
  rewrite X. unfold load_data. rewrite <- !app_assoc. unfold D. rewrite dec_enc by exact L1. cbn [bind].
  assert (LM : length (firstn j iv ++ skipn j iv0) = length iv) by (rewrite app_length, firstn_length, skipn_length; lia).
  assert (EM : h ++ firstn j iv ++ skipn j iv0 ++ tl = enc_bytes (firstn j iv ++ skipn j iv0) ++ tl) by (unfold enc_bytes, h; rewrite LM, <- !app_assoc; reflexivity).
  rewrite EM, dec_enc by (rewrite LM; exact L2). cbn [bind]. rewrite undecimal_decimal. reflexivity.
Qed.
End Torn.
Lemma save_upto_all f key iv k : saved_length key iv <= k -> save_data_upto k f key iv = save_data f key iv.
Proof. intros K. unfold save_data_upto, save_data. rewrite firstn_all2; [reflexivity|]. unfold saved_length in K. rewrite app_length, !enc_bytes_length. lia. Qed.
