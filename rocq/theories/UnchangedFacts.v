(** Proofs for property C125: how many files one round of sealing leaves as they are. *)
From Coq Require Import Znumtheory Lia Strings.Byte.
From Verif Require Import Base Sloth Common Depend Prover Verifier SlothFacts BytesFacts CommonFacts VdeFacts SealSpec SealCore SealFile SealTop SealZero SealVerify SealMeaning
  PostorageFacts OntoFacts PropOnto PropSeal FixedFacts SealRareFacts PropSealRare RoundsFacts.
Local Open Scope nat_scope.

(** Counting by classes: at most K classes with at most B members each. *)
Lemma count_fibres {A C} (dec : forall a b : C, {a = b} + {a <> b}) (g : A -> C) (B : Z) : (0 <= B)%Z -> forall Q L, NoDup L -> (forall x, In x L -> In (g x) Q) ->
  (forall c M, NoDup M -> (forall x, In x M -> In x L /\ g x = c) -> (Z.of_nat (length M) <= B)%Z) ->
  (Z.of_nat (length L) <= Z.of_nat (length Q) * B)%Z.
Proof.
  intros B0. induction Q as [|c Q IH]; intros L ND HQ HB.
  - destruct L as [|x L]; [cbn; lia|]. destruct (HQ x (or_introl eq_refl)).
  - pose (b := fun x => if dec (g x) c then true else false). rewrite (filter_split b L), Nat2Z.inj_add. cbn [length]. rewrite Nat2Z.inj_succ.
    assert (X : (Z.of_nat (length (filter b L)) <= B)%Z).
    { apply (HB c); [now apply NoDup_filter|]. intros x I. apply filter_In in I as [I E]. split; [exact I|]. unfold b in E. destruct (dec (g x) c) as [Y|Y]; [exact Y|discriminate E]. }
    assert (Y : (Z.of_nat (length (filter (fun x => negb (b x)) L)) <= Z.of_nat (length Q) * B)%Z); [|lia].
    apply IH; [now apply NoDup_filter| |].
    + intros x I. apply filter_In in I as [I E]. destruct (HQ x I) as [EC|IQ]; [|exact IQ]. exfalso. unfold b in E. destruct (dec (g x) c) as [_|NE]; [discriminate E|apply NE; now symmetry].
    + intros c' M NM HM. apply (HB c' M NM). intros x I. destruct (HM x I) as [I' E]. apply filter_In in I' as [I' _]. auto.
Qed.
Lemma inside (f g : file) N a b : firstn N f = firstn N g -> a + b <= N -> firstn a (skipn b f) = firstn a (skipn b g).
Proof.
  intros E L. assert (X : forall h : file, firstn a (skipn b h) = firstn a (skipn b (firstn N h))).
  { intros h. rewrite skipn_firstn_comm, firstn_firstn. f_equal. lia. }
  rewrite (X f), (X g), E. reflexivity.
Qed.

Section Unchanged.
Context (H : list byte -> list byte) (pr : profile) (P : PosPara) (key : Z) (iv : list byte) (n m : nat).
Hypothesis SET : setting H pr P key n m.
Hypothesis SK : sound_key H key.
Hypothesis R : seal_rounds P = 1.
Hypothesis N0 : 0 < n.
Hypothesis M0 : 0 < m.
Hypothesis D1 : 1 <= vde_rounds P.
Notation upl := (unit_pl P).
Definition unchanged (f : file) : Prop := full P key n m f /\ ~ meets_zero H pr P key iv f /\ exists st, seal H pr P key iv f = Ok st /\ s_file st = f.
Definition before_last (f : file) : file := firstn ((n * m - 1) * upl) f.
Definition last_num (f : file) : Z := le2z (unit_bytes P f (n * m - 1)).

(** The last unit is what the delay function makes of itself and a mask that the rest determines. *)
Lemma last_eq f : unchanged f -> exists blocks units,
  long_choice H pr P n (H (block_bytes P f (n - 1 - 1))) (n - 1) blocks /\ short_choice H pr P n m (unit_bytes P f ((n - 1) * m + (m - 1 - 1))) (m - 1) units /\
  let c := le2z (H (concat (map (fun b => unit_bytes P f (b * m + (m - 1))) blocks) ++ concat (map (fun i => unit_bytes P f ((n - 1) * m + i)) units) ++ chained H P iv f (n - 1) (m - 1))) in
  (1 <= last_num f <= key - 1)%Z /\ ((last_num f + c) mod key <> 0)%Z /\ sloth ((last_num f + c) mod key) key (vde_rounds P) = last_num f.
Proof using SET SK R N0 M0 D1.
  assert (NL : n - 1 < n) by lia. assert (ML1 : m - 1 < m) by lia. intros ((LF & SF) & NM & (st & E & EF)). destruct (log_masks H pr P key iv n m SET f st SF E) as (U & M & SM & LM). rewrite EF in SM.
  destruct (SM (n - 1) ltac:(lia)) as (SB & MS). pose proof (one_round_states H pr key iv n m P f f (n - 1) (U (n - 1)) R SB) as ST.
  assert (ST' : forall q, q <= m -> forall i, i < m -> U (n - 1) q i = unit_bytes P f ((n - 1) * m + i)) by (intros q Q i I; rewrite ST by assumption; now destruct (i <? q)).
  destruct SB as (_ & _ & US). destruct (US (m - 1) ltac:(rewrite R; lia)) as (bs & us & LC & SC & _ & EU & _). destruct (MS (m - 1) ltac:(rewrite R; lia)) as (bs1 & us1 & LC1 & SC1 & EM).
  cbv zeta in *. rewrite (Nat.mod_small (m - 1)) in * by lia.
  destruct (long_choice_fun H pr P key n m SET _ _ _ _ NL LC LC1) as [<- _]. destruct (short_choice_fun H pr P key n m SET _ _ _ _ ML1 SC SC1) as [<- UM].
  rewrite !ST' in * by lia. assert (D2 : map (U (n - 1) (m - 1)) us = map (fun i => unit_bytes P f ((n - 1) * m + i)) us) by (apply map_ext_in; intros u I; rewrite Forall_forall in UM; apply ST'; [lia|apply UM, I]).
  rewrite D2 in *. exists bs, us. split; [exact LC|]. split; [exact SC|]. unfold last_num. replace ((n - 1) * m + (m - 1)) with (n * m - 1) in * by nia.
  set (x := le2z (unit_bytes P f (n * m - 1))) in *. rewrite <- EM in *. pose proof (k1 _ _ _ _ _ _ SET) as K1. destruct SK as [PK P4 _].
  assert (NZ : M (n - 1) (m - 1) <> 0%Z) by (intros Z0; apply NM; exists st; split; [exact E|]; apply LM; exists (n - 1), (m - 1); split; [lia|]; split; [rewrite R; lia|now symmetry]).
  assert (RM : (0 <= M (n - 1)%nat (m - 1)%nat < key)%Z) by (rewrite EM; apply Z.mod_pos_bound; lia).
  pose proof (sloth_range key PK P4 (vde_rounds P) (M (n - 1) (m - 1)) ltac:(lia)) as RG. rewrite Z.abs_eq in EU by lia. split; [lia|]. split; [exact NZ|now symmetry].
Qed.
Lemma bpl_upl : block_pl P = m * upl. Proof using SET. apply SET. Qed.
Lemma same_last L : NoDup L -> forall c, (forall f, In f L -> unchanged f /\ before_last f = c) -> length L <= 4 ^ vde_rounds P.
Proof using SET SK R N0 M0 D1.
  assert (NL : n - 1 < n) by lia. assert (ML1 : m - 1 < m) by lia. intros ND c HL. destruct L as [|f0 L0]; [cbn; lia|]. set (L := f0 :: L0) in *.
  destruct (HL f0 (or_introl eq_refl)) as [U0 C0]. destruct (last_eq f0 U0) as (bs & us & LC & SC & _). cbv zeta in *.
  pose (c0 := le2z (H (concat (map (fun b => unit_bytes P f0 (b * m + (m - 1))) bs) ++ concat (map (fun i => unit_bytes P f0 ((n - 1) * m + i)) us) ++ chained H P iv f0 (n - 1) (m - 1)))).
  pose proof (proj2 (long_choice_fun H pr P key n m SET _ _ _ _ NL LC LC)) as BB. pose proof (short_not_self H pr P key n m SET _ _ _ ML1 SC) as UU.
  pose proof bpl_upl as BPL. pose proof (upl_pos _ _ _ _ _ _ SET) as UP.
  rewrite <- (map_length last_num L). destruct SK as [PK P4 _]. apply (fixed_count_off key PK P4 (vde_rounds P) c0 D1).
  - apply nodup_map; [exact ND|]. intros f g IF IG E. destruct (HL f IF) as [((LF & _) & _) CF], (HL g IG) as [((LG & _) & _) CG].
    rewrite BPL in LF, LG. rewrite <- (firstn_skipn ((n * m - 1) * upl) f), <- (firstn_skipn ((n * m - 1) * upl) g). f_equal; [unfold before_last in *; congruence|].
    unfold last_num, unit_bytes in E. rewrite !firstn_all2 in E by (rewrite skipn_length; nia). apply le2z_inj; [rewrite !skipn_length; congruence|exact E].
  - intros x I. apply in_map_iff in I as (f & <- & IF). destruct (HL f IF) as [UF CF]. destruct (last_eq f UF) as (bs' & us' & LC' & SC' & W). cbv zeta in *.
    assert (PRE : before_last f = before_last f0) by congruence. unfold before_last in PRE.
    assert (UN : forall x, x < n * m - 1 -> unit_bytes P f x = unit_bytes P f0 x) by (intros x X; apply (inside f f0 _ _ _ PRE); nia).
    assert (BL : forall k, k < n - 1 -> block_bytes P f k = block_bytes P f0 k) by (intros k K; apply (inside f f0 _ _ _ PRE); rewrite BPL; nia).
    assert (LC2 : long_choice H pr P n (H (block_bytes P f0 (n - 1 - 1))) (n - 1) bs').
    { destruct (Nat.eq_dec n 1) as [N1|N1]; [|rewrite <- BL by lia; exact LC'].
      unfold long_choice in *. replace (n - 1) with 0 in * by lia. exact LC'. }
    destruct (long_choice_fun H pr P key n m SET _ _ _ _ NL LC LC2) as [<- _].
    assert (SC2 : short_choice H pr P n m (unit_bytes P f0 ((n - 1) * m + (m - 1 - 1))) (m - 1) us').
    { destruct (Nat.eq_dec m 1) as [M1|M1]; [|rewrite <- UN by nia; exact SC'].
      unfold short_choice in *. replace (m - 1) with 0 in * by lia. exact SC'. }
    destruct (short_choice_fun H pr P key n m SET _ _ _ _ ML1 SC SC2) as [<- _].
    assert (A1 : map (fun b => unit_bytes P f (b * m + (m - 1))) bs = map (fun b => unit_bytes P f0 (b * m + (m - 1))) bs).
    { apply map_ext_in. intros b IB. rewrite Forall_forall in BB. specialize (BB b IB). apply UN. nia. }
    assert (A2 : map (fun i => unit_bytes P f ((n - 1) * m + i)) us = map (fun i => unit_bytes P f0 ((n - 1) * m + i)) us).
    { apply map_ext_in. intros i II. rewrite Forall_forall in UU. specialize (UU i II). apply UN. nia. }
    assert (A3 : chained H P iv f (n - 1) (m - 1) = chained H P iv f0 (n - 1) (m - 1)).
    { unfold chained. destruct (m - 1 =? 0); [|reflexivity]. destruct (Nat.eqb_spec (n - 1) 0); [reflexivity|]. rewrite BL by lia. reflexivity. }
    rewrite A1, A2, A3 in W. exact W.
Qed.
Definition prefix_nums (c : file) : list Z := map (fun x => le2z (unit_bytes P c x)) (seq 0 (n * m - 1)).
Theorem unchanged_count L : NoDup L -> (forall f, In f L -> unchanged f) -> (Z.of_nat (length L) <= key ^ Z.of_nat (n * m - 1) * 4 ^ Z.of_nat (vde_rounds P))%Z.
Proof using SET SK R N0 M0 D1.
  intros ND HL. pose proof bpl_upl as BPL. pose proof (k1 _ _ _ _ _ _ SET) as K1.
  assert (dec : forall a b : file, {a = b} + {a <> b}) by (apply list_eq_dec, Byte.byte_eq_dec).
  apply (Z.le_trans _ (Z.of_nat (length (nodup dec (map before_last L))) * 4 ^ Z.of_nat (vde_rounds P))).
  - apply (count_fibres dec before_last); [apply Z.pow_nonneg; lia|exact ND| |].
    + intros f I. apply nodup_In. now apply in_map.
    + intros c M NM HM. pose proof (same_last M NM c) as B. change 4%Z with (Z.of_nat 4). rewrite <- Nat2Z.inj_pow. apply inj_le, B.
      intros f I. destruct (HM f I) as [I' E]. split; [now apply HL|exact E].
  - apply Z.mul_le_mono_nonneg_r; [apply Z.pow_nonneg; lia|]. set (Q := nodup dec (map before_last L)).
    assert (HQ : forall c, In c Q -> exists f, In f L /\ before_last f = c) by (intros c I; apply nodup_In in I; apply in_map_iff in I as (f & E & I); eauto).
    assert (LQ : forall c, In c Q -> length c = (n * m - 1) * upl).
    { intros c I. destruct (HQ c I) as (f & IF & <-). destruct (HL f IF) as ((LF & _) & _). unfold before_last. rewrite firstn_length, LF, BPL. apply Nat.min_l. nia. }
    rewrite <- (map_length prefix_nums Q). apply count_vectors; [lia| |].
    + apply nodup_map; [apply NoDup_nodup|]. intros a b IA IB E. apply (pieces_ext upl (n * m - 1) a b (LQ a IA) (LQ b IB)). intros x X. apply le2z_inj.
      * rewrite !firstn_length, !skipn_length, (LQ a IA), (LQ b IB). reflexivity.
      * unfold prefix_nums in E. assert (N : nth_error (map (fun x => le2z (unit_bytes P a x)) (seq 0 (n * m - 1))) x = nth_error (map (fun x => le2z (unit_bytes P b x)) (seq 0 (n * m - 1))) x) by now rewrite E.
        rewrite !nth_error_map in N. rewrite (nth_error_nth' _ 0) in N by (rewrite seq_length; exact X). rewrite seq_nth in N by exact X. cbn [option_map] in N. injection N as N. exact N.
    + intros v I. apply in_map_iff in I as (c & <- & I). destruct (HQ c I) as (f & IF & <-). destruct (HL f IF) as ((LF & SF) & _). unfold prefix_nums. split; [now rewrite map_length, seq_length|].
      apply Forall_forall. intros z IZ. apply in_map_iff in IZ as (x & <- & IX). apply in_seq in IX.
      replace (unit_bytes P (before_last f) x) with (unit_bytes P f x).
      * split; [apply le2z_nonneg|]. apply SF. lia.
      * apply (inside _ _ ((n * m - 1) * upl)); [unfold before_last; rewrite firstn_firstn; f_equal; lia|nia].
Qed.
End Unchanged.
