(** Proofs for property C124: unsealing with another number of delay rounds than sealing. *)
From Coq Require Import Znumtheory Lia.
From Verif Require Import Base Sloth Common Depend Prover Verifier SlothFacts BytesFacts CommonFacts SealSpec SealCore SealFile SealTop SealZero SealVerify SealMeaning
  PostorageFacts OntoFacts PropOnto PropSeal FixedFacts SealRareFacts.
Local Open Scope nat_scope.

(** The same parameters with t rounds of the delay function per step (postorage.rs 27-55, field
    vde_rounds). *)
Definition with_delay (P : PosPara) (t : nat) : PosPara :=
  mkPosPara (data_l P) (unit_l P) (block_l P) (big_block_l P) (unit_pl P) (block_pl P) (big_block_pl P)
            (seal_rounds P) t (vde_mode P) (mode_l P) (cnt_l P) (mode_s P) (cnt_s P) (leaves_to_prove_count P).

Lemma setting_delay H pr P key n m t : setting H pr P key n m -> setting H pr (with_delay P t) key n m.
Proof. intros [A [B1 B2 B3 B4] C D E]. split; [exact A|split; assumption|exact C|exact D|exact E]. Qed.

(** * Words *)
Fixpoint words {A} (S : list A) (N : nat) : list (list A) :=
  match N with O => [[]] | Datatypes.S N' => flat_map (fun a => map (cons a) (words S N')) S end.
Lemma words_length {A} (S : list A) N : length (words S N) = length S ^ N.
Proof.
  induction N as [|N IH]; [reflexivity|]. cbn [words]. rewrite Nat.pow_succ_r', <- IH. generalize (words S N) as W. clear IH. intros W.
  induction S as [|a S IS]; [reflexivity|]. cbn [flat_map length]. rewrite app_length, map_length. lia.
Qed.
Lemma words_In {A} (S : list A) N : forall v, length v = N -> Forall (fun a => In a S) v -> In v (words S N).
Proof.
  induction N as [|N IH]; intros v L F; [destruct v; [now left|discriminate]|]. destruct v as [|a v]; [discriminate|]. injection L as L. apply Forall_cons_iff in F as [IA F].
  cbn [words]. apply in_flat_map. exists a. split; [exact IA|]. apply in_map. now apply IH.
Qed.
Lemma count_words {A} (S : list A) N L : NoDup L -> (forall v, In v L -> length v = N /\ Forall (fun a => In a S) v) -> length L <= length S ^ N.
Proof. intros ND HL. rewrite <- words_length. apply NoDup_incl_length; [exact ND|]. intros v I. destruct (HL v I). now apply words_In. Qed.

Lemma pieces_ext u N : forall F G : file, length F = N * u -> length G = N * u ->
  (forall x, x < N -> firstn u (skipn (x * u) F) = firstn u (skipn (x * u) G)) -> F = G.
Proof.
  induction N as [|N IH]; intros F G LF LG E.
  - destruct F; [destruct G; [reflexivity|discriminate]|discriminate].
  - rewrite <- (firstn_skipn u F), <- (firstn_skipn u G). f_equal; [exact (E 0 ltac:(lia))|]. apply IH; [rewrite skipn_length; lia|rewrite skipn_length; lia|].
    intros x X. specialize (E (S x) ltac:(lia)). cbn [Nat.mul] in E. now rewrite !skipn_skipn'.
Qed.

Lemma one_round_states H pr key iv n m p f F k U : seal_rounds p = 1 -> seals_block H pr p key iv n m f F k U ->
  forall q, q <= m -> forall i, i < m -> U q i = unit_bytes p (if i <? q then F else f) (k * m + i).
Proof.
  intros R (U0 & UE & US). rewrite R, Nat.mul_1_l in *.
  assert (NU : forall q, q < m -> forall i, i < m -> i <> q -> U (S q) i = U q i).
  { intros q Q i I N. destruct (US q Q) as (bs & us & _ & _ & _ & _ & NU). rewrite Nat.mod_small in NU by exact Q. now apply NU. }
  intros q Q i I. destruct (Nat.ltb_spec i q) as [L|L].
  - rewrite <- UE by exact I. assert (X : forall d, q + d <= m -> U (q + d) i = U q i).
    { induction d as [|d IH]; intros B; [now rewrite Nat.add_0_r|]. rewrite Nat.add_succ_r, NU by lia. apply IH. lia. }
    replace m with (q + (m - q)) at 1 by lia. symmetry. apply X. lia.
  - rewrite <- U0 by exact I. revert L. induction q as [|q IH]; intros L; [reflexivity|]. rewrite NU by lia. apply IH; lia.
Qed.

Section Rounds.
Context (H : list byte -> list byte) (pr : profile) (P : PosPara) (key : Z) (iv : list byte) (n m : nat).
Hypothesis SET : setting H pr P key n m.
Hypothesis SK : sound_key H key.
Hypothesis ML : mode_l P = 0.
Context (t' : nat).
Notation P' := (with_delay P t').
Notation T := (seal_rounds P * m).
Let SET' : setting H pr P' key n m := setting_delay H pr P key n m t' SET.

(** If the two numbers of rounds agree on everything the delay function was applied to, the
    file comes back. *)
Theorem agree_back f st : sealable P key n m f -> seal H pr P key iv f = Ok st -> ~ In 0%Z (s_log st) ->
  (forall z, In z (s_log st) -> sloth z key t' = sloth z key (vde_rounds P)) -> unseal H pr P' key iv (s_file st) = Ok f.
Proof using SET SK ML.
  intros SE E NZ AG. destruct (log_masks H pr P key iv n m SET f st SE E) as (U & M & SM & LM).
  destruct (seal_total H pr P key iv n m SET f SE) as (st0 & E0 & LS & TS & _). rewrite E in E0. injection E0 as <-.
  assert (SM' : forall k, k < n -> seals_masked H pr P' key iv n m f (s_file st) k (U k) (M k)).
  { intros k KN. destruct (SM k KN) as ((U0 & UE & US) & MS). split; [|exact MS]. split; [exact U0|]. split; [exact UE|].
    intros q Q. destruct (US q Q) as (bs & us & LC & SC & LU & EU & NU). destruct (MS q Q) as (bs' & us' & LC' & SC' & EM). cbv zeta in *.
    assert (M0 : m <> 0) by (intros ->; cbn in Q; lia). pose proof (Nat.mod_upper_bound q m M0) as QM.
    destruct (long_choice_fun H pr P key n m SET _ _ _ _ KN LC LC') as [<- _]. destruct (short_choice_fun H pr P key n m SET _ _ _ _ QM SC SC') as [<- _].
    exists bs, us. split; [exact LC|]. split; [exact SC|]. split; [exact LU|]. split; [|exact NU].
    rewrite EU. f_equal. cbn [vde_rounds with_delay]. unfold unit_bytes, chained, block_bytes in *. cbn [unit_pl block_pl with_delay]. rewrite <- EM. symmetry. apply AG. apply LM. eauto. }
  apply (unseal_iff H pr P' key iv n m SET').
  - exact (sound_lt H pr P' key n m SET' SK).
  - cbn [block_pl with_delay]. rewrite LS. apply SE.
  - cbn [block_pl with_delay]. split; [now symmetry|]. split; [now symmetry|]. exists (fun k q => U k (T - q)). intros k KN.
    apply (block_back H pr P' key iv n m SET' SK ML f (s_file st) k (U k) (M k) KN SE (SM' k KN)).
    intros q Q Z0. apply NZ, LM. exists k, q. split; [exact KN|]. split; [exact Q|]. now symmetry.
Qed.

(** With one round of sealing the converse holds as well. *)
Theorem back_agree f st : seal_rounds P = 1 -> sealable P key n m f -> seal H pr P key iv f = Ok st -> ~ In 0%Z (s_log st) ->
  unseal H pr P' key iv (s_file st) = Ok f -> forall z, In z (s_log st) -> sloth z key t' = sloth z key (vde_rounds P).
Proof using SET SK ML.
  intros R SE E NZ UN. destruct (log_masks H pr P key iv n m SET f st SE E) as (U & M & SM & LM).
  destruct (seal_total H pr P key iv n m SET f SE) as (st0 & E0 & LS & TS & _). rewrite E in E0. injection E0 as <-.
  pose proof (sound_lt H pr P' key n m SET' SK) as KB.
  assert (LF : n * block_pl P' <= length (s_file st)) by (cbn [block_pl with_delay]; rewrite LS; apply SE).
  destruct (proj1 (unseal_iff H pr P' key iv n m SET' (s_file st) f KB LF) UN) as (_ & _ & V & SV).
  pose proof (proj1 (C109_one_round H pr P key iv n m SET SK R (s_file st) LF) (onto_forth H pr P key iv n m SET SK ML f st SE E NZ)) as RG.
  intros z IZ. apply LM in IZ as (k & q & KN & Q & ->). rewrite R, Nat.mul_1_l in Q.
  set (F := s_file st) in *.
  assert (KEEP : forall s, s < m -> V k s (m - 1 - s) = unit_bytes P F (k * m + (m - 1 - s))).
  { intros s SM'. destruct (SV k KN) as (V0 & VE & VS). transitivity (V k 0 (m - 1 - s)); [|apply V0; lia]. change (seal_rounds P') with (seal_rounds P) in VS. rewrite R, Nat.mul_1_l in VS.
    assert (X : forall r, r <= s -> V k r (m - 1 - s) = V k 0 (m - 1 - s)); [|now apply X]. induction r as [|r IH]; intros L; [reflexivity|].
    destruct (VS r ltac:(lia)) as (bs & us & _ & _ & _ & _ & NU). rewrite Nat.mod_small in NU by lia. rewrite NU by lia. apply IH. lia. }
  assert (SM' : seals_masked H pr P' key iv n m f F k (fun s => V k (T - s)) (fun s => sloth_inv (le2z (V k (T - S s) (s mod m))) key t')).
  { apply (block_forth H pr P' key iv n m SET' SK ML F f k (V k) KN LF (SV k KN)). change (seal_rounds P') with (seal_rounds P). rewrite R, Nat.mul_1_l. intros s SL.
    rewrite (Nat.mod_small s) by exact SL. rewrite KEEP by exact SL. apply RG. nia. }
  destruct (SM k KN) as (SB & MS). destruct SM' as (SB' & MS').
  pose proof (one_round_states H pr key iv n m P f F k (U k) R SB) as ST. pose proof (one_round_states H pr key iv n m P' f F k _ R SB') as ST'. cbv beta in ST'.
  destruct SB as (U0 & UE & US). clear U0 UE. change (seal_rounds P') with (seal_rounds P) in MS'. rewrite R, Nat.mul_1_l in *.
  assert (SAME : forall i, i < m -> U k q i = V k (m - q) i) by (intros i I; rewrite ST, ST' by lia; reflexivity).
  destruct (US q Q) as (bs & us & LC & SC & LU & EU & NU). destruct (MS q Q) as (bs1 & us1 & LC1 & SC1 & EM). destruct (MS' q Q) as (bs2 & us2 & LC2 & SC2 & EM').
  cbv zeta in *. rewrite (Nat.mod_small q) in * by exact Q.
  destruct (long_choice_fun H pr P key n m SET _ _ _ _ KN LC LC1) as [<- _]. destruct (short_choice_fun H pr P key n m SET _ _ _ _ Q SC SC1) as [<- UM].
  destruct (long_choice_fun H pr P key n m SET _ _ _ _ KN LC LC2) as [<- _]. rewrite <- SAME in SC2 by lia. destruct (short_choice_fun H pr P key n m SET _ _ _ _ Q SC SC2) as [<- _].
  assert (EE : M k q = sloth_inv (le2z (V k (m - S q) q)) key t').
  { rewrite EM, EM', <- SAME by exact Q. do 4 f_equal. f_equal. f_equal. f_equal. apply map_ext_in. intros x I. rewrite Forall_forall in UM. apply SAME, UM, I. }
  replace q with (m - 1 - (m - S q)) in EE at 3 by lia. rewrite KEEP in EE by lia. replace (m - 1 - (m - S q)) with q in EE by lia.
  assert (RQ : (1 <= le2z (unit_bytes P F (k * m + q)) <= key - 1)%Z) by (apply RG; nia).
  destruct SK as [PK P4 _]. rewrite <- EM in EU.
  assert (EU' : le2z (unit_bytes P F (k * m + q)) = sloth (M k q) key (vde_rounds P)).
  { pose proof (ST (S q) ltac:(lia) q Q) as X. rewrite (proj2 (Nat.ltb_lt q (S q))) in X by lia. rewrite <- X, EU. apply Z.abs_eq.
    assert (1 <= M k q <= key - 1)%Z by (rewrite EE; now apply sloth_inv_range). pose proof (sloth_range key PK P4 (vde_rounds P) (M k q)). lia. }
  rewrite <- EU', EE. now apply sloth_round_trip'.
Qed.
End Rounds.
