(** Which bytes sealing computes: the equations between the original file f and the
    sealed file F, and the content of an honest response.  The definitions up to the
    section describe them without the loops of prover.rs and verifier.rs. *)
From Verif Require Import Base Legendre Sloth Common Depend Prover Verifier NumTheory SlothFacts BytesFacts
  DependSpec DependFacts DependDet VdeFacts SealSpec SealCore SealFile SealTop SealZero VerifierFacts SealVerify.
Local Open Scope nat_scope.

(** The blocks block k depends on; [id] is the hash of the sealed block before it. *)
Definition long_choice (H : list byte -> list byte) (pr : profile) (params : PosPara) (n : nat) (id : list byte) (k : nat) (bs : list nat) : Prop :=
  match mode_l params with
  | 0 => if k =? 0 then bs = [] else long_mode_random H n id k (if cnt_l params =? 0 then k / 10 + 1 else cnt_l params) = Ok bs
  | _ => long_depend pr k (cnt_l params) (mode_l params) = Ok bs
  end.
(** The units of the same block unit i depends on; [prev] is the current content of
    the unit before it. *)
Definition short_choice (H : list byte -> list byte) (pr : profile) (params : PosPara) (n m : nat) (prev : list byte) (i : nat) (us : list nat) : Prop :=
  match mode_s params with
  | 0 => short_depend_random H m (if i =? 0 then [] else prev) i (cnt_s params) = Ok us
  | _ => short_depend pr n i (cnt_s params) (mode_s params) = Ok us
  end.
(** What is chained into the first unit of block k. *)
Definition chained (H : list byte -> list byte) (params : PosPara) (iv : list byte) (F : file) (k i : nat) : list byte :=
  if i =? 0 then if k =? 0 then iv else H (block_bytes params F (k - 1)) else [].

(** [U t i] is the content of unit i of block k after t unit steps: it starts as the
    original block and ends as the sealed block; step t rewrites unit t mod m only, from
    the data of the long dependencies (sealed blocks), of the short dependencies (units
    of the block as they are at that moment) and of the chain. *)
Definition seals_block (H : list byte -> list byte) (pr : profile) (params : PosPara) (key : Z) (iv : list byte) (n m : nat)
           (f F : file) (k : nat) (U : nat -> nat -> list byte) : Prop :=
  (forall i, i < m -> U 0 i = unit_bytes params f (k * m + i)) /\
  (forall i, i < m -> U (seal_rounds params * m) i = unit_bytes params F (k * m + i)) /\
  forall t, t < seal_rounds params * m ->
    let i := t mod m in
    exists blocks units,
      long_choice H pr params n (H (block_bytes params F (k - 1))) k blocks /\
      short_choice H pr params n m (U t (i - 1)) i units /\
      let data := concat (map (fun b => unit_bytes params F (b * m + i)) blocks)
                    ++ concat (map (U t) units) ++ chained H params iv F k i in
      length (U (S t) i) = unit_pl params /\
      le2z (U (S t) i) = Z.abs (sloth ((le2z (U t i) + le2z (H data)) mod key) key (vde_rounds params)) /\
      forall j, j < m -> j <> i -> U (S t) j = U t j.

(** The blocks unsealing reads for block k: the same ones with random dependencies; with
    a deterministic rule as many as the rule lists, but always the blocks 0, 1, 2, ... *)
Definition unseal_choice (H : list byte -> list byte) (pr : profile) (params : PosPara) (n : nat) (id : list byte) (k : nat) (bs : list nat) : Prop :=
  match mode_l params with
  | 0 => long_choice H pr params n id k bs
  | _ => exists row, long_choice H pr params n id k row /\ bs = seq 0 (length row)
  end.
(** Unsealing, for an arbitrary file F: block k of the result comes from F alone.  It
    starts as the stored block; step t rewrites the unit m - 1 - (t mod m). *)
Definition unseals_block (H : list byte -> list byte) (pr : profile) (params : PosPara) (key : Z) (iv : list byte) (n m : nat)
           (F G : file) (k : nat) (U : nat -> nat -> list byte) : Prop :=
  (forall i, i < m -> U 0 i = unit_bytes params F (k * m + i)) /\
  (forall i, i < m -> U (seal_rounds params * m) i = unit_bytes params G (k * m + i)) /\
  forall t, t < seal_rounds params * m ->
    let i := m - 1 - t mod m in
    exists blocks units,
      unseal_choice H pr params n (H (block_bytes params F (k - 1))) k blocks /\
      short_choice H pr params n m (U t (i - 1)) i units /\
      let data := concat (map (fun b => unit_bytes params F (b * m + i)) blocks)
                    ++ concat (map (U t) units) ++ chained H params iv F k i in
      length (U (S t) i) = unit_pl params /\
      le2z (U (S t) i) = ((Z.abs (sloth_inv (le2z (U t i)) key (vde_rounds params)) - le2z (H data)) mod key)%Z /\
      forall j, j < m -> j <> i -> U (S t) j = U t j.

(** What the prover sends for block k: its stored units, the hash of the stored block
    before it and the stored units of the blocks it depends on. *)
Definition honest_response (H : list byte -> list byte) (params : PosPara) (m : nat) (F : file) (k : nat) (blocks : list nat)
  : list (list byte) * list byte * list (list (list byte)) :=
  (block_units params m F k, if k =? 0 then [] else H (block_bytes params F (k - 1)), map (block_units params m F) blocks).

Section Meaning.
Context (H : list byte -> list byte) (pr : profile) (params : PosPara) (key : Z) (iv : list byte) (n m : nat).
Hypothesis SET : setting H pr params key n m.
Notation upl := (unit_pl params).
Notation bpl := (block_pl params).

Lemma nth_concat_repeat {A} (l : list A) r t d : t < r * length l -> nth t (concat (repeat l r)) d = nth (t mod length l) l d.
Proof.
  revert t. induction r as [|r IH]; intros t L; [cbn in L; lia|]. cbn [repeat concat].
  assert (length l <> 0) by (intros E; rewrite E in L; lia).
  destruct (Nat.lt_ge_cases t (length l)) as [C|C].
  - rewrite app_nth1 by exact C. now rewrite Nat.mod_small.
  - rewrite app_nth2 by exact C. rewrite IH by (cbn in L; lia). f_equal.
    replace t with ((t - length l) + 1 * length l) at 2 by lia. now rewrite Nat.mod_add.
Qed.
Lemma foldM_snoc {A St} (g : St -> A -> res St) l a s : foldM g (l ++ [a]) s = let* s' := foldM g l s in g s' a.
Proof. revert s. induction l as [|x l IH]; intros s; cbn [app foldM bind]; [now destruct (g s a)|]. destruct (g s x); cbn [bind]; [apply IH|reflexivity]. Qed.
Lemma foldM_app_ok {A St} (g : St -> A -> res St) l1 l2 s s' : foldM g (l1 ++ l2) s = Ok s' -> exists s1, foldM g l1 s = Ok s1 /\ foldM g l2 s1 = Ok s'.
Proof. revert s. induction l1 as [|x l IH]; intros s; cbn [app foldM]; [eauto|]. destruct (g s x); cbn [bind]; [apply IH|discriminate]. Qed.

Lemma mapM_nth {A B} (f : A -> res B) l : forall t0, mapM f l = Ok t0 -> forall i a, nth_error l i = Some a -> exists b, nth_error t0 i = Some b /\ f a = Ok b.
Proof.
  induction l as [|x l IH]; intros t0 M i a NE; [now destruct i|]. cbn in M. destruct (f x) eqn:FX; [|discriminate]. cbn [bind] in M.
  destruct (mapM f l) eqn:ML; [|discriminate]. cbn [bind] in M. injection M as <-. destruct i as [|i]; cbn in *; [injection NE as <-; eauto|eapply IH; eauto].
Qed.
Lemma mapM_len {A B} (f : A -> res B) l : forall t0, mapM f l = Ok t0 -> length t0 = length l.
Proof.
  induction l as [|x l IH]; intros t0 M; cbn in M; [now injection M as <-|]. destruct (f x); [|discriminate]. cbn [bind] in M.
  destruct (mapM f l) eqn:E; [|discriminate]. cbn [bind] in M. injection M as <-. cbn. f_equal. now apply IH.
Qed.

(** The state after t steps. *)
Definition stage {A St} (g : St -> A -> res St) (l : list A) (s : St) (t : nat) : St :=
  match foldM g (firstn t l) s with Ok s' => s' | Panic => s end.
Lemma stage_step {A St} (g : St -> A -> res St) l s s' d t : foldM g l s = Ok s' -> t < length l ->
  g (stage g l s t) (nth t l d) = Ok (stage g l s (S t)).
Proof.
  intros E L. assert (X : firstn (S t) l = firstn t l ++ [nth t l d]).
  { clear E. revert t L. induction l as [|a l IH]; intros [|t] L; cbn in *; try lia; [reflexivity|]. rewrite <- IH by lia. reflexivity. }
  rewrite <- (firstn_skipn (S t) l) in E. apply foldM_app_ok in E as (s1 & E1 & _). unfold stage. rewrite E1. rewrite X, foldM_snoc in E1. destruct (foldM g (firstn t l) s); [exact E1|discriminate].
Qed.
Lemma stage_0 {A St} (g : St -> A -> res St) l s : stage g l s 0 = s. Proof. reflexivity. Qed.
Lemma stage_end {A St} (g : St -> A -> res St) l s s' : foldM g l s = Ok s' -> stage g l s (length l) = s'.
Proof. intros E. unfold stage. now rewrite firstn_all, E. Qed.

Lemma gather_value (bs : list (list (list byte))) i acc r :
  foldM (fun acc b => let* u := index b i in Ok (acc ++ u)) bs acc = Ok r -> r = acc ++ concat (map (fun b => nth i b []) bs).
Proof.
  revert acc. induction bs as [|b bs IH]; intros acc; cbn [foldM map concat]; [intros E; injection E as <-; now rewrite app_nil_r|].
  unfold index at 1. destruct (nth_error b i) eqn:N; [|discriminate]. cbn [bind]. intros E. apply IH in E. rewrite E, <- app_assoc. now rewrite (nth_error_nth _ _ _ N).
Qed.
Lemma gather_short_value (cur : list (list byte)) us acc r :
  foldM (fun acc i => let* u := index cur i in Ok (acc ++ u)) us acc = Ok r -> r = acc ++ concat (map (fun i => nth i cur []) us).
Proof.
  revert acc. induction us as [|b us IH]; intros acc; cbn [foldM map concat]; [intros E; injection E as <-; now rewrite app_nil_r|].
  unfold index at 1. destruct (nth_error cur b) eqn:N; [|discriminate]. cbn [bind]. intros E. apply IH in E. rewrite E, <- app_assoc. now rewrite (nth_error_nth _ _ _ N).
Qed.
Lemma upd_nth {A} (l : list A) i v j d : i < length l -> nth j (upd l i v) d = if j =? i then v else nth j l d.
Proof. revert i j. induction l as [|a l IH]; intros [|i] [|j] L; cbn in *; try lia; try reflexivity. apply IH. lia. Qed.

(** The dependency blocks of Dfun are the units of the chosen blocks. *)
Lemma Dfun_choice t F k deps : tabl pr params n m t -> k < n -> n * bpl <= length F -> Dfun H params (fst t) n F k = Ok deps ->
  exists bs, long_choice H pr params n (H (block_bytes params F (k - 1))) k bs /\ Forall (fun b => b < k) bs /\
  deps = map (fun b => block_units params m F b) bs.
Proof.
  intros T KN LF E. pose proof T as (TL & LOK & _ & _).
  assert (HHH : hash_ok H) by exact (hh _ _ _ _ _ _ SET).
  destruct (pick_l_ok H params n m (fst t) HHH (upl_pos _ _ _ _ _ _ SET) (bpl_eq _ _ _ _ _ _ SET) LOK (H (blk params F (k - 1))) k KN) as (is & EI & LT).
  unfold Dfun in E. rewrite EI in E. cbn [bind] in E. exists is. split; [|split; [exact LT|]].
  - unfold long_choice. assert (BB : block_bytes params F (k - 1) = blk params F (k - 1)) by (apply block_bytes_blk; pose proof (Nat.mul_le_mono_r (S (k - 1)) n bpl ltac:(lia)); lia). rewrite BB.
    unfold pick_l in EI. destruct (mode_l params) as [|ml] eqn:ML; cbn [Nat.eqb] in EI.
    + destruct (Nat.eqb_spec k 0); [now injection EI|]. destruct (cnt_l params =? 0); exact EI.
    + unfold seal_idxs_l in TL. rewrite ML in TL. cbn [Nat.eqb negb] in TL. unfold create_long_depend in TL.
      destruct (mapM_nth _ _ _ TL k k) as (b & NB & FB). { rewrite nth_error_nth' with (d := 0) by (rewrite seq_length; lia). now rewrite seq_nth. }
      unfold index in EI. rewrite NB in EI. injection EI as <-. exact FB.
  - assert (Y : forall l, Forall (fun b => b < k) l -> mapM (fun i => read_block params F i) l = Ok (map (fun b => block_units params m F b) l)).
    { induction l as [|b l IH]; intros FA; [reflexivity|]. inversion_clear FA. cbn [mapM map]. rewrite (read_block_ok params m (upl_pos _ _ _ _ _ _ SET) (bpl_eq _ _ _ _ _ _ SET)). rewrite (block_units_chunks H pr params key n m SET) by lia. cbn [bind]. now rewrite IH. }
    rewrite Y in E by exact LT. now injection E.
Qed.
Lemma index_nth_eq {A} (l : list A) i u (d : A) : index l i = Ok u -> nth i l d = u.
Proof. unfold index. destruct (nth_error l i) eqn:E; [|discriminate]. intros X. injection X as <-. now apply nth_error_nth. Qed.
Lemma block_units_nth f k i : i < m -> nth i (block_units params m f k) [] = unit_bytes params f (k * m + i).
Proof. intros L. unfold block_units. rewrite nth_indep with (d' := unit_bytes params f (k * m + 0)) by (rewrite map_length, seq_length; exact L). rewrite (map_nth (fun i => unit_bytes params f (k * m + i))). now rewrite seq_nth. Qed.

(** The data of unit i: long dependencies, short dependencies, chain. *)
Lemma md_data t F k deps bs cur i d : tabl pr params n m t -> k < n -> n * bpl <= length F -> deps = map (fun b => block_units params m F b) bs -> i < m ->
  md H params (snd t) deps (sfx H params iv F k) m cur i = Ok d ->
  exists us, short_choice H pr params n m (nth (i - 1) cur []) i us /\
  d = concat (map (fun b => unit_bytes params F (b * m + i)) bs) ++ concat (map (fun i => nth i cur []) us) ++ chained H params iv F k i.
Proof.
  intros (_ & _ & TS & _) KN LF DE IM ED'.
  unfold md in ED'. destruct (foldM (fun acc b => let* u := index b i in Ok (acc ++ u)) deps []) as [long|] eqn:EL; [|discriminate]. cbn [bind] in ED'. apply gather_value in EL.
  destruct (if negb (mode_s params =? 0) then index (snd t) i else if i =? 0 then short_depend_random H m [] i (cnt_s params) else let* d := index cur (i - 1) in short_depend_random H m d i (cnt_s params)) as [us|] eqn:EUS; [|discriminate]. cbn [bind] in ED'.
  destruct (foldM (fun acc i => let* u := index cur i in Ok (acc ++ u)) us long) as [both|] eqn:EB; [|discriminate]. cbn [bind] in ED'. apply gather_short_value in EB.
  exists us. split.
  - unfold short_choice. destruct (mode_s params) as [|ms] eqn:MS; cbn [Nat.eqb negb] in EUS.
    + destruct (Nat.eqb_spec i 0); [exact EUS|]. destruct (index cur (i - 1)) as [d1|] eqn:E1; [|discriminate]. cbn [bind] in EUS. now rewrite (index_nth_eq _ _ _ _ E1).
    + unfold seal_idxs_s in TS. rewrite MS in TS. cbn [Nat.eqb negb] in TS. unfold create_short_depend in TS.
      assert (LT : length (snd t) = n) by (rewrite (mapM_len _ _ _ TS); apply seq_length).
      unfold index in EUS. destruct (nth_error (snd t) i) as [row|] eqn:NR; [|discriminate]. injection EUS as <-.
      assert (IN : i < n) by (rewrite <- LT; apply nth_error_Some; congruence).
      destruct (mapM_nth _ _ _ TS i i) as (b & NB & FB); [|rewrite NR in NB; injection NB as <-; exact FB]. rewrite nth_error_nth' with (d := 0) by (rewrite seq_length; lia). now rewrite seq_nth.
  - rewrite EL in EB. cbn [app] in EB. rewrite DE, map_map in EB.
    rewrite (map_ext_in (fun x => nth i (block_units params m F x) []) (fun b => unit_bytes params F (b * m + i))) in EB by (intros b _; now apply block_units_nth).
    unfold chained. unfold sfx in ED'. assert (BB : k <> 0 -> block_bytes params F (k - 1) = blk params F (k - 1)) by (intros K0; apply block_bytes_blk; pose proof (Nat.mul_le_mono_r (S (k - 1)) n bpl ltac:(lia)); lia).
    destruct (i =? 0); injection ED' as <-; [|rewrite EB, !app_nil_r; reflexivity]. rewrite EB, <- app_assoc. destruct (Nat.eqb_spec k 0) as [|K0]; [reflexivity|]. now rewrite BB.
Qed.

Theorem seals_block_ok f st : sealable params key n m f -> seal H pr params key iv f = Ok st ->
  exists U, forall k, k < n -> seals_block H pr params key iv n m f (s_file st) k (U k).
Proof.
  intros SE E. destruct (tabl_ex H pr params key n m SET) as (t & T). pose proof (seal_inv H pr params key iv n m SET t f st T SE E) as SU.
  set (F := s_file st) in *. pose proof T as (TL & LOK & TS & SOK).
  assert (LF : n * bpl <= length F) by (unfold F; rewrite (su_len _ _ _ _ _ _ _ _ _ _ _ SU); apply SE).
  assert (LF0 : n * bpl <= length f) by apply SE.
  exists (fun k ti i => nth i (fst (stage (fstep H params key (snd t) (match Dfun H params (fst t) n F k with Ok d => d | Panic => [] end) (sfx H params iv F k) m) (concat (repeat (seq 0 m) (seal_rounds params))) (block_units params m f k, []) ti)) []).
  intros k KN. destruct (su_blocks _ _ _ _ _ _ _ _ _ _ _ SU k KN) as (zs & (deps & ED & B1 & B2 & FR) & _). fold F in ED, B2, FR. rewrite ED.
  rewrite !(block_units_chunks H pr params key n m SET) in * by assumption.
  set (g := fstep H params key (snd t) deps (sfx H params iv F k) m) in *. set (l := concat (repeat (seq 0 m) (seal_rounds params))).
  specialize (FR []). unfold frounds in FR. rewrite foldM_nested in FR. fold g l in FR. rewrite app_nil_r in FR.
  assert (LL : length l = seal_rounds params * m). { unfold l. generalize (seal_rounds params). intros r. induction r; cbn [repeat concat]; [reflexivity|]. rewrite app_length, seq_length, IHr. lia. }
  destruct (Dfun_choice t F k deps T KN LF ED) as (bs & LC & BLT & DE).
  assert (DOK : deps_ok m deps) by (rewrite DE; apply Forall_forall; intros b I; apply in_map_iff in I as (x & <- & _); unfold block_units; now rewrite map_length, seq_length).
  (* every stage is a good block *)
  assert (SB : forall ti, ti <= length l -> block_ok params key m (fst (stage g l (block_units params m f k, []) ti)) ).
  { intros ti L. induction ti as [|ti IH]; [exact B1|]. specialize (IH ltac:(lia)). pose proof (stage_step g l _ _ 0 ti FR ltac:(lia)) as ST.
    destruct (stage g l (block_units params m f k, []) ti) as [cur log] eqn:EC. cbn [fst] in IH.
    assert (IM : nth ti l 0 < m). { unfold l. rewrite nth_concat_repeat by (rewrite seq_length; lia). rewrite seq_length, seq_nth; [|apply Nat.mod_upper_bound]; try (apply Nat.mod_upper_bound); intros M0; rewrite M0, Nat.mul_0_r in LL; lia. }
    destruct (fstep_ok H params key (hh _ _ _ _ _ _ SET) (k1 _ _ _ _ _ _ SET) (k2 _ _ _ _ _ _ SET) (snd t) deps (sfx H params iv F k) m (nth ti l 0) cur SOK DOK IM IH) as (c' & z & B' & FE & _).
    unfold g at 1 in ST. rewrite FE in ST. injection ST as <-. exact B'. }
  split; [|split].
  - intros i IM. rewrite stage_0. cbn [fst]. now apply block_units_nth.
  - intros i IM. rewrite <- LL, (stage_end _ _ _ _ FR). cbn [fst]. now apply block_units_nth.
  - intros ti TLt. rewrite <- LL in TLt. cbv zeta. assert (M0 : m <> 0) by (intros M0; rewrite M0, Nat.mul_0_r in LL; lia).
    pose proof (stage_step g l _ _ 0 ti FR TLt) as ST.
    assert (NI : nth ti l 0 = ti mod m) by (unfold l; rewrite nth_concat_repeat by (rewrite seq_length; lia); rewrite seq_length, seq_nth; [reflexivity|now apply Nat.mod_upper_bound]).
    rewrite NI in ST. pose proof (SB ti ltac:(lia)) as BO. set (i := ti mod m) in *. assert (IM : i < m) by now apply Nat.mod_upper_bound.
    destruct (stage g l (block_units params m f k, []) ti) as [cur log] eqn:EC. cbn [fst] in BO |- *. destruct BO as [LC' FC].
    unfold g at 1 in ST. unfold fstep in ST. destruct (md H params (snd t) deps (sfx H params iv F k) m cur i) as [d|] eqn:ED'; [|discriminate]. cbn [bind] in ST.
    destruct (index cur i) as [u|] eqn:EU; [|discriminate]. cbn [bind] in ST.
    assert (UO : unit_ok params key u) by (rewrite Forall_forall in FC; apply FC; eapply index_In; exact EU). destruct UO as [LU BU].
    destruct (modadd_ok u (H d) key (k1 _ _ _ _ _ _ SET) ltac:(rewrite LU; exact (k2 _ _ _ _ _ _ SET))) as (a & EA & LA & VA). rewrite EA in ST. cbn [bind] in ST.
    rewrite set_index_ok in ST by lia. cbn [bind] in ST. injection ST as ST. rewrite <- ST. cbn [fst].
    destruct (md_data t F k deps bs cur i d T KN LF DE IM ED') as (us & SC & DD).
    exists bs, us. split; [exact LC|]. split; [exact SC|].
    set (data := concat (map (fun b => unit_bytes params F (b * m + i)) bs) ++ concat (map (fun i => nth i cur []) us) ++ chained H params iv F k i) in *.
    rewrite upd_nth by lia. rewrite Nat.eqb_refl. rewrite (index_nth_eq _ _ _ _ EU).
      pose proof (le2z_nonneg u). pose proof (le2z_nonneg (H d)). pose proof (k1 _ _ _ _ _ _ SET).
      split; [|split].
      * apply vde_len; [lia| |exact (k2 _ _ _ _ _ _ SET)]. rewrite VA. apply Z.mod_pos_bound. lia.
      * rewrite vde_val, VA, DD. reflexivity.
      * intros j JM JI. rewrite upd_nth by lia. now destruct (Nat.eqb_spec j i).
Qed.

(** * The equations determine the sealed file *)
Lemma long_choice_fun id k bs bs' : k < n -> long_choice H pr params n id k bs -> long_choice H pr params n id k bs' ->
  bs = bs' /\ Forall (fun b => b < k) bs.
Proof.
  unfold long_choice. intros KN A B. destruct (mode_l params) as [|ml] eqn:ML.
  - destruct (Nat.eqb_spec k 0); [subst; auto|]. split; [congruence|]. apply long_mode_random_props in A. tauto.
  - split; [congruence|]. destruct (long_depend_ok pr params n k (set_long _ _ _ _ _ _ SET) KN ltac:(lia)) as (row & R & FR). rewrite ML in R. congruence.
Qed.
Lemma short_choice_fun prev i us us' : i < m -> short_choice H pr params n m prev i us -> short_choice H pr params n m prev i us' ->
  us = us' /\ Forall (fun x => x < m) us.
Proof.
  unfold short_choice. intros IM A B. destruct (mode_s params) as [|ms] eqn:MS.
  - split; [congruence|]. apply short_depend_random_props in A as (_ & FA & _). eapply Forall_impl; [|exact FA]. cbn. tauto.
  - split; [congruence|]. destruct (short_depend_ok pr params n m i (set_short _ _ _ _ _ _ SET) IM ltac:(lia)) as (_ & row & R & FR). rewrite MS in R. rewrite R in A. injection A as <-. eapply Forall_impl; [|exact FR]. cbn. tauto.
Qed.
Lemma block_of_units F G k : n * bpl <= length F -> n * bpl <= length G -> k < n ->
  (forall i, i < m -> unit_bytes params F (k * m + i) = unit_bytes params G (k * m + i)) -> block_bytes params F k = block_bytes params G k.
Proof.
  intros LF LG KN E. pose proof (Nat.mul_le_mono_r (S k) n bpl KN) as LK. rewrite !block_bytes_blk by lia.
  rewrite <- (com_chunks params m (bpl_eq _ _ _ _ _ _ SET) F k), <- (com_chunks params m (bpl_eq _ _ _ _ _ _ SET) G k). f_equal.
  rewrite !(block_units_chunks H pr params key n m SET) by assumption. unfold block_units. apply map_ext_in. intros i I. apply in_seq in I. apply E. lia.
Qed.
Lemma units_of_block F G k : n * bpl <= length F -> n * bpl <= length G -> k < n -> block_bytes params F k = block_bytes params G k ->
  forall i, i < m -> unit_bytes params F (k * m + i) = unit_bytes params G (k * m + i).
Proof.
  intros LF LG KN E i IM. pose proof (Nat.mul_le_mono_r (S k) n bpl KN) as LK. rewrite !block_bytes_blk in E by lia.
  rewrite <- !block_units_nth by exact IM. rewrite <- !(block_units_chunks H pr params key n m SET) by assumption. now rewrite E.
Qed.
Lemma seals_block_unique f F G k U V : k < n -> n * bpl <= length F -> n * bpl <= length G ->
  (forall b, b < k -> block_bytes params F b = block_bytes params G b) ->
  seals_block H pr params key iv n m f F k U -> seals_block H pr params key iv n m f G k V ->
  block_bytes params F k = block_bytes params G k.
Proof.
  intros KN LF LG EB (U0 & UE & US) (V0 & VE & VS).
  assert (X : forall t, t <= seal_rounds params * m -> forall i, i < m -> U t i = V t i).
  { induction t as [|t IH]; intros L i IM; [rewrite U0, V0 by exact IM; reflexivity|]. specialize (IH ltac:(lia)).
    assert (M0 : m <> 0) by lia. pose proof (Nat.mod_upper_bound t m M0) as TM. destruct (US t ltac:(lia)) as (bs & us & LC & SC & LU & EU & NU). destruct (VS t ltac:(lia)) as (bs' & us' & LC' & SC' & LV & EV & NV).
    set (j := t mod m) in *. destruct (Nat.eq_dec i j) as [->|NE]; [|rewrite NU, NV by assumption; now apply IH].
    assert (ID : k = 0 \/ H (block_bytes params F (k - 1)) = H (block_bytes params G (k - 1))) by (destruct (Nat.eq_dec k 0); [now left|right; rewrite EB by lia; reflexivity]).
    assert (LCF : long_choice H pr params n (H (block_bytes params F (k - 1))) k bs').
    { destruct ID as [->|ID1]; [|rewrite ID1; exact LC']. unfold long_choice in *. destruct (mode_l params); exact LC'. }
    destruct (long_choice_fun _ _ _ _ KN LC LCF) as [<- BK].
    rewrite (IH (j - 1)) in SC by lia.
    destruct (short_choice_fun _ _ _ _ TM SC SC') as [<- UM].
    apply le2z_inj; [congruence|]. rewrite EU, EV. rewrite (IH j) by exact TM.
    assert (D1 : map (fun b => unit_bytes params F (b * m + j)) bs = map (fun b => unit_bytes params G (b * m + j)) bs).
    { apply map_ext_in. intros b I. rewrite Forall_forall in BK. specialize (BK b I). cbn in BK. apply units_of_block; try assumption; [lia|]. now apply EB. }
    assert (D2 : map (U t) us = map (V t) us) by (apply map_ext_in; intros u I; rewrite Forall_forall in UM; apply IH, UM, I).
    assert (D3 : chained H params iv F k j = chained H params iv G k j).
    { unfold chained. destruct (j =? 0); [|reflexivity]. destruct (Nat.eqb_spec k 0); [reflexivity|]. destruct ID; [lia|assumption]. }
    now rewrite D1, D2, D3. }
  apply block_of_units; try assumption. intros i IM. rewrite <- UE, <- VE by exact IM. apply X; [lia|exact IM].
Qed.

Theorem seal_iff f F : sealable params key n m f ->
  (exists st, seal H pr params key iv f = Ok st /\ s_file st = F) <->
  (length F = length f /\ skipn (n * bpl) F = skipn (n * bpl) f /\
   exists U, forall k, k < n -> seals_block H pr params key iv n m f F k (U k)).
Proof.
  intros SE. destruct (seal_total H pr params key iv n m SET f SE) as (st & E & LS & TS & _ & _).
  destruct (seals_block_ok f st SE E) as (U & SU). split.
  - intros (st' & E' & <-). rewrite E in E'. injection E' as <-. eauto.
  - intros (LF & TF & V & SV). exists st. split; [exact E|]. pose proof (proj1 SE) as LEN.
    assert (X : forall k, k < n -> block_bytes params (s_file st) k = block_bytes params F k).
    { intros k. induction k as [k IH] using (well_founded_induction Nat.lt_wf_0). intros KN.
      apply (seals_block_unique f _ _ k (U k) (V k) KN); [lia|lia| |auto|auto]. intros b BK. apply IH; lia. }
    rewrite <- (firstn_skipn (n * bpl) (s_file st)), <- (firstn_skipn (n * bpl) F). rewrite TS, TF. f_equal.
    apply (proj2 (blk_firstn params (s_file st) F n ltac:(lia) ltac:(lia))). intros k KN.
    pose proof (Nat.mul_le_mono_r (S k) n bpl KN). rewrite <- !block_bytes_blk by lia. now apply X.
Qed.

(** * Unsealing an arbitrary file *)
Lemma concat_repeat_length {A} (l : list A) r : length (concat (repeat l r)) = r * length l.
Proof. induction r; cbn [repeat concat]; [reflexivity|]. rewrite app_length, IHr. lia. Qed.
Lemma rev_seq_nth q i : i < q -> nth i (rev (seq 0 q)) 0 = q - 1 - i.
Proof. intros L. rewrite rev_nth by (rewrite seq_length; exact L). rewrite seq_length, seq_nth by lia. lia. Qed.
(** The blocks unsealing uses. *)
Lemma Dfun_used t F k deps : tabl pr params n m t -> k < n -> n * bpl <= length F -> Dfun H params (used_rows params (fst t)) n F k = Ok deps ->
  exists bs, unseal_choice H pr params n (H (block_bytes params F (k - 1))) k bs /\ Forall (fun b => b < k) bs /\
  deps = map (fun b => block_units params m F b) bs.
Proof.
  intros T KN LF E. unfold used_rows in E. unfold unseal_choice. destruct (mode_l params) as [|ml] eqn:ML; [now apply (Dfun_choice t)|]. cbn [Nat.eqb] in E.
  destruct (Dfun_ok H params n m (fst t) (hh _ _ _ _ _ _ SET) (upl_pos _ _ _ _ _ _ SET) (bpl_eq _ _ _ _ _ _ SET) (proj1 (proj2 T)) F k KN) as (deps' & E' & _).
  unfold Dfun, pick_l in E, E'. rewrite ML in E, E'. cbn [Nat.eqb] in E, E'. rewrite index_map in E.
  pose proof (proj1 T) as A. unfold seal_idxs_l in A. rewrite ML in A. cbn [Nat.eqb negb] in A. unfold create_long_depend in A.
  destruct (mapM_nth _ _ _ A k k) as (row & NR & FR). { rewrite nth_error_nth' with (d := 0) by (rewrite seq_length; lia). now rewrite seq_nth. }
  unfold index in E. rewrite NR in E. cbn [bind] in E.
  assert (LE : length row <= k) by (apply (long_depend_length H pr params key n m SET); [exact KN|lia|now rewrite ML]).
  assert (BK : Forall (fun b => b < k) (seq 0 (length row))) by (apply Forall_forall; intros b I; apply in_seq in I; lia).
  exists (seq 0 (length row)). split; [exists row; split; [unfold long_choice; rewrite ML; exact FR|reflexivity]|]. split; [exact BK|].
  assert (Y : forall l, Forall (fun b => b < k) l -> mapM (fun i => read_block params F i) l = Ok (map (fun b => block_units params m F b) l)).
  { induction l as [|b l IH]; intros FA; [reflexivity|]. inversion_clear FA. cbn [mapM map]. rewrite (read_block_ok params m (upl_pos _ _ _ _ _ _ SET) (bpl_eq _ _ _ _ _ _ SET)). rewrite (block_units_chunks H pr params key n m SET) by lia. cbn [bind]. now rewrite IH. }
  rewrite Y in E by exact BK. now injection E.
Qed.
Lemma unseal_random id k a : mode_l params = 0 -> unseal_choice H pr params n id k a <-> long_choice H pr params n id k a.
Proof. intros ML. unfold unseal_choice. rewrite ML. tauto. Qed.
Lemma unseal_choice_fun id k a b : k < n -> unseal_choice H pr params n id k a -> unseal_choice H pr params n id k b -> a = b /\ Forall (fun x => x < k) a.
Proof.
  intros K A B. unfold unseal_choice in *. destruct (mode_l params) as [|ml] eqn:ML; [now apply (long_choice_fun id k)|].
  destruct A as (ra & A & ->). destruct B as (rb & B & ->). destruct (long_choice_fun _ _ _ _ K A B) as [<- _]. split; [reflexivity|].
  apply Forall_forall. intros x I. apply in_seq in I. unfold long_choice in A. rewrite ML in A.
  pose proof (long_depend_length H pr params key n m SET k ra K). rewrite ML in H0. specialize (H0 ltac:(lia) A). lia.
Qed.
Theorem unseals_block_ok F G : (forall d, le2z (H d) < key < 256 ^ Z.of_nat upl)%Z -> n * bpl <= length F ->
  unseal H pr params key iv F = Ok G -> exists U, forall k, k < n -> unseals_block H pr params key iv n m F G k (U k).
Proof.
  intros KB LF E. destruct (tabl_ex H pr params key n m SET) as (t & T). pose proof T as (TL & LOK & TS & SOK).
  destruct (unseal_used H pr params key iv n m SET t F KB T LF) as (G' & E' & LG & _ & C).
  rewrite E in E'. injection E' as <-.
  exists (fun k ti i => nth i (stage (bstep H params key (snd t) (match Dfun H params (used_rows params (fst t)) n F k with Ok d => d | Panic => [] end) (sfx H params iv F k) m) (concat (repeat (rev (seq 0 m)) (seal_rounds params))) (block_units params m F k) ti) []).
  intros k KN. destruct (C k KN) as (deps & us & ED & SH & EB & EQ). rewrite ED.
  apply (f_equal (chunks upl m)) in EQ. rewrite chunks_com in EQ by exact SH. rewrite (block_units_chunks H pr params key n m SET) in EQ by lia.
  rewrite (block_units_chunks H pr params key n m SET) in EB by lia. subst us.
  set (g := bstep H params key (snd t) deps (sfx H params iv F k) m) in *. set (l := concat (repeat (rev (seq 0 m)) (seal_rounds params))).
  unfold brounds in EB. rewrite foldM_nested in EB. fold g l in EB.
  assert (LL : length l = seal_rounds params * m) by (unfold l; rewrite concat_repeat_length, rev_length, seq_length; reflexivity).
  destruct (Dfun_used t F k deps T KN LF ED) as (bs & LC & BLT & DE).
  assert (DOK : deps_ok m deps) by (rewrite DE; apply Forall_forall; intros b I; apply in_map_iff in I as (x & <- & _); unfold block_units; now rewrite map_length, seq_length).
  assert (NI : forall ti, ti < length l -> nth ti l 0 = m - 1 - ti mod m /\ m <> 0).
  { intros ti L. assert (M0 : m <> 0) by (intros M0; rewrite M0, Nat.mul_0_r in LL; lia). split; [|exact M0].
    unfold l. rewrite nth_concat_repeat by (rewrite rev_length, seq_length; lia). rewrite rev_length, seq_length. apply rev_seq_nth. now apply Nat.mod_upper_bound. }
  assert (SB : forall ti, ti <= length l -> shaped params m (stage g l (block_units params m F k) ti)).
  { intros ti L. induction ti as [|ti IH].
    { rewrite stage_0. rewrite <- (block_units_chunks H pr params key n m SET) by lia. apply (chunks_shaped params m (bpl_eq _ _ _ _ _ _ SET)). }
    specialize (IH ltac:(lia)). pose proof (stage_step g l _ _ 0 ti EB ltac:(lia)) as ST. destruct (NI ti ltac:(lia)) as [NN M0]. rewrite NN in ST.
    destruct (bstep_ok H params key (hh _ _ _ _ _ _ SET) (k1 _ _ _ _ _ _ SET) (k2 _ _ _ _ _ _ SET) (snd t) deps (sfx H params iv F k) m (m - 1 - ti mod m) _ SOK DOK KB ltac:(lia) IH) as (c' & EC & SC).
    unfold g at 1 in ST. rewrite EC in ST. injection ST as <-. exact SC. }
  split; [|split].
  - intros i IM. rewrite stage_0. now apply block_units_nth.
  - intros i IM. rewrite <- LL, (stage_end _ _ _ _ EB). now apply block_units_nth.
  - intros ti TLt. rewrite <- LL in TLt. cbv zeta. destruct (NI ti TLt) as [NN M0].
    pose proof (stage_step g l _ _ 0 ti EB TLt) as ST. rewrite NN in ST. pose proof (SB ti ltac:(lia)) as BO. assert (IM : m - 1 - ti mod m < m) by lia. set (i := m - 1 - ti mod m) in *.
    set (cur := stage g l (block_units params m F k) ti) in *. destruct BO as [LC' FC].
    unfold g at 1 in ST. unfold bstep in ST. destruct (md H params (snd t) deps (sfx H params iv F k) m cur i) as [d|] eqn:ED'; [|discriminate]. cbn [bind] in ST.
    destruct (index cur i) as [u|] eqn:EU; [|discriminate]. cbn [bind] in ST.
    assert (LU : length u = upl) by (rewrite Forall_forall in FC; apply FC; eapply index_In; exact EU).
    set (w := vde_inv u key (vde_rounds params) (vde_mode params) upl) in *.
    assert (Lw : length w = upl) by (apply vde_inv_len_any; auto; [exact (k1 _ _ _ _ _ _ SET)|apply (KB d)]).
    assert (Hd : (le2z (H d) < key)%Z) by apply KB.
    destruct (modsub_ok w (H d) key (k1 _ _ _ _ _ _ SET) ltac:(rewrite Lw; exact (k2 _ _ _ _ _ _ SET)) ltac:(pose proof (le2z_nonneg w); lia)) as (a & Ea & La & Va).
    rewrite Ea in ST. cbn [bind] in ST. rewrite set_index_ok in ST by lia. injection ST as ST. rewrite <- ST.
    destruct (md_data t F k deps bs cur i d T KN LF DE IM ED') as (us & SC & DD).
    exists bs, us. split; [exact LC|]. split; [exact SC|].
    rewrite upd_nth by lia. rewrite Nat.eqb_refl. rewrite (index_nth_eq _ _ _ _ EU). rewrite <- DD.
    split; [congruence|]. split; [rewrite Va; unfold w; now rewrite vde_inv_val|].
    intros j JM JI. rewrite upd_nth by lia. now destruct (Nat.eqb_spec j i).
Qed.
Lemma unseals_block_unique F G G' k U V : k < n -> n * bpl <= length G -> n * bpl <= length G' ->
  unseals_block H pr params key iv n m F G k U -> unseals_block H pr params key iv n m F G' k V ->
  block_bytes params G k = block_bytes params G' k.
Proof.
  intros KN LG LG' (U0 & UE & US) (V0 & VE & VS).
  assert (X : forall t, t <= seal_rounds params * m -> forall i, i < m -> U t i = V t i).
  { induction t as [|t IH]; intros L i IM; [rewrite U0, V0 by exact IM; reflexivity|]. specialize (IH ltac:(lia)).
    destruct (US t ltac:(lia)) as (bs & us & LC & SC & LU & EU & NU). destruct (VS t ltac:(lia)) as (bs' & us' & LC' & SC' & LV & EV & NV).
    assert (TM : m - 1 - t mod m < m) by lia. set (j := m - 1 - t mod m) in *.
    destruct (Nat.eq_dec i j) as [->|NE]; [|rewrite NU, NV by assumption; now apply IH].
    destruct (unseal_choice_fun _ _ _ _ KN LC LC') as [<- BK].
    rewrite (IH (j - 1)) in SC by lia. destruct (short_choice_fun _ _ _ _ TM SC SC') as [<- UM].
    apply le2z_inj; [congruence|]. rewrite EU, EV. rewrite (IH j) by exact TM.
    assert (D2 : map (U t) us = map (V t) us) by (apply map_ext_in; intros u I; rewrite Forall_forall in UM; apply IH, UM, I).
    now rewrite D2. }
  apply block_of_units; try assumption. intros i IM. rewrite <- UE, <- VE by exact IM. apply X; [lia|exact IM].
Qed.
Theorem unseal_iff F G : (forall d, le2z (H d) < key < 256 ^ Z.of_nat upl)%Z -> n * bpl <= length F ->
  unseal H pr params key iv F = Ok G <->
  (length G = length F /\ skipn (n * bpl) G = skipn (n * bpl) F /\
   exists U, forall k, k < n -> unseals_block H pr params key iv n m F G k (U k)).
Proof.
  intros KB LF. destruct (unseal_total H pr params key iv n m SET F KB LF) as (G0 & E & L0 & T0).
  destruct (unseals_block_ok F G0 KB LF E) as (U & SU). split.
  - intros E'. rewrite E in E'. injection E' as <-. eauto.
  - intros (LG & TG & V & SV). rewrite E. f_equal.
    rewrite <- (firstn_skipn (n * bpl) G0), <- (firstn_skipn (n * bpl) G). rewrite T0, TG. f_equal.
    apply (proj2 (blk_firstn params G0 G n ltac:(lia) ltac:(lia))). intros k KN.
    pose proof (Nat.mul_le_mono_r (S k) n bpl KN). rewrite <- !block_bytes_blk by lia.
    apply (unseals_block_unique F _ _ k (U k) (V k) KN); [lia|lia|auto|auto].
Qed.

(** * The honest response *)
Theorem response_ok F k : n * bpl <= length F -> k < n ->
  exists bs, long_choice H pr params n (H (block_bytes params F (k - 1))) k bs /\
  single_unseal_prepare H pr params F k = Ok (honest_response H params m F k bs).
Proof.
  intros LF K. destruct (tabl_ex H pr params key n m SET) as (t & T). pose proof T as (TL & LO & TS & SO).
  destruct (Dfun_ok H params n m (fst t) (hh H pr params key n m SET) (upl_pos H pr params key n m SET)
       (bpl_eq H pr params key n m SET) LO F k K) as (deps & D & DO).
  destruct (Dfun_choice t F k deps T K LF D) as (bs & LC & BLT & DE). exists bs. split; [exact LC|].
  unfold single_unseal_prepare, honest_response.
  pose proof (read_block_ok params m (upl_pos H pr params key n m SET) (bpl_eq H pr params key n m SET) F k) as RB. unfold read_block in RB.
  rewrite RB. cbn [bind]. rewrite (set_nblocks H pr params key n m SET). cbn [bind].
  change (verifier_idxs_l pr params n) with (seal_idxs_l pr params n). rewrite TL. cbn [bind]. rewrite prepare_D, D. cbn [bind].
  rewrite (block_units_chunks H pr params key n m SET) by lia. rewrite DE. unfold prepare_before_id.
  destruct (Nat.eqb_spec k 0) as [|K0]; cbn [negb]; [reflexivity|].
  rewrite block_bytes_blk by (pose proof (Nat.mul_le_mono_r (S (k - 1)) n bpl ltac:(lia)); lia). reflexivity.
Qed.
Lemma batch_of_singles F b e ks rs : blocks_in_range b e bpl = Ok ks -> mapM (single_unseal_prepare H pr params F) ks = Ok rs ->
  batch_unseal_prepare H pr params F b e = Ok (ks, map (fun r => fst (fst r)) rs, map (fun r => snd (fst r)) rs, map snd rs).
Proof.
  intros BR M. unfold batch_unseal_prepare. rewrite BR. cbn [bind].
  destruct (tabl_ex H pr params key n m SET) as (t & (TL & _)).
  assert (X : forall k, single_unseal_prepare H pr params F k =
     (let* bl := to_units (read_file F (k * bpl) bpl) upl in
      let* p := (let bid := prepare_before_id H params F k in
                 let* ds := prepare_depend_blocks H params (fst t) n F bid k in Ok (bid, ds)) in
      Ok (bl, fst p, snd p))).
  { intros k. unfold single_unseal_prepare. destruct (to_units _ _); [|reflexivity]. cbn [bind].
    rewrite (set_nblocks H pr params key n m SET). cbn [bind].
    change (verifier_idxs_l pr params n) with (seal_idxs_l pr params n). rewrite TL. cbn [bind].
    destruct (prepare_depend_blocks _ _ _ _ _ _ _); reflexivity. }
  rewrite (mapM_ext _ _ ks (fun k _ => X k)) in M.
  rewrite (set_nblocks H pr params key n m SET). cbn [bind].
  change (verifier_idxs_l pr params n) with (seal_idxs_l pr params n). rewrite TL. cbn [bind]. clear X BR.
  revert rs M. induction ks as [|k ks IH]; intros rs M.
  - injection M as <-. reflexivity.
  - cbn [mapM] in M |- *. destruct (to_units (read_file F (k * bpl) bpl) upl) as [bl|]; [|discriminate]. cbn [bind] in M |- *.
    destruct (prepare_depend_blocks H params (fst t) n F (prepare_before_id H params F k) k) as [ds|]; [|discriminate].
    cbn [bind fst snd] in M |- *.
    match type of M with bind (mapM ?f ks) _ = _ => destruct (mapM f ks) as [rs'|] eqn:MM; [|discriminate] end.
    cbn [bind] in M. injection M as <-. specialize (IH rs' eq_refl).
    destruct (mapM (fun idx2 => to_units (read_file F (idx2 * bpl) bpl) upl) ks) as [bls|]; [|discriminate].
    cbn [bind] in IH |- *.
    match type of IH with bind (mapM ?f ks) _ = _ => destruct (mapM f ks) as [both|]; [|discriminate] end.
    cbn [bind] in IH |- *. injection IH as I1 I2 I3. cbn [map fst snd]. repeat f_equal; assumption.
Qed.
(** The response to a byte range: one honest response per block of the range. *)
Theorem range_response F b e ks : n * bpl <= length F -> blocks_in_range b e bpl = Ok ks -> Forall (fun k => k < n) ks ->
  exists deps, Forall2 (fun k bs => long_choice H pr params n (H (block_bytes params F (k - 1))) k bs) ks deps /\
  let rs := map (fun kb => honest_response H params m F (fst kb) (snd kb)) (combine ks deps) in
  mapM (single_unseal_prepare H pr params F) ks = Ok rs /\
  batch_unseal_prepare H pr params F b e = Ok (ks, map (fun r => fst (fst r)) rs, map (fun r => snd (fst r)) rs, map snd rs).
Proof.
  intros LF BR FK.
  assert (X : exists deps, Forall2 (fun k bs => long_choice H pr params n (H (block_bytes params F (k - 1))) k bs) ks deps /\
     mapM (single_unseal_prepare H pr params F) ks = Ok (map (fun kb => honest_response H params m F (fst kb) (snd kb)) (combine ks deps))).
  { clear BR. induction FK as [|k ks K FK IH]; [exists []; split; [constructor|reflexivity]|].
    destruct IH as (deps & F2 & M). destruct (response_ok F k LF K) as (bs & LC & EK). exists (bs :: deps). split; [now constructor|].
    cbn [mapM combine map fst snd]. rewrite EK. cbn [bind]. now rewrite M. }
  destruct X as (deps & F2 & M). exists deps. split; [exact F2|]. cbv zeta. split; [exact M|]. now apply batch_of_singles.
Qed.
End Meaning.
