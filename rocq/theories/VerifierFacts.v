(** Facts about the verifier's unsealing of a list of blocks (verifier.rs). *)
From Verif Require Import Base Legendre Sloth Common Depend Prover Verifier NumTheory SlothFacts BytesFacts
  DependSpec DependFacts DependDet VdeFacts SealSpec SealCore SealFile SealTop ChallengeFacts.
From Coq Require Import Znumtheory.
Local Open Scope nat_scope.

(** * In-place update of a vector, element by element *)
Lemma foldM_set {A} (g : list A -> nat -> res A) :
  (forall l l' i, nth_error l i = nth_error l' i -> g l i = g l' i) ->
  forall (bs : list A),
  foldM (fun l i => let* c := g l i in set_index l i c) (seq 0 (length bs)) bs = mapM (g bs) (seq 0 (length bs)).
Proof.
  intros LOC bs.
  assert (G : forall rest pre cur, length pre + length rest = length bs -> cur = pre ++ rest ->
     (forall i, length pre <= i -> nth_error cur i = nth_error bs i) ->
     foldM (fun l i => let* c := g l i in set_index l i c) (seq (length pre) (length rest)) cur
     = (let* cs := mapM (g bs) (seq (length pre) (length rest)) in Ok (pre ++ cs))).
  { induction rest as [|b rest IH]; intros pre cur L E N; cbn [length seq foldM mapM bind].
    - now rewrite E.
    - rewrite (LOC cur bs (length pre)) by (apply N; lia). destruct (g bs (length pre)) as [c|] eqn:Gc; [|reflexivity]. cbn [bind].
      rewrite set_index_ok by (rewrite E, app_length; cbn; lia). cbn [bind].
      assert (U : upd cur (length pre) c = (pre ++ [c]) ++ rest).
      { rewrite E. clear. induction pre as [|p pre IHp]; cbn; [reflexivity|]. now f_equal. }
      rewrite U. specialize (IH (pre ++ [c]) ((pre ++ [c]) ++ rest)).
      rewrite app_length in IH. cbn [length] in IH. rewrite Nat.add_1_r in IH. rewrite IH; clear IH.
      + destruct (mapM (g bs) (seq (S (length pre)) (length rest))) as [cs|]; [|reflexivity]. cbn [bind].
        now rewrite <- app_assoc.
      + cbn [length] in L. lia.
      + reflexivity.
      + intros i I. rewrite <- U. rewrite nth_error_upd_neq by lia. apply N. lia. }
  specialize (G bs [] bs). cbn [length app] in G. rewrite G by auto. destruct (mapM _ _); reflexivity.
Qed.

Lemma foldM_nested {A S} (f : S -> A -> res S) l k : forall s,
  foldM (fun s _ => foldM f l s) (seq 0 k) s = foldM f (concat (repeat l k)) s.
Proof.
  generalize 0. induction k as [|k IH]; intros q s; [reflexivity|]. cbn [seq foldM repeat concat]. rewrite foldM_app.
  destruct (foldM f l s); [|reflexivity]. cbn [bind]. apply IH.
Qed.

Section V.
Context (H : list byte -> list byte) (pr : profile) (params : PosPara) (key : Z) (iv : list byte).
Notation upl := (unit_pl params).
Notation bpl := (block_pl params).
Context (blocks_idx : list nat) (before : list (list byte)) (deps : list (list (list (list byte)))).

(** One element of the batch. *)
Definition bjob (t : list (list nat)) (bs : list (list (list byte))) (i : nat) : res (list (list byte)) :=
  let* idx2 := index blocks_idx i in
  let* cur := index bs i in
  foldM (bu_unit H params key iv before deps t i idx2 (length cur))
        (concat (repeat (seq 0 (length cur)) (seal_rounds params))) cur.
Lemma bjob_local t l l' i : nth_error l i = nth_error l' i -> bjob t l i = bjob t l' i.
Proof. intros E. unfold bjob, index. rewrite E. reflexivity. Qed.
Lemma bu_block_job t bs i : bu_block H params key iv blocks_idx before deps t bs i = (let* c := bjob t bs i in set_index bs i c).
Proof.
  unfold bu_block, bjob. destruct (index blocks_idx i); [|reflexivity]. cbn [bind]. destruct (index bs i) as [cur|]; [|reflexivity].
  cbn [bind]. rewrite foldM_nested. reflexivity.
Qed.
Lemma batch_unseal_map bs : batch_unseal H pr params key iv blocks_idx before deps bs =
  (let* t := bu_idxs_s pr params in mapM (bjob t bs) (seq 0 (length bs))).
Proof.
  unfold batch_unseal. destruct (bu_idxs_s pr params) as [t|]; [|reflexivity]. cbn [bind].
  rewrite (foldM_ext _ (fun l i => let* c := bjob t l i in set_index l i c)) by (intros; apply bu_block_job).
  apply foldM_set. apply bjob_local.
Qed.

Lemma bu_depend_data_md t i idx2 m cur idx1 ds b : index deps i = Ok ds -> (idx2 <> 0 -> index before i = Ok b) ->
  bu_depend_data H params iv before deps t i idx2 m cur idx1 =
  md H params t ds (if idx2 =? 0 then iv else b) m cur idx1.
Proof.
  intros E1 E2. unfold bu_depend_data, md. rewrite E1. cbn [bind].
  destruct (foldM _ ds []) as [long|]; [|reflexivity]. cbn [bind].
  match goal with |- bind ?x _ = bind ?x _ => destruct x as [idxs|]; [|reflexivity] end. cbn [bind].
  destruct (foldM _ idxs long) as [both|]; [|reflexivity]. cbn [bind].
  destruct (idx1 =? 0); [|reflexivity]. destruct (Nat.eqb_spec idx2 0); [reflexivity|]. rewrite E2 by assumption. reflexivity.
Qed.
Lemma bjob_brounds t bs i idx2 cur ds b : index blocks_idx i = Ok idx2 -> index bs i = Ok cur ->
  index deps i = Ok ds -> (idx2 <> 0 -> index before i = Ok b) ->
  bjob t bs i = brounds H params key t ds (if idx2 =? 0 then iv else b) (length cur) cur.
Proof.
  intros E1 E2 E3 E4. unfold bjob. rewrite E1. cbn [bind]. rewrite E2. cbn [bind]. rewrite <- foldM_nested.
  unfold brounds. apply foldM_ext. intros _ s _. rewrite rev_seq, foldM_map. apply foldM_ext. intros j c J.
  unfold bu_unit, bstep. rewrite (bu_depend_data_md t i idx2 _ _ _ ds b) by assumption. reflexivity.
Qed.

(** * batch_unseal_and_verify *)
Definition same_tables : Prop := mode_s params = 0 \/
  (block_l params <> 0 /\ unit_l params <> 0 /\ data_l params / block_l params = block_l params / unit_l params).
Lemma same_tables_bv : same_tables -> bv_idxs_s pr params = bu_idxs_s pr params.
Proof.
  intros [E|(B & U & E)]; unfold bv_idxs_s, bu_idxs_s; [now rewrite E|].
  destruct (mode_s params =? 0); [reflexivity|]. cbn [negb]. unfold nblocks.
  destruct (Nat.eqb_spec (block_l params) 0); [contradiction|]. destruct (Nat.eqb_spec (unit_l params) 0); [contradiction|].
  cbn [bind]. now rewrite E.
Qed.
Lemma same_tables_bp : same_tables -> bp_idxs_s pr params = bu_idxs_s pr params.
Proof. exact same_tables_bv. Qed.

Lemma mapM_forall {A B} (f : A -> res B) (P : A -> B -> Prop) l :
  (forall a, In a l -> exists b, f a = Ok b /\ P a b) <->
  (exists r, mapM f l = Ok r /\ forall i a, nth_error l i = Some a -> exists b, nth_error r i = Some b /\ P a b).
Proof.
  induction l as [|a l IH]; cbn [mapM]; split.
  - intros _. exists []. split; [reflexivity|]. intros i a. destruct i; discriminate.
  - intros _ a [].
  - intros A0. destruct (A0 a ltac:(now left)) as (b & E & Pb). rewrite E. cbn [bind].
    destruct (proj1 IH ltac:(intros; apply A0; now right)) as (r & -> & R). cbn [bind]. eexists. split; [reflexivity|].
    intros [|i] x N; cbn [nth_error] in *; [injection N as <-; eauto|now apply R].
  - intros (r & E & R) x X. destruct (f a) as [b|] eqn:Fa; [|discriminate]. cbn [bind] in E.
    destruct (mapM f l) as [bs|] eqn:M; [|discriminate]. injection E as <-. destruct X as [<-|X].
    + destruct (R 0 a eq_refl) as (b' & N & Pb). injection N as <-. eauto.
    + apply IH; [|exact X]. exists bs. split; [reflexivity|]. intros i y N. apply (R (S i) y N).
Qed.

Lemma nth_seq n i x : nth_error (seq 0 n) i = Some x <-> x = i /\ i < n.
Proof.
  split.
  - intros E. assert (L : i < n) by (rewrite <- (seq_length n 0); apply nth_error_Some; congruence).
    rewrite nth_error_nth' with (d := 0) in E by (rewrite seq_length; exact L). rewrite seq_nth in E by exact L.
    injection E as <-. auto.
  - intros [-> L]. rewrite nth_error_nth' with (d := 0) by (rewrite seq_length; exact L). now rewrite seq_nth.
Qed.
Lemma index_nth {A} (l : list A) i a : index l i = Ok a <-> nth_error l i = Some a.
Proof. unfold index. destruct (nth_error l i); split; congruence. Qed.

(** The checking loop with its own table, against the blocks unsealed with that table. *)
Lemma unseal_and_verify_table t origin bs :
  foldM (fun _ i => bv_block H params key iv blocks_idx before deps t origin bs i) (seq 0 (length bs)) tt = Ok tt <->
  exists out, mapM (bjob t bs) (seq 0 (length bs)) = Ok out /\
  forall i o, nth_error out i = Some o -> exists idx2, nth_error blocks_idx i = Some idx2 /\
     batch_verify origin idx2 o (block_l params) (unit_l params) = Ok tt.
Proof.
  rewrite foldM_unit, Forall_forall.
  set (P := fun (i : nat) (o : list (list byte)) => exists idx2, nth_error blocks_idx i = Some idx2 /\
     batch_verify origin idx2 o (block_l params) (unit_l params) = Ok tt).
  pose proof (mapM_forall (bjob t bs) P (seq 0 (length bs))) as M.
  transitivity (forall a, In a (seq 0 (length bs)) -> exists b, bjob t bs a = Ok b /\ P a b).
  - assert (Q : forall i, bv_block H params key iv blocks_idx before deps t origin bs i = Ok tt <-> exists b, bjob t bs i = Ok b /\ P i b).
    { intros i. unfold bv_block, bjob, P. destruct (nth_error blocks_idx i) as [idx2|] eqn:NI.
      - apply index_nth in NI as II. rewrite II. cbn [bind]. destruct (index bs i) as [cur|]; cbn [bind].
        + rewrite foldM_nested.
          change (bv_unit H params key iv before deps t i idx2 (length cur)) with (bu_unit H params key iv before deps t i idx2 (length cur)).
          destruct (foldM _ _ cur) as [c|]; cbn [bind].
          * split.
            -- intros E. exists c. split; [reflexivity|]. exists idx2. split; [reflexivity|exact E].
            -- intros (b & E & idx' & N & V). injection E as <-. injection N as <-. exact V.
          * split; [discriminate|]. intros (b & E & _). discriminate.
        + split; [discriminate|]. intros (b & E & _). discriminate.
      - unfold index. rewrite NI. cbn [bind]. split; [discriminate|]. intros (b & E & _). discriminate. }
    split; intros A i I; apply Q, A, I.
  - rewrite M. split; intros (r & E & R); exists r; (split; [exact E|]).
    + intros i o N. apply mapM_length in E. rewrite seq_length in E.
      assert (L : i < length bs) by (rewrite <- E; apply nth_error_Some; congruence).
      destruct (R i i) as (b & Nb & Pb); [apply nth_seq; auto|]. rewrite N in Nb. injection Nb as <-. exact Pb.
    + intros i a N. apply nth_seq in N as [-> L]. apply mapM_length in E as EL. rewrite seq_length in EL.
      destruct (nth_error r i) as [o|] eqn:NO; [|apply nth_error_None in NO; lia]. exists o. split; [reflexivity|]. now apply R.
Qed.

Theorem unseal_and_verify_iff origin bs : same_tables ->
  batch_unseal_and_verify H pr params key iv blocks_idx before deps origin bs = Ok tt <->
  exists out, batch_unseal H pr params key iv blocks_idx before deps bs = Ok out /\
  forall i o, nth_error out i = Some o -> exists idx2, nth_error blocks_idx i = Some idx2 /\
     batch_verify origin idx2 o (block_l params) (unit_l params) = Ok tt.
Proof.
  intros ST. rewrite batch_unseal_map. unfold batch_unseal_and_verify. rewrite (same_tables_bv ST).
  destruct (bu_idxs_s pr params) as [t|]; cbn [bind]; [|split; [discriminate|intros (o & E & _); discriminate]].
  apply unseal_and_verify_table.
Qed.

(** * Arbitrary responses *)
Theorem batch_unseal_total bs m : hash_ok H -> (1 < key)%Z -> (forall d, le2z (H d) < key < 256 ^ Z.of_nat upl)%Z ->
  (forall t, bu_idxs_s pr params = Ok t -> short_ok params t m) -> bu_idxs_s pr params <> Panic ->
  Forall (shaped params m) bs -> length bs <= length blocks_idx -> length bs <= length before ->
  length bs <= length deps -> Forall (deps_ok m) deps ->
  exists out, batch_unseal H pr params key iv blocks_idx before deps bs = Ok out /\ length out = length bs /\ Forall (shaped params m) out.
Proof.
  intros HH K1 K3 SOK NP SH L1 L2 L3 D. rewrite batch_unseal_map. destruct (bu_idxs_s pr params) as [t|] eqn:T; [|congruence].
  cbn [bind]. specialize (SOK t eq_refl).
  assert (K2 : (key <= 256 ^ Z.of_nat upl)%Z) by (specialize (K3 []); lia).
  destruct (proj1 (mapM_forall (bjob t bs) (fun _ o => shaped params m o) (seq 0 (length bs)))) as (r & E & R).
  { intros i I. apply in_seq in I. destruct (index_ok blocks_idx i ltac:(lia)) as (idx2 & E1).
    destruct (index_ok bs i ltac:(lia)) as (cur & E2). destruct (index_ok deps i ltac:(lia)) as (ds & E3).
    destruct (index_ok before i ltac:(lia)) as (b & E4). rewrite (bjob_brounds t bs i idx2 cur ds b) by auto.
    apply index_In in E2, E3. rewrite Forall_forall in SH, D. specialize (SH _ E2). specialize (D _ E3).
    destruct SH as [SL SF]. rewrite SL. apply brounds_ok; auto. now split. }
  exists r. split; [exact E|]. apply mapM_length in E as EL. rewrite seq_length in EL. split; [exact EL|].
  apply Forall_forall. intros o O. apply In_nth_error in O as (i & N).
  assert (L : i < length bs) by (rewrite <- EL; apply nth_error_Some; congruence).
  destruct (R i i) as (b & Nb & Pb); [apply nth_seq; auto|]. rewrite N in Nb. injection Nb as <-. exact Pb.
Qed.
End V.

(** Arbitrary responses, with the settings spelled out. *)
Theorem batch_unseal_any H pr params key iv m blocks_idx before deps bs :
  hash32 H -> (1 < key)%Z -> (forall d, le2z (H d) < key < 256 ^ Z.of_nat (unit_pl params))%Z ->
  unit_l params <> 0 -> short_modes_fine pr params (block_l params / unit_l params) m ->
  Forall (fun b => length b = m /\ Forall (fun u => length u = unit_pl params) b) bs ->
  length bs <= length blocks_idx -> length bs <= length before -> length bs <= length deps ->
  Forall (Forall (fun b => length b = m)) deps ->
  exists out, batch_unseal H pr params key iv blocks_idx before deps bs = Ok out /\ length out = length bs /\
    Forall (fun b => length b = m /\ Forall (fun u => length u = unit_pl params) b) out.
Proof.
  intros HH K1 K3 U S SH L1 L2 L3 D. destruct (short_table' pr params _ m S) as (t & T & SO).
  assert (B : bu_idxs_s pr params = Ok t).
  { rewrite <- T. unfold bu_idxs_s, seal_idxs_s. apply Nat.eqb_neq in U. rewrite U. reflexivity. }
  apply (batch_unseal_total H pr params key iv blocks_idx before deps bs m); auto; [|congruence].
  intros t' E. rewrite B in E. injection E as <-. exact SO.
Qed.
