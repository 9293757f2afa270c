(** The sequential unsealing code of the verifier builds its short-dependency table for
    the units of a block, the checking and the parallel code build it for the number of
    blocks: the results agree whenever the settings allow sealing. *)
From Verif Require Import Base Common Depend Prover Verifier BytesFacts DependDet SealSpec SealCore SealTop ShortTable VerifierFacts ParallelFacts.
Local Open Scope nat_scope.

Section Tables.
Context (H : list byte -> list byte) (pr : profile) (params : PosPara) (key : Z) (iv : list byte).
Context (blocks_idx : list nat) (before : list (list byte)) (deps : list (list (list (list byte)))).
Notation Job := (bjob H params key iv blocks_idx before deps).

Lemma bjob_rows t t' m blocks i : (mode_s params = 0 \/ forall k, k < m -> index t' k = index t k) -> Forall (fun b => length b = m) blocks ->
  Job t' blocks i = Job t blocks i.
Proof.
  intros R F. unfold bjob. destruct (index blocks_idx i) as [idx2|]; [|reflexivity]. cbn [bind].
  destruct (index blocks i) as [b|] eqn:E; [|reflexivity]. cbn [bind]. apply index_In in E. rewrite Forall_forall in F. rewrite (F b E).
  apply foldM_ext. intros j cur J. apply in_concat in J as (l & L & J). apply repeat_spec in L. subst l. apply in_seq in J.
  unfold bu_unit, bu_depend_data. destruct R as [Z|R]; [rewrite Z; reflexivity|]. now rewrite (R (m - 1 - j)) by lia.
Qed.

Context (n m : nat).
Hypothesis SM : short_modes_fine pr params n m.
Hypothesis BL : block_l params <> 0.
Hypothesis UL : unit_l params <> 0.
Hypothesis DN : data_l params / block_l params = n.
Hypothesis BM : block_l params / unit_l params = m.

Lemma two_tables : exists t t', bu_idxs_s pr params = Ok t /\ bv_idxs_s pr params = Ok t' /\ bp_idxs_s pr params = Ok t' /\
  (mode_s params = 0 \/ forall k, k < m -> index t' k = index t k).
Proof.
  destruct (short_table' pr params n m SM) as (t' & ET & _).
  destruct (verifier_table pr params n m t' SM ET (or_intror (conj UL BM))) as (t & BT & _ & RA). exists t, t'. split; [exact BT|].
  assert (BV : bv_idxs_s pr params = Ok t').
  { rewrite <- ET. unfold bv_idxs_s, seal_idxs_s, nblocks. apply Nat.eqb_neq in BL. rewrite BL. cbn [bind]. now rewrite DN. }
  split; [exact BV|]. split; [exact BV|]. destruct RA as [Z|RA]; [now left|]. right. intros k K. symmetry. now apply RA.
Qed.

Theorem unseal_and_verify_rows origin bs : Forall (fun b => length b = m) bs ->
  batch_unseal_and_verify H pr params key iv blocks_idx before deps origin bs = Ok tt <->
  exists out, batch_unseal H pr params key iv blocks_idx before deps bs = Ok out /\
  forall i o, nth_error out i = Some o -> exists idx2, nth_error blocks_idx i = Some idx2 /\
     batch_verify origin idx2 o (block_l params) (unit_l params) = Ok tt.
Proof.
  intros F. destruct two_tables as (t & t' & BT & BV & _ & RA). rewrite batch_unseal_map, BT. unfold batch_unseal_and_verify. rewrite BV. cbn [bind].
  rewrite unseal_and_verify_table. rewrite (mapM_ext (Job t' bs) (Job t bs)); [reflexivity|]. intros i _. now apply bjob_rows with (m := m).
Qed.
Theorem par_eq_seq_rows threads blocks out : threads <> 0 -> Forall (fun b => length b = m) blocks ->
  batch_unseal H pr params key iv blocks_idx before deps blocks = Ok out ->
  forall r, batch_unseal_parallel H pr params key iv blocks_idx before deps threads blocks r <-> r = Ok out.
Proof.
  intros TH F E. destruct two_tables as (t & t' & BT & _ & BP & RA). rewrite batch_unseal_map, BT in E. cbn [bind] in E.
  apply par_table with (t := t'); auto. rewrite <- E. apply mapM_ext. intros i _. now apply bjob_rows with (m := m).
Qed.
Theorem par_blockwise_rows threads blocks out : threads <> 0 -> Forall (fun b => length b = m) blocks ->
  batch_unseal_parallel H pr params key iv blocks_idx before deps threads blocks (Ok out) ->
  length out = length blocks /\
  forall i b, nth_error blocks i = Some b ->
    nth_error out i = Some (match batch_unseal H pr params key iv (only i blocks_idx) (only i before) (only i deps) [b] with
                            | Ok [c] => c
                            | _ => b
                            end).
Proof.
  intros TH F P. destruct two_tables as (t & t' & BT & _ & BP & RA).
  apply (par_result H pr params key iv blocks_idx before deps threads blocks t' _ TH BP) in P. injection P as ->. rewrite map_length, seq_length. split; [reflexivity|].
  intros i b N. rewrite nth_error_map. assert (L : i < length blocks) by (apply nth_error_Some; congruence).
  rewrite (proj2 (nth_seq (length blocks) i i)) by auto. cbn [option_map]. f_equal.
  rewrite (seqn_only H pr params key iv blocks_idx before deps t i b blocks N BT). unfold result. rewrite (bjob_rows t t' m blocks i RA F).
  destruct (bjob _ _ _ _ _ _ _ _ _ _); cbn [bind]; [reflexivity|]. now apply nth_error_nth.
Qed.
End Tables.
