(** What answering, checking and hashing do under short reads. *)
From Coq Require Import Strings.Byte Sorted.
From Verif Require Import Base Sloth Common Depend Prover Verifier Merkle Postorage BytesFacts CommonFacts SealSpec SealCore SealFile SealTop SealPad
  SealZero ShortTable ChallengeFacts VerifierFacts ParallelFacts TableFacts SealVerify SealMeaning ReplyMeaning DependSpec DependFacts MerkleFacts PostorageFacts SpotFacts
  ShortRead ShortReadFacts ShortVerify.
Local Open Scope nat_scope.

(** Block k of F as it arrives when the call delivers c bytes. *)
Definition arrived (params : PosPara) (c : nat) (F : file) (k : nat) : list byte :=
  firstn c (block_bytes params F k) ++ zeros (block_pl params - c).
(** Bytes cut into m units. *)
Definition cut (params : PosPara) (m : nat) (bytes : list byte) : list (list byte) :=
  map (fun i => firstn (unit_pl params) (skipn (i * unit_pl params) bytes)) (seq 0 m).

Lemma read_os_0 c f b l : l <= c -> read_os c f b l = read_file f b l.
Proof. apply read_os_full. Qed.
Lemma batch_verify_as_read c origin k b bl ul : batch_verify_os c origin k b bl ul = batch_verify (as_read (fun _ => c) bl origin) k b bl ul.
Proof. unfold batch_verify_os, batch_verify. now rewrite read_as_read. Qed.
Lemma tree_as_read H2 os f d l :
  generate_merkle_tree_from_file_os H2 os f d l = generate_merkle_tree_from_file H2 (as_read (fun k => os (k - 1)) l f) d l.
Proof.
  unfold generate_merkle_tree_from_file_os, generate_merkle_tree_from_file. destruct l as [|l']; [reflexivity|]. unfold step_by. set (l := S l'). cbn [bind].
  set (q := ceil_div d l). assert (E : forall s c, map (fun ik => read_os (os (fst ik)) f (snd ik + l) l) (combine (seq s c) (map (fun k => k * l) (seq s c))) =
    map (fun i => read_file (as_read (fun k => os (k - 1)) l f) (i + l) l) (map (fun k => k * l) (seq s c))).
  { intros s c. revert s. induction c as [|c IH]; intros s; [reflexivity|]. cbn [seq map combine]. rewrite IH. f_equal. cbn [fst snd].
    replace (s * l + l) with (S s * l) by (cbn; lia). rewrite read_as_read. f_equal. f_equal. lia. }
  rewrite map_length, seq_length, (E 0 q). reflexivity.
Qed.

Section Short.
Context (H : list byte -> list byte) (pr : profile) (params : PosPara) (key : Z) (iv : list byte) (n m : nat).
Hypothesis SET : setting H pr params key n m.
Notation upl := (unit_pl params).
Notation bpl := (block_pl params).

Lemma read_arrived c F k : n * bpl <= length F -> k < n -> read_os c F (k * bpl) bpl = arrived params c F k.
Proof.
  intros L K. rewrite read_os_eq. unfold arrived. rewrite block_bytes_blk by (pose proof (mul_lt_block params k n K); lia). reflexivity.
Qed.
Lemma arrived_length c F k : n * bpl <= length F -> k < n -> length (arrived params c F k) = bpl.
Proof. intros L K. rewrite <- read_arrived by assumption. apply read_os_length. Qed.
Lemma arrived_full c F k : bpl <= c -> n * bpl <= length F -> k < n -> arrived params c F k = block_bytes params F k.
Proof.
  intros C L K. rewrite <- read_arrived, read_os_full by assumption. rewrite block_bytes_blk by (pose proof (mul_lt_block params k n K); lia). reflexivity.
Qed.
Lemma cut_length b : length (cut params m b) = m.
Proof. unfold cut. now rewrite map_length, seq_length. Qed.
Lemma cut_shaped b : length b = bpl -> Forall (fun u => length u = upl) (cut params m b).
Proof.
  intros L. apply Forall_forall. intros u I. apply in_map_iff in I as (i & <- & I). apply in_seq in I. rewrite firstn_length, skipn_length, L.
  rewrite (bpl_eq _ _ _ _ _ _ SET). nia.
Qed.
Lemma cut_full F k : n * bpl <= length F -> k < n -> cut params m (block_bytes params F k) = block_units params m F k.
Proof.
  intros L K. rewrite <- (block_units_chunks H pr params key n m SET) by assumption. rewrite block_bytes_blk by (pose proof (mul_lt_block params k n K); lia). reflexivity.
Qed.
Lemma read_block_cut c F k : n * bpl <= length F -> k < n -> read_block_os params c F k = Ok (cut params m (arrived params c F k)).
Proof. intros L K. rewrite (read_block_os_ok params m (upl_pos _ _ _ _ _ _ SET) (bpl_eq _ _ _ _ _ _ SET)). now rewrite read_arrived. Qed.

(** What is sent for block k. *)
Definition sent (os : nat -> nat) (F : file) (k : nat) (bs : list nat) : list (list byte) * list byte * list (list (list byte)) :=
  (cut params m (arrived params (os 0) F k), if k =? 0 then [] else H (arrived params (os 1) F (k - 1)),
   map (fun j => cut params m (arrived params (os (2 + j)) F (nth j bs 0))) (seq 0 (length bs))).

Theorem response_os os F k : n * bpl <= length F -> k < n ->
  exists bs, long_choice H pr params n (H (arrived params (os 1) F (k - 1))) k bs /\ Forall (fun b => b < k) bs /\
  single_unseal_prepare_os H pr params os F k = Ok (sent os F k bs).
Proof.
  intros LF K. destruct (tabl_ex H pr params key n m SET) as (t & T). pose proof T as (TL & LOK & _ & _).
  assert (HHH : hash_ok H) by exact (hh _ _ _ _ _ _ SET).
  destruct (pick_l_ok H params n m (fst t) HHH (upl_pos _ _ _ _ _ _ SET) (bpl_eq _ _ _ _ _ _ SET) LOK (H (arrived params (os 1) F (k - 1))) k K) as (bs & EI & LT).
  exists bs. split; [|split; [exact LT|]].
  - unfold long_choice. unfold pick_l in EI. destruct (mode_l params) as [|ml] eqn:ML; cbn [Nat.eqb] in EI.
    + destruct (Nat.eqb_spec k 0); [now injection EI|]. destruct (cnt_l params =? 0); exact EI.
    + unfold seal_idxs_l in TL. rewrite ML in TL. cbn [Nat.eqb negb] in TL. unfold create_long_depend in TL.
      destruct (mapM_nth _ _ _ TL k k) as (b & NB & FB). { rewrite nth_error_nth' with (d := 0) by (rewrite seq_length; lia). now rewrite seq_nth. }
      unfold index in EI. rewrite NB in EI. injection EI as <-. exact FB.
  - unfold single_unseal_prepare_os, sent. rewrite read_block_cut by assumption. cbn [bind]. rewrite (set_nblocks H pr params key n m SET). cbn [bind].
    change (verifier_idxs_l pr params n) with (seal_idxs_l pr params n). rewrite TL. cbn [bind].
    assert (R : forall l, Forall (fun b => b < k) l -> mapM (fun j => let* i := index l j in read_block_os params (os (2 + j)) F i) (seq 0 (length l)) =
      Ok (map (fun j => cut params m (arrived params (os (2 + j)) F (nth j l 0))) (seq 0 (length l)))).
    { intros l FA. apply mapM_ok. intros j J. apply in_seq in J. rewrite Forall_forall in FA.
      assert (NJ : nth_error l j = Some (nth j l 0)) by (apply nth_error_nth'; lia). unfold index. rewrite NJ. cbn [bind]. apply read_block_cut; [exact LF|].
      specialize (FA _ (nth_error_In _ _ NJ)). lia. }
    assert (D : prepare_depend_blocks_os H params (fun j => os (2 + j)) (fst t) n F (prepare_before_id_os H params (os 1) F k) k =
      Ok (map (fun j => cut params m (arrived params (os (2 + j)) F (nth j bs 0))) (seq 0 (length bs)))).
    { unfold prepare_depend_blocks_os, prepare_before_id_os. unfold pick_l in EI. rewrite <- (R bs LT). destruct (mode_l params =? 0).
      - destruct (Nat.eqb_spec k 0) as [->|K0]; cbn [negb]; [injection EI as <-; reflexivity|]. rewrite read_arrived by (auto; lia). rewrite EI. reflexivity.
      - rewrite EI. reflexivity. }
    rewrite D. cbn [bind]. unfold prepare_before_id_os. destruct (Nat.eqb_spec k 0) as [K0|K0]; cbn [negb]; [reflexivity|]. rewrite read_arrived by (auto; lia). reflexivity.
Qed.

(** All reads complete: the response without this effect. *)
Lemma sent_full os F k bs : n * bpl <= length F -> k < n -> Forall (fun b => b < k) bs -> (forall q, bpl <= os q) -> sent os F k bs = honest_response H params m F k bs.
Proof.
  intros LF K FB FU. unfold sent, honest_response. rewrite arrived_full, cut_full by auto. f_equal.
  - f_equal. destruct (Nat.eqb_spec k 0); [reflexivity|]. rewrite arrived_full by (auto; lia). reflexivity.
  - apply nth_ext with (d := []) (d' := []); rewrite !map_length, ?seq_length; [reflexivity|]. intros j J.
    rewrite nth_indep with (d' := cut params m (arrived params (os (2 + 0)) F (nth 0 bs 0))) by (rewrite map_length, seq_length; exact J).
    rewrite (map_nth (fun j => cut params m (arrived params (os (2 + j)) F (nth j bs 0)))), seq_nth by exact J. cbn [plus].
    rewrite nth_indep with (d' := block_units params m F 0) by now rewrite map_length. rewrite (map_nth (block_units params m F)).
    rewrite Forall_forall in FB. specialize (FB (nth j bs 0) (nth_In _ _ J)). rewrite arrived_full, cut_full by (auto; lia). reflexivity.
Qed.

Lemma sent_shape os F k bs : n * bpl <= length F -> k < n -> Forall (fun b => b < k) bs ->
  length (fst (fst (sent os F k bs))) = m /\ Forall (fun u => length u = upl) (fst (fst (sent os F k bs))) /\ Forall (fun b => length b = m) (snd (sent os F k bs)).
Proof.
  intros LF K FB. unfold sent. cbn [fst snd]. split; [apply cut_length|]. split; [apply cut_shaped; now apply arrived_length|].
  apply Forall_forall. intros d I. apply in_map_iff in I as (j & <- & _). apply cut_length.
Qed.
End Short.

(** * Checking *)
Lemma concat_firstn_units params n m us : layout params n m -> length us = m -> Forall (fun u => length u = unit_pl params) us ->
  forall origin k, batch_verify origin k us (block_l params) (unit_l params) = Ok tt <->
  concat (map (firstn (unit_l params)) us) = read_file origin (k * block_l params) (block_l params).
Proof.
  intros LAY LM SH origin k. pose proof (l_block _ _ _ LAY) as LB. rewrite batch_verify_iff, (units_block params n m LAY).
  assert (B : read_file origin (k * block_l params) (block_l params) = concat (map (fun j => read_file origin (k * block_l params + j * unit_l params) (unit_l params)) (seq 0 m))).
  { rewrite LB at 2. apply read_units. }
  rewrite B. split.
  - intros (_ & _ & X). f_equal. apply nth_ext with (d := []) (d' := []); [now rewrite !map_length, seq_length|]. intros j J. rewrite map_length in J.
    destruct (X j ltac:(lia)) as (c & N & Y). rewrite nth_indep with (d' := firstn (unit_l params) []) by now rewrite map_length.
    rewrite map_nth, (nth_error_nth _ _ _ N), Y.
    rewrite nth_indep with (d' := read_file origin (k * block_l params + 0 * unit_l params) (unit_l params)) by (rewrite map_length, seq_length; lia).
    rewrite (map_nth (fun j => read_file origin (k * block_l params + j * unit_l params) (unit_l params))), seq_nth by lia. reflexivity.
  - intros X. split; [apply LAY|]. split; [exists m; exact LB|].
    apply (concat_inj_len (unit_l params)) in X; [|now rewrite !map_length, seq_length| |apply Forall_map, Forall_forall; intros; apply read_file_length].
    + intros j J. exists (nth j us []). split; [apply nth_error_nth'; lia|].
      assert (N := f_equal (fun l => nth_error l j) X). cbn beta in N. rewrite !nth_error_map, (nth_error_nth' us []) in N by lia.
      rewrite (nth_error_nth' (seq 0 m) 0) in N by (rewrite seq_length; lia). rewrite seq_nth in N by lia. now injection N.
    + apply Forall_map. eapply Forall_impl; [|exact SH]. cbn. intros u L. rewrite firstn_length, L, (l_unit_pl _ _ _ LAY). lia.
Qed.

Section Challenge.
Context (H H2 : list byte -> list byte) (pr : profile) (params : PosPara) (key : Z) (iv : list byte) (n m : nat).
Hypothesis SET : setting H pr params key n m.
Hypothesis KB : forall d, (le2z (H d) < key < 256 ^ Z.of_nat (unit_pl params))%Z.
Hypothesis LAY : layout params n m.
Hypothesis H2_32 : hash32 H2.
Notation upl := (unit_pl params).
Notation bpl := (block_pl params).

(** The data of an unsealed block. *)
Definition data_of (R : list (list byte)) : list byte := concat (map (firstn (unit_l params)) R).
(** What the verifier makes of the answer for block k. *)
Definition gives (os : nat -> nat) (F : file) (k : nat) (b : list byte) : Prop :=
  exists B before deps R U, single_unseal_prepare_os H pr params os F k = Ok (B, before, deps) /\ length R = m /\
  unseals_reply H pr params key iv m k before deps B R U /\ b = data_of R.

Lemma gives_unique os F k b b' : gives os F k b -> gives os F k b' -> b = b'.
Proof.
  intros (B & w & d & R & U & E & L & Q & ->) (B' & w' & d' & R' & U' & E' & L' & Q' & ->). rewrite E in E'. injection E' as <- <- <-.
  f_equal. apply nth_ext with (d := []) (d' := []); [congruence|]. intros i I. eapply (reply_unique H pr params key iv m); eauto; try lia.
  all: first [exact (hh _ _ _ _ _ _ SET)|exact (k1 _ _ _ _ _ _ SET)|apply (short_nt H pr params key n m SET LAY)|idtac].
Qed.
Lemma concat_data R : length R = m -> Forall (fun u => length u = upl) R -> forall origin k,
  batch_verify origin k R (block_l params) (unit_l params) = Ok tt <-> data_of R = read_file origin (k * block_l params) (block_l params).
Proof. apply (concat_firstn_units params n m R LAY). Qed.

(** All reads of the answer complete: the block of the file that unsealing and restoring make. *)
Theorem gives_full os F G c k : mode_l params = 0 -> n * bpl <= length F -> k < n -> (forall q, bpl <= os q) ->
  unseal H pr params key iv F = Ok G -> n * bpl <= length G -> copy_and_compress G (data_l params) (unit_l params) upl = Ok c ->
  gives os F k (read_file c (k * block_l params) (block_l params)).
Proof.
  intros ML LF K FU EU LG EC. destruct (response_os H pr params key n m SET os F k LF K) as (bs & LC & LT & E).
  rewrite (sent_full H pr params key n m SET) in E by assumption.
  destruct (unseals_block_ok H pr params key iv n m SET F G KB LF EU) as (U & SU).
  assert (LC' : long_choice H pr params n (H (block_bytes params F (k - 1))) k bs).
  { destruct k as [|k]; [unfold long_choice in *; rewrite ML in *; exact LC|]. rewrite (arrived_full params n) in LC by (auto; lia). exact LC. }
  exists (block_units params m F k), (if k =? 0 then [] else H (block_bytes params F (k - 1))), (map (block_units params m F) bs), (block_units params m G k), (U k).
  split; [exact E|]. split; [apply units_length|]. split; [apply (block_reply H pr params key iv n m SET KB ML LAY); auto|].
  symmetry. apply concat_data; [apply units_length|now apply (units_shaped H params key n m KB ML LAY)|].
  apply (verify_restored H params key n m KB ML LAY c G c); auto.
Qed.

Section One.
Context (F : file) (pub : file) (ids leaves : list (list byte)) (tree : list (list (nat * list byte))) (root : list byte).
Hypothesis LF : n * bpl <= length F.
Hypothesis LD : load_data pub = Ok (key, iv).
Hypothesis LI : length ids = n.
Hypothesis GT : generate_merkle_tree_from_data H2 ids = Ok (leaves, tree, root).

(** The answers to a list of blocks, one per position. *)
Lemma answers os ks : Forall (fun k => k < n) ks -> exists rs,
  mapM (fun i => let* k := index ks i in single_unseal_prepare_os H pr params (os i) F k) (seq 0 (length ks)) = Ok rs /\ length rs = length ks /\
  forall i k, nth_error ks i = Some k -> exists bs, Forall (fun b => b < k) bs /\ nth_error rs i = Some (sent H params m (os i) F k bs) /\
    single_unseal_prepare_os H pr params (os i) F k = Ok (sent H params m (os i) F k bs).
Proof.
  clear - SET LF. intros FK. destruct (proj1 (mapM_forall (fun i => let* k := index ks i in single_unseal_prepare_os H pr params (os i) F k)
    (fun i r => exists k bs, nth_error ks i = Some k /\ Forall (fun b => b < k) bs /\ r = sent H params m (os i) F k bs /\
       single_unseal_prepare_os H pr params (os i) F k = Ok (sent H params m (os i) F k bs)) (seq 0 (length ks)))) as (rs & RS & X).
  { intros i I. apply in_seq in I. destruct (nth_error ks i) as [k|] eqn:NK; [|apply nth_error_None in NK; lia].
    assert (K : k < n) by (rewrite Forall_forall in FK; apply FK; eapply nth_error_In; eauto).
    destruct (response_os H pr params key n m SET (os i) F k LF K) as (bs & _ & LT & E). exists (sent H params m (os i) F k bs).
    unfold index. rewrite NK. cbn [bind]. split; [exact E|]. exists k, bs. auto. }
  exists rs. split; [exact RS|]. split; [rewrite (mapM_length _ _ _ RS); apply seq_length|]. intros i k NK.
  assert (I : i < length ks) by (apply nth_error_Some; congruence).
  destruct (X i i) as (r & NR & k' & bs & NK' & LT & -> & E). { rewrite nth_error_nth' with (d := 0) by now rewrite seq_length. now rewrite seq_nth. }
  rewrite NK in NK'. injection NK' as <-. eauto.
Qed.

Lemma unsealed_answers os ks rs : Forall (fun k => k < n) ks ->
  mapM (fun i => let* k := index ks i in single_unseal_prepare_os H pr params (os i) F k) (seq 0 (length ks)) = Ok rs ->
  exists out, length out = length ks /\
  (forall i k, nth_error ks i = Some k -> length (nth i out []) = m /\ Forall (fun u => length u = upl) (nth i out []) /\ gives (os i) F k (data_of (nth i out []))) /\
  (forall parallel_num o, (if parallel_num =? 0
     then o = batch_unseal H pr params key iv ks (map (fun x => snd (fst x)) rs) (map snd rs) (map (fun x => fst (fst x)) rs)
     else batch_unseal_parallel H pr params key iv ks (map (fun x => snd (fst x)) rs) (map snd rs) parallel_num (map (fun x => fst (fst x)) rs) o)
     <-> o = Ok out).
Proof.
  intros FK RS. destruct (answers os ks FK) as (rs' & RS' & LR & X). rewrite RS in RS'. injection RS' as <-.
  assert (EACH : forall j, j < length ks -> exists k bs, nth_error ks j = Some k /\ k < n /\ Forall (fun b => b < k) bs /\ nth_error rs j = Some (sent H params m (os j) F k bs) /\
    single_unseal_prepare_os H pr params (os j) F k = Ok (sent H params m (os j) F k bs)).
  { intros j J. destruct (nth_error ks j) as [k|] eqn:NK; [|apply nth_error_None in NK; lia]. destruct (X j k NK) as (bs & LT & NR & E).
    exists k, bs. repeat split; auto. rewrite Forall_forall in FK. apply FK. eapply nth_error_In; eauto. }
  assert (IN : forall r, In r rs -> exists j k bs, k < n /\ Forall (fun b => b < k) bs /\ r = sent H params m (os j) F k bs).
  { intros r I. apply In_nth_error in I as (j & J). assert (J' : j < length ks) by (rewrite <- LR; apply nth_error_Some; congruence).
    destruct (EACH j J') as (k & bs & _ & K & LT & ER & _). rewrite ER in J. injection J as <-. eauto 6. }
  pose proof (short_nt H pr params key n m SET LAY) as SM.
  assert (UL : unit_l params <> 0) by (pose proof (l_unit _ _ _ LAY); lia).
  assert (SH : Forall (fun b => length b = m /\ Forall (fun u => length u = upl) b) (map (fun x => fst (fst x)) rs)).
  { apply Forall_forall. intros b I. apply in_map_iff in I as (r & <- & I). destruct (IN r I) as (j & k & bs & K & LT & ->).
    destruct (sent_shape H pr params key n m SET (os j) F k bs LF K LT) as (A & B & _). auto. }
  assert (DE : Forall (Forall (fun b => length b = m)) (map snd rs)).
  { apply Forall_forall. intros b I. apply in_map_iff in I as (r & <- & I). destruct (IN r I) as (j & k & bs & K & LT & ->).
    destruct (sent_shape H pr params key n m SET (os j) F k bs LF K LT) as (_ & _ & A). exact A. }
  destruct (batch_unseal_any H pr params key iv m ks (map (fun x => snd (fst x)) rs) (map snd rs) (map (fun x => fst (fst x)) rs)) as (out & EO & LO & SO); rewrite ?map_length; auto; try lia.
  { exact (hh _ _ _ _ _ _ SET). } { exact (k1 _ _ _ _ _ _ SET). }
  rewrite map_length in LO. exists out. split; [lia|]. split.
  - intros i k NK. assert (I : i < length ks) by (apply nth_error_Some; congruence).
    assert (IO : In (nth i out []) out) by (apply nth_In; lia). rewrite Forall_forall in SO. destruct (SO _ IO) as (S1 & S2). split; [exact S1|]. split; [exact S2|].
    assert (RI := reply_iff H pr params key iv m (hh _ _ _ _ _ _ SET) (k1 _ _ _ _ _ _ SET) KB SM ks (map (fun x => snd (fst x)) rs) (map snd rs) (map (fun x => fst (fst x)) rs) out UL SH).
    rewrite !map_length in RI. specialize (RI ltac:(lia) ltac:(lia) ltac:(lia) DE). destruct (proj1 RI EO) as (_ & R). clear RI.
    destruct (R i ltac:(lia)) as (_ & U & Q). destruct (X i k NK) as (bs & LT & NR & E).
    rewrite (nth_error_nth _ _ _ NK) in Q.
    rewrite (nth_error_nth (map (fun x => snd (fst x)) rs) i [] (x := snd (fst (sent H params m (os i) F k bs)))) in Q by (rewrite nth_error_map, NR; reflexivity).
    rewrite (nth_error_nth (map snd rs) i [] (x := snd (sent H params m (os i) F k bs))) in Q by (rewrite nth_error_map, NR; reflexivity).
    rewrite (nth_error_nth (map (fun x => fst (fst x)) rs) i [] (x := fst (fst (sent H params m (os i) F k bs)))) in Q by (rewrite nth_error_map, NR; reflexivity).
    exists (fst (fst (sent H params m (os i) F k bs))), (snd (fst (sent H params m (os i) F k bs))), (snd (sent H params m (os i) F k bs)), (nth i out []), U.
    split; [rewrite E; reflexivity|]. auto.
  - intros p o. destruct (Nat.eqb_spec p 0) as [Z|Z]; [now rewrite EO|]. apply (par_eq_seq_rows H pr params key iv _ _ _ n m); auto.
    + exact (set_short _ _ _ _ _ _ SET).
    + rewrite (l_block _ _ _ LAY). pose proof (l_m _ _ _ LAY). pose proof (l_unit _ _ _ LAY). nia.
    + exact (data_block params n m LAY).
    + exact (units_block params n m LAY).
    + eapply Forall_impl; [|exact SH]. cbn. tauto.
Qed.

Lemma check_os oc origin ks out (back : nat -> list byte) : Forall (fun k => k < n) ks -> length out = length ks ->
  (forall i k, nth_error ks i = Some k -> length (nth i out []) = m /\ Forall (fun u => length u = upl) (nth i out []) /\ back i = data_of (nth i out [])) ->
  foldM (fun _ i => let* k := index ks i in let* b := index out i in batch_verify_os (oc i) origin k b (block_l params) (unit_l params)) (seq 0 (length ks)) tt = Ok tt <->
  forall i k, nth_error ks i = Some k -> back i = read_os (oc i) origin (k * block_l params) (block_l params).
Proof.
  intros FK LO SH. rewrite (foldM_unit (fun i => let* k := index ks i in let* b := index out i in batch_verify_os (oc i) origin k b (block_l params) (unit_l params))).
  rewrite Forall_forall.
  assert (ST : forall i k, nth_error ks i = Some k -> (let* k := index ks i in let* b := index out i in batch_verify_os (oc i) origin k b (block_l params) (unit_l params)) = Ok tt <->
    back i = read_os (oc i) origin (k * block_l params) (block_l params)).
  { intros i k N. destruct (SH i k N) as (A & B & ->). assert (I : i < length out) by (rewrite LO; apply nth_error_Some; congruence).
    unfold index. rewrite N, (nth_error_nth' out []) by exact I. cbn [bind]. rewrite batch_verify_as_read, (concat_data _ A B), read_as_read. reflexivity. }
  split.
  - intros X i k N. apply (ST i k N), X, in_seq. assert (i < length ks) by (apply nth_error_Some; congruence). lia.
  - intros X i I. apply in_seq in I. destruct (nth_error ks i) as [k|] eqn:N; [|apply nth_error_None in N; lia]. now apply (ST i k N), X.
Qed.

Theorem challenge_short os idx : StronglySorted lt idx -> Forall (fun i => i < n) idx -> idx <> [] ->
  exists back : nat -> list byte, (forall i k, nth_error idx i = Some k -> gives (os i) F k (back i)) /\
  forall origin oc parallel_num r o, challenge_os H H2 pr params os oc parallel_num origin F pub leaves tree root r idx o <->
  (o = Ok tt /\ forall i k, nth_error idx i = Some k -> back i = read_os (oc i) origin (k * block_l params) (block_l params)) \/
  (o = Panic /\ ~ forall i k, nth_error idx i = Some k -> back i = read_os (oc i) origin (k * block_l params) (block_l params)).
Proof.
  intros S FI N. destruct (answers os idx FI) as (rs & RS & _). destruct (unsealed_answers os idx rs FI RS) as (out & LO & SH & OUT).
  exists (fun i => data_of (nth i out [])). split; [intros i k NK; apply (SH i k NK)|]. intros origin oc p r o.
  unfold generate_merkle_tree_from_data in GT. destruct (tree_root (from_leaves H2 (map H2 ids))) as [r0|] eqn:TR; [|discriminate]. injection GT as <- <- <-.
  destruct (proof_complete H2 H2_32 (map H2 ids) idx) as (proof & root' & GP & TR' & VP); auto.
  { apply Forall_forall. intros x I. apply in_map_iff in I. destruct I as (y & <- & _). apply H2_32. }
  { now rewrite map_length, LI. }
  rewrite TR in TR'. injection TR' as <-.
  assert (CP : challenge_prepare_os H H2 pr params os F pub (map H2 ids) (from_leaves H2 (map H2 ids)) r0 r idx = Ok (key, iv, rs)).
  { unfold challenge_prepare_os. rewrite RS. cbn [bind]. rewrite GP. cbn [bind]. unfold verify_response.
    destruct (list_eq_dec _ _ _) as [_|Q]; [|congruence]. rewrite VP. cbn [bind]. rewrite LD. reflexivity. }
  rewrite <- (verdict _ _ _ (check_os oc origin idx out (fun i => data_of (nth i out [])) FI LO (fun i k NK => conj (proj1 (SH i k NK)) (conj (proj1 (proj2 (SH i k NK))) eq_refl)))). split.
  - intros C. inversion C as [P|k' iv' rs' out' P O]; subst; [congruence|]. rewrite CP in P. injection P as <- <- <-. apply OUT in O. subst out'. reflexivity.
  - intros ->. change (foldM _ (seq 0 (length idx)) tt) with (let* unsealed_blocks := Ok out in
       foldM (fun _ i => let* k := index idx i in let* b := index unsealed_blocks i in
                batch_verify_os (oc i) origin k b (block_l params) (unit_l params)) (seq 0 (length idx)) tt).
    eapply Ch_os_go; [exact CP|]. now apply OUT.
Qed.
End One.
End Challenge.

(** * Ranges *)
Lemma mapM_three {A B C D} (f1 : A -> res B) (f2 : A -> res (C * D)) : forall l rs, mapM (fun i => let* bl := f1 i in let* p := f2 i in Ok (bl, fst p, snd p)) l = Ok rs ->
  exists both, mapM f1 l = Ok (map (fun r => fst (fst r)) rs) /\ mapM f2 l = Ok both /\ map fst both = map (fun r => snd (fst r)) rs /\ map snd both = map snd rs.
Proof.
  induction l as [|a l IH]; intros rs M; cbn [mapM] in *; [injection M as <-; exists []; auto|].
  destruct (f1 a) as [x|]; [|discriminate]. cbn [bind] in *. destruct (f2 a) as [p|]; [|discriminate]. cbn [bind] in *.
  match type of M with bind (mapM ?f l) _ = _ => destruct (mapM f l) as [r|] eqn:E; [|discriminate] end. cbn [bind] in M. injection M as <-.
  destruct (IH r eq_refl) as (both & -> & -> & E1 & E2). cbn [bind]. exists (p :: both). cbn [map fst snd]. repeat split; congruence.
Qed.
Lemma range_of_singles H pr params os F b e ks n rs : nblocks params = Ok n -> verifier_idxs_l pr params n <> Panic ->
  blocks_in_range b e (block_pl params) = Ok ks ->
  mapM (fun i => let* k := index ks i in single_unseal_prepare_os H pr params (os i) F k) (seq 0 (length ks)) = Ok rs ->
  batch_unseal_prepare_os H pr params os F b e = Ok (ks, map (fun r => fst (fst r)) rs, map (fun r => snd (fst r)) rs, map snd rs).
Proof.
  intros NB NP BR M. unfold batch_unseal_prepare_os. rewrite BR. cbn [bind].
  destruct (verifier_idxs_l pr params n) as [t|] eqn:TL; [|congruence].
  set (f1 := fun i => let* idx2 := index ks i in read_block_os params (os i 0) F idx2).
  set (f2 := fun i => let* idx2 := index ks i in
      let bid := prepare_before_id_os H params (os i 1) F idx2 in
      let* deps := prepare_depend_blocks_os H params (fun j => os i (2 + j)) t n F bid idx2 in Ok (bid, deps)).
  rewrite (mapM_ext _ (fun i => let* bl := f1 i in let* p := f2 i in Ok (bl, fst p, snd p)) (seq 0 (length ks))) in M.
  2:{ intros i _. unfold f1, f2, single_unseal_prepare_os. destruct (index ks i) as [k|]; [|reflexivity]. cbn [bind].
      unfold read_block_os. match goal with |- (let* _ := ?x in _) = _ => destruct x as [bl|]; [|reflexivity] end. cbn [bind]. rewrite NB. cbn [bind]. rewrite TL. cbn [bind].
      match goal with |- (let* _ := ?x in _) = _ => destruct x as [ds|]; reflexivity end. }
  destruct (mapM_three f1 f2 _ _ M) as (both & E1 & E2 & E3 & E4). rewrite E1. cbn [bind]. rewrite NB. cbn [bind]. rewrite TL. cbn [bind].
  match goal with |- (let* _ := mapM ?g _ in _) = _ => change g with f2 end. rewrite E2. cbn [bind]. now rewrite E3, E4.
Qed.

(** The fused check: block i is unsealed as by batch_unseal and compared as by batch_verify,
    with the i-th read of the original. *)
Section Fused.
Context (H : list byte -> list byte) (pr : profile) (params : PosPara) (key : Z) (iv : list byte) (ks : list nat) (before : list (list byte))
  (deps : list (list (list (list byte)))) (n m : nat).
Hypothesis SM : short_modes_fine pr params n m.
Hypothesis LAY : layout params n m.

Theorem fused_os oc origin bs : Forall (fun b => length b = m) bs ->
  batch_unseal_and_verify_os H pr params key iv ks before deps oc origin bs = Ok tt <->
  exists out, batch_unseal H pr params key iv ks before deps bs = Ok out /\
  forall i o, nth_error out i = Some o -> exists k, nth_error ks i = Some k /\ batch_verify_os (oc i) origin k o (block_l params) (unit_l params) = Ok tt.
Proof.
  intros F. assert (BL : block_l params <> 0) by (rewrite (l_block _ _ _ LAY); pose proof (l_m _ _ _ LAY); pose proof (l_unit _ _ _ LAY); nia).
  destruct (two_tables pr params n m SM BL ltac:(pose proof (l_unit _ _ _ LAY); lia) (data_block params n m LAY) (units_block params n m LAY)) as (t & t' & BT & BV & _ & RA).
  rewrite batch_unseal_map, BT. unfold batch_unseal_and_verify_os. rewrite BV. cbn [bind].
  rewrite (foldM_unit (bv_block_os H params key iv ks before deps oc t' origin bs)), Forall_forall.
  set (P := fun (i : nat) (o : list (list byte)) => exists k, nth_error ks i = Some k /\ batch_verify_os (oc i) origin k o (block_l params) (unit_l params) = Ok tt).
  set (J := fun i => bjob H params key iv ks before deps t bs i).
  pose proof (mapM_forall J P (seq 0 (length bs))) as M.
  transitivity (forall a, In a (seq 0 (length bs)) -> exists b, J a = Ok b /\ P a b).
  - assert (Q : forall i, In i (seq 0 (length bs)) -> bv_block_os H params key iv ks before deps oc t' origin bs i = Ok tt <-> exists b, J i = Ok b /\ P i b).
    { intros i I. unfold J. rewrite <- (bjob_rows H params key iv ks before deps t t' m bs i RA F).
      unfold bv_block_os, bjob, P, batch_verify_os. destruct (nth_error ks i) as [k|] eqn:NI.
      - apply index_nth in NI as II. rewrite II. cbn [bind]. destruct (index bs i) as [cur|]; cbn [bind].
        + rewrite foldM_nested.
          change (bv_unit H params key iv before deps t' i k (length cur)) with (bu_unit H params key iv before deps t' i k (length cur)).
          destruct (foldM _ _ cur) as [c|]; cbn [bind].
          * split.
            -- intros E. exists c. split; [reflexivity|]. exists k. split; [reflexivity|exact E].
            -- intros (b & E & k' & N & V). injection E as <-. injection N as <-. exact V.
          * split; [discriminate|]. intros (b & E & _). discriminate.
        + split; [discriminate|]. intros (b & E & _). discriminate.
      - unfold index. rewrite NI. cbn [bind]. split; [discriminate|]. intros (b & E & _). discriminate. }
    split; intros A i I; apply (Q i I), A, I.
  - rewrite M. split; intros (r & E & R); exists r; (split; [exact E|]).
    + intros i o N. apply mapM_length in E. rewrite seq_length in E.
      assert (L : i < length bs) by (rewrite <- E; apply nth_error_Some; congruence).
      destruct (R i i) as (b & Nb & Pb); [apply nth_seq; auto|]. rewrite N in Nb. injection Nb as <-. exact Pb.
    + intros i a N. apply nth_seq in N as [-> L]. apply mapM_length in E as EL. rewrite seq_length in EL.
      destruct (nth_error r i) as [o|] eqn:NO; [|apply nth_error_None in NO; lia]. exists o. split; [reflexivity|]. now apply R.
Qed.
End Fused.
