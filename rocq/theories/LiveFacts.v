(** What is answered while the sealed file changes. *)
From Coq Require Import Strings.Byte Sorted.
From Verif Require Import Base Sloth Common Depend Prover Verifier Merkle Postorage BytesFacts CommonFacts SealSpec SealCore SealFile SealTop SealPad
  SealZero ShortTable ChallengeFacts VerifierFacts ParallelFacts TableFacts SealVerify SealMeaning ReplyMeaning DependSpec DependFacts MerkleFacts PostorageFacts SpotFacts
  ShortReadFacts ShortVerifyFacts Live.
Local Open Scope nat_scope.

Section Live.
Context (H : list byte -> list byte) (pr : profile) (params : PosPara) (key : Z) (iv : list byte) (n m : nat).
Hypothesis SET : setting H pr params key n m.
Notation upl := (unit_pl params).
Notation bpl := (block_pl params).

Lemma read_units_at F k : n * bpl <= length F -> k < n -> to_units (read_file F (k * bpl) bpl) upl = Ok (block_units params m F k).
Proof.
  intros L K. rewrite <- (block_units_chunks H pr params key n m SET) by assumption.
  exact (read_block_ok params m (upl_pos _ _ _ _ _ _ SET) (bpl_eq _ _ _ _ _ _ SET) F k).
Qed.
Lemma read_bytes_at F k : n * bpl <= length F -> k < n -> read_file F (k * bpl) bpl = block_bytes params F k.
Proof. intros L K. rewrite block_bytes_blk by (pose proof (mul_lt_block params k n K); lia). reflexivity. Qed.

(** The answer for block k with dependencies bs. *)
Definition caught (now : nat -> file) (k : nat) (bs : list nat) : list (list byte) * list byte * list (list (list byte)) :=
  (block_units params m (now 0) k, if k =? 0 then [] else H (block_bytes params (now 1) (k - 1)),
   map (fun j => block_units params m (now (2 + j)) (nth j bs 0)) (seq 0 (length bs))).

Theorem response_live now k : (forall q, n * bpl <= length (now q)) -> k < n ->
  exists bs, long_choice H pr params n (H (block_bytes params (now 1) (k - 1))) k bs /\ Forall (fun b => b < k) bs /\
  single_unseal_prepare_live H pr params now k = Ok (caught now k bs).
Proof.
  intros LF K. destruct (tabl_ex H pr params key n m SET) as (t & T). pose proof T as (TL & LOK & _ & _).
  assert (HHH : hash_ok H) by exact (hh _ _ _ _ _ _ SET).
  destruct (pick_l_ok H params n m (fst t) HHH (upl_pos _ _ _ _ _ _ SET) (bpl_eq _ _ _ _ _ _ SET) LOK (H (block_bytes params (now 1) (k - 1))) k K) as (bs & EI & LT).
  exists bs. split; [|split; [exact LT|]].
  - unfold long_choice. unfold pick_l in EI. destruct (mode_l params) as [|ml] eqn:ML; cbn [Nat.eqb] in EI.
    + destruct (Nat.eqb_spec k 0); [now injection EI|]. destruct (cnt_l params =? 0); exact EI.
    + unfold seal_idxs_l in TL. rewrite ML in TL. cbn [Nat.eqb negb] in TL. unfold create_long_depend in TL.
      destruct (mapM_nth _ _ _ TL k k) as (b & NB & FB). { rewrite nth_error_nth' with (d := 0) by (rewrite seq_length; lia). now rewrite seq_nth. }
      unfold index in EI. rewrite NB in EI. injection EI as <-. exact FB.
  - unfold single_unseal_prepare_live, caught. rewrite read_units_at by auto. cbn [bind]. rewrite (set_nblocks H pr params key n m SET). cbn [bind].
    change (verifier_idxs_l pr params n) with (seal_idxs_l pr params n). rewrite TL. cbn [bind].
    assert (R : forall l, Forall (fun b => b < k) l -> mapM (fun j => let* i := index l j in to_units (read_file (now (2 + j)) (i * bpl) bpl) upl) (seq 0 (length l)) =
      Ok (map (fun j => block_units params m (now (2 + j)) (nth j l 0)) (seq 0 (length l)))).
    { intros l FA. apply mapM_ok. intros j J. apply in_seq in J. rewrite Forall_forall in FA.
      assert (NJ : nth_error l j = Some (nth j l 0)) by (apply nth_error_nth'; lia). unfold index. rewrite NJ. cbn [bind]. apply read_units_at; [apply LF|].
      specialize (FA _ (nth_error_In _ _ NJ)). lia. }
    assert (D : prepare_depend_blocks_live H params (fun j => now (2 + j)) (fst t) n (prepare_before_id H params (now 1) k) k =
      Ok (map (fun j => block_units params m (now (2 + j)) (nth j bs 0)) (seq 0 (length bs)))).
    { unfold prepare_depend_blocks_live, prepare_before_id. unfold pick_l in EI. rewrite <- (R bs LT). destruct (mode_l params =? 0).
      - destruct (Nat.eqb_spec k 0) as [->|K0]; cbn [negb]; [injection EI as <-; reflexivity|]. rewrite read_bytes_at by (auto; lia). rewrite EI. reflexivity.
      - rewrite EI. reflexivity. }
    rewrite D. cbn [bind]. unfold prepare_before_id. destruct (Nat.eqb_spec k 0) as [K0|K0]; cbn [negb]; [reflexivity|]. rewrite read_bytes_at by (auto; lia). reflexivity.
Qed.

Lemma caught_shape now k bs : (forall q, n * bpl <= length (now q)) -> k < n -> Forall (fun b => b < k) bs ->
  length (fst (fst (caught now k bs))) = m /\ Forall (fun u => length u = upl) (fst (fst (caught now k bs))) /\ Forall (fun b => length b = m) (snd (caught now k bs)).
Proof.
  intros LF K FB. unfold caught. cbn [fst snd]. split; [apply units_length|]. split.
  - rewrite <- (cut_full H pr params key n m SET) by auto. apply (cut_shaped H pr params key n m SET). rewrite <- read_bytes_at by auto. apply read_file_length.
  - apply Forall_forall. intros d I. apply in_map_iff in I as (j & <- & _). apply units_length.
Qed.
End Live.


(** The file does not change where it is read. *)
Section Steady.
Context (H : list byte -> list byte) (pr : profile) (params : PosPara) (key : Z) (iv : list byte) (n m : nat).
Hypothesis SET : setting H pr params key n m.
Notation upl := (unit_pl params).
Notation bpl := (block_pl params).

Lemma units_of_bytes F G k : block_bytes params F k = block_bytes params G k -> n * bpl <= length F -> n * bpl <= length G -> k < n ->
  block_units params m F k = block_units params m G k.
Proof. intros E LF LG K. rewrite <- !(cut_full H pr params key n m SET) by auto. now rewrite E. Qed.

Theorem live_steady now F k : k < n -> n * bpl <= length F -> (forall q, n * bpl <= length (now q)) ->
  block_bytes params (now 0) k = block_bytes params F k ->
  (forall q i, i < k -> block_bytes params (now (S q)) i = block_bytes params F i) ->
  single_unseal_prepare_live H pr params now k = single_unseal_prepare H pr params F k.
Proof.
  intros K LF LN E0 E1. destruct (response_live H pr params key n m SET now k LN K) as (bs & LC & LT & E).
  destruct (response_live H pr params key n m SET (fun _ => F) k (fun _ => LF) K) as (bs' & LC' & LT' & E').
  assert (EB : bs = bs').
  { destruct k as [|k].
    - unfold long_choice in LC, LC'. destruct (mode_l params); [cbn in LC, LC'; congruence|]. rewrite LC in LC'. now injection LC'.
    - rewrite (E1 0) in LC by lia. apply (long_choice_fun H pr params key n m SET _ _ bs bs' K LC LC'). }
  subst bs'. assert (ST : single_unseal_prepare_live H pr params (fun _ => F) k = single_unseal_prepare H pr params F k).
  { unfold single_unseal_prepare_live, single_unseal_prepare. destruct (to_units _ _); [|reflexivity]. cbn [bind]. destruct (nblocks params) as [n'|]; [|reflexivity]. cbn [bind].
    destruct (verifier_idxs_l pr params n') as [t|]; [|reflexivity]. cbn [bind].
    assert (D : forall w, prepare_depend_blocks_live H params (fun _ => F) t n' w k = prepare_depend_blocks H params t n' F w k); [|now rewrite D].
    intros w. unfold prepare_depend_blocks_live, prepare_depend_blocks. destruct (mode_l params =? 0).
    - match goal with |- (let* _ := ?x in _) = _ => destruct x as [l|] end; [|reflexivity]. cbn [bind].
      apply (mapM_index_all (fun idx => to_units (read_file F (idx * bpl) bpl) upl)).
    - destruct (index t k) as [l|]; [|reflexivity]. cbn [bind]. apply (mapM_index_all (fun idx => to_units (read_file F (idx * bpl) bpl) upl)). }
  rewrite <- ST, E, E'. f_equal. unfold caught. rewrite (units_of_bytes _ F) by auto. f_equal; [f_equal|].
  - destruct (Nat.eqb_spec k 0); [reflexivity|]. rewrite (E1 0) by lia. reflexivity.
  - apply map_ext_in. intros j J. apply in_seq in J. rewrite Forall_forall in LT. assert (J' : j < length bs) by lia. specialize (LT (nth j bs 0) (nth_In _ _ J')).
    apply units_of_bytes; auto; [apply (E1 (S j)); exact LT|lia].
Qed.
End Steady.

Section Challenge.
Context (H H2 : list byte -> list byte) (pr : profile) (params : PosPara) (key : Z) (iv : list byte) (n m : nat).
Hypothesis SET : setting H pr params key n m.
Hypothesis KB : forall d, (le2z (H d) < key < 256 ^ Z.of_nat (unit_pl params))%Z.
Hypothesis LAY : layout params n m.
Hypothesis H2_32 : hash32 H2.
Notation upl := (unit_pl params).
Notation bpl := (block_pl params).

(** What the verifier makes of the answer for block k. *)
Definition gives_live (now : nat -> file) (k : nat) (b : list byte) : Prop :=
  exists B before deps R U, single_unseal_prepare_live H pr params now k = Ok (B, before, deps) /\ length R = m /\
  unseals_reply H pr params key iv m k before deps B R U /\ b = data_of params R.

Section One.
Context (pub : file) (ids leaves : list (list byte)) (tree : list (list (nat * list byte))) (root : list byte).
Hypothesis LD : load_data pub = Ok (key, iv).
Hypothesis LI : length ids = n.
Hypothesis GT : generate_merkle_tree_from_data H2 ids = Ok (leaves, tree, root).

(** The answers to a list of blocks, one per position. *)
Lemma answers_live now ks : (forall i q, n * bpl <= length (now i q)) -> Forall (fun k => k < n) ks -> exists rs,
  mapM (fun i => let* k := index ks i in single_unseal_prepare_live H pr params (now i) k) (seq 0 (length ks)) = Ok rs /\ length rs = length ks /\
  forall i k, nth_error ks i = Some k -> exists bs, Forall (fun b => b < k) bs /\ nth_error rs i = Some (caught H params m (now i) k bs) /\
    single_unseal_prepare_live H pr params (now i) k = Ok (caught H params m (now i) k bs).
Proof.
  clear - SET. intros LF FK. destruct (proj1 (mapM_forall (fun i => let* k := index ks i in single_unseal_prepare_live H pr params (now i) k)
    (fun i r => exists k bs, nth_error ks i = Some k /\ Forall (fun b => b < k) bs /\ r = caught H params m (now i) k bs /\
       single_unseal_prepare_live H pr params (now i) k = Ok (caught H params m (now i) k bs)) (seq 0 (length ks)))) as (rs & RS & X).
  { intros i I. apply in_seq in I. destruct (nth_error ks i) as [k|] eqn:NK; [|apply nth_error_None in NK; lia].
    assert (K : k < n) by (rewrite Forall_forall in FK; apply FK; eapply nth_error_In; eauto).
    destruct (response_live H pr params key n m SET (now i) k (LF i) K) as (bs & _ & LT & E). exists (caught H params m (now i) k bs).
    unfold index. rewrite NK. cbn [bind]. split; [exact E|]. exists k, bs. auto. }
  exists rs. split; [exact RS|]. split; [rewrite (mapM_length _ _ _ RS); apply seq_length|]. intros i k NK.
  assert (I : i < length ks) by (apply nth_error_Some; congruence).
  destruct (X i i) as (r & NR & k' & bs & NK' & LT & -> & E). { rewrite nth_error_nth' with (d := 0) by now rewrite seq_length. now rewrite seq_nth. }
  rewrite NK in NK'. injection NK' as <-. eauto.
Qed.

Lemma unsealed_live now ks rs : (forall i q, n * bpl <= length (now i q)) -> Forall (fun k => k < n) ks ->
  mapM (fun i => let* k := index ks i in single_unseal_prepare_live H pr params (now i) k) (seq 0 (length ks)) = Ok rs ->
  exists out, length out = length ks /\
  (forall i k, nth_error ks i = Some k -> length (nth i out []) = m /\ Forall (fun u => length u = upl) (nth i out []) /\ gives_live (now i) k (data_of params (nth i out []))) /\
  (forall parallel_num o, (if parallel_num =? 0
     then o = batch_unseal H pr params key iv ks (map (fun x => snd (fst x)) rs) (map snd rs) (map (fun x => fst (fst x)) rs)
     else batch_unseal_parallel H pr params key iv ks (map (fun x => snd (fst x)) rs) (map snd rs) parallel_num (map (fun x => fst (fst x)) rs) o)
     <-> o = Ok out).
Proof.
  intros LF FK RS. destruct (answers_live now ks LF FK) as (rs' & RS' & LR & X). rewrite RS in RS'. injection RS' as <-.
  assert (EACH : forall j, j < length ks -> exists k bs, nth_error ks j = Some k /\ k < n /\ Forall (fun b => b < k) bs /\ nth_error rs j = Some (caught H params m (now j) k bs) /\
    single_unseal_prepare_live H pr params (now j) k = Ok (caught H params m (now j) k bs)).
  { intros j J. destruct (nth_error ks j) as [k|] eqn:NK; [|apply nth_error_None in NK; lia]. destruct (X j k NK) as (bs & LT & NR & E).
    exists k, bs. repeat split; auto. rewrite Forall_forall in FK. apply FK. eapply nth_error_In; eauto. }
  assert (IN : forall r, In r rs -> exists j k bs, k < n /\ Forall (fun b => b < k) bs /\ r = caught H params m (now j) k bs).
  { intros r I. apply In_nth_error in I as (j & J). assert (J' : j < length ks) by (rewrite <- LR; apply nth_error_Some; congruence).
    destruct (EACH j J') as (k & bs & _ & K & LT & ER & _). rewrite ER in J. injection J as <-. eauto 6. }
  pose proof (short_nt H pr params key n m SET LAY) as SM.
  assert (UL : unit_l params <> 0) by (pose proof (l_unit _ _ _ LAY); lia).
  assert (SH : Forall (fun b => length b = m /\ Forall (fun u => length u = upl) b) (map (fun x => fst (fst x)) rs)).
  { apply Forall_forall. intros b I. apply in_map_iff in I as (r & <- & I). destruct (IN r I) as (j & k & bs & K & LT & ->).
    destruct (caught_shape H pr params key n m SET (now j) k bs (LF j) K LT) as (A & B & _). auto. }
  assert (DE : Forall (Forall (fun b => length b = m)) (map snd rs)).
  { apply Forall_forall. intros b I. apply in_map_iff in I as (r & <- & I). destruct (IN r I) as (j & k & bs & K & LT & ->).
    destruct (caught_shape H pr params key n m SET (now j) k bs (LF j) K LT) as (_ & _ & A). exact A. }
  destruct (batch_unseal_any H pr params key iv m ks (map (fun x => snd (fst x)) rs) (map snd rs) (map (fun x => fst (fst x)) rs)) as (out & EO & LO & SO); rewrite ?map_length; auto; try lia.
  { exact (hh _ _ _ _ _ _ SET). } { exact (k1 _ _ _ _ _ _ SET). }
  rewrite map_length in LO. exists out. split; [lia|]. split.
  - intros i k NK. assert (I : i < length ks) by (apply nth_error_Some; congruence).
    assert (IO : In (nth i out []) out) by (apply nth_In; lia). rewrite Forall_forall in SO. destruct (SO _ IO) as (S1 & S2). split; [exact S1|]. split; [exact S2|].
    assert (RI := reply_iff H pr params key iv m (hh _ _ _ _ _ _ SET) (k1 _ _ _ _ _ _ SET) KB SM ks (map (fun x => snd (fst x)) rs) (map snd rs) (map (fun x => fst (fst x)) rs) out UL SH).
    rewrite !map_length in RI. specialize (RI ltac:(lia) ltac:(lia) ltac:(lia) DE). destruct (proj1 RI EO) as (_ & R). clear RI.
    destruct (R i ltac:(lia)) as (_ & U & Q). destruct (X i k NK) as (bs & LT & NR & E).
    rewrite (nth_error_nth _ _ _ NK) in Q.
    rewrite (nth_error_nth (map (fun x => snd (fst x)) rs) i [] (x := snd (fst (caught H params m (now i) k bs)))) in Q by (rewrite nth_error_map, NR; reflexivity).
    rewrite (nth_error_nth (map snd rs) i [] (x := snd (caught H params m (now i) k bs))) in Q by (rewrite nth_error_map, NR; reflexivity).
    rewrite (nth_error_nth (map (fun x => fst (fst x)) rs) i [] (x := fst (fst (caught H params m (now i) k bs)))) in Q by (rewrite nth_error_map, NR; reflexivity).
    exists (fst (fst (caught H params m (now i) k bs))), (snd (fst (caught H params m (now i) k bs))), (snd (caught H params m (now i) k bs)), (nth i out []), U.
    split; [rewrite E; reflexivity|]. auto.
  - intros p o. destruct (Nat.eqb_spec p 0) as [Z|Z]; [now rewrite EO|]. apply (par_eq_seq_rows H pr params key iv _ _ _ n m); auto.
    + exact (set_short _ _ _ _ _ _ SET).
    + rewrite (l_block _ _ _ LAY). pose proof (l_m _ _ _ LAY). pose proof (l_unit _ _ _ LAY). nia.
    + exact (data_block params n m LAY).
    + exact (units_block params n m LAY).
    + eapply Forall_impl; [|exact SH]. cbn. tauto.
Qed.

Lemma check_live origin ks out (back : nat -> list byte) : Forall (fun k => k < n) ks -> length out = length ks ->
  (forall i k, nth_error ks i = Some k -> length (nth i out []) = m /\ Forall (fun u => length u = upl) (nth i out []) /\ back i = data_of params (nth i out [])) ->
  foldM (fun _ i => let* k := index ks i in let* b := index out i in batch_verify origin k b (block_l params) (unit_l params)) (seq 0 (length ks)) tt = Ok tt <->
  forall i k, nth_error ks i = Some k -> back i = read_file origin (k * block_l params) (block_l params).
Proof.
  intros FK LO SH. rewrite (foldM_unit (fun i => let* k := index ks i in let* b := index out i in batch_verify origin k b (block_l params) (unit_l params))).
  rewrite Forall_forall.
  assert (ST : forall i k, nth_error ks i = Some k -> (let* k := index ks i in let* b := index out i in batch_verify origin k b (block_l params) (unit_l params)) = Ok tt <->
    back i = read_file origin (k * block_l params) (block_l params)).
  { intros i k N. destruct (SH i k N) as (A & B & ->). assert (I : i < length out) by (rewrite LO; apply nth_error_Some; congruence).
    unfold index. rewrite N, (nth_error_nth' out []) by exact I. cbn [bind]. exact (concat_firstn_units params n m _ LAY A B origin k). }
  split.
  - intros X i k N. apply (ST i k N), X, in_seq. assert (i < length ks) by (apply nth_error_Some; congruence). lia.
  - intros X i I. apply in_seq in I. destruct (nth_error ks i) as [k|] eqn:N; [|apply nth_error_None in N; lia]. now apply (ST i k N), X.
Qed.

Theorem challenge_live_decides now idx : (forall i q, n * bpl <= length (now i q)) -> StronglySorted lt idx -> Forall (fun i => i < n) idx -> idx <> [] ->
  exists back : nat -> list byte, (forall i k, nth_error idx i = Some k -> gives_live (now i) k (back i)) /\
  forall origin parallel_num r o, challenge_live H H2 pr params now parallel_num origin pub leaves tree root r idx o <->
  (o = Ok tt /\ forall i k, nth_error idx i = Some k -> back i = read_file origin (k * block_l params) (block_l params)) \/
  (o = Panic /\ ~ forall i k, nth_error idx i = Some k -> back i = read_file origin (k * block_l params) (block_l params)).
Proof.
  intros LF S FI N. destruct (answers_live now idx LF FI) as (rs & RS & _). destruct (unsealed_live now idx rs LF FI RS) as (out & LO & SH & OUT).
  exists (fun i => data_of params (nth i out [])). split; [intros i k NK; apply (SH i k NK)|]. intros origin p r o.
  unfold generate_merkle_tree_from_data in GT. destruct (tree_root (from_leaves H2 (map H2 ids))) as [r0|] eqn:TR; [|discriminate]. injection GT as <- <- <-.
  destruct (proof_complete H2 H2_32 (map H2 ids) idx) as (proof & root' & GP & TR' & VP); auto.
  { apply Forall_forall. intros x I. apply in_map_iff in I. destruct I as (y & <- & _). apply H2_32. }
  { now rewrite map_length, LI. }
  rewrite TR in TR'. injection TR' as <-.
  assert (CP : challenge_prepare_live H H2 pr params now pub (map H2 ids) (from_leaves H2 (map H2 ids)) r0 r idx = Ok (key, iv, rs)).
  { unfold challenge_prepare_live. rewrite RS. cbn [bind]. rewrite GP. cbn [bind]. unfold verify_response.
    destruct (list_eq_dec _ _ _) as [_|Q]; [|congruence]. rewrite VP. cbn [bind]. rewrite LD. reflexivity. }
  rewrite <- (verdict _ _ _ (check_live origin idx out (fun i => data_of params (nth i out [])) FI LO (fun i k NK => conj (proj1 (SH i k NK)) (conj (proj1 (proj2 (SH i k NK))) eq_refl)))). split.
  - intros C. inversion C as [P|k' iv' rs' out' P O]; subst; [congruence|]. rewrite CP in P. injection P as <- <- <-. apply OUT in O. subst out'. reflexivity.
  - intros ->. change (foldM _ (seq 0 (length idx)) tt) with (let* unsealed_blocks := Ok out in
       foldM (fun _ i => let* k := index idx i in let* b := index unsealed_blocks i in
                batch_verify origin k b (block_l params) (unit_l params)) (seq 0 (length idx)) tt).
    eapply Ch_live_go; [exact CP|]. now apply OUT.
Qed.
End One.
End Challenge.

Lemma range_of_singles_live H pr params now b e ks n rs : nblocks params = Ok n -> verifier_idxs_l pr params n <> Panic ->
  blocks_in_range b e (block_pl params) = Ok ks ->
  mapM (fun i => let* k := index ks i in single_unseal_prepare_live H pr params (now i) k) (seq 0 (length ks)) = Ok rs ->
  batch_unseal_prepare_live H pr params now b e = Ok (ks, map (fun r => fst (fst r)) rs, map (fun r => snd (fst r)) rs, map snd rs).
Proof.
  intros NB NP BR M. unfold batch_unseal_prepare_live. rewrite BR. cbn [bind].
  destruct (verifier_idxs_l pr params n) as [t|] eqn:TL; [|congruence].
  set (f1 := fun i => let* idx2 := index ks i in to_units (read_file (now i 0) (idx2 * block_pl params) (block_pl params)) (unit_pl params)).
  set (f2 := fun i => let* idx2 := index ks i in
      let bid := prepare_before_id H params (now i 1) idx2 in
      let* deps := prepare_depend_blocks_live H params (fun j => now i (2 + j)) t n bid idx2 in Ok (bid, deps)).
  rewrite (mapM_ext _ (fun i => let* bl := f1 i in let* p := f2 i in Ok (bl, fst p, snd p)) (seq 0 (length ks))) in M.
  2:{ intros i _. unfold f1, f2, single_unseal_prepare_live. destruct (index ks i) as [k|]; [|reflexivity]. cbn [bind].
      match goal with |- (let* _ := ?x in _) = _ => destruct x as [bl|]; [|reflexivity] end. cbn [bind]. rewrite NB. cbn [bind]. rewrite TL. cbn [bind].
      match goal with |- (let* _ := ?x in _) = _ => destruct x as [ds|]; reflexivity end. }
  destruct (mapM_three f1 f2 _ _ M) as (both & E1 & E2 & E3 & E4). rewrite E1. cbn [bind]. rewrite NB. cbn [bind]. rewrite TL. cbn [bind].
  match goal with |- (let* _ := mapM ?g _ in _) = _ => change g with f2 end. rewrite E2. cbn [bind]. now rewrite E3, E4.
Qed.
