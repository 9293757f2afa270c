(** Spot checks of an arbitrary stored file: what the challenge protocol and the
    single-block check decide about it. *)
From Coq Require Import Strings.Byte Sorted.
From Verif Require Import Base Sloth Common Depend Prover Verifier Merkle Postorage BytesFacts CommonFacts SealSpec SealCore SealTop SealPad
  SealZero ShortTable ChallengeFacts VerifierFacts ParallelFacts TableFacts SealVerify SealMeaning ReplyMeaning MerkleFacts PostorageFacts.
Local Open Scope nat_scope.

Lemma read_split f a l1 l2 : read_file f a (l1 + l2) = read_file f a l1 ++ read_file f (a + l1) l2.
Proof.
  apply (nth_ext _ _ x00 x00); [now rewrite app_length, !read_file_length|]. intros k K. rewrite read_file_length in K.
  assert (R : forall b l i, i < l -> nth i (read_file f b l) x00 = nth (b + i) f x00) by (intros b l i I; apply nth_error_nth; now apply read_file_nth).
  rewrite R by exact K. destruct (Nat.lt_ge_cases k l1).
  - rewrite app_nth1 by now rewrite read_file_length. now rewrite R.
  - rewrite app_nth2 by now rewrite read_file_length. rewrite read_file_length, R by lia. f_equal. lia.
Qed.
Lemma read_units f a u q : read_file f a (q * u) = concat (map (fun j => read_file f (a + j * u) u) (seq 0 q)).
Proof.
  induction q as [|q IH]; [reflexivity|]. rewrite seq_S, map_app, concat_app. cbn [map concat plus]. rewrite app_nil_r, <- IH. replace (S q * u) with (q * u + u) by lia. apply read_split.
Qed.
Lemma concat_inj_len {A} u : forall (a b : list (list A)), length a = length b -> Forall (fun x => length x = u) a -> Forall (fun x => length x = u) b -> concat a = concat b -> a = b.
Proof.
  induction a as [|x a IH]; intros [|y b] L FA FB E; try discriminate; [reflexivity|]. inversion FA; inversion FB; subst. cbn in E. assert (x = y) as <-.
  { apply (f_equal (firstn (length x))) in E. rewrite !firstn_app in E. replace (length x - length y) with 0 in E by lia. rewrite Nat.sub_diag, !firstn_O, !app_nil_r, firstn_all in E. rewrite E. apply firstn_all2. lia. }
  apply app_inv_head in E.
  f_equal. apply IH; auto.
Qed.

Section Spot.
Context (H : list byte -> list byte) (pr : profile) (params : PosPara) (key : Z) (iv : list byte) (n m : nat).
Hypothesis SET : setting H pr params key n m.
Hypothesis KB : forall d, (le2z (H d) < key < 256 ^ Z.of_nat (unit_pl params))%Z.
Hypothesis ML : mode_l params = 0.
Hypothesis LAY : layout params n m.
Notation bpl := (block_pl params).

Lemma units_length f k : length (block_units params m f k) = m.
Proof. unfold block_units. now rewrite map_length, seq_length. Qed.
Lemma units_shaped F k : n * bpl <= length F -> k < n -> Forall (fun u => length u = unit_pl params) (block_units params m F k).
Proof.
  intros LF K. apply Forall_forall. intros u I. unfold block_units in I. apply in_map_iff in I as (i & <- & I). apply in_seq in I. unfold unit_bytes.
  rewrite firstn_length, skipn_length. rewrite (l_block_pl _ _ _ LAY) in LF. apply Nat.min_l.
  assert (S (k * m + i) * unit_pl params <= n * m * unit_pl params) by (apply Nat.mul_le_mono_r; nia). nia.
Qed.
Lemma short_any prev i us : i < m -> short_choice H pr params n m prev i us <-> short_choice H pr params (block_l params / unit_l params) m prev i us.
Proof.
  intros I. rewrite (units_block params n m LAY). unfold short_choice. destruct (mode_s params) as [|q] eqn:E; [tauto|]. rewrite <- E.
  rewrite (short_rows_agree pr params n m i (set_short _ _ _ _ _ _ SET) ltac:(lia) I). tauto.
Qed.
Lemma short_nt : short_modes_fine pr params (block_l params / unit_l params) m.
Proof. rewrite (units_block params n m LAY). eapply fine_self, (set_short _ _ _ _ _ _ SET). Qed.
Lemma layout_table : unit_table params m.
Proof. right. split; [pose proof (l_unit _ _ _ LAY); lia|exact (units_block params n m LAY)]. Qed.

(** One stored block: the unsealing equations of the file are those of its response. *)
Lemma block_reply F G k U bs : n * bpl <= length F -> k < n -> long_choice H pr params n (H (block_bytes params F (k - 1))) k bs ->
  unseals_block H pr params key iv n m F G k U ->
  unseals_reply H pr params key iv m k (if k =? 0 then [] else H (block_bytes params F (k - 1))) (map (block_units params m F) bs)
    (block_units params m F k) (block_units params m G k) U.
Proof.
  intros LF K LC (U0 & UE & ST). split; [|split].
  - intros i I. rewrite block_units_nth by exact I. now apply U0.
  - intros i I. rewrite block_units_nth by exact I. now apply UE.
  - intros t T. destruct (ST t T) as (blocks & units & LC' & SC & L & V & R). assert (M0 : 0 < m) by apply LAY. apply unseal_random in LC'; [|exact ML].
    destruct (long_choice_fun H pr params key n m SET _ k blocks bs K LC' LC) as (-> & _). clear LC'.
    exists units. split; [apply short_any; [lia|exact SC]|]. split; [exact L|]. split; [|exact R]. rewrite V. do 4 f_equal. f_equal.
    + rewrite map_map. f_equal. apply map_ext. intros b. symmetry. apply block_units_nth. lia.
    + f_equal. unfold chained. destruct (_ =? 0); [|reflexivity]. destruct (k =? 0); reflexivity.
Qed.
(** The responses of a stored file unseal to the blocks of the unsealed file. *)
Theorem spot_unseal F G ks : n * bpl <= length F -> unseal H pr params key iv F = Ok G -> Forall (fun k => k < n) ks ->
  exists rs, mapM (single_unseal_prepare H pr params F) ks = Ok rs /\
  batch_unseal H pr params key iv ks (map (fun r => snd (fst r)) rs) (map snd rs) (map (fun r => fst (fst r)) rs) = Ok (map (block_units params m G) ks).
Proof.
  intros LF EU FK. destruct (unseals_block_ok H pr params key iv n m SET F G KB LF EU) as (U & SU).
  assert (X : exists rs, mapM (single_unseal_prepare H pr params F) ks = Ok rs /\
    forall i k, nth_error ks i = Some k -> exists r, nth_error rs i = Some r /\
      exists bs, long_choice H pr params n (H (block_bytes params F (k - 1))) k bs /\ r = honest_response H params m F k bs).
  { apply (mapM_forall (single_unseal_prepare H pr params F) (fun k r => exists bs, long_choice H pr params n (H (block_bytes params F (k - 1))) k bs /\ r = honest_response H params m F k bs)).
    intros k I. rewrite Forall_forall in FK. destruct (response_ok H pr params key n m SET F k LF (FK k I)) as (bs & LC & E). eauto. }
  destruct X as (rs & RS & X). exists rs. split; [exact RS|]. pose proof (mapM_len _ _ _ RS) as LR.
  pose proof short_nt as SM.
  assert (UL : unit_l params <> 0) by (pose proof (l_unit _ _ _ LAY); lia).
  assert (EACH : forall j, j < length ks -> exists k bs, nth_error ks j = Some k /\ k < n /\ long_choice H pr params n (H (block_bytes params F (k - 1))) k bs /\
     nth_error rs j = Some (honest_response H params m F k bs)).
  { intros j J. destruct (nth_error ks j) as [k|] eqn:E; [|apply nth_error_None in E; lia]. destruct (X j k E) as (r & R & bs & LC & ->).
    exists k, bs. repeat split; auto. rewrite Forall_forall in FK. apply FK. eapply nth_error_In; eauto. }
  rewrite (reply_iff H pr params key iv m (hh _ _ _ _ _ _ SET) (k1 _ _ _ _ _ _ SET) KB SM); rewrite ?map_length; auto; try lia.
  - split; [lia|]. intros j J. rewrite LR in J. destruct (EACH j J) as (k & bs & EK & K & LC & ER).
    rewrite (nth_error_nth _ _ _ EK). rewrite (nth_error_nth (map (block_units params m G) ks) j [] (x := block_units params m G k)) by (rewrite nth_error_map, EK; reflexivity).
    split; [apply units_length|]. exists (U k).
    rewrite (nth_error_nth (map (fun r => snd (fst r)) rs) j [] (x := if k =? 0 then [] else H (block_bytes params F (k - 1)))) by (rewrite nth_error_map, ER; reflexivity).
    rewrite (nth_error_nth (map snd rs) j [] (x := map (block_units params m F) bs)) by (rewrite nth_error_map, ER; reflexivity).
    rewrite (nth_error_nth (map (fun r => fst (fst r)) rs) j [] (x := block_units params m F k)) by (rewrite nth_error_map, ER; reflexivity).
    apply block_reply; auto.
  - apply Forall_forall. intros b I. apply in_map_iff in I as (r & <- & I). apply In_nth_error in I as (j & J). assert (J' : j < length ks) by (rewrite <- LR; apply nth_error_Some; congruence).
    destruct (EACH j J') as (k & bs & _ & K & _ & ER). rewrite ER in J. injection J as <-. cbn [fst snd honest_response]. split; [apply units_length|now apply units_shaped].
  - apply Forall_forall. intros b I. apply in_map_iff in I as (r & <- & I). apply In_nth_error in I as (j & J). assert (J' : j < length ks) by (rewrite <- LR; apply nth_error_Some; congruence).
    destruct (EACH j J') as (k & bs & _ & K & _ & ER). rewrite ER in J. injection J as <-. cbn [snd honest_response]. apply Forall_forall. intros d I. apply in_map_iff in I as (b & <- & _). apply units_length.
Qed.
(** For every number of threads and every schedule. *)
Lemma spot_out F G ks rs parallel_num : n * bpl <= length F -> unseal H pr params key iv F = Ok G -> Forall (fun k => k < n) ks ->
  mapM (single_unseal_prepare H pr params F) ks = Ok rs ->
  forall out, (if parallel_num =? 0
     then out = batch_unseal H pr params key iv ks (map (fun x => snd (fst x)) rs) (map snd rs) (map (fun x => fst (fst x)) rs)
     else batch_unseal_parallel H pr params key iv ks (map (fun x => snd (fst x)) rs) (map snd rs) parallel_num (map (fun x => fst (fst x)) rs) out)
     <-> out = Ok (map (block_units params m G) ks).
Proof.
  intros LF EU FK RS out. destruct (spot_unseal F G ks LF EU FK) as (rs' & RS' & BU). rewrite RS in RS'. injection RS' as <-.
  destruct (Nat.eqb_spec parallel_num 0) as [Z|Z]; [now rewrite BU|]. apply (par_eq_seq_rows H pr params key iv _ _ _ n m); auto.
  - exact (set_short _ _ _ _ _ _ SET).
  - rewrite (l_block _ _ _ LAY). pose proof (l_m _ _ _ LAY). pose proof (l_unit _ _ _ LAY). nia.
  - pose proof (l_unit _ _ _ LAY). lia.
  - exact (data_block params n m LAY).
  - exact (units_block params n m LAY).
  - apply Forall_forall. intros b I. apply in_map_iff in I as (x & <- & I). apply In_nth_error in I as (j & J).
    assert (JL : j < length ks) by (rewrite <- (mapM_len _ _ _ RS); apply nth_error_Some; congruence).
    destruct (nth_error ks j) as [k|] eqn:NK; [|apply nth_error_None in NK; lia].
    destruct (mapM_nth _ _ _ RS j k NK) as (x' & NX & EK). rewrite J in NX. injection NX as <-.
    assert (K : k < n) by (rewrite Forall_forall in FK; apply FK; eapply nth_error_In; eauto).
    destruct (response_ok H pr params key n m SET F k LF K) as (bs & _ & E). rewrite E in EK. injection EK as <-. apply units_length.
Qed.

(** A restored block agrees with the original exactly when batch_verify accepts it. *)
Lemma restored_unit G c i : copy_and_compress G (data_l params) (unit_l params) (unit_pl params) = Ok c -> n * bpl <= length G -> i < n * m ->
  read_file c (i * unit_l params) (unit_l params) = firstn (unit_l params) (unit_bytes params G i).
Proof.
  clear - LAY. intros E LG I. assert (U0 : unit_l params <> 0) by (pose proof (l_unit _ _ _ LAY); lia). pose proof (l_unit_pl _ _ _ LAY) as UP.
  rewrite compress_val in E by lia. injection E as <-.
  assert (C : data_l params / unit_l params = n * m) by (rewrite (l_data _ _ _ LAY), (l_block _ _ _ LAY), Nat.mul_assoc; apply Nat.div_mul; lia). rewrite C.
  set (us := map _ (seq 0 (n * m))). set (u := unit_l params) in *.
  assert (LU : length us = n * m) by (unfold us; now rewrite map_length, seq_length).
  assert (FU : Forall (fun x => length x = u) us) by (apply Forall_map, Forall_forall; intros k _; rewrite firstn_length, read_file_length; lia).
  assert (LC : length (concat us) = n * m * u) by (clear - LU FU; rewrite <- LU; clear LU; induction us as [|x us IH]; [reflexivity|]; inversion FU; subst; cbn [concat length]; rewrite app_length, IH by assumption; lia).
  assert (X : concat us = concat (map (fun j => read_file (concat us) (0 + j * u) u) (seq 0 (n * m)))).
  { rewrite <- read_units, <- LC. rewrite read_file_full by lia. cbn [skipn]. now rewrite firstn_all. }
  apply (concat_inj_len u) in X; [|now rewrite map_length, seq_length|exact FU|apply Forall_map, Forall_forall; intros k _; apply read_file_length].
  assert (N : nth_error us i = Some (firstn u (unit_bytes params G i))).
  { unfold us. rewrite nth_error_map, (nth_error_nth' (seq 0 (n * m)) 0) by now rewrite seq_length. rewrite seq_nth by exact I. cbn [option_map plus]. do 2 f_equal.
    unfold unit_bytes. apply read_file_full. rewrite (l_block_pl _ _ _ LAY) in LG. assert (S i * unit_pl params <= n * m * unit_pl params) by (apply Nat.mul_le_mono_r; lia). nia. }
  rewrite X, nth_error_map, (nth_error_nth' (seq 0 (n * m)) 0) in N by now rewrite seq_length. rewrite seq_nth in N by exact I. cbn [option_map plus] in N. now injection N.
Qed.
Lemma verify_restored origin G c k : copy_and_compress G (data_l params) (unit_l params) (unit_pl params) = Ok c -> n * bpl <= length G -> k < n ->
  batch_verify origin k (block_units params m G k) (block_l params) (unit_l params) = Ok tt <->
  read_file c (k * block_l params) (block_l params) = read_file origin (k * block_l params) (block_l params).
Proof.
  intros E LG K. rewrite batch_verify_iff. rewrite (units_block params n m LAY). pose proof (l_block _ _ _ LAY) as LB.
  assert (A : read_file c (k * block_l params) (block_l params) = concat (map (fun j => firstn (unit_l params) (unit_bytes params G (k * m + j))) (seq 0 m))).
  { rewrite LB at 2. rewrite read_units. f_equal. apply map_ext_in. intros j J. apply in_seq in J. rewrite <- (restored_unit G c) by (auto; nia). f_equal. rewrite LB. lia. }
  assert (B : read_file origin (k * block_l params) (block_l params) = concat (map (fun j => read_file origin (k * block_l params + j * unit_l params) (unit_l params)) (seq 0 m))).
  { rewrite LB at 2. apply read_units. }
  rewrite A, B. split.
  - intros (_ & _ & X). f_equal. apply map_ext_in. intros j J. apply in_seq in J. destruct (X j ltac:(lia)) as (c0 & N & Y).
    unfold block_units in N. rewrite nth_error_map, (nth_error_nth' (seq 0 m) 0) in N by (rewrite seq_length; lia). rewrite seq_nth in N by lia. injection N as <-. exact Y.
  - intros X. split; [apply LAY|]. split; [exists m; exact LB|]. intros j J. exists (unit_bytes params G (k * m + j)). split.
    + unfold block_units. rewrite nth_error_map, (nth_error_nth' (seq 0 m) 0) by (rewrite seq_length; lia). now rewrite seq_nth by lia.
    + apply (concat_inj_len (unit_l params)) in X; [|now rewrite !map_length| |apply Forall_map, Forall_forall; intros; apply read_file_length].
      * assert (N := f_equal (fun l => nth_error l j) X). cbn beta in N. rewrite !nth_error_map, (nth_error_nth' (seq 0 m) 0) in N by (rewrite seq_length; lia). rewrite seq_nth in N by lia. now injection N.
      * apply Forall_map, Forall_forall. intros i I. apply in_seq in I. rewrite firstn_length.
        pose proof (units_shaped G k LG K) as S. rewrite Forall_forall in S. rewrite (S (unit_bytes params G (k * m + i))); [|unfold block_units; apply in_map_iff; exists i; split; [reflexivity|now apply in_seq]].
        rewrite (l_unit_pl _ _ _ LAY). lia.
Qed.
Lemma check_blocks origin G c ks : copy_and_compress G (data_l params) (unit_l params) (unit_pl params) = Ok c -> n * bpl <= length G -> Forall (fun k => k < n) ks ->
  foldM (fun _ i => let* k := index ks i in let* b := index (map (block_units params m G) ks) i in
                    batch_verify origin k b (block_l params) (unit_l params)) (seq 0 (length ks)) tt = Ok tt <->
  forall k, In k ks -> read_file c (k * block_l params) (block_l params) = read_file origin (k * block_l params) (block_l params).
Proof.
  intros E LG F. rewrite (foldM_unit (fun i => let* k := index ks i in let* b := index (map (block_units params m G) ks) i in
    batch_verify origin k b (block_l params) (unit_l params))). rewrite Forall_forall. rewrite Forall_forall in F.
  assert (ST : forall i k, nth_error ks i = Some k -> (let* k := index ks i in let* b := index (map (block_units params m G) ks) i in
    batch_verify origin k b (block_l params) (unit_l params)) = batch_verify origin k (block_units params m G k) (block_l params) (unit_l params)).
  { intros i k N. unfold index. rewrite nth_error_map, N. reflexivity. }
  split.
  - intros X k I. destruct (In_nth_error _ _ I) as (i & N). apply (verify_restored origin G c k E LG (F k I)). rewrite <- (ST i k N). apply X, in_seq.
    assert (i < length ks) by (apply nth_error_Some; congruence). lia.
  - intros X i I. apply in_seq in I. destruct (nth_error ks i) as [k|] eqn:N; [|apply nth_error_None in N; lia]. rewrite (ST i k N).
    apply nth_error_In in N. apply (verify_restored origin G c k E LG (F k N)). now apply X.
Qed.
Lemma check_panics {A} (f : A -> res unit) l : foldM (fun _ a => f a) l tt <> Ok tt -> foldM (fun _ a => f a) l tt = Panic.
Proof. destruct (foldM _ l tt) as [[]|]; [congruence|reflexivity]. Qed.

Lemma restored_ex F : n * bpl <= length F -> exists G c, unseal H pr params key iv F = Ok G /\ n * bpl <= length G /\
  copy_and_compress G (data_l params) (unit_l params) (unit_pl params) = Ok c.
Proof.
  clear ML. intros LF. destruct (unseal_total H pr params key iv n m SET F KB LF) as (G & EU & LG & _).
  exists G. eexists. split; [exact EU|]. split; [lia|]. apply compress_val; [pose proof (l_unit _ _ _ LAY); lia|rewrite (l_unit_pl _ _ _ LAY); lia].
Qed.
Lemma verdict (P : Prop) (x o : res unit) : (x = Ok tt <-> P) -> (o = x <-> (o = Ok tt /\ P) \/ (o = Panic /\ ~ P)).
Proof.
  intros I. destruct x as [[]|].
  - split; [intros ->; left; tauto|]. intros [[-> _]|[_ N]]; [reflexivity|tauto].
  - split; [|intros [[-> Q]|[-> _]]; [exfalso; apply I in Q; discriminate|reflexivity]]. intros ->. right. split; [reflexivity|]. intros Q. apply I in Q. discriminate.
Qed.
Theorem spot_single F G c origin pub parallel_num o :
  n * bpl <= length F -> unseal H pr params key iv F = Ok G -> n * bpl <= length G -> copy_and_compress G (data_l params) (unit_l params) (unit_pl params) = Ok c ->
  load_data pub = Ok (key, iv) -> 10 <= n ->
  unseal_single_and_verify H pr params pub origin F parallel_num o <->
  (o = Ok tt /\ forall k, k < 10 -> read_file c (k * block_l params) (block_l params) = read_file origin (k * block_l params) (block_l params)) \/
  (o = Panic /\ ~ forall k, k < 10 -> read_file c (k * block_l params) (block_l params) = read_file origin (k * block_l params) (block_l params)).
Proof.
  intros LF EU LG EC LD TEN.
  assert (BP : 0 < bpl) by (rewrite (l_block_pl _ _ _ LAY), (l_unit_pl _ _ _ LAY); pose proof (l_m _ _ _ LAY); nia).
  destruct (blocks_aligned 0 (10 * bpl) bpl BP) as (ks & BR & S & KS).
  assert (K10 : forall k, In k ks <-> k < 10).
  { intros k. rewrite KS. split; [intros (x & X & Y & _); nia|]. intros K. exists (k * bpl). nia. }
  assert (FI : Forall (fun k => k < n) ks) by (apply Forall_forall; intros k I; apply K10 in I; lia).
  destruct (spot_unseal F G ks LF EU FI) as (rs & RS & _). pose proof (spot_out F G ks rs parallel_num LF EU FI RS) as OUT.
  assert (EF : exists st, s_file st = F) by (exists (mkSeal F [] []); reflexivity). destruct EF as (st & EF). rewrite <- EF in RS.
  pose proof (prepare_range_eq H pr params key n m SET st ks rs FI RS (0 * bpl) (10 * bpl) BR) as PE. rewrite EF in PE, RS. clear st EF.
  match goal with |- _ <-> (_ /\ ?P) \/ _ => rewrite <- (verdict P (foldM (fun _ i => let* k := index ks i in let* b := index (map (block_units params m G) ks) i in
                    batch_verify origin k b (block_l params) (unit_l params)) (seq 0 (length ks)) tt)) end.
  2:{ rewrite (check_blocks origin G c ks EC LG FI). split; intros X k K; apply X; now apply K10. }
  split.
  - intros C. inversion C as [P|k' iv' a b e d out LD' PE' O]; subst o.
    + exfalso. rewrite LD in P. cbn [bind] in P. rewrite PE in P. discriminate.
    + rewrite LD in LD'. injection LD' as <- <-. rewrite PE in PE'. injection PE' as <- <- <- <-. apply OUT in O. subst out. reflexivity.
  - intros ->. change (foldM _ (seq 0 (length ks)) tt) with (let* unsealed_blocks := Ok (map (block_units params m G) ks) in
       foldM (fun _ i => let* k := index ks i in let* b := index unsealed_blocks i in
                batch_verify origin k b (block_l params) (unit_l params)) (seq 0 (length ks)) tt).
    eapply USV_go; [exact LD|exact PE|]. now apply OUT.
Qed.

(** * Different stored files *)
(** Unsealing block k of F hands the inverse delay function only numbers 1 .. key - 1. *)
Definition reduced_block (F : file) (k : nat) : Prop :=
  exists G U, unseals_block H pr params key iv n m F G k U /\
  forall t, t < seal_rounds params * m -> (1 <= le2z (U t (m - 1 - t mod m)%nat) <= key - 1)%Z.

Lemma reply_block F G k U bs : n * bpl <= length F -> k < n -> long_choice H pr params n (H (block_bytes params F (k - 1))) k bs ->
  unseals_reply H pr params key iv m k (if k =? 0 then [] else H (block_bytes params F (k - 1))) (map (block_units params m F) bs)
    (block_units params m F k) (block_units params m G k) U ->
  unseals_block H pr params key iv n m F G k U.
Proof.
  intros LF K LC (U0 & UE & ST). assert (M0 : 0 < m) by apply LAY. split; [|split].
  - intros i I. rewrite <- block_units_nth by exact I. now apply U0.
  - intros i I. rewrite <- block_units_nth by exact I. now apply UE.
  - intros t T. destruct (ST t T) as (units & SC & L & V & R).
    exists bs, units. split; [now apply unseal_random|]. split; [apply short_any; [lia|exact SC]|]. split; [exact L|]. split; [|exact R]. rewrite V. do 4 f_equal. f_equal.
    + rewrite map_map. f_equal. apply map_ext. intros b. apply block_units_nth. lia.
    + f_equal. unfold chained. destruct (_ =? 0); [|reflexivity]. destruct (k =? 0); reflexivity.
Qed.
Lemma reduced_reply F k bs : n * bpl <= length F -> k < n -> long_choice H pr params n (H (block_bytes params F (k - 1))) k bs ->
  reduced_block F k ->
  canonical_reply H pr params key iv m k (if k =? 0 then [] else H (block_bytes params F (k - 1))) (map (block_units params m F) bs) (block_units params m F k).
Proof. intros LF K LC (G & U & B & C). exists (block_units params m G k), U. split; [now apply block_reply|exact C]. Qed.
Lemma units_agree F F' k : n * bpl <= length F -> n * bpl <= length F' -> k < n -> block_bytes params F k = block_bytes params F' k -> block_units params m F k = block_units params m F' k.
Proof.
  intros L L' K E. unfold block_units. apply map_ext_in. intros i I. apply in_seq in I. apply (units_of_block H pr params key n m SET F F' k); auto; lia.
Qed.
Theorem first_damage F F' G G' k : (Znumtheory.prime key /\ key mod 4 = 3)%Z -> n * bpl <= length F -> n * bpl <= length F' -> n * bpl <= length G -> n * bpl <= length G' ->
  unseal H pr params key iv F = Ok G -> unseal H pr params key iv F' = Ok G' -> k < n ->
  (forall b, b < k -> block_bytes params F b = block_bytes params F' b) -> reduced_block F k -> reduced_block F' k ->
  block_bytes params G k = block_bytes params G' k -> block_bytes params F k = block_bytes params F' k.
Proof.
  intros PK LF LF' LG LG' EU EU' K BEF RB RB' EG.
  destruct (unseals_block_ok H pr params key iv n m SET F G KB LF EU) as (U & SU).
  destruct (unseals_block_ok H pr params key iv n m SET F' G' KB LF' EU') as (V & SV).
  destruct (response_ok H pr params key n m SET F k LF K) as (bs & LC & _).
  destruct (long_choice_fun H pr params key n m SET _ k bs bs K LC LC) as (_ & LT).
  assert (EH : k <> 0 -> block_bytes params F (k - 1) = block_bytes params F' (k - 1)) by (intros; apply BEF; lia).
  assert (LC' : long_choice H pr params n (H (block_bytes params F' (k - 1))) k bs).
  { destruct k as [|k]; [unfold long_choice in *; rewrite ML in *; exact LC|]. now rewrite <- EH. }
  assert (ED : map (block_units params m F) bs = map (block_units params m F') bs).
  { apply map_ext_in. intros b I. rewrite Forall_forall in LT. specialize (LT b I). apply units_agree; auto; lia. }
  assert (EW : (if k =? 0 then [] else H (block_bytes params F (k - 1))) = (if k =? 0 then [] else H (block_bytes params F' (k - 1)))).
  { destruct (Nat.eqb_spec k 0); [reflexivity|]. now rewrite EH. }
  pose proof (block_reply F G k (U k) bs LF K LC (SU k K)) as R1. pose proof (block_reply F' G' k (V k) bs LF' K LC' (SV k K)) as R2.
  pose proof (reduced_reply F k bs LF K LC RB) as C1. pose proof (reduced_reply F' k bs LF' K LC' RB') as C2.
  rewrite <- ED, <- EW in R2, C2. rewrite <- (units_agree G G' k) in R2 by auto.
  assert (E : block_units params m F k = block_units params m F' k).
  { eapply (reply_determined_c H pr params key iv m (k1 _ _ _ _ _ _ SET) KB short_nt); [exact PK| | | | |exact R1|exact R2|exact C1|exact C2]; auto using units_length, units_shaped. }
  apply (block_of_units H pr params key n m SET); auto. intros i I. rewrite <- !block_units_nth by exact I. now rewrite E.
Qed.
Theorem replica_unique F F' G G' : (Znumtheory.prime key /\ key mod 4 = 3)%Z -> n * bpl <= length F -> n * bpl <= length F' -> n * bpl <= length G -> n * bpl <= length G' ->
  unseal H pr params key iv F = Ok G -> unseal H pr params key iv F' = Ok G' ->
  (forall k, k < n -> reduced_block F k) -> (forall k, k < n -> reduced_block F' k) ->
  (forall k, k < n -> block_bytes params G k = block_bytes params G' k) -> forall k, k < n -> block_bytes params F k = block_bytes params F' k.
Proof.
  intros PK LF LF' LG LG' EU EU' RB RB' EG k. induction k as [k IH] using (well_founded_induction Wf_nat.lt_wf). intros K.
  apply (first_damage F F' G G' k); auto. intros b B. apply IH; lia.
Qed.
Lemma sealed_reduced f st : sound_key H key -> sealable params key n m f -> seal H pr params key iv f = Ok st -> ~ In 0%Z (s_log st) ->
  forall k, k < n -> reduced_block (s_file st) k.
Proof.
  intros SK FS ES NZ k K. destruct (seal_total H pr params key iv n m SET f FS) as (st' & ES' & LS & _). rewrite ES in ES'. injection ES' as <-.
  assert (LF : n * bpl <= length (s_file st)) by (rewrite LS; apply FS).
  destruct (response_ok H pr params key n m SET (s_file st) k LF K) as (bs & LC & E).
  destruct (stored_canonical H pr params key iv n m SET SK layout_table f st k _ _ _ FS ES NZ K E) as (_ & _ & (R & U & RU & C) & (V & RV)).
  exists f, U. split; [|exact C]. apply (reply_block (s_file st) f k U bs LF K LC).
  apply (unseals_reply_ext H pr params key iv m) with (R := R); [|exact RU].
  exact (reply_unique H pr params key iv m (k1 _ _ _ _ _ _ SET) KB short_nt _ _ _ _ _ _ _ _ RU RV).
Qed.

(** * Challenges *)
Context (H2 : list byte -> list byte).
Hypothesis H2_32 : hash32 H2.
Theorem spot_challenge F G c origin pub ids leaves tree root parallel_num r idx o :
  n * bpl <= length F -> unseal H pr params key iv F = Ok G -> n * bpl <= length G -> copy_and_compress G (data_l params) (unit_l params) (unit_pl params) = Ok c ->
  load_data pub = Ok (key, iv) -> length ids = n -> generate_merkle_tree_from_data H2 ids = Ok (leaves, tree, root) ->
  StronglySorted lt idx -> Forall (fun i => i < n) idx -> idx <> [] ->
  challenge H H2 pr params parallel_num origin F pub leaves tree root r idx o <->
  (o = Ok tt /\ forall k, In k idx -> read_file c (k * block_l params) (block_l params) = read_file origin (k * block_l params) (block_l params)) \/
  (o = Panic /\ ~ forall k, In k idx -> read_file c (k * block_l params) (block_l params) = read_file origin (k * block_l params) (block_l params)).
Proof.
  intros LF EU LG EC LD LI GT S FI N. destruct (spot_unseal F G idx LF EU FI) as (rs & RS & _).
  unfold generate_merkle_tree_from_data in GT. destruct (tree_root (from_leaves H2 (map H2 ids))) as [r0|] eqn:TR; [|discriminate]. injection GT as <- <- <-.
  destruct (proof_complete H2 H2_32 (map H2 ids) idx) as (proof & root' & GP & TR' & VP); auto.
  { apply Forall_forall. intros x I. apply in_map_iff in I. destruct I as (y & <- & _). apply H2_32. }
  { now rewrite map_length, LI. }
  rewrite TR in TR'. injection TR' as <-.
  assert (CP : challenge_prepare H H2 pr params F pub (map H2 ids) (from_leaves H2 (map H2 ids)) r0 r idx = Ok (key, iv, rs)).
  { unfold challenge_prepare. rewrite RS. cbn [bind]. rewrite GP. cbn [bind]. unfold verify_response.
    destruct (list_eq_dec _ _ _) as [_|Q]; [|congruence]. rewrite VP. cbn [bind]. rewrite LD. reflexivity. }
  pose proof (spot_out F G idx rs parallel_num LF EU FI RS) as OUT.
  rewrite <- (verdict _ _ _ (check_blocks origin G c idx EC LG FI)). split.
  - intros C. inversion C as [P|k' iv' rs' out P O]; subst; [congruence|]. rewrite CP in P. injection P as <- <- <-. apply OUT in O. subst out. reflexivity.
  - intros ->. change (foldM _ (seq 0 (length idx)) tt) with (let* unsealed_blocks := Ok (map (block_units params m G) idx) in
       foldM (fun _ i => let* k := index idx i in let* b := index unsealed_blocks i in
                batch_verify origin k b (block_l params) (unit_l params)) (seq 0 (length idx)) tt).
    eapply Ch_go; [exact CP|]. now apply OUT.
Qed.
End Spot.

Lemma restored_length params n m : layout params n m -> forall G c, copy_and_compress G (data_l params) (unit_l params) (unit_pl params) = Ok c -> length c = data_l params.
Proof.
  intros LAY G c E. pose proof (l_unit _ _ _ LAY) as U0. pose proof (l_unit_pl _ _ _ LAY) as UP. rewrite compress_val in E by lia. injection E as <-.
  rewrite (concat_length_uniform (unit_l params)).
  - rewrite map_length, seq_length, (l_data _ _ _ LAY), (l_block _ _ _ LAY), Nat.mul_assoc, Nat.div_mul by lia. reflexivity.
  - apply Forall_map, Forall_forall. intros k _. rewrite firstn_length, read_file_length. lia.
Qed.
Lemma blocks_equal params n m : layout params n m -> forall a b : file, length a = data_l params -> length b = data_l params ->
  (forall k, k < n -> read_file a (k * block_l params) (block_l params) = read_file b (k * block_l params) (block_l params)) -> a = b.
Proof.
  intros LAY a b LA LB E. rewrite (l_data _ _ _ LAY) in LA, LB.
  assert (R : forall f, length f = n * block_l params -> f = concat (map (fun j => read_file f (0 + j * block_l params) (block_l params)) (seq 0 n))).
  { intros f L. rewrite <- read_units, <- L, read_file_full by lia. cbn [skipn]. now rewrite firstn_all. }
  rewrite (R a LA), (R b LB). f_equal. apply map_ext_in. intros k K. apply in_seq in K. apply E. lia.
Qed.
Lemma draw_no_panic n : 0 < n -> forall fuel count draw, create_challenges fuel count (0, n) draw <> Some Panic.
Proof.
  intros N0 fuel count draw P. unfold create_challenges in P. cbn [fst snd] in P. revert P. generalize (@nil nat). generalize 0 at 2. generalize fuel.
  intros f. induction f as [|f IH]; intros i s P; [discriminate|]. cbn [challenge_loop] in P. destruct (_ <? count); [|discriminate].
  destruct (Nat.leb_spec n 0); [lia|]. now apply IH in P.
Qed.

Lemma same_block_unit params n m : layout params n m -> forall c origin k i,
  read_file c (k * block_l params) (block_l params) = read_file origin (k * block_l params) (block_l params) -> i < m ->
  read_file c ((k * m + i) * unit_l params) (unit_l params) = read_file origin ((k * m + i) * unit_l params) (unit_l params).
Proof.
  intros LAY c origin k i E I. rewrite (l_block _ _ _ LAY), !read_units in E.
  apply (concat_inj_len (unit_l params)) in E; [|now rewrite !map_length|apply Forall_map, Forall_forall; intros; apply read_file_length|apply Forall_map, Forall_forall; intros; apply read_file_length].
  assert (N := f_equal (fun l => nth_error l i) E). cbn beta in N. rewrite !nth_error_map, (nth_error_nth' (seq 0 m) 0) in N by now rewrite seq_length.
  rewrite seq_nth in N by exact I. cbn [option_map plus] in N. injection N as N. now replace ((k * m + i) * unit_l params) with (k * (m * unit_l params) + i * unit_l params) by lia.
Qed.
