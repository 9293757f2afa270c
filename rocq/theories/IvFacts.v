(** Where the iv enters: only the mask of unit 0 of block 0. *)
From Verif Require Import Base BytesFacts Sloth Common CommonFacts Depend DependFacts DependDet VdeFacts Prover Verifier Merkle Postorage SealSpec SealCore SealTop SealZero CrashFacts AnyLength.
From Coq Require Import Lia.
Local Open Scope nat_scope.

Section Iv.
Context (H : list byte -> list byte) (pr : profile) (params : PosPara) (key : Z) (iv iv' : list byte).

(** * The prover's file *)
Lemma udd_iv ts deps bid k m cur i : k <> 0 \/ i <> 0 ->
  unseal_depend_data H params iv ts deps bid k m cur i = unseal_depend_data H params iv' ts deps bid k m cur i.
Proof.
  intros N. unfold unseal_depend_data. destruct (Nat.eqb_spec i 0) as [->|NI]; [|reflexivity].
  destruct (Nat.eqb_spec k 0) as [->|NK]; [lia|reflexivity].
Qed.
Lemma unseal_unit_iv ts deps bid k m cur j : k <> 0 \/ m - 1 - j <> 0 ->
  unseal_unit H params key iv ts deps bid k m cur j = unseal_unit H params key iv' ts deps bid k m cur j.
Proof. intros N. unfold unseal_unit. now rewrite (udd_iv ts deps bid k m cur _ N). Qed.
Lemma unseal_block_iv tl ts n f i : n - 1 - i <> 0 -> unseal_block H params key iv tl ts n f i = unseal_block H params key iv' tl ts n f i.
Proof.
  intros N. unfold unseal_block. destruct (read_block params f (n - 1 - i)) as [cur|]; cbn [bind]; [|reflexivity].
  destruct (unseal_depend_blocks H params tl n f _ _) as [deps|]; cbn [bind]; [|reflexivity]. unfold unseal_block_rounds.
  rewrite (foldM_ext (fun cb (_ : nat) => foldM (unseal_unit H params key iv ts deps (unseal_before_id H params f (n - 1 - i)) (n - 1 - i) (length cur)) (seq 0 (length cur)) cb)
                     (fun cb (_ : nat) => foldM (unseal_unit H params key iv' ts deps (unseal_before_id H params f (n - 1 - i)) (n - 1 - i) (length cur)) (seq 0 (length cur)) cb));
    [reflexivity|]. intros a s _. apply foldM_ext. intros j c _. apply unseal_unit_iv. now left.
Qed.
Lemma unseal_split tl ts n f : 0 < n -> forall v,
  foldM (unseal_block H params key v tl ts n) (seq 0 n) f =
  let* g := foldM (unseal_block H params key v tl ts n) (seq 0 (n - 1)) f in unseal_block H params key v tl ts n g (n - 1).
Proof.
  intros N v. replace n with (S (n - 1)) at 2 by lia. rewrite seq_S, foldM_app. cbn [plus].
  destruct (foldM _ (seq 0 (n - 1)) f); cbn [bind foldM]; [|reflexivity]. now destruct (unseal_block _ _ _ _ _ _ _ _ _).
Qed.
Lemma unseal_prefix_iv tl ts n f : foldM (unseal_block H params key iv tl ts n) (seq 0 (n - 1)) f = foldM (unseal_block H params key iv' tl ts n) (seq 0 (n - 1)) f.
Proof. apply foldM_ext. intros i s I. apply in_seq in I. apply unseal_block_iv. lia. Qed.
End Iv.

Section Blocks.
Context (H : list byte -> list byte) (pr : profile) (params : PosPara) (key : Z) (n m : nat).
Hypothesis GEO : geometry params n m.
Hypothesis KEY : (1 < key < 256 ^ Z.of_nat (unit_pl params))%Z.
Notation upl := (unit_pl params).
Notation bpl := (block_pl params).

(** What unsealing block 0 leaves alone. *)
Lemma unseal_block_beyond iv tl ts cnt f i f' x : unseal_block H params key iv tl ts cnt f i = Ok f' -> (cnt - 1 - i) * bpl + bpl <= x ->
  nth x f' x00 = nth x f x00.
Proof.
  intros E X. unfold unseal_block in E. apply bind_ok in E as (cur & EC & E). apply bind_ok in E as (deps & _ & E).
  apply bind_ok in E as (c & ER & E). injection E as <-.
  assert (SH : shaped params m c).
  { unfold unseal_block_rounds in ER. revert ER. apply (foldM_keeps (shaped params m)); [|apply (read_shaped params n m GEO _ _ _ EC)].
    intros s a s' _ S R. revert R. apply (foldM_keeps (shaped params m)); [|exact S].
    clear - KEY. intros c0 j s' _ S R. unfold unseal_unit in R. apply bind_ok in R as (d & _ & R). apply bind_ok in R as (u & EU & R).
    apply bind_ok in R as (a & EA & R). eapply set_shaped; [exact S| |exact R]. apply modsub_len in EA. rewrite EA.
    apply vde_inv_len_any; [lia|lia|]. eapply index_shaped; eassumption. }
  destruct SH as [SL SF]. rewrite write_at_nth_any, (com_length upl m c SL SF), <- (g_block_pl _ _ _ GEO).
  destruct (Nat.ltb_spec x ((cnt - 1 - i) * bpl + bpl)); [lia|]. now rewrite andb_false_r.
Qed.
Lemma unseal_iv_beyond iv iv' F G G' : unseal H pr params key iv F = Ok G -> unseal H pr params key iv' F = Ok G' ->
  forall x, bpl <= x -> nth x G x00 = nth x G' x00.
Proof.
  intros E E' x X. unfold unseal, nblocks in E, E'. destruct (Nat.eqb_spec (block_l params) 0); [discriminate|]. cbn [bind] in E, E'.
  rewrite (g_blocks _ _ _ GEO) in E, E'.
  destruct (unseal_idxs_l pr params n) as [tl|]; cbn [bind] in E, E'; [|discriminate]. destruct (unseal_idxs_s pr params n) as [ts|]; cbn [bind] in E, E'; [|discriminate].
  destruct (Nat.eq_dec n 0) as [Z|NZ]; [rewrite Z in E, E'; cbn [seq foldM] in E, E'; injection E as <-; injection E' as <-; reflexivity|].
  rewrite (unseal_split H params key) in E, E' by lia. rewrite (unseal_prefix_iv H params key iv iv') in E.
  destruct (foldM (unseal_block H params key iv' tl ts n) (seq 0 (n - 1)) F) as [g|]; cbn [bind] in E, E'; [|discriminate].
  rewrite (unseal_block_beyond _ _ _ _ _ _ _ x E), (unseal_block_beyond _ _ _ _ _ _ _ x E'); [reflexivity|..]; replace (n - 1 - (n - 1)) with 0 by lia; lia.
Qed.
End Blocks.

(** * The verifier's copies *)
Section Copies.
Context (H : list byte -> list byte) (pr : profile) (params : PosPara) (key : Z) (iv iv' : list byte).
Context (ks : list nat) (before : list (list byte)) (deps : list (list (list (list byte)))).
Hypothesis NO0 : ~ In 0 ks.

Lemma no0 i k : index ks i = Ok k -> k <> 0.
Proof. intros E ->. apply NO0. eapply index_In. exact E. Qed.
Lemma bu_unit_iv ts i k m cur j : k <> 0 -> bu_unit H params key iv before deps ts i k m cur j = bu_unit H params key iv' before deps ts i k m cur j.
Proof.
  intros N. unfold bu_unit. replace (bu_depend_data H params iv before deps ts i k m cur (m - 1 - j)) with (bu_depend_data H params iv' before deps ts i k m cur (m - 1 - j)); [reflexivity|].
  unfold bu_depend_data. destruct (Nat.eqb_spec k 0); [contradiction|reflexivity].
Qed.
Lemma bv_unit_iv ts i k m cur j : k <> 0 -> bv_unit H params key iv before deps ts i k m cur j = bv_unit H params key iv' before deps ts i k m cur j.
Proof.
  intros N. unfold bv_unit. replace (bv_depend_data H params iv before deps ts i k m cur (m - 1 - j)) with (bv_depend_data H params iv' before deps ts i k m cur (m - 1 - j)); [reflexivity|].
  unfold bv_depend_data. destruct (Nat.eqb_spec k 0); [contradiction|reflexivity].
Qed.
Lemma bp_unit_iv ts i k m cur j : k <> 0 -> bp_unit H params key iv before deps ts i k m cur j = bp_unit H params key iv' before deps ts i k m cur j.
Proof.
  intros N. unfold bp_unit. replace (bp_depend_data H params iv before deps ts i k m cur (m - 1 - j)) with (bp_depend_data H params iv' before deps ts i k m cur (m - 1 - j)); [reflexivity|].
  unfold bp_depend_data. destruct (Nat.eqb_spec k 0); [contradiction|reflexivity].
Qed.
Lemma batch_iv bs : batch_unseal H pr params key iv ks before deps bs = batch_unseal H pr params key iv' ks before deps bs.
Proof.
  unfold batch_unseal. destruct (bu_idxs_s pr params) as [t|]; cbn [bind]; [|reflexivity]. apply foldM_ext. intros i s _. unfold bu_block.
  destruct (index ks i) as [k|] eqn:EK; cbn [bind]; [|reflexivity]. destruct (index s i) as [cur|]; cbn [bind]; [|reflexivity].
  rewrite (foldM_ext (fun cb (_ : nat) => foldM (bu_unit H params key iv before deps t i k (length cur)) (seq 0 (length cur)) cb)
                     (fun cb (_ : nat) => foldM (bu_unit H params key iv' before deps t i k (length cur)) (seq 0 (length cur)) cb)); [reflexivity|].
  intros a c _. apply foldM_ext. intros j c0 _. apply bu_unit_iv. now apply (no0 i).
Qed.
Lemma fused_iv origin bs : batch_unseal_and_verify H pr params key iv ks before deps origin bs = batch_unseal_and_verify H pr params key iv' ks before deps origin bs.
Proof.
  unfold batch_unseal_and_verify. destruct (bv_idxs_s pr params) as [t|]; cbn [bind]; [|reflexivity]. apply foldM_ext. intros i s _. unfold bv_block.
  destruct (index ks i) as [k|] eqn:EK; cbn [bind]; [|reflexivity]. destruct (index bs i) as [cur|]; cbn [bind]; [|reflexivity].
  rewrite (foldM_ext (fun cb (_ : nat) => foldM (bv_unit H params key iv before deps t i k (length cur)) (seq 0 (length cur)) cb)
                     (fun cb (_ : nat) => foldM (bv_unit H params key iv' before deps t i k (length cur)) (seq 0 (length cur)) cb)); [reflexivity|].
  intros a c _. apply foldM_ext. intros j c0 _. apply bv_unit_iv. now apply (no0 i).
Qed.
Definition jobs_no0 (js : list job) : Prop := forall i k m todo cur, nth_error js i = Some (Running k m todo cur) -> k <> 0.
Lemma upd_job {A} (l : list A) i a j b : nth_error (upd l i a) j = Some b -> b = a \/ nth_error l j = Some b.
Proof.
  revert i j. induction l as [|x l IH]; intros [|i] [|j] E; cbn in *; auto; try discriminate.
  - injection E as <-. now left.
  - apply (IH i j E).
Qed.
Lemma step_iv th ts p q : jobs_no0 (p_jobs p) ->
  step H params key iv ks before deps th ts p q -> step H params key iv' ks before deps th ts p q /\ jobs_no0 (p_jobs q).
Proof.
  intros J S. destruct S as [bs js i k cur W FI TH EK EC|bs js i W FI TH EK|bs js i k m j todo cur cur' R E|bs js i k m j todo cur R E|bs js i k m cur R]; cbn [p_jobs] in *.
  - split; [now apply step_start|]. intros i0 k0 m0 t0 c0 E. apply upd_job in E as [E|E]; [injection E as -> _ _ _; now apply (no0 i)|eapply J; exact E].
  - split; [now apply step_start_panic|]. intros i0 k0 m0 t0 c0 E. apply upd_job in E as [E|E]; [discriminate|eapply J; exact E].
  - pose proof (J _ _ _ _ _ R) as NK. split; [apply (step_work _ _ _ _ _ _ _ th ts bs js i k m j todo cur cur' R); now rewrite <- bp_unit_iv|].
    intros i0 k0 m0 t0 c0 E0. apply upd_job in E0 as [E0|E0]; [injection E0 as -> _ _ _; exact NK|eapply J; exact E0].
  - pose proof (J _ _ _ _ _ R) as NK. split; [apply (step_panic _ _ _ _ _ _ _ th ts bs js i k m j todo cur R); now rewrite <- bp_unit_iv|].
    intros i0 k0 m0 t0 c0 E0. apply upd_job in E0 as [E0|E0]; [discriminate|eapply J; exact E0].
  - split; [now apply (step_finish _ _ _ _ _ _ _ th ts bs js i k m cur)|]. intros i0 k0 m0 t0 c0 E0. apply upd_job in E0 as [E0|E0]; [discriminate|eapply J; exact E0].
Qed.
Lemma steps_iv th ts p q : steps H params key iv ks before deps th ts p q -> jobs_no0 (p_jobs p) -> steps H params key iv' ks before deps th ts p q.
Proof.
  intros S. induction S as [p|p q r S1 S IH]; intros J; [apply steps_refl|]. destruct (step_iv th ts p q J S1) as [S1' J']. eapply steps_cons; eauto.
Qed.
Lemma par_iv1 th bs r : batch_unseal_parallel H pr params key iv ks before deps th bs r -> batch_unseal_parallel H pr params key iv' ks before deps th bs r.
Proof.
  intros P. destruct P as [T|t T Z|t p T Z S F]; [now apply bp_table_panic|now apply (bp_pool_panic _ _ _ _ _ _ _ _ th bs t)|].
  apply (bp_returns _ _ _ _ _ _ _ _ th bs t p T Z); [|exact F]. apply steps_iv; [exact S|].
  cbn [p_jobs]. intros i k m todo cur E. apply nth_error_In in E. apply repeat_spec in E. discriminate.
Qed.
End Copies.
Lemma par_iv H pr params key iv iv' ks before deps th bs r : ~ In 0 ks ->
  batch_unseal_parallel H pr params key iv ks before deps th bs r <-> batch_unseal_parallel H pr params key iv' ks before deps th bs r.
Proof. intros N. split; now apply par_iv1. Qed.

Section Challenge.
Context (H H2 : list byte -> list byte) (pr : profile) (params : PosPara).
Lemma challenge_iv1 key iv iv' pub pub' p origin F leaves tree root r idx o : load_data pub = Ok (key, iv) -> load_data pub' = Ok (key, iv') -> ~ In 0 idx ->
  challenge H H2 pr params p origin F pub leaves tree root r idx o -> challenge H H2 pr params p origin F pub' leaves tree root r idx o.
Proof.
  intros L L' N C. destruct C as [C|key0 iv0 rs out C O].
  - apply Ch_panic. unfold challenge_prepare in *. rewrite L in C. rewrite L'.
    destruct (mapM _ idx) as [rs|]; cbn [bind] in *; [|reflexivity]. destruct (generate_merkle_proof idx tree); cbn [bind] in *; [|reflexivity].
    destruct (verify_response _ _ _ _ _ _ _ _ _); cbn [bind] in *; [discriminate|reflexivity].
  - unfold challenge_prepare in C. rewrite L in C.
    destruct (mapM _ idx) as [rs0|] eqn:EM; cbn [bind] in C; [|discriminate]. destruct (generate_merkle_proof idx tree) eqn:EG; cbn [bind] in C; [|discriminate].
    destruct (verify_response _ _ _ _ _ _ _ _ _) eqn:EV; cbn [bind] in C; [|discriminate]. injection C as <- <- <-.
    eapply Ch_go with (vde_key := key) (iv := iv') (rs := rs0).
    + unfold challenge_prepare. rewrite EM. cbn [bind]. rewrite EG. cbn [bind]. rewrite EV. cbn [bind]. rewrite L'. reflexivity.
    + destruct (p =? 0); [rewrite O; now apply batch_iv|now apply (par_iv H pr params key iv iv')].
Qed.
End Challenge.

(** * One round: only the first unit of the file *)
Section OneRound.
Context (H : list byte -> list byte) (pr : profile) (params : PosPara) (key : Z) (n m : nat).
Hypothesis GEO : geometry params n m.
Hypothesis KB : (forall d, le2z (H d) < key < 256 ^ Z.of_nat (unit_pl params))%Z.
Hypothesis K1 : (1 < key)%Z.
Hypothesis ONE : seal_rounds params = 1.
Notation upl := (unit_pl params).
Notation bpl := (block_pl params).

Lemma rounds_split iv ts deps bid cur : shaped params m cur -> 0 < m ->
  unseal_block_rounds H params key iv ts deps bid 0 cur =
  let* c := foldM (unseal_unit H params key iv ts deps bid 0 m) (seq 0 (m - 1)) cur in unseal_unit H params key iv ts deps bid 0 m c (m - 1).
Proof.
  intros [SL _] M. unfold unseal_block_rounds. rewrite ONE, SL. cbn [seq foldM]. replace m with (S (m - 1)) at 2 by lia. rewrite seq_S, foldM_app. cbn [plus].
  destruct (foldM _ (seq 0 (m - 1)) cur) as [c|]; cbn [bind foldM]; [|reflexivity]. destruct (unseal_unit H params key iv ts deps bid 0 m c (m - 1)); reflexivity.
Qed.
Lemma unit_shaped iv ts deps bid k c j c' : shaped params m c -> unseal_unit H params key iv ts deps bid k m c j = Ok c' -> shaped params m c'.
Proof.
  intros S R. unfold unseal_unit in R. apply bind_ok in R as (d & _ & R). apply bind_ok in R as (u & EU & R).
  apply bind_ok in R as (a & EA & R). eapply set_shaped; [exact S| |exact R]. apply modsub_len in EA. rewrite EA.
  apply vde_inv_len_any; [exact K1|apply (KB d)|]. eapply index_shaped; eassumption.
Qed.
(** The last step: unit 0 becomes (w - hash of d and the iv) mod key. *)
Lemma last_unit iv ts deps bid c c' : 0 < m -> shaped params m c -> unseal_unit H params key iv ts deps bid 0 m c (m - 1) = Ok c' ->
  exists d w a, (let* long := foldM (fun acc b => let* u := index b 0 in Ok (acc ++ u)) deps [] in
     let* idxs := (if negb (mode_s params =? 0) then index ts 0 else short_depend_random H m [] 0 (cnt_s params)) in
     foldM (fun acc i => let* u := index c i in Ok (acc ++ u)) idxs long) = Ok d /\
  (let* u := index c 0 in Ok (vde_inv u key (vde_rounds params) (vde_mode params) upl)) = Ok w /\
  c' = upd c 0 a /\ length a = upl /\ (le2z a = (le2z w - le2z (H (d ++ iv))) mod key)%Z.
Proof.
  intros M S R. unfold unseal_unit in R. replace (m - 1 - (m - 1)) with 0 in R by lia.
  unfold unseal_depend_data in R. cbn [Nat.eqb] in R. apply bind_ok in R as (D & ED & R).
  apply bind_ok in ED as (long & EL & ED). apply bind_ok in ED as (idxs & EI & ED). apply bind_ok in ED as (d & EB & ED). injection ED as <-.
  apply bind_ok in R as (u & EU & R). apply bind_ok in R as (a & EA & R).
  assert (LU : length u = upl) by (apply (index_shaped params m c 0 u S EU)).
  assert (LW : length (vde_inv u key (vde_rounds params) (vde_mode params) upl) = upl) by (apply vde_inv_len_any; [exact K1|apply (KB [])|exact LU]).
  exists d, (vde_inv u key (vde_rounds params) (vde_mode params) upl), a.
  split; [rewrite EL; cbn [bind]; rewrite EI; exact EB|]. split; [rewrite EU; reflexivity|].
  pose proof (KB (d ++ iv)) as Kd. set (w := vde_inv u key (vde_rounds params) (vde_mode params) upl) in *. clearbody w.
  assert (K2 : (key <= 256 ^ Z.of_nat (length w))%Z) by (rewrite LW; lia).
  assert (K3 : (le2z (H (d ++ iv)) <= le2z w + key)%Z) by (pose proof (le2z_nonneg w); lia).
  destruct (modsub_ok w (H (d ++ iv)) key K1 K2 K3) as (a' & EA' & LA & VA). rewrite EA in EA'. injection EA' as <-.
  unfold set_index in R. destruct (Nat.ltb_spec 0 (length c)); [|discriminate]. injection R as <-. repeat split; [congruence|exact VA].
Qed.
Lemma prefix_iv iv iv' ts deps bid cur :
  foldM (unseal_unit H params key iv ts deps bid 0 m) (seq 0 (m - 1)) cur = foldM (unseal_unit H params key iv' ts deps bid 0 m) (seq 0 (m - 1)) cur.
Proof. apply foldM_ext. intros j s J. apply in_seq in J. apply unseal_unit_iv. right. lia. Qed.

Lemma com_upd us a x : shaped params m us -> length a = upl -> 0 < m ->
  nth x (com_units (upd us 0 a)) x00 = if x <? upl then nth x a x00 else nth x (com_units us) x00.
Proof.
  intros [SL SF] LA M. destruct us as [|u us]; [cbn in SL; lia|]. inversion SF as [|? ? LU SF']; subst.
  cbn [upd]. rewrite !com_units_concat. cbn [concat]. destruct (Nat.ltb_spec x upl); [now rewrite app_nth1 by lia|].
  rewrite !app_nth2 by lia. now rewrite LA, LU.
Qed.
Lemma one_round iv iv' F G G' : 0 < n -> 0 < m -> unseal H pr params key iv F = Ok G -> unseal H pr params key iv' F = Ok G' ->
  (forall x, upl <= x -> nth x G x00 = nth x G' x00) /\
  exists d w, le2z (read_file G 0 upl) = ((w - le2z (H (d ++ iv))) mod key)%Z /\ le2z (read_file G' 0 upl) = ((w - le2z (H (d ++ iv'))) mod key)%Z.
Proof.
  intros N M E E'. unfold unseal, nblocks in E, E'. destruct (Nat.eqb_spec (block_l params) 0); [discriminate|]. cbn [bind] in E, E'.
  rewrite (g_blocks _ _ _ GEO) in E, E'.
  destruct (unseal_idxs_l pr params n) as [tl|]; cbn [bind] in E, E'; [|discriminate]. destruct (unseal_idxs_s pr params n) as [ts|]; cbn [bind] in E, E'; [|discriminate].
  rewrite (unseal_split H params key) in E, E' by exact N. rewrite (unseal_prefix_iv H params key iv iv') in E.
  destruct (foldM (unseal_block H params key iv' tl ts n) (seq 0 (n - 1)) F) as [g|]; cbn [bind] in E, E'; [|discriminate].
  unfold unseal_block in E, E'. replace (n - 1 - (n - 1)) with 0 in E, E' by lia.
  destruct (read_block params g 0) as [cur|] eqn:EC; cbn [bind] in E, E'; [|discriminate].
  destruct (unseal_depend_blocks H params tl n g (unseal_before_id H params g 0) 0) as [deps|]; cbn [bind] in E, E'; [|discriminate].
  pose proof (read_shaped params n m GEO _ _ _ EC) as SC.
  apply bind_ok in E as (c1 & R1 & E). apply bind_ok in E' as (c2 & R2 & E'). injection E as <-. injection E' as <-.
  rewrite (rounds_split _ _ _ _ _ SC M) in R1. rewrite (rounds_split _ _ _ _ _ SC M) in R2. rewrite (prefix_iv iv iv') in R1.
  destruct (foldM (unseal_unit H params key iv' ts deps (unseal_before_id H params g 0) 0 m) (seq 0 (m - 1)) cur) as [c|] eqn:EP; cbn [bind] in R1, R2; [|discriminate].
  assert (SH : shaped params m c).
  { revert EP. apply (foldM_keeps (shaped params m)); [|exact SC]. intros s a s' _ S R. eapply unit_shaped; eassumption. }
  pose proof (unit_shaped _ _ _ _ _ _ _ _ SH R1) as [SL1 SF1]. pose proof (unit_shaped _ _ _ _ _ _ _ _ SH R2) as [SL2 SF2].
  destruct (last_unit _ _ _ _ _ _ M SH R1) as (d1 & w1 & a1 & D1 & W1 & -> & L1 & V1).
  destruct (last_unit _ _ _ _ _ _ M SH R2) as (d2 & w2 & a2 & D2 & W2 & -> & L2 & V2).
  rewrite D1 in D2. injection D2 as <-. rewrite W1 in W2. injection W2 as <-.
  assert (UB : upl <= m * upl) by nia.
  assert (RD : forall a, length a = upl -> length (upd c 0 a) = m -> Forall (fun u => length u = upl) (upd c 0 a) -> read_file (write_at g (0 * bpl) (com_units (upd c 0 a))) 0 upl = a).
  { intros a LA SL SF. apply (nth_ext _ _ x00 x00); [now rewrite read_file_length|]. intros x X. rewrite read_file_length in X.
    rewrite read_file_nth' by exact X. rewrite write_at_nth_any, (com_length upl m _ SL SF). cbn [plus Nat.mul].
    rewrite Nat.sub_0_r, (com_upd c a x SH LA M). destruct (Nat.ltb_spec x upl); [|lia]. destruct (Nat.ltb_spec x (m * upl)); [reflexivity|lia]. }
  split.
  - intros x X. rewrite !write_at_nth_any, !(com_length upl m) by assumption. cbn [Nat.mul plus]. rewrite !Nat.sub_0_r.
    rewrite (com_upd c a1 x SH L1 M), (com_upd c a2 x SH L2 M). destruct (Nat.ltb_spec x upl); [lia|reflexivity].
  - exists d1, (le2z w1). rewrite !RD by assumption. split; assumption.
Qed.
End OneRound.

(** * Sealing: the iv reaches the other blocks only through block 0 *)
Section SealIv.
Context (H : list byte -> list byte) (pr : profile) (params : PosPara) (key : Z) (iv iv' : list byte) (n m : nat).
Hypothesis GEO : geometry params n m.
Hypothesis KEY : (1 < key <= 256 ^ Z.of_nat (unit_pl params))%Z.
Notation upl := (unit_pl params).
Notation bpl := (block_pl params).

(** A run of the units ignores what is already in the log. *)
Lemma seal_unit_iv ts deps ids k cnt c l l' i : k <> 0 ->
  both (fun a b => fst a = fst b) (seal_unit H params key iv ts deps ids k cnt (c, l) i) (seal_unit H params key iv' ts deps ids k cnt (c, l') i).
Proof.
  intros N. unfold seal_unit.
  replace (seal_depend_data H params iv' ts deps ids k cnt c i) with (seal_depend_data H params iv ts deps ids k cnt c i)
    by (unfold seal_depend_data; destruct (Nat.eqb_spec k 0); [contradiction|reflexivity]).
  destruct (seal_depend_data H params iv ts deps ids k cnt c i); cbn [bind]; [|exact Logic.I].
  destruct (index c i); cbn [bind]; [|exact Logic.I]. destruct (modadd _ _ _); cbn [bind]; [|exact Logic.I].
  destruct (set_index c i _); cbn [bind both]; [reflexivity|exact Logic.I].
Qed.
Definition same_store (a b : seal_state) : Prop := s_file a = s_file b /\ s_ids a = s_ids b.
Lemma seal_block_iv tl ts a b k : k <> 0 -> same_store a b ->
  both same_store (seal_block H params key iv tl ts n a k) (seal_block H params key iv' tl ts n b k).
Proof.
  intros N (E & I). unfold seal_block. rewrite E, I.
  destruct (read_block params (s_file b) k) as [cur|]; cbn [bind]; [|exact Logic.I].
  destruct (seal_depend_blocks H params tl n (s_file b) (s_ids b) k) as [deps|]; cbn [bind]; [|exact Logic.I].
  assert (R : both (fun x y => fst x = fst y) (seal_block_rounds H params key iv ts deps (s_ids b) k (cur, s_log a)) (seal_block_rounds H params key iv' ts deps (s_ids b) k (cur, s_log b))).
  { unfold seal_block_rounds. cbn [fst]. apply both_foldM; [|reflexivity]. intros s t _ RS. apply both_foldM; [|exact RS].
    intros [c l] [c' l'] i RC. cbn [fst] in RC. subst c'. now apply seal_unit_iv. }
  destruct (seal_block_rounds H params key iv ts deps (s_ids b) k (cur, s_log a)) as [[c l]|], (seal_block_rounds H params key iv' ts deps (s_ids b) k (cur, s_log b)) as [[c' l']|]; cbn [both fst] in R; try contradiction; cbn [bind]; [|exact Logic.I].
  subst c'. destruct (set_index (s_ids b) k (H (com_units c))); cbn [bind both]; [split; reflexivity|exact Logic.I].
Qed.
(** Blocks before k are not touched any more. *)
Lemma seal_block_other v tl ts st k st' x : seal_block H params key v tl ts n st k = Ok st' -> x < k * bpl \/ k * bpl + bpl <= x ->
  nth x (s_file st') x00 = nth x (s_file st) x00.
Proof.
  intros E X. unfold seal_block in E. apply bind_ok in E as (cur & EC & E). apply bind_ok in E as (deps & _ & E).
  apply bind_ok in E as ([c lg] & ER & E). apply bind_ok in E as (ids & _ & E). injection E as <-. cbn [s_file].
  assert (SH : shaped params m c).
  { change c with (fst (c, lg)). unfold seal_block_rounds in ER. revert ER.
    apply (foldM_keeps (fun st => shaped params m (fst st))); [|cbn [fst]; apply (read_shaped params n m GEO _ _ _ EC)].
    intros s a s' _ S R. revert R. apply (foldM_keeps (fun st => shaped params m (fst st))); [|exact S].
    clear - KEY. intros [c0 l0] i s' _ S R. cbn [fst] in *. unfold seal_unit in R. apply bind_ok in R as (d & _ & R). apply bind_ok in R as (u & EU & R).
    apply bind_ok in R as (a & EA & R). apply bind_ok in R as (c1 & E1 & R). injection R as <-. cbn [fst].
    eapply set_shaped; [exact S| |exact E1]. pose proof (modadd_val u (H d) key a ltac:(lia) EA). apply vde_len; lia. }
  destruct SH as [SL SF]. rewrite write_at_nth_any, (com_length upl m c SL SF), <- (g_block_pl _ _ _ GEO).
  destruct (Nat.leb_spec (k * bpl) x), (Nat.ltb_spec x (k * bpl + bpl)); cbn [andb]; try reflexivity; lia.
Qed.
Lemma seal_rest_other v tl ts l : Forall (fun k => k <> 0) l -> forall st st' x, foldM (seal_block H params key v tl ts n) l st = Ok st' -> x < bpl ->
  nth x (s_file st') x00 = nth x (s_file st) x00.
Proof.
  intros F. induction l as [|k l IH]; intros st st' x E X; cbn [foldM] in E; [injection E as <-; reflexivity|].
  inversion F as [|? ? NK F']; subst. apply bind_ok in E as (s1 & E1 & E). rewrite (IH F' s1 st' x E X).
  apply (seal_block_other v tl ts st k s1 x E1). left. destruct k as [|k]; [contradiction|]. cbn [Nat.mul]. lia.
Qed.
Lemma seal_block0_ids v tl ts st st' : length (s_ids st) = n -> seal_block H params key v tl ts n st 0 = Ok st' ->
  exists b, length b = bpl /\ s_file st' = write_at (s_file st) 0 b /\ s_ids st' = upd (s_ids st) 0 (H b).
Proof.
  intros L E. unfold seal_block in E. apply bind_ok in E as (cur & EC & E). apply bind_ok in E as (deps & _ & E).
  apply bind_ok in E as ([c lg] & ER & E). apply bind_ok in E as (ids & EI & E). injection E as <-. cbn [s_file s_ids].
  assert (SH : shaped params m c).
  { change c with (fst (c, lg)). unfold seal_block_rounds in ER. revert ER.
    apply (foldM_keeps (fun st => shaped params m (fst st))); [|cbn [fst]; apply (read_shaped params n m GEO _ _ _ EC)].
    intros s a s' _ S R. revert R. apply (foldM_keeps (fun st => shaped params m (fst st))); [|exact S].
    clear - KEY. intros [c0 l0] i s' _ S R. cbn [fst] in *. unfold seal_unit in R. apply bind_ok in R as (d & _ & R). apply bind_ok in R as (u & EU & R).
    apply bind_ok in R as (a & EA & R). apply bind_ok in R as (c1 & E1 & R). injection R as <-. cbn [fst].
    eapply set_shaped; [exact S| |exact E1]. pose proof (modadd_val u (H d) key a ltac:(lia) EA). apply vde_len; lia. }
  destruct SH as [SL SF]. exists (com_units c). rewrite (com_length upl m c SL SF), <- (g_block_pl _ _ _ GEO). split; [reflexivity|]. split; [reflexivity|].
  unfold set_index in EI. destruct (0 <? length (s_ids st)); [injection EI as <-; reflexivity|discriminate].
Qed.
Lemma seal_iv F st st' : seal H pr params key iv F = Ok st -> seal H pr params key iv' F = Ok st' ->
  read_file (s_file st) 0 bpl = read_file (s_file st') 0 bpl -> s_file st = s_file st' /\ s_ids st = s_ids st'.
Proof.
  intros E E' EQ. unfold seal, nblocks in E, E'. destruct (Nat.eqb_spec (block_l params) 0); [discriminate|]. cbn [bind] in E, E'.
  rewrite (g_blocks _ _ _ GEO) in E, E'.
  destruct (seal_idxs_l pr params n) as [tl|]; cbn [bind] in E, E'; [|discriminate]. destruct (seal_idxs_s pr params n) as [ts|]; cbn [bind] in E, E'; [|discriminate].
  destruct n as [|n'] eqn:EN; [cbn [seq foldM] in E, E'; injection E as <-; injection E' as <-; split; reflexivity|]. rewrite <- EN in *.
  assert (SQ : seq 0 n = 0 :: seq 1 n') by (rewrite EN; reflexivity). rewrite SQ in E, E'. cbn [foldM] in E, E'.
  apply bind_ok in E as (a & A & E). apply bind_ok in E' as (b & B & E').
  assert (NZ : Forall (fun k => k <> 0) (seq 1 n')) by (apply Forall_forall; intros k K; apply in_seq in K; lia).
  assert (LI : length (s_ids (mkSeal F (repeat (@nil byte) n) [])) = n) by apply repeat_length.
  destruct (seal_block0_ids iv tl ts _ a LI A) as (x & LX & FX & IX). destruct (seal_block0_ids iv' tl ts _ b LI B) as (y & LY & FY & IY). cbn [s_file s_ids] in *.
  assert (XY : x = y).
  { apply (nth_ext _ _ x00 x00); [congruence|]. intros i I. rewrite LX in I.
    assert (Q : nth i (s_file st) x00 = nth i (s_file st') x00).
    { pose proof (read_file_nth' (s_file st) 0 bpl i I) as Q1. pose proof (read_file_nth' (s_file st') 0 bpl i I) as Q2. cbn [plus] in Q1, Q2. congruence. }
    rewrite (seal_rest_other _ _ _ _ NZ _ _ i E I), (seal_rest_other _ _ _ _ NZ _ _ i E' I), FX, FY, !write_at_nth_any, LX, LY in Q.
    cbn [plus Nat.leb andb] in Q. destruct (Nat.ltb_spec i bpl); [|lia]. now rewrite Nat.sub_0_r in Q. }
  subst y. assert (R : same_store a b) by (split; congruence).
  assert (BB : both same_store (foldM (seal_block H params key iv tl ts n) (seq 1 n') a) (foldM (seal_block H params key iv' tl ts n) (seq 1 n') b)).
  { clear - NZ R. revert a b R. induction (seq 1 n') as [|k l IH]; intros a b R; cbn [foldM]; [exact R|]. inversion NZ as [|? ? NK NZ']; subst.
    pose proof (seal_block_iv tl ts a b k NK R) as Q. destruct (seal_block H params key iv tl ts n a k), (seal_block H params key iv' tl ts n b k); cbn [both bind] in *; try contradiction; [now apply IH|exact Logic.I]. }
  rewrite E, E' in BB. exact BB.
Qed.
End SealIv.
