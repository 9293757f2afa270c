(** Facts about the recorded work (Work.v). *)
From Verif Require Import Base Legendre Sloth Common Depend Prover Verifier Work NumTheory SlothFacts BytesFacts LegendreFacts
  DependSpec DependFacts DependDet VdeFacts SealSpec SealCore SealFile SealTop CommonFacts ShortTable ChallengeFacts VerifierFacts ParallelFacts SealVerify.
From Coq Require Import Znumtheory Zpow_facts.
Local Open Scope nat_scope.

(** Forgetting the record. *)
Definition forget {A L} (r : res (A * L)) : res A := match r with Ok (a, _) => Ok a | Panic => Panic end.

Lemma foldM_forget {A S L} (ft : S * L -> A -> res (S * L)) (f : S -> A -> res S) l :
  (forall s log a, In a l -> forget (ft (s, log) a) = f s a) ->
  forall s log, forget (foldM ft l (s, log)) = foldM f l s.
Proof.
  induction l as [|a l IH]; intros E s log; [reflexivity|]. cbn [foldM].
  rewrite <- (E s log a) by now left. destruct (ft (s, log) a) as [[s' log']|]; [|reflexivity]. cbn [forget bind].
  apply IH. intros. apply E. now right.
Qed.

Section Forget.
Context (H : list byte -> list byte) (pr : profile) (params : PosPara) (key : Z) (iv : list byte).

Lemma unseal_unit_forget t ds b idx2 uc cur log j :
  forget (unseal_unit_w H params key iv t ds b idx2 uc (cur, log) j) = unseal_unit H params key iv t ds b idx2 uc cur j.
Proof.
  unfold unseal_unit_w, unseal_unit. destruct (unseal_depend_data _ _ _ _ _ _ _ _ _ _) as [d|]; [|reflexivity]. cbn [bind].
  destruct (index cur _) as [u|]; [|reflexivity]. cbn [bind]. destruct (modsub _ _ _) as [v|]; [|reflexivity]. cbn [bind].
  destruct (set_index _ _ _); reflexivity.
Qed.
Lemma unseal_rounds_forget t ds b idx2 cur log :
  forget (unseal_block_rounds_w H params key iv t ds b idx2 (cur, log)) = unseal_block_rounds H params key iv t ds b idx2 cur.
Proof.
  unfold unseal_block_rounds_w, unseal_block_rounds. cbn [fst].
  apply foldM_forget. intros s lg _ _. apply foldM_forget. intros. apply unseal_unit_forget.
Qed.
Lemma unseal_block_forget tl t bc f log i :
  forget (unseal_block_w H params key iv tl t bc (f, log) i) = unseal_block H params key iv tl t bc f i.
Proof.
  unfold unseal_block_w, unseal_block. destruct (read_block _ _ _) as [cur|]; [|reflexivity]. cbn [bind].
  destruct (unseal_depend_blocks _ _ _ _ _ _ _) as [ds|]; [|reflexivity]. cbn [bind].
  rewrite <- (unseal_rounds_forget t ds _ _ cur log).
  destruct (unseal_block_rounds_w _ _ _ _ _ _ _ _ _) as [[c l]|]; reflexivity.
Qed.
Lemma unseal_forget f : forget (unseal_w H pr params key iv f) = unseal H pr params key iv f.
Proof.
  unfold unseal_w, unseal. destruct (nblocks params) as [n|]; [|reflexivity]. cbn [bind].
  destruct (unseal_idxs_l _ _ _) as [a|]; [|reflexivity]. cbn [bind]. destruct (unseal_idxs_s _ _ _) as [b|]; [|reflexivity]. cbn [bind].
  apply foldM_forget. intros. apply unseal_block_forget.
Qed.

Context (ks : list nat) (before : list (list byte)) (deps : list (list (list (list byte)))).
Lemma bu_unit_forget t i idx2 uc cur log j :
  forget (bu_unit_w H params key iv before deps t i idx2 uc (cur, log) j) = bu_unit H params key iv before deps t i idx2 uc cur j.
Proof.
  unfold bu_unit_w, bu_unit. destruct (bu_depend_data _ _ _ _ _ _ _ _ _ _ _) as [d|]; [|reflexivity]. cbn [bind].
  destruct (index cur _) as [u|]; [|reflexivity]. cbn [bind]. destruct (modsub _ _ _) as [v|]; [|reflexivity]. cbn [bind].
  destruct (set_index _ _ _); reflexivity.
Qed.
Lemma bu_block_forget t bs log i :
  forget (bu_block_w H params key iv ks before deps t (bs, log) i) = bu_block H params key iv ks before deps t bs i.
Proof.
  unfold bu_block_w, bu_block. destruct (index ks i) as [k|]; [|reflexivity]. cbn [bind]. destruct (index bs i) as [cur|]; [|reflexivity]. cbn [bind].
  rewrite <- (foldM_forget (fun st _ => foldM (bu_unit_w H params key iv before deps t i k (length cur)) (seq 0 (length cur)) st)
    (fun cb _ => foldM (bu_unit H params key iv before deps t i k (length cur)) (seq 0 (length cur)) cb) (seq 0 (seal_rounds params))) with (log := log).
  - match goal with |- forget (bind ?x _) = bind (forget ?y) _ => change y with x; destruct x as [[c l]|]; [|reflexivity] end. cbn [bind forget].
    destruct (set_index _ _ _); reflexivity.
  - intros s lg _ _. apply foldM_forget. intros. apply bu_unit_forget.
Qed.
Lemma batch_unseal_forget bs :
  forget (batch_unseal_w H pr params key iv ks before deps bs) = batch_unseal H pr params key iv ks before deps bs.
Proof.
  unfold batch_unseal_w, batch_unseal. destruct (bu_idxs_s pr params) as [t|]; [|reflexivity]. cbn [bind].
  apply foldM_forget. intros. apply bu_block_forget.
Qed.
End Forget.

(** * Delay function *)
Lemma sloth_w_eq p t : forall y, sloth_w y p t = (sloth y p t, repeat (Z.quot (p + 1) 4) t).
Proof. induction t as [|t IH]; intros y; [reflexivity|]. cbn [sloth_w single_sloth_w sloth repeat]. now rewrite IH. Qed.
Lemma sloth_inv_w_eq p t : forall y, sloth_inv_w y p t = (sloth_inv y p t, repeat 2%Z t).
Proof. induction t as [|t IH]; intros y; [reflexivity|]. cbn [sloth_inv_w single_sloth_inv_w sloth_inv repeat]. now rewrite IH. Qed.

Lemma legendre_w_forget fuel : forall x p, option_map (fun r => fst (fst r)) (legendre_w fuel x p) = legendre_fuel fuel x p.
Proof.
  induction fuel as [|fuel IH]; intros x p; [reflexivity|]. cbn [legendre_w legendre_fuel].
  destruct (x =? 0)%Z; [reflexivity|]. destruct (x =? 1)%Z; [reflexivity|].
  destruct (strip2 _ _ _) as [[x' e]|]; [|reflexivity]. destruct (x' =? 1)%Z; [reflexivity|].
  rewrite <- IH. destruct (legendre_w fuel _ _) as [[[v c] h]|]; reflexivity.
Qed.
Lemma legendre_w_calls fuel : forall x p v c h, legendre_w fuel x p = Some (v, c, h) -> c <= fuel.
Proof.
  induction fuel as [|fuel IH]; intros x p v c h E; [discriminate|]. cbn [legendre_w] in E.
  destruct (x =? 0)%Z; [injection E as <- <- <-; lia|]. destruct (x =? 1)%Z; [injection E as <- <- <-; lia|].
  destruct (strip2 _ _ _) as [[x' e]|]; [|discriminate]. destruct (x' =? 1)%Z; [injection E as <- <- <-; lia|].
  destruct (legendre_w fuel _ _) as [[[v' c'] h']|] eqn:R; [|discriminate]. injection E as <- <- <-. apply IH in R. lia.
Qed.
Lemma legendre_w_fuel fuel : forall x p r d, legendre_w fuel x p = Some r -> legendre_w (fuel + d) x p = Some r.
Proof.
  induction fuel as [|fuel IH]; intros x p r d E; [discriminate|]. cbn [plus legendre_w] in *.
  destruct (x =? 0)%Z; [exact E|]. destruct (x =? 1)%Z; [exact E|].
  destruct (strip2 _ _ _) as [[x' e]|]; [|discriminate]. destruct (x' =? 1)%Z; [exact E|].
  destruct (legendre_w fuel _ _) as [[[v' c'] h']|] eqn:R; [|discriminate]. now rewrite (IH _ _ _ d R).
Qed.

Lemma legendre_w_halvings fuel : forall x p v c h, legendre_w fuel x p = Some (v, c, h) -> x <> 0%Z -> (2 ^ Z.of_nat h <= Z.abs x)%Z.
Proof.
  induction fuel as [|fuel IH]; intros x p v c h E X; [discriminate|]. cbn [legendre_w] in E.
  destruct (x =? 0)%Z; [injection E as <- <- <-; cbn; lia|]. destruct (x =? 1)%Z; [injection E as <- <- <-; cbn; lia|].
  destruct (strip2_ok x X) as (x' & k & ES & K & EX & O). rewrite ES in E. rewrite EX, Z.abs_mul.
  assert (P : (0 < 2 ^ k)%Z) by (apply Z.pow_pos_nonneg; lia). rewrite (Z.abs_eq (2 ^ k)) by lia.
  assert (X0 : x' <> 0%Z) by (intros ->; now apply O).
  destruct (x' =? 1)%Z; [injection E as <- <- <-; rewrite Z2Nat.id by lia; nia|].
  destruct (legendre_w fuel _ _) as [[[v' c'] h']|] eqn:R; [|discriminate]. injection E as <- <- <-.
  rewrite Nat2Z.inj_add, Z2Nat.id, Z.pow_add_r by lia. apply Z.mul_le_mono_nonneg_r; [lia|].
  destruct (Z.eq_dec (Z.rem p x') 0) as [Z0|NZ].
  - rewrite Z0 in R. destruct fuel as [|fuel]; [discriminate|]. cbn [legendre_w Z.eqb] in R. injection R as <- <- <-. cbn; lia.
  - apply (IH _ _ _ _ _ R) in NZ. pose proof (Z.rem_bound_abs p x' X0). lia.
Qed.

Lemma fast_modpow_w_forget fuel : forall x t p r, option_map fst (fast_modpow_w fuel x t p r) = fast_modpow_loop fuel x t p r.
Proof.
  induction fuel as [|fuel IH]; intros x t p r; [reflexivity|]. cbn [fast_modpow_w fast_modpow_loop]. destruct (0 <? t)%Z; [|reflexivity].
  rewrite <- IH. destruct (fast_modpow_w fuel _ _ _ _) as [[v c]|]; reflexivity.
Qed.
(** Between log2 t + 1 and twice that many multiplications. *)
Lemma fast_modpow_w_bounds fuel : forall x t p r v c, (0 < t)%Z -> fast_modpow_w fuel x t p r = Some (v, c) ->
  (Z.log2 t + 2 <= Z.of_nat c <= 2 * (Z.log2 t + 1))%Z.
Proof.
  induction fuel as [|fuel IH]; intros x t p r v c T E; [discriminate|]. cbn [fast_modpow_w] in E.
  destruct (Z.ltb_spec 0 t); [|lia].
  destruct (fast_modpow_w fuel _ _ _ _) as [[v' c']|] eqn:R; [|discriminate]. injection E as <- <-.
  rewrite Z.quot_div_nonneg in R by lia.
  destruct (Z.eq_dec t 1) as [->|N1].
  - change (1 / 2)%Z with 0%Z in R. destruct fuel as [|fuel]; [discriminate|]. cbn [fast_modpow_w Z.ltb Z.compare] in R. injection R as <- <-.
    cbn. lia.
  - assert (T2 : (0 < t / 2)%Z) by (apply Z.div_str_pos; lia). apply (IH _ _ _ _ _ _ T2) in R.
    assert (L : (Z.log2 t = Z.log2 (t / 2) + 1)%Z).
    { rewrite <- Z.div2_div, Z.div2_spec, Z.log2_shiftr by lia. pose proof (Z.log2_pos t ltac:(lia)). lia. }
    rewrite L. destruct (Z.land t 1 =? 1)%Z; lia.
Qed.

(** * Counting *)
Lemma foldM_measure {A S} (I : S -> Prop) (mu : S -> nat) (f : S -> A -> res S) (c : A -> nat) l :
  (forall s a s', In a l -> I s -> f s a = Ok s' -> I s' /\ mu s' = c a + mu s) ->
  forall s s', I s -> foldM f l s = Ok s' -> I s' /\ mu s' = list_sum (map c l) + mu s.
Proof.
  induction l as [|a l IH]; intros E s s' Is F; cbn [foldM] in F.
  - injection F as <-. auto.
  - destruct (f s a) as [s1|] eqn:F1; [|discriminate]. cbn [bind] in F.
    destruct (E _ _ _ ltac:(now left) Is F1) as [I1 L1].
    destruct (IH ltac:(intros; eapply E; eauto; now right) _ _ I1 F) as [I2 L2]. split; [exact I2|]. cbn [map list_sum fold_right].
    unfold list_sum in L2. lia.
Qed.
Lemma sum_const {A} c (l : list A) : list_sum (map (fun _ => c) l) = length l * c.
Proof. induction l as [|a l IH]; [reflexivity|]. cbn [map list_sum fold_right length]. unfold list_sum in IH. lia. Qed.
Lemma set_index_len {A} (l : list A) i a l' : set_index l i a = Ok l' -> length l' = length l.
Proof. unfold set_index. destruct (i <? length l); [|discriminate]. intros E. injection E as <-. apply upd_length. Qed.

Definition wlog (st : unit_state) : nat := length (snd st).
Definition wlen (k : nat) (st : unit_state) : Prop := length (fst st) = k.

Section Count.
Context (H : list byte -> list byte) (pr : profile) (params : PosPara) (key : Z) (iv : list byte) (n m : nat).
Hypothesis G : geometry params n m.
Notation upl := (unit_pl params).
Notation bpl := (block_pl params).

Lemma geo_read f k cur : read_block params f k = Ok cur -> length cur = m.
Proof. rewrite (read_block_ok params m (g_unit _ _ _ G) (g_block_pl _ _ _ G)). intros E. injection E as <-. apply chunks_length. Qed.
Lemma geo_nblocks : nblocks params = Ok n.
Proof. destruct G as [B0 BN _ _]. unfold nblocks. apply Nat.eqb_neq in B0. rewrite B0. now rewrite BN. Qed.

Lemma seal_rounds_count t ds ids idx2 cur log r :
  seal_block_rounds H params key iv t ds ids idx2 (cur, log) = Ok r -> length (snd r) = seal_rounds params * length cur + length log.
Proof.
  clear G. unfold seal_block_rounds. cbn [fst]. intros E.
  destruct (foldM_measure (wlen (length cur)) wlog (fun st _ => foldM (seal_unit H params key iv t ds ids idx2 (length cur)) (seq 0 (length cur)) st) (fun _ => length cur) (seq 0 (seal_rounds params))) with (s := (cur, log)) (s' := r)
    as [_ X]; [|reflexivity|exact E|].
  - intros s a s' _ Ls F.
    destruct (foldM_measure (wlen (length cur)) wlog (seal_unit H params key iv t ds ids idx2 (length cur)) (fun _ => 1) (seq 0 (length cur))) with (s := s) (s' := s')
      as [I X]; [|exact Ls|exact F|].
    + intros [c l] j s1 _ Lc U. cbn [seal_unit] in U. destruct (seal_depend_data _ _ _ _ _ _ _ _ _ _) as [d|]; [|discriminate]. cbn [bind] in U.
      destruct (index c j) as [u|]; [|discriminate]. cbn [bind] in U. destruct (modadd _ _ _) as [v|]; [|discriminate]. cbn [bind] in U.
      destruct (set_index _ _ _) as [c'|] eqn:SI; [|discriminate]. cbn [bind] in U. injection U as <-. unfold wlen, wlog in *. cbn [fst snd length] in *.
      apply set_index_len in SI. lia.
    + split; [exact I|]. rewrite X, sum_const, seq_length. lia.
  - unfold wlog in X. cbn [snd] in X. rewrite X, sum_const, seq_length. reflexivity.
Qed.
Lemma seal_count f st : seal H pr params key iv f = Ok st -> length (s_log st) = n * (seal_rounds params * m).
Proof.
  unfold seal. rewrite geo_nblocks. cbn [bind]. destruct (seal_idxs_l _ _ _) as [tl|]; [|discriminate]. cbn [bind].
  destruct (seal_idxs_s _ _ _) as [ts|]; [|discriminate]. cbn [bind]. intros E.
  destruct (foldM_measure (fun _ => True) (fun s => length (s_log s)) (seal_block H params key iv tl ts n) (fun _ => seal_rounds params * m) (seq 0 n)) with (s := mkSeal f (repeat [] n) []) (s' := st)
    as [_ X]; [|exact I|exact E|].
  - intros s k s' _ _ U. split; [exact I|]. unfold seal_block in U. destruct (read_block _ _ _) as [cur|] eqn:RB; [|discriminate]. cbn [bind] in U.
    destruct (seal_depend_blocks _ _ _ _ _ _ _) as [ds|]; [|discriminate]. cbn [bind] in U.
    destruct (seal_block_rounds _ _ _ _ _ _ _ _ _) as [[c l]|] eqn:SR; [|discriminate]. cbn [bind] in U.
    destruct (set_index _ _ _) as [ids|]; [|discriminate]. cbn [bind] in U. injection U as <-. cbn [s_log].
    apply seal_rounds_count in SR. cbn [snd] in SR. rewrite SR, (geo_read _ _ _ RB). reflexivity.
  - cbn [s_log length] in X. rewrite X, sum_const, seq_length. lia.
Qed.

Lemma unseal_rounds_count t ds b idx2 cur log r :
  unseal_block_rounds_w H params key iv t ds b idx2 (cur, log) = Ok r -> length (snd r) = seal_rounds params * length cur + length log.
Proof.
  clear G. unfold unseal_block_rounds_w. cbn [fst]. intros E.
  destruct (foldM_measure (wlen (length cur)) wlog (fun st _ => foldM (unseal_unit_w H params key iv t ds b idx2 (length cur)) (seq 0 (length cur)) st) (fun _ => length cur) (seq 0 (seal_rounds params))) with (s := (cur, log)) (s' := r)
    as [_ X]; [|reflexivity|exact E|].
  - intros s a s' _ Ls F.
    destruct (foldM_measure (wlen (length cur)) wlog (unseal_unit_w H params key iv t ds b idx2 (length cur)) (fun _ => 1) (seq 0 (length cur))) with (s := s) (s' := s')
      as [I X]; [|exact Ls|exact F|].
    + intros [c l] j s1 _ Lc U. cbn [unseal_unit_w] in U. destruct (unseal_depend_data _ _ _ _ _ _ _ _ _ _) as [d|]; [|discriminate]. cbn [bind] in U.
      destruct (index c _) as [u|]; [|discriminate]. cbn [bind] in U. destruct (modsub _ _ _) as [v|]; [|discriminate]. cbn [bind] in U.
      destruct (set_index _ _ _) as [c'|] eqn:SI; [|discriminate]. cbn [bind] in U. injection U as <-. unfold wlen, wlog in *. cbn [fst snd length] in *.
      apply set_index_len in SI. lia.
    + split; [exact I|]. rewrite X, sum_const, seq_length. lia.
  - unfold wlog in X. cbn [snd] in X. rewrite X, sum_const, seq_length. reflexivity.
Qed.
Lemma unseal_count f g log : unseal_w H pr params key iv f = Ok (g, log) -> length log = n * (seal_rounds params * m).
Proof.
  unfold unseal_w. rewrite geo_nblocks. cbn [bind]. destruct (unseal_idxs_l _ _ _) as [tl|]; [|discriminate]. cbn [bind].
  destruct (unseal_idxs_s _ _ _) as [ts|]; [|discriminate]. cbn [bind]. intros E.
  destruct (foldM_measure (fun _ => True) (fun s : file * list Z => length (snd s)) (unseal_block_w H params key iv tl ts n) (fun _ => seal_rounds params * m) (seq 0 n)) with (s := (f, @nil Z)) (s' := (g, log))
    as [_ X]; [|exact I|exact E|].
  - intros [h l0] k s' _ _ U. split; [exact I|]. unfold unseal_block_w in U. destruct (read_block _ _ _) as [cur|] eqn:RB; [|discriminate]. cbn [bind] in U.
    destruct (unseal_depend_blocks _ _ _ _ _ _ _) as [ds|]; [|discriminate]. cbn [bind] in U.
    destruct (unseal_block_rounds_w _ _ _ _ _ _ _ _ _) as [[c l]|] eqn:SR; [|discriminate]. cbn [bind] in U. injection U as <-.
    apply unseal_rounds_count in SR. cbn [snd] in SR |- *. rewrite SR, (geo_read _ _ _ RB). reflexivity.
  - cbn [snd length] in X. rewrite X, sum_const, seq_length. lia.
Qed.
End Count.

Section CountBatch.
Context (H : list byte -> list byte) (pr : profile) (params : PosPara) (key : Z) (iv : list byte).
Context (ks : list nat) (before : list (list byte)) (deps : list (list (list (list byte)))).

Definition total_units (bs : list (list (list byte))) : nat := list_sum (map (@length (list byte)) bs).

Lemma bu_rounds_count t i idx2 cur log r :
  foldM (fun st _ => foldM (bu_unit_w H params key iv before deps t i idx2 (length cur)) (seq 0 (length cur)) st) (seq 0 (seal_rounds params)) (cur, log) = Ok r ->
  length (fst r) = length cur /\ length (snd r) = seal_rounds params * length cur + length log.
Proof.
  intros E.
  destruct (foldM_measure (wlen (length cur)) wlog (fun st _ => foldM (bu_unit_w H params key iv before deps t i idx2 (length cur)) (seq 0 (length cur)) st) (fun _ => length cur) (seq 0 (seal_rounds params))) with (s := (cur, log)) (s' := r)
    as [Y X]; [|reflexivity|exact E|].
  - intros s a s' _ Ls F.
    destruct (foldM_measure (wlen (length cur)) wlog (bu_unit_w H params key iv before deps t i idx2 (length cur)) (fun _ => 1) (seq 0 (length cur))) with (s := s) (s' := s')
      as [I X]; [|exact Ls|exact F|].
    + intros [c l] j s1 _ Lc U. cbn [bu_unit_w] in U. destruct (bu_depend_data _ _ _ _ _ _ _ _ _ _ _) as [d|]; [|discriminate]. cbn [bind] in U.
      destruct (index c _) as [u|]; [|discriminate]. cbn [bind] in U. destruct (modsub _ _ _) as [v|]; [|discriminate]. cbn [bind] in U.
      destruct (set_index _ _ _) as [c'|] eqn:SI; [|discriminate]. cbn [bind] in U. injection U as <-. unfold wlen, wlog in *. cbn [fst snd length] in *.
      apply set_index_len in SI. lia.
    + split; [exact I|]. rewrite X, sum_const, seq_length. lia.
  - split; [exact Y|]. unfold wlog in X. cbn [snd] in X. rewrite X, sum_const, seq_length. reflexivity.
Qed.
Lemma map_upd_same {A B} (g : A -> B) l i a b : nth_error l i = Some b -> g a = g b -> map g (upd l i a) = map g l.
Proof.
  intros N E. apply list_ext. intros j. rewrite !nth_error_map. destruct (Nat.eq_dec i j) as [->|D].
  - pose proof (proj1 (nth_error_Some l j) ltac:(congruence)) as L.
    pose proof (index_upd_eq l j a L) as X. apply index_nth in X. rewrite X, N. cbn. now rewrite E.
  - pose proof (index_upd_neq l i j a D) as X. unfold index in X.
    destruct (nth_error (upd l i a) j), (nth_error l j); try discriminate; [|reflexivity]. injection X as ->. reflexivity.
Qed.
Lemma batch_count bs out log : batch_unseal_w H pr params key iv ks before deps bs = Ok (out, log) ->
  length log = seal_rounds params * total_units bs.
Proof.
  unfold batch_unseal_w. destruct (bu_idxs_s pr params) as [t|]; [|discriminate]. cbn [bind]. intros E.
  destruct (foldM_measure (fun s : list (list (list byte)) * list Z => map (@length _) (fst s) = map (@length _) bs) (fun s => length (snd s))
     (bu_block_w H params key iv ks before deps t) (fun i => seal_rounds params * nth i (map (@length _) bs) 0) (seq 0 (length bs))) with (s := (bs, @nil Z)) (s' := (out, log))
    as [_ X]; [|reflexivity|exact E|].
  - intros [b l0] i s' _ L U. cbn [fst snd] in *. unfold bu_block_w in U. destruct (index ks i) as [k|]; [|discriminate]. cbn [bind] in U.
    destruct (index b i) as [cur|] eqn:IC; [|discriminate]. cbn [bind] in U.
    match type of U with bind ?x _ = _ => destruct x as [[c l]|] eqn:R; [|discriminate] end. cbn [bind] in U.
    destruct (set_index b i c) as [b'|] eqn:SI; [|discriminate]. cbn [bind] in U. injection U as <-. cbn [fst snd].
    apply bu_rounds_count in R. cbn [fst snd] in R. destruct R as [R1 R2]. apply index_nth in IC.
    unfold set_index in SI. destruct (i <? length b); [|discriminate]. injection SI as <-.
    split; [rewrite (map_upd_same _ b i c cur IC R1); exact L|]. rewrite R2. do 2 f_equal. rewrite <- L.
    symmetry. apply nth_error_nth. rewrite nth_error_map, IC. reflexivity.
  - cbn [snd length] in X. rewrite X. unfold total_units. rewrite Nat.add_0_r. clear.
    assert (Y : forall (l : list nat), map (fun i => seal_rounds params * nth i l 0) (seq 0 (length l)) = map (fun x => seal_rounds params * x) l).
    { intros l. apply list_ext. intros j. rewrite !nth_error_map. destruct (Nat.lt_ge_cases j (length l)) as [C|C].
      - rewrite (proj2 (nth_seq (length l) j j)) by auto. rewrite (nth_error_nth' l 0 C). reflexivity.
      - rewrite (proj2 (nth_error_None (seq 0 (length l)) j)) by (rewrite seq_length; exact C). now rewrite (proj2 (nth_error_None l j)) by exact C. }
    rewrite <- (map_length (@length (list byte)) bs), Y. generalize (map (@length (list byte)) bs). induction l as [|x l IH]; [cbn; lia|].
    cbn [map list_sum fold_right]. unfold list_sum in IH. lia.
Qed.
End CountBatch.

(** * Unsealing undoes the calls of the delay function one by one *)
Lemma loop_undo_w {B A} (I : B -> Prop) (Q : Prop) (out : Z -> Z) (f g : B * list Z -> A -> res (B * list Z)) l :
  (forall i b, In i l -> I b -> exists b' z, I b' /\ (forall log, f (b, log) i = Ok (b', z ++ log))
      /\ (Q -> ~ In 0%Z z -> forall log, g (b', log) i = Ok (b, rev (map out z) ++ log))) ->
  forall b, I b -> exists b' z, I b' /\ (forall log, foldM f l (b, log) = Ok (b', z ++ log))
      /\ (Q -> ~ In 0%Z z -> forall log, foldM g (rev l) (b', log) = Ok (b, rev (map out z) ++ log)).
Proof.
  induction l as [|i l IH]; intros HS b Ib.
  - exists b, []. repeat split; auto.
  - destruct (HS i b ltac:(now left) Ib) as (b1 & z1 & I1 & F1 & G1).
    destruct (IH ltac:(intros; apply HS; auto; now right) b1 I1) as (b2 & z2 & I2 & F2 & G2).
    exists b2, (z2 ++ z1). repeat split; [exact I2| |].
    + intros log. cbn [foldM]. rewrite F1. cbn [bind]. rewrite F2. now rewrite app_assoc.
    + intros q N log. cbn [rev]. rewrite foldM_app.
      rewrite G2 by (auto; intros X; apply N, in_or_app; now left). cbn [bind foldM].
      rewrite G1 by (auto; intros X; apply N, in_or_app; now right). cbn [bind]. f_equal. f_equal.
      now rewrite map_app, rev_app_distr, app_assoc.
Qed.

Section Undo.
Context (H : list byte -> list byte) (pr : profile) (params : PosPara) (key : Z) (iv : list byte).
Notation upl := (unit_pl params).
Notation bpl := (block_pl params).
Notation out := (fun x => sloth x key (vde_rounds params)).

Definition bstep_w idxs_s deps sfx m (st : unit_state) (i : nat) : res unit_state :=
  let (cur, log) := st in
  let* d := md H params idxs_s deps sfx m cur i in
  let* u := index cur i in
  let* a := modsub (vde_inv u key (vde_rounds params) (vde_mode params) upl) (H d) key in
  let* c := set_index cur i a in
  Ok (c, le2z u :: log).
Definition brounds_w idxs_s deps sfx m (st : unit_state) : res unit_state :=
  foldM (fun st _ => foldM (bstep_w idxs_s deps sfx m) (rev (seq 0 m)) st) (seq 0 (seal_rounds params)) st.

Lemma unseal_block_rounds_brounds_w idxs_s deps idx2 m cur log b : length cur = m ->
  unseal_block_rounds_w H params key iv idxs_s deps b idx2 (cur, log) =
  brounds_w idxs_s deps (if idx2 =? 0 then iv else b) m (cur, log).
Proof.
  intros <-. unfold unseal_block_rounds_w, brounds_w. cbn [fst]. apply foldM_ext. intros _ s _.
  rewrite rev_seq, foldM_map. apply foldM_ext. intros i [c l] I. unfold unseal_unit_w, bstep_w.
  rewrite unseal_depend_data_md. reflexivity.
Qed.

Hypothesis HH : hash_ok H.
Hypothesis K1 : (1 < key)%Z.
Hypothesis K2 : (key <= 256 ^ Z.of_nat upl)%Z.

Lemma fstep_ok_w idxs_s deps sfx m i cur : short_ok params idxs_s m -> deps_ok m deps -> i < m -> block_ok params key m cur ->
  exists cur' z, block_ok params key m cur' /\ (forall log, fstep H params key idxs_s deps sfx m (cur, log) i = Ok (cur', z ++ log))
  /\ (good_key H key -> ~ In 0%Z z -> forall log, bstep_w idxs_s deps sfx m (cur', log) i = Ok (cur, rev (map out z) ++ log)).
Proof.
  clear pr iv. intros S D I BO. destruct (fstep_ok H params key HH K1 K2 idxs_s deps sfx m i cur S D I BO) as (cur' & z & B' & F & G).
  exists cur', z. split; [exact B'|]. split; [exact F|]. intros GK N log. specialize (G GK N).
  destruct BO as [L FU]. specialize (F []). unfold fstep in F.
  destruct (md H params idxs_s deps sfx m cur i) as [d|] eqn:Ed; [|discriminate]. cbn [bind] in F.
  destruct (index cur i) as [u|] eqn:Eu; [|discriminate]. cbn [bind] in F.
  assert (Uu : unit_ok params key u) by (rewrite Forall_forall in FU; apply FU; eapply index_In; exact Eu). destruct Uu as [Lu Bu].
  destruct (modadd u (H d) key) as [a|] eqn:Ea; [|discriminate]. cbn [bind] in F.
  destruct (modadd_ok u (H d) key K1 ltac:(rewrite Lu; exact K2)) as (a' & Ea' & La & Va). rewrite Ea in Ea'. injection Ea' as <-.
  assert (Ra : (0 <= le2z a < key)%Z) by (rewrite Va; apply Z.mod_pos_bound; lia).
  rewrite set_index_ok in F by lia. cbn [bind] in F. rewrite app_nil_r in F. injection F as <- <-.
  unfold bstep in G. unfold bstep_w. match type of G with bind ?x _ = _ => destruct x as [d'|]; [|discriminate] end. cbn [bind] in *.
  rewrite index_upd_eq in G by lia. rewrite index_upd_eq by lia. cbn [bind] in *. match type of G with bind ?x _ = _ => destruct x as [w|]; [|discriminate] end. cbn [bind] in *. rewrite G. cbn [bind map rev app].
  f_equal. f_equal. f_equal. rewrite vde_val. apply Z.abs_eq. destruct GK as (P & P4 & _).
  assert (X : (1 <= sloth (le2z a) key (vde_rounds params) <= key - 1)%Z); [|lia].
  apply sloth_range; auto. cbn [In] in N. assert (le2z a <> 0%Z) by tauto. lia.
Qed.
Lemma frounds_ok_w idxs_s deps sfx m cur : short_ok params idxs_s m -> deps_ok m deps -> block_ok params key m cur ->
  exists cur' z, block_ok params key m cur' /\ (forall log, frounds H params key idxs_s deps sfx m (cur, log) = Ok (cur', z ++ log))
  /\ (good_key H key -> ~ In 0%Z z -> forall log, brounds_w idxs_s deps sfx m (cur', log) = Ok (cur, rev (map out z) ++ log)).
Proof.
  intros S D B.
  destruct (loop_undo_w (block_ok params key m) (good_key H key) out (fun st (_ : nat) => foldM (fstep H params key idxs_s deps sfx m) (seq 0 m) st)
     (fun cb _ => foldM (bstep_w idxs_s deps sfx m) (rev (seq 0 m)) cb) (seq 0 (seal_rounds params))) with (b := cur)
    as (cur' & z & B' & F & G); [|exact B|].
  - intros i b _ Bb. apply (loop_undo_w (block_ok params key m) (good_key H key) out); [|exact Bb].
    intros j c J. apply in_seq in J. intros Bc. apply fstep_ok_w; auto; lia.
  - exists cur', z. split; [exact B'|]. split; [exact F|]. intros q N log. unfold brounds_w.
    rewrite (foldM_const (foldM (bstep_w idxs_s deps sfx m) (rev (seq 0 m))) (seq 0 (seal_rounds params)) (rev (seq 0 (seal_rounds params))));
      [|now rewrite rev_length]. now apply G.
Qed.

Context (n m : nat) (idxs_l idxs_s : list (list nat)).
Hypothesis U0 : 0 < upl.
Hypothesis BPL : bpl = m * upl.
Hypothesis SOK : short_ok params idxs_s m.
Hypothesis LOK : long_ok params idxs_l n.
Notation Dfun := (Dfun H params).
Notation blk := (blk params).
Notation sfx := (sfx H params iv).
Notation block_sealed := (block_sealed H params key iv n m idxs_l idxs_s).
Notation sealed_upto := (sealed_upto H params key iv n m idxs_l idxs_s).

Lemma block_unseal_w f F k zs : good_key H key -> block_sealed f F k zs -> ~ In 0%Z zs -> k < n ->
  exists deps, Dfun idxs_l n F k = Ok deps /\
  forall log, brounds_w idxs_s deps (sfx F k) m (chunks upl m (blk F k), log) = Ok (chunks upl m (blk f k), rev (map out zs) ++ log).
Proof.
  intros GK (deps & D & B & B' & Fr) NZ K. exists deps. split; [exact D|].
  destruct (Dfun_ok H params n m idxs_l HH U0 BPL LOK F k K) as (deps' & D' & DO). rewrite D in D'. injection D' as <-.
  destruct (frounds_ok_w idxs_s deps (sfx F k) m (chunks upl m (blk f k)) SOK DO B)
    as (us' & z & _ & F' & G').
  specialize (F' []). rewrite Fr in F'. injection F' as <- E. rewrite !app_nil_r in E. subst z. now apply G'.
Qed.

Lemma unseal_block_eq_w G log k : k < n -> rows_ok params n idxs_l ->
  unseal_block_w H params key iv idxs_l idxs_s n (G, log) (n - 1 - k) =
  (let* deps := Dfun idxs_l n G k in
   let* (us, log') := brounds_w idxs_s deps (sfx G k) m (chunks upl m (blk G k), log) in
   Ok (write_at G (k * bpl) (com_units us), log')).
Proof.
  intros K R. unfold unseal_block_w. replace (n - 1 - (n - 1 - k)) with k by lia.
  rewrite (read_block_ok params m U0 BPL). cbn [bind]. rewrite before_id_D.
  assert (X : unseal_depend_blocks H params idxs_l n G (if k =? 0 then [] else H (blk G (k - 1))) k = Dfun idxs_l n G k).
  { destruct (Nat.eq_dec (mode_l params) 0) as [M|M].
    - destruct (Nat.eqb_spec k 0) as [Z|NZ].
      + unfold unseal_depend_blocks, SealFile.Dfun, pick_l. rewrite M, Z. reflexivity.
      + now apply (unseal_depend_blocks_D H params n m idxs_l U0 BPL).
    - destruct R as [R|R]; [contradiction|]. apply unseal_depend_blocks_D'; auto. intros row Er. now apply (R k). }
  rewrite X. destruct (Dfun idxs_l n G k) as [deps|]; [|reflexivity]. cbn [bind].
  rewrite (unseal_block_rounds_brounds_w idxs_s deps k m); [|apply chunks_length].
  assert (Y : (if k =? 0 then iv else if k =? 0 then [] else H (blk G (k - 1))) = sfx G k) by (unfold SealFile.sfx; destruct (k =? 0); reflexivity).
  rewrite Y. reflexivity.
Qed.

Lemma unseal_block_step_w f F G j zs : good_key H key -> rows_ok params n idxs_l ->
  j < n -> block_sealed f F j zs -> ~ In 0%Z zs -> unsealed_from params (S j) f F G ->
  forall log G' log', unseal_block_w H params key iv idxs_l idxs_s n (G, log) (n - 1 - j) = Ok (G', log') -> log' = rev (map out zs) ++ log.
Proof.
  intros GK R J BS NZ [UL ULo UH] log G' log'. rewrite unseal_block_eq_w by assumption.
  assert (EJ : forall i, i <= j -> blk G i = blk F i).
  { intros i I. apply blk_ext. intros x X. apply ULo. pose proof (mul_lt_block params i (S j) ltac:(lia)). lia. }
  destruct (block_unseal_w f F j zs GK BS NZ J) as (deps & D & B).
  rewrite (Dfun_ext H params n m idxs_l HH U0 BPL LOK G F j J ltac:(intros; apply EJ; lia)), D. cbn [bind].
  rewrite (sfx_ext H params iv G F j ltac:(intros; apply EJ; lia)), (EJ j ltac:(lia)), B. cbn [bind]. intros E. now injection E as _ <-.
Qed.

Lemma unseal_loop_from_w f F G j d (zsf : nat -> list Z) : good_key H key -> rows_ok params n idxs_l -> length F = length f -> n * bpl <= length F ->
  j + d <= n ->
  (forall k, k < n - j -> block_sealed f F k (zsf k) /\ ~ In 0%Z (zsf k)) ->
  unsealed_from params (n - j) f F G ->
  forall log G' log', foldM (unseal_block_w H params key iv idxs_l idxs_s n) (seq j d) (G, log) = Ok (G', log') ->
  log' = concat (map (fun i => rev (map out (zsf (n - 1 - i)))) (rev (seq j d))) ++ log.
Proof.
  intros GK R LF NL. revert j G. induction d as [|d IH]; intros j G L BS U log G' log' E.
  - cbn in E. injection E as _ <-. reflexivity.
  - cbn [seq foldM] in E. destruct (BS (n - 1 - j) ltac:(lia)) as (B & NZ).
    destruct (unseal_block_step H params key iv n m idxs_l idxs_s HH K1 K2 U0 BPL SOK LOK f F G (n - 1 - j) (zsf (n - 1 - j)) GK R LF NL ltac:(lia) B NZ) as (G1 & E1 & U1).
    + replace (S (n - 1 - j)) with (n - j) by lia. exact U.
    + replace (n - 1 - (n - 1 - j)) with j in E1 by lia.
      pose proof (unseal_block_forget H params key iv idxs_l idxs_s n G log j) as FG. rewrite E1 in FG.
      destruct (unseal_block_w H params key iv idxs_l idxs_s n (G, log) j) as [[G2 log2]|] eqn:E2; [|discriminate]. cbn [forget] in FG. injection FG as ->.
      cbn [bind] in E.
      assert (L2 : log2 = rev (map out (zsf (n - 1 - j))) ++ log).
      { apply (unseal_block_step_w f F G (n - 1 - j) (zsf (n - 1 - j)) GK R ltac:(lia) B NZ) with (G' := G1).
        - replace (S (n - 1 - j)) with (n - j) by lia. exact U.
        - replace (n - 1 - (n - 1 - j)) with j by lia. exact E2. }
      replace (n - 1 - j) with (n - S j) in U1 by lia.
      rewrite (IH (S j) G1 ltac:(lia) ltac:(intros; apply BS; lia) U1 _ _ _ E), L2. cbn [seq rev].
      rewrite map_app, concat_app. cbn [map concat]. now rewrite app_nil_r, app_assoc.
Qed.

(** The log of sealing, block by block. *)
Lemma block_sealed_ext f F G k zs : k < n -> (forall i, i <= k -> blk F i = blk G i) -> block_sealed f F k zs -> block_sealed f G k zs.
Proof.
  intros K E (d & D1 & D2 & D3 & D4). exists d. rewrite <- (Dfun_ext H params n m idxs_l HH U0 BPL LOK F G) by (auto; intros; apply E; lia).
  rewrite <- (sfx_ext H params iv F G) by (intros; apply E; lia). rewrite <- E by lia. auto.
Qed.
Lemma seal_block_log f j st st' : file_ok params key n m f -> j < n -> sealed_upto j f st -> seal_block H params key iv idxs_l idxs_s n st j = Ok st' ->
  forall zs, block_sealed f (s_file st') j zs -> s_log st' = zs ++ s_log st.
Proof.
  intros [FL FB] J [SL IL SB SR SI SG] E zs BS.
  assert (LJ : S j * bpl <= n * bpl) by (apply mul_lt_block; lia).
  assert (EJ : blk (s_file st) j = blk f j) by (apply blk_ext; intros x X; apply SR; lia).
  unfold seal_block in E. rewrite (read_block_ok params m U0 BPL) in E. cbn [bind] in E.
  assert (ID : j <> 0 -> index (s_ids st) (j - 1) = Ok (H (blk (s_file st) (j - 1)))) by (intros; apply SI; lia).
  rewrite seal_depend_blocks_D in E by exact ID.
  destruct (Dfun_ok H params n m idxs_l HH U0 BPL LOK (s_file st) j J) as (deps & ED & DO). rewrite ED in E. cbn [bind] in E.
  rewrite (seal_block_rounds_frounds H params key iv idxs_s deps (s_ids st) j m _ _ (H (blk (s_file st) (j - 1)))) in E;
    [|apply chunks_length|exact ID].
  change (if j =? 0 then iv else H (blk (s_file st) (j - 1))) with (sfx (s_file st) j) in E. rewrite EJ in E.
  destruct (frounds_ok H params key HH K1 K2 idxs_s deps (sfx (s_file st) j) m (chunks upl m (blk f j)) SOK DO (FB j J))
    as (us' & z & B' & F & _).
  rewrite F in E. cbn [bind] in E. rewrite set_index_ok in E by lia. cbn [bind] in E. injection E as <-. cbn [s_log s_file] in *.
  pose proof (com_len params key m BPL us' B') as CL.
  assert (W2 : forall i, i < j -> blk (write_at (s_file st) (j * bpl) (com_units us')) i = blk (s_file st) i)
    by (intros; apply write_blk_other; auto; lia).
  destruct BS as (deps' & D' & _ & _ & F'). rewrite (Dfun_ext H params n m idxs_l HH U0 BPL LOK _ (s_file st)) in D' by (auto; intros; apply W2; lia).
  rewrite ED in D'. injection D' as <-. rewrite (sfx_ext H params iv _ (s_file st)) in F' by (intros; apply W2; lia).
  specialize (F []). specialize (F' []). rewrite F in F'. injection F' as _ X. rewrite !app_nil_r in X. now rewrite X.
Qed.
Lemma seal_log_from f j st d fin zsf : file_ok params key n m f -> j + d = n -> sealed_upto j f st ->
  foldM (seal_block H params key iv idxs_l idxs_s n) (seq j d) st = Ok fin -> sealed_upto n f fin ->
  (forall k, k < n -> block_sealed f (s_file fin) k (zsf k)) ->
  s_log fin = concat (map zsf (rev (seq j d))) ++ s_log st.
Proof.
  intros FO. revert j st. induction d as [|d IH]; intros j st L SU E SF Z.
  - cbn in E. injection E as <-. reflexivity.
  - destruct (seal_block_step H params key iv n m idxs_l idxs_s HH K1 K2 U0 BPL SOK LOK f j st FO ltac:(lia) SU) as (st1 & E1 & S1 & _).
    cbn [seq foldM] in E. rewrite E1 in E. cbn [bind] in E.
    rewrite (IH (S j) st1 ltac:(lia) S1 E SF Z). cbn [seq rev]. rewrite map_app, concat_app. cbn [map concat]. rewrite app_nil_r, <- app_assoc. f_equal.
    apply (seal_block_log f j st st1 FO ltac:(lia) SU E1). apply (block_sealed_ext f (s_file fin) (s_file st1)); [lia| |apply Z; lia].
    intros i I. symmetry. apply (sealed_blk_unique H params key iv n m idxs_l idxs_s HH U0 BPL LOK f f _ _ (S j)); auto; try lia.
    + intros k K. destruct (su_blocks _ _ _ _ _ _ _ _ _ _ _ S1 k K) as (z & B & _). eauto.
    + intros k K. destruct (su_blocks _ _ _ _ _ _ _ _ _ _ _ SF k ltac:(lia)) as (z & B & _). eauto.
Qed.
Lemma sealed_zsf f fin : sealed_upto n f fin -> exists zsf, forall k, k < n -> block_sealed f (s_file fin) k (zsf k).
Proof.
  clear - params. intros SF. assert (X : forall j, j <= n -> exists zsf, forall k, k < j -> block_sealed f (s_file fin) k (zsf k)).
  { induction j as [|j IH]; intros J; [exists (fun _ => []); lia|]. destruct (IH ltac:(lia)) as (zsf & Z).
    destruct (su_blocks _ _ _ _ _ _ _ _ _ _ _ SF j J) as (z & B & _). exists (fun k => if k =? j then z else zsf k).
    intros k K. destruct (Nat.eqb_spec k j) as [->|N]; [exact B|]. apply Z. lia. }
  now apply X.
Qed.
Lemma block_sealed_len f F k zs : block_sealed f F k zs -> length zs = seal_rounds params * m.
Proof.
  clear - params. intros (d & _ & _ & _ & F'). specialize (F' []).
  destruct (foldM_measure (wlen m) wlog (fun st (_ : nat) => foldM (fstep H params key idxs_s d (sfx F k) m) (seq 0 m) st) (fun _ => m) (seq 0 (seal_rounds params))) with
    (s := (chunks upl m (blk f k), @nil Z)) (s' := (chunks upl m (blk F k), zs ++ [])) as [_ X]; [|apply chunks_length|exact F'|].
  - intros s a s' _ Ls E.
    destruct (foldM_measure (wlen m) wlog (fstep H params key idxs_s d (sfx F k) m) (fun _ => 1) (seq 0 m)) with (s := s) (s' := s')
      as [I X]; [|exact Ls|exact E|].
    + intros [c l] j s1 _ Lc U. cbn [fstep] in U. destruct (md _ _ _ _ _ _ _ _) as [dd|]; [|discriminate]. cbn [bind] in U.
      destruct (index c _) as [u|]; [|discriminate]. cbn [bind] in U. destruct (modadd _ _ _) as [v|]; [|discriminate]. cbn [bind] in U.
      destruct (set_index _ _ _) as [c'|] eqn:SI; [|discriminate]. cbn [bind] in U. injection U as <-. unfold wlen, wlog in *. cbn [fst snd length] in *.
      apply set_index_len in SI. lia.
    + split; [exact I|]. rewrite X, sum_const, seq_length. lia.
  - unfold wlog in X. cbn [snd] in X. rewrite app_nil_r in X. rewrite X, sum_const, seq_length. cbn [length]. lia.
Qed.
End Undo.

(** The part of the log of sealing that belongs to block k: the last block comes first. *)
Definition block_log (params : PosPara) (n m : nat) (log : list Z) (k : nat) : list Z :=
  firstn (seal_rounds params * m) (skipn ((n - 1 - k) * (seal_rounds params * m)) log).

Lemma concat_piece {A} (g : nat -> list A) c n : (forall k, k < n -> length (g k) = c) ->
  forall k, k < n -> firstn c (skipn ((n - 1 - k) * c) (concat (map g (rev (seq 0 n))))) = g k.
Proof.
  intros L. induction n as [|n IH]; intros k K; [lia|]. rewrite seq_S, rev_app_distr. cbn [plus rev app map concat].
  destruct (Nat.eq_dec k n) as [->|N].
  - replace (S n - 1 - n) with 0 by lia. cbn [Nat.mul skipn]. rewrite firstn_app, (L n) by lia. rewrite Nat.sub_diag. cbn [firstn].
    rewrite app_nil_r. apply firstn_all2. rewrite (L n); lia.
  - replace (S n - 1 - k) with (S (n - 1 - k)) by lia. cbn [Nat.mul]. rewrite skipn_app, (L n) by lia.
    rewrite skipn_all2 by (rewrite (L n) by lia; apply Nat.le_add_r). replace (c + (n - 1 - k) * c - c) with ((n - 1 - k) * c) by (rewrite (Nat.add_comm c); symmetry; apply Nat.add_sub). cbn [app].
    apply IH; [intros; apply L; lia|lia].
Qed.

Section Top.
Context (H : list byte -> list byte) (pr : profile) (params : PosPara) (key : Z) (iv : list byte) (n m : nat).
Hypothesis SET : setting H pr params key n m.
Notation upl := (unit_pl params).
Notation bpl := (block_pl params).
Notation out := (fun x => sloth x key (vde_rounds params)).
Context (f : file) (st : seal_state).
Hypothesis SK : sound_key H key.
Hypothesis SE : sealable params key n m f.
Hypothesis E : seal H pr params key iv f = Ok st.
Hypothesis NZ : ~ In 0%Z (s_log st).

Lemma top_logs t : tabl pr params n m t -> exists zsf,
  (forall k, k < n -> block_sealed H params key iv n m (fst t) (snd t) f (s_file st) k (zsf k) /\ ~ In 0%Z (zsf k) /\ zsf k = block_log params n m (s_log st) k) /\
  s_log st = concat (map zsf (rev (seq 0 n))).
Proof.
  intros T. pose proof T as (TL & LO & TS & SO). pose proof (seal_inv H pr params key iv n m SET t f st T SE E) as SU.
  destruct (sealed_zsf H params key iv n m (fst t) (snd t) f st SU) as (zsf & Z). exists zsf.
  assert (LG : s_log st = concat (map zsf (rev (seq 0 n)))).
  { pose proof E as E'. rewrite (seal_unfold H pr params key iv n m SET t f T) in E'.
    rewrite (seal_log_from H params key iv (hh H pr params key n m SET) (k1 H pr params key n m SET) (k2 H pr params key n m SET) n m (fst t) (snd t)
      (upl_pos H pr params key n m SET) (bpl_eq H pr params key n m SET) SO LO f 0 _ n st zsf (sealable_file_ok H pr params key n m SET f SE) eq_refl
      (sealed_upto_0 H params key iv n m (fst t) (snd t) f) E' SU Z). cbn [s_log]. now rewrite app_nil_r. }
  split; [|exact LG]. intros k K. split; [apply Z, K|]. split.
  - intros X. apply NZ. rewrite LG. apply in_concat. exists (zsf k). split; [|exact X]. apply in_map, in_rev. rewrite rev_involutive. apply in_seq. lia.
  - unfold block_log. rewrite LG. symmetry. apply concat_piece; [|exact K].
    intros j J. exact (block_sealed_len H params key iv n m (fst t) (snd t) f (s_file st) j (zsf j) (Z j J)).
Qed.

Lemma rev_concat_rev {A} (g : nat -> list A) l : rev (concat (map (fun i => rev (g i)) (rev l))) = concat (map g l).
Proof.
  induction l as [|a l IH]; [reflexivity|]. cbn [rev]. rewrite map_app, concat_app, rev_app_distr. cbn [map concat]. rewrite app_nil_r, rev_involutive. now rewrite IH.
Qed.

Lemma unseal_undo : plain_rows pr params n -> exists log, unseal_w H pr params key iv (s_file st) = Ok (f, log) /\ rev log = map out (s_log st).
Proof.
  intros PR. pose proof (unseal_seal H pr params key iv n m SET f st SK PR SE E NZ) as US.
  rewrite <- unseal_forget in US. destruct (unseal_w H pr params key iv (s_file st)) as [[g log]|] eqn:W; [|discriminate].
  cbn [forget] in US. injection US as ->. exists log. split; [reflexivity|].
  destruct (tabl_ex H pr params key n m SET) as (t & T). pose proof T as (TL & LO & TS & SO).
  destruct (top_logs t T) as (zsf & Z & LG).
  unfold unseal_w in W. rewrite (set_nblocks H pr params key n m SET) in W. cbn [bind] in W. rewrite unseal_idxs_l_eq, TL in W. cbn [bind] in W.
  rewrite unseal_idxs_s_eq, TS in W. cbn [bind] in W.
  pose proof (seal_inv H pr params key iv n m SET t f st T SE E) as [SL IL SB SR SI SG].
  rewrite (unseal_loop_from_w H params key iv (hh H pr params key n m SET) (k1 H pr params key n m SET) (k2 H pr params key n m SET) n m (fst t) (snd t)
      (upl_pos H pr params key n m SET) (bpl_eq H pr params key n m SET) SO LO f (s_file st) (s_file st) 0 n zsf (sound_good H key SK) (plain_rows_ok pr params n m t T PR) SL
      ltac:(rewrite SL; apply SE) (le_n n)) with (log := @nil BinNums.Z) (log' := log) (G' := f).
  - rewrite app_nil_r. rewrite (rev_concat_rev (fun i => map out (zsf (n - 1 - i)))), LG.
    rewrite concat_map, map_map. f_equal. rewrite rev_seq, map_map. reflexivity.
  - intros k K. destruct (Z k ltac:(lia)) as (A & B & _). auto.
  - rewrite Nat.sub_0_r. apply unsealed_start; [rewrite SL; apply SE|exact SR].
  - exact W.
Qed.

Lemma brounds_w_rows t t' deps sfx cur : (mode_s params = 0 \/ forall k, k < m -> index t' k = index t k) ->
  brounds_w H params key t' deps sfx m cur = brounds_w H params key t deps sfx m cur.
Proof.
  clear. intros R. unfold brounds_w. apply foldM_ext. intros _ s _. apply foldM_ext. intros i [c l] I. unfold bstep_w.
  rewrite (md_rows H params t t'); [reflexivity|]. destruct R as [Z|R]; [now left|]. right. apply R. apply in_rev in I. apply in_seq in I. lia.
Qed.

Lemma batch_log_from ks before deps t' (bs : list (list (list byte))) w : forall d a cur log out' log',
  (forall i, a <= i -> nth_error cur i = nth_error bs i) ->
  (forall i c k l r, a <= i < a + d -> nth_error bs i = Some c -> index ks i = Ok k ->
     foldM (fun st _ => foldM (bu_unit_w H params key iv before deps t' i k (length c)) (seq 0 (length c)) st) (seq 0 (seal_rounds params)) (c, l) = Ok r -> snd r = w i ++ l) ->
  foldM (bu_block_w H params key iv ks before deps t') (seq a d) (cur, log) = Ok (out', log') ->
  log' = concat (map w (rev (seq a d))) ++ log.
Proof.
  clear. induction d as [|d IH]; intros a cur log out' log' N W F.
  - cbn in F. injection F as _ <-. reflexivity.
  - cbn [seq foldM] in F. destruct (bu_block_w H params key iv ks before deps t' (cur, log) a) as [[c1 l1]|] eqn:B; [|discriminate]. cbn [bind] in F.
    unfold bu_block_w in B. destruct (index ks a) as [k|] eqn:IK; [|discriminate]. cbn [bind] in B.
    destruct (index cur a) as [c|] eqn:IC; [|discriminate]. cbn [bind] in B.
    match type of B with bind ?x _ = _ => destruct x as [[c2 l2]|] eqn:R; [|discriminate] end. cbn [bind] in B.
    unfold set_index in B. destruct (a <? length cur); [|discriminate]. cbn [bind] in B. injection B as <- <-.
    apply index_nth in IC. rewrite N in IC by lia.
    pose proof (W a c k log (c2, l2) ltac:(lia) IC IK R) as X. cbn [snd] in X. subst l2.
    rewrite (IH (S a) (upd cur a c2) (w a ++ log) out' log'); [|..|exact F].
    + cbn [seq rev]. rewrite map_app, concat_app. cbn [map concat]. now rewrite app_nil_r, app_assoc.
    + intros i I. pose proof (index_upd_neq cur a i c2 ltac:(lia)) as Y. unfold index in Y. rewrite <- N by lia.
      destruct (nth_error (upd cur a c2) i), (nth_error cur i); try discriminate; [|reflexivity]. now injection Y as ->.
    + intros i c' k' l r I. apply W. lia.
Qed.

Lemma batch_undo ks : unit_table params m -> Forall (fun k => k < n) ks ->
  exists rs log, mapM (single_unseal_prepare H pr params (s_file st)) ks = Ok rs /\
  batch_unseal_w H pr params key iv ks (map (fun r => snd (fst r)) rs) (map snd rs) (map (fun r => fst (fst r)) rs)
  = Ok (map (block_units params m f) ks, log) /\
  rev log = map out (concat (map (block_log params n m (s_log st)) ks)).
Proof.
  intros UT F. destruct (batch_unseal_sealed H pr params key iv n m SET f st SK SE E NZ ks UT F) as (rs & P & B). exists rs.
  rewrite <- batch_unseal_forget in B. destruct (batch_unseal_w _ _ _ _ _ _ _ _ _) as [[bs log]|] eqn:W; [|discriminate].
  cbn [forget] in B. injection B as ->. exists log. split; [exact P|]. split; [reflexivity|].
  destruct (tabl_ex H pr params key n m SET) as (t & T). pose proof T as (TL & LO & TS & SO).
  destruct (top_logs t T) as (zsf & Z & LG).
  destruct (verifier_table pr params n m (snd t) (set_short _ _ _ _ _ _ SET) TS UT) as (t' & ET & _ & RW).
  unfold batch_unseal_w in W. rewrite ET in W. cbn [bind] in W. rewrite map_length in W. apply mapM_length in P as RL.
  assert (PR : forall i k, nth_error ks i = Some k -> exists deps, Dfun H params (fst t) n (s_file st) k = Ok deps /\
     nth_error rs i = Some (chunks upl m (blk params (s_file st) k), prepare_before_id H params (s_file st) k, deps)).
  { intros i k NK. destruct (mapM_index _ _ _ _ _ P NK) as (r & Er & IR). apply index_nth in IR.
    assert (K : k < n) by (rewrite Forall_forall in F; apply F; eapply nth_error_In; exact NK).
    destruct (prepare_ok H pr params key iv n m SET f st SK SE E NZ k K) as (t2 & deps & T2 & P2 & D & _).
    assert (t2 = t) as ->. { destruct t2 as [a b], t as [a' b']. destruct T as (A1 & _ & B1 & _), T2 as (A2 & _ & B2 & _). cbn [fst snd] in *. congruence. }
    exists deps. split; [exact D|]. rewrite Er in P2. injection P2 as ->. exact IR. }
  assert (LOG : log = concat (map (fun i => rev (map out (zsf (nth i ks 0)))) (rev (seq 0 (length rs)))) ++ []).
  { refine (batch_log_from ks (map (fun r => snd (fst r)) rs) (map snd rs) t' (map (fun r => fst (fst r)) rs) (fun i => rev (map out (zsf (nth i ks 0)))) (length rs) 0 _ [] _ log _ _ W); [reflexivity|].
    intros i c k l r I NC IK R. apply index_nth in IK. destruct (PR i k IK) as (deps & D & NR).
    rewrite nth_error_map, NR in NC. cbn [option_map fst snd] in NC. injection NC as <-.
    assert (K : k < n) by (rewrite Forall_forall in F; apply F; eapply nth_error_In; exact IK).
    destruct (Z k K) as (ZB & ZN & _).
    destruct (block_unseal_w H params key iv (hh H pr params key n m SET) (k1 H pr params key n m SET) (k2 H pr params key n m SET) n m (fst t) (snd t)
      (upl_pos H pr params key n m SET) (bpl_eq H pr params key n m SET) SO LO f (s_file st) k (zsf k) (sound_good H key SK) ZB ZN K) as (deps' & D' & BR).
    rewrite D in D'. injection D' as <-.
    assert (X : foldM (fun s0 _ => foldM (bu_unit_w H params key iv (map (fun r => snd (fst r)) rs) (map snd rs) t' i k (length (chunks upl m (blk params (s_file st) k)))) (seq 0 (length (chunks upl m (blk params (s_file st) k)))) s0)
        (seq 0 (seal_rounds params)) (chunks upl m (blk params (s_file st) k), l) = brounds_w H params key t' deps (sfx H params iv (s_file st) k) m (chunks upl m (blk params (s_file st) k), l)).
    { rewrite chunks_length. unfold brounds_w. apply foldM_ext. intros _ s _. rewrite rev_seq, foldM_map. apply foldM_ext. intros j [c0 l0] J. unfold bu_unit_w, bstep_w.
      rewrite (bu_depend_data_md H params iv _ _ t' i k _ _ _ deps (prepare_before_id H params (s_file st) k)).
      - assert (Y : (if k =? 0 then iv else prepare_before_id H params (s_file st) k) = sfx H params iv (s_file st) k).
        { unfold sfx, prepare_before_id, blk. destruct (k =? 0); reflexivity. }
        rewrite Y. reflexivity.
      - apply index_nth. rewrite nth_error_map, NR. reflexivity.
      - intros _. apply index_nth. rewrite nth_error_map, NR. reflexivity. }
    rewrite X in R. rewrite (brounds_w_rows (snd t) t') in R by exact RW. rewrite BR in R. injection R as <-. cbn [snd].
    now rewrite (nth_error_nth _ _ 0 IK).
  }
  rewrite LOG.
  rewrite app_nil_r, (rev_concat_rev (fun i => map out (zsf (nth i ks 0)))), RL. rewrite concat_map, map_map. f_equal.
    apply list_ext. intros i. rewrite !nth_error_map. destruct (Nat.lt_ge_cases i (length ks)) as [C|C].
    + rewrite (proj2 (nth_seq (length ks) i i)) by auto. pose proof (nth_error_nth' ks 0 C) as NK. rewrite NK. cbn [option_map]. do 2 f_equal.
      apply Z. rewrite Forall_forall in F. apply F. eapply nth_error_In; exact NK.
    + rewrite (proj2 (nth_error_None (seq 0 (length ks)) i)) by (rewrite seq_length; exact C). now rewrite (proj2 (nth_error_None ks i)) by exact C.
Qed.
End Top.

(** * The thread pool *)
Section Pool.
Context (H : list byte -> list byte) (pr : profile) (params : PosPara) (key : Z) (iv : list byte).
Context (ks : list nat) (before : list (list byte)) (deps : list (list (list (list byte)))) (threads : nat) (t : list (list nat)).
Notation step := (step H params key iv ks before deps threads t).
Notation steps := (steps H params key iv ks before deps threads t).
Notation step_w := (step_w H params key iv ks before deps threads t).
Notation steps_w := (steps_w H params key iv ks before deps threads t).

Lemma step_w_step p q : (exists a, step_w a p q) <-> step p q.
Proof.
  split.
  - intros (a & S). destruct S; [eapply step_start|eapply step_start_panic|eapply step_work|eapply step_panic|eapply step_finish]; eauto.
  - intros S. destruct S; [exists 0; eapply sw_start|exists 0; eapply sw_start_panic|exists 1; eapply sw_work|exists 0; eapply sw_panic|exists 0; eapply sw_finish]; eauto.
Qed.
Lemma steps_w_steps p q : (exists k, steps_w k p q) <-> steps p q.
Proof.
  split.
  - intros (k & S). induction S as [p|a b p q r S1 S2 IH]; [constructor|]. apply steps_cons with q; [|exact IH]. apply step_w_step. eauto.
  - intros S. induction S as [p|p q r S1 S2 (k & IH)]; [exists 0; constructor|]. apply step_w_step in S1 as (a & S1). exists (a + k). econstructor; eauto.
Qed.

Definition jobwork (b : list (list byte)) (j : job) : nat :=
  match j with Waiting => seal_rounds params * length b | Running _ _ todo _ => length todo | _ => 0 end.
Fixpoint work (bs : list (list (list byte))) (js : list job) : nat :=
  match bs, js with b :: bs', j :: js' => jobwork b j + work bs' js' | _, _ => 0 end.

Lemma work_upd bs : forall js i b j j', nth_error bs i = Some b -> nth_error js i = Some j ->
  work bs (upd js i j') + jobwork b j = work bs js + jobwork b j'.
Proof.
  induction bs as [|b0 bs IH]; intros [|j0 js] [|i] b j j' NB NJ; try discriminate.
  - cbn in NB, NJ. injection NB as ->. injection NJ as ->. cbn [upd work]. lia.
  - cbn [nth_error] in NB, NJ. cbn [upd work]. specialize (IH js i b j j' NB NJ). lia.
Qed.
Lemma work_start bs : work bs (repeat Waiting (length bs)) = seal_rounds params * total_units bs.
Proof. unfold total_units. induction bs as [|b bs IH]; [cbn; lia|]. cbn [length repeat work jobwork map list_sum fold_right]. rewrite IH. unfold list_sum. lia. Qed.
Lemma work_done bs : forall js, Forall (fun j => j = Done \/ j = Dead) js -> work bs js = 0.
Proof. induction bs as [|b bs IH]; intros [|j js] F; try reflexivity. cbn [work]. inversion F as [|? ? FJ FT]; subst. rewrite (IH js FT). destruct FJ as [->| ->]; reflexivity. Qed.

Lemma concat_repeat_length {A} (l : list A) k : length (concat (repeat l k)) = k * length l.
Proof. induction k as [|k IH]; [reflexivity|]. cbn [repeat concat]. rewrite app_length, IH. reflexivity. Qed.

Definition waits (bs : list (list (list byte))) (p : pool) : Prop :=
  length (p_jobs p) = length bs /\ forall i, nth_error (p_jobs p) i = Some Waiting -> nth_error (p_blocks p) i = nth_error bs i.
Lemma nth_upd {A} (l : list A) i j a : nth_error (upd l i a) j = if (i =? j) && (i <? length l) then Some a else nth_error l j.
Proof.
  destruct (Nat.eqb_spec i j) as [->|N]; cbn [andb].
  - destruct (Nat.ltb_spec j (length l)) as [L|L].
    + pose proof (index_upd_eq l j a L) as X. now apply index_nth in X.
    + rewrite (proj2 (nth_error_None l j)) by exact L. apply nth_error_None. now rewrite upd_length.
  - pose proof (index_upd_neq l i j a N) as X. unfold index in X.
    destruct (nth_error (upd l i a) j), (nth_error l j); try discriminate; [|reflexivity]. now injection X as ->.
Qed.
Lemma waits_upd bs b2 js i j' b2' : waits bs (mkPool b2 js) -> j' <> Waiting -> (forall k, k <> i -> nth_error b2' k = nth_error b2 k) ->
  waits bs (mkPool b2' (upd js i j')).
Proof.
  intros [L W] NW E. split; cbn [p_jobs p_blocks] in *; [now rewrite upd_length|]. intros k K. rewrite nth_upd in K.
  destruct (Nat.eqb_spec i k) as [->|N]; cbn [andb] in K.
  - destruct (k <? length js) eqn:C; [congruence|]. apply Nat.ltb_ge in C. rewrite (proj2 (nth_error_None js k)) in K by exact C. discriminate.
  - rewrite E by auto. now apply W.
Qed.
Lemma some_block {A} (bs : list A) (js : list job) i j : length js = length bs -> nth_error js i = Some j -> exists b, nth_error bs i = Some b.
Proof.
  intros L N. destruct (nth_error bs i) as [b|] eqn:E; [eauto|]. apply nth_error_None in E.
  assert (i < length js) by (apply nth_error_Some; congruence). lia.
Qed.
Lemma step_work_left bs a p q : waits bs p -> step_w a p q ->
  waits bs q /\ a + work bs (p_jobs q) <= work bs (p_jobs p) /\
  (~ In Dead (p_jobs q) -> a + work bs (p_jobs q) = work bs (p_jobs p)).
Proof.
  intros W S.
  assert (DEAD : forall js i, i < length js -> In Dead (upd js i Dead)).
  { intros js i L. apply nth_error_In with i. rewrite nth_upd, Nat.eqb_refl. apply Nat.ltb_lt in L. now rewrite L. }
  destruct S as [b2 js i idx2 cur N _ _ IX IB|b2 js i N _ _ IX|b2 js i idx2 n j todo cur cur' N U|b2 js i idx2 n j todo cur N U|b2 js i idx2 n cur N]; cbn [p_jobs p_blocks] in *;
  destruct (some_block bs js i _ (proj1 W) N) as (b & NB); pose proof (work_upd bs js i b) as WU;
  assert (LI : i < length js) by (apply nth_error_Some; congruence).
  - split; [apply (waits_upd bs b2 js); auto; discriminate|].
    assert (EB : cur = b). { destruct W as [_ W]. cbn [p_jobs p_blocks] in W. apply index_nth in IB. rewrite (W i N), NB in IB. congruence. }
    subst cur. specialize (WU _ (Running idx2 (length b) (concat (repeat (seq 0 (length b)) (seal_rounds params))) b) NB N).
    cbn [jobwork] in WU. rewrite concat_repeat_length, seq_length in WU. lia.
  - split; [apply (waits_upd bs b2 js); auto; discriminate|]. specialize (WU _ Dead NB N). cbn [jobwork] in WU. split; [lia|]. intros X. now destruct (X (DEAD js i LI)).
  - split; [apply (waits_upd bs b2 js); auto; discriminate|]. specialize (WU _ (Running idx2 n todo cur') NB N). cbn [jobwork length] in WU. lia.
  - split; [apply (waits_upd bs b2 js); auto; discriminate|]. specialize (WU _ Dead NB N). cbn [jobwork] in WU. split; [lia|]. intros X. now destruct (X (DEAD js i LI)).
  - split.
    + apply (waits_upd bs b2 js); auto; [discriminate|]. intros k K. rewrite nth_upd. destruct (Nat.eqb_spec i k); [congruence|reflexivity].
    + specialize (WU _ Done NB N). cbn [jobwork length] in WU. lia.
Qed.
Lemma dead_stays a p q : step_w a p q -> In Dead (p_jobs p) -> In Dead (p_jobs q).
Proof.
  intros S D. apply In_nth_error in D as (k & D).
  destruct S as [b2 js i idx2 cur N _ _ IX IB|b2 js i N _ _ IX|b2 js i idx2 n j todo cur cur' N U|b2 js i idx2 n j todo cur N U|b2 js i idx2 n cur N]; cbn [p_jobs] in *;
  apply nth_error_In with k; rewrite nth_upd; destruct (Nat.eqb_spec i k) as [->|]; cbn [andb]; try congruence.
Qed.
Lemma steps_dead k p q : steps_w k p q -> In Dead (p_jobs p) -> In Dead (p_jobs q).
Proof. intros S. induction S as [p|a b p q r S1 S2 IH]; [auto|]. intros D. apply IH. eapply dead_stays; eauto. Qed.
Lemma steps_work_left bs k p q : steps_w k p q -> waits bs p ->
  k + work bs (p_jobs q) <= work bs (p_jobs p) /\ (~ In Dead (p_jobs q) -> k + work bs (p_jobs q) = work bs (p_jobs p)).
Proof.
  intros S. induction S as [p|a b p q r S1 S2 IH]; intros W; [lia|].
  destruct (step_work_left bs a p q W S1) as (W1 & L1 & E1). destruct (IH W1) as (L2 & E2). split; [lia|].
  intros ND. rewrite <- E1 by (intros X; apply ND; eapply steps_dead; eauto). specialize (E2 ND). lia.
Qed.
Lemma pool_count bs k p : steps_w k (mkPool bs (repeat Waiting (length bs))) p -> finished p ->
  k <= seal_rounds params * total_units bs /\ (~ In Dead (p_jobs p) -> k = seal_rounds params * total_units bs).
Proof.
  intros S F. destruct (steps_work_left bs k _ p S) as [L E].
  { split; cbn [p_jobs p_blocks]; [apply repeat_length|reflexivity]. }
  cbn [p_jobs] in *. rewrite work_start in *. rewrite (work_done bs (p_jobs p) F) in *. split; [lia|]. intros ND. specialize (E ND). lia.
Qed.
End Pool.
