(** Property C106: what sealing, unsealing and checking cost.
    Vocabulary: the definitions of Work, which are those of the code with a record of what
    is handed to the delay function; [geometry], [setting], [sealable], [sound_key] from
    SealSpec, [plain_rows] from SealTop, [unit_table], [block_units] from SealVerify.  The
    log of sealing [s_log] holds the integers handed to the delay function, most recent
    first, and so do the logs of unsealing. *)
From Coq Require Import Strings.Byte.
From Verif Require Import Base Legendre LegendreFacts Sloth Common Depend DependFacts Prover Verifier BytesFacts VdeFacts CommonFacts SealSpec SealCore SealTop SealVerify SealWitness PropVde PropDepend Work WorkFacts.
Local Open Scope nat_scope.

(** * The record changes nothing *)
Theorem C106_same :
  (forall H pr params key iv f, match unseal_w H pr params key iv f with Ok (g, _) => Ok g | Panic => Panic end = unseal H pr params key iv f) /\
  (forall H pr params key iv ks before deps bs,
     match batch_unseal_w H pr params key iv ks before deps bs with Ok (out, _) => Ok out | Panic => Panic end = batch_unseal H pr params key iv ks before deps bs) /\
  (forall H params key iv ks before deps threads t p q,
     (exists k, steps_w H params key iv ks before deps threads t k p q) <-> steps H params key iv ks before deps threads t p q) /\
  (forall y p t, fst (sloth_w y p t) = sloth y p t) /\ (forall y p t, fst (sloth_inv_w y p t) = sloth_inv y p t) /\
  (forall fuel x p, option_map (fun r => fst (fst r)) (legendre_w fuel x p) = legendre_fuel fuel x p) /\
  (forall fuel x t p r, option_map fst (fast_modpow_w fuel x t p r) = fast_modpow_loop fuel x t p r).
Proof.
  split; [exact unseal_forget|]. split; [exact batch_unseal_forget|]. split; [exact steps_w_steps|].
  split; [intros y p t; now rewrite sloth_w_eq|]. split; [intros y p t; now rewrite sloth_inv_w_eq|].
  split; [exact legendre_w_forget|exact fast_modpow_w_forget].
Qed.
Print Assumptions C106_same.

(** * The delay function *)

(** t iterations: t powers with the exponent (p + 1) / 4 forwards, t squarings backwards. *)
Theorem C106_delay : forall y p t,
  snd (sloth_w y p t) = repeat (Z.quot (p + 1) 4) t /\ snd (sloth_inv_w y p t) = repeat 2%Z t.
Proof. intros y p t. now rewrite sloth_w_eq, sloth_inv_w_eq. Qed.
Print Assumptions C106_delay.
(** A power with the exponent t, computed as in compare_modpow: between log2 t + 2 and
    2 (log2 t + 1) multiplications; so a squaring costs three or four, and a root for a key
    of b bits at least b - 1. *)
Theorem C106_modpow : forall x t p, (1 < p)%Z -> (0 <= x)%Z -> (0 < t)%Z ->
  exists c, fast_modpow_w (Z.to_nat (Z.log2 t) + 2) x t p 1 = Some ((x ^ t mod p)%Z, c) /\
    (Z.log2 t + 2 <= Z.of_nat c <= 2 * (Z.log2 t + 1))%Z.
Proof.
  intros x t p P X T. pose proof (fast_modpow_w_forget (Z.to_nat (Z.log2 t) + 2) x t p 1) as F.
  pose proof (C07_fast_modpow x t p P X ltac:(lia)) as C. unfold fast_modpow in C. rewrite C in F.
  destruct (fast_modpow_w (Z.to_nat (Z.log2 t) + 2) x t p 1) as [[v c]|] eqn:E; [|discriminate]. cbn in F. injection F as ->.
  exists c. split; [reflexivity|]. now apply (fast_modpow_w_bounds _ _ _ _ _ _ _ T E).
Qed.
Print Assumptions C106_modpow.
(** Exactly: one for each binary digit of t and one more for each digit 1. *)
Theorem C106_modpow_exact : forall fuel x t p r v c, (0 < t)%Z -> fast_modpow_w fuel x t p r = Some (v, c) ->
  Z.of_nat c = (Z.log2 t + 1 + Z.of_nat (length (filter (fun i => Z.testbit t (Z.of_nat i)) (seq 0 (Z.to_nat (Z.log2 t) + 1)))))%Z.
Proof.
  induction fuel as [|fuel IH]; intros x t p r v c T E; [discriminate|]. cbn [fast_modpow_w] in E.
  destruct (Z.ltb_spec 0 t); [|lia].
  destruct (fast_modpow_w fuel _ _ _ _) as [[v' c']|] eqn:R; [|discriminate E]. injection E as <- <-.
  rewrite Z.quot_div_nonneg in R by lia.
  destruct (Z.eq_dec t 1) as [->|N1].
  - change (1 / 2)%Z with 0%Z in R. destruct fuel as [|fuel]; [discriminate|]. cbn [fast_modpow_w Z.ltb Z.compare] in R. injection R as <- <-. reflexivity.
  - assert (T2 : (0 < t / 2)%Z) by (apply Z.div_str_pos; lia). apply (IH _ _ _ _ _ _ T2) in R.
    assert (L : (Z.log2 t = Z.log2 (t / 2) + 1)%Z).
    { rewrite <- Z.div2_div, Z.div2_spec, Z.log2_shiftr by lia. pose proof (Z.log2_pos t ltac:(lia)). lia. }
    pose proof (Z.log2_nonneg (t / 2)) as LN. rewrite L. rewrite Z2Nat.inj_add by lia. change (Z.to_nat 1) with 1. rewrite Nat.add_1_r.
    cbn [seq filter]. rewrite <- seq_shift. change (Z.of_nat 0) with 0%Z. rewrite Z.bit0_odd.
    assert (FM : forall l, length (filter (fun i => Z.testbit t (Z.of_nat i)) (map S l)) = length (filter (fun i => Z.testbit (t / 2) (Z.of_nat i)) l)).
    { induction l as [|i l IHl]; [reflexivity|]. cbn [map filter]. rewrite <- Z.div2_div, Z.div2_spec, Z.shiftr_spec by lia. replace (Z.of_nat i + 1)%Z with (Z.of_nat (S i)) by lia.
      destruct (Z.testbit t (Z.of_nat (S i))); cbn [length]; rewrite IHl, <- Z.div2_div, Z.div2_spec; reflexivity. }
    assert (OD : (Z.land t 1 =? 1)%Z = Z.odd t). { change 1%Z with (Z.ones 1) at 1. rewrite (Z.land_ones t 1) by lia. change (2 ^ 1)%Z with 2%Z. rewrite Zmod_odd. destruct (Z.odd t); reflexivity. }
    rewrite OD. destruct (Z.odd t); cbn [length]; rewrite FM; lia.
Qed.
Print Assumptions C106_modpow_exact.
Theorem C106_root_cost : forall b x p, (3 <= b)%Z -> (2 ^ (b - 1) <= p)%Z -> (0 <= x)%Z ->
  exists c, fast_modpow_w (Z.to_nat (Z.log2 (Z.quot (p + 1) 4)) + 2) x (Z.quot (p + 1) 4) p 1 = Some ((x ^ Z.quot (p + 1) 4 mod p)%Z, c) /\ (b - 1 <= Z.of_nat c)%Z.
Proof.
  intros b x p B P X.
  assert (P4 : (4 <= p)%Z). { apply Z.le_trans with (2 := P). change 4%Z with (2 ^ 2)%Z. apply Z.pow_le_mono_r; lia. }
  assert (Q : (2 ^ (b - 3) <= Z.quot (p + 1) 4)%Z).
  { rewrite Z.quot_div_nonneg by lia. apply Z.div_le_lower_bound; [lia|]. change 4%Z with (2 ^ 2)%Z. rewrite <- Z.pow_add_r by lia. replace (2 + (b - 3))%Z with (b - 1)%Z by lia. lia. }
  assert (T : (0 < Z.quot (p + 1) 4)%Z) by (pose proof (Z.pow_pos_nonneg 2 (b - 3) ltac:(lia) ltac:(lia)); lia).
  destruct (C106_modpow x (Z.quot (p + 1) 4) p ltac:(lia) X T) as (c & E & L & _). exists c. split; [exact E|].
  apply Z.log2_le_mono in Q. rewrite Z.log2_pow2 in Q by lia. lia.
Qed.
Print Assumptions C106_root_cost.
(** The residue test: at most 2 log2 |x| + 4 calls and, over all of them, at most log2 |x|
    halvings. *)
Theorem C106_legendre : forall x p, exists c h, 
  (forall fuel, legendre_depth x p <= fuel -> legendre_w fuel x p = Some (legendre x p, c, h)) /\
  (Z.of_nat c <= 2 * Z.log2 (Z.abs x) + 4)%Z /\ (Z.of_nat h <= Z.log2 (Z.abs x))%Z.
Proof.
  intros x p. destruct (legendre_terminates x p) as (v & E & V). pose proof (legendre_w_forget (legendre_depth x p) x p) as F. rewrite E in F.
  destruct (legendre_w (legendre_depth x p) x p) as [[[v' c] h]|] eqn:W; [|discriminate]. cbn in F. injection F as ->. exists c, h.
  split; [|split].
  - intros fuel L. replace fuel with (legendre_depth x p + (fuel - legendre_depth x p)) by lia. rewrite V. now apply legendre_w_fuel.
  - apply legendre_w_calls in W. unfold legendre_depth in W. pose proof (Z.log2_nonneg (Z.abs x)). lia.
  - destruct (Z.eq_dec x 0) as [->|N].
    + cbn in W. injection W as <- <- <-. cbn. lia.
    + pose proof (legendre_w_halvings _ _ _ _ _ _ W N) as P. apply Z.log2_le_mono in P. now rewrite Z.log2_pow2 in P by lia.
Qed.
Print Assumptions C106_legendre.
(** Exactly: the halvings of each call, one call after the other. *)
Inductive calls : Z -> Z -> list nat -> Prop :=
| calls_end x p : x = 0%Z \/ x = 1%Z -> calls x p [0]
| calls_last p e : 0 < e -> calls (2 ^ Z.of_nat e)%Z p [e]
| calls_more p o e l : Z.odd o = true -> o <> 1%Z -> calls (Z.rem p o) o l -> calls (o * 2 ^ Z.of_nat e)%Z p (e :: l).
Theorem C106_legendre_calls : forall x p, exists l, calls x p l /\
  forall fuel, legendre_depth x p <= fuel -> legendre_w fuel x p = Some (legendre x p, length l, list_sum l).
Proof.
  assert (X : forall fuel x p v c h, legendre_w fuel x p = Some (v, c, h) -> exists l, calls x p l /\ c = length l /\ h = list_sum l).
  { induction fuel as [|fuel IH]; intros x p v c h E; [discriminate|]. cbn [legendre_w] in E.
    destruct (Z.eqb_spec x 0) as [->|X0]; [injection E as <- <- <-; exists [0]; repeat split; constructor; auto|].
    destruct (Z.eqb_spec x 1) as [->|X1]; [injection E as <- <- <-; exists [0]; repeat split; constructor; auto|].
    destruct (strip2_ok x X0) as (o & k & ES & K & EX & O). rewrite ES in E. rewrite <- (Z2Nat.id k K) in EX. destruct (Z.eqb_spec o 1) as [->|O1].
    - injection E as <- <- <-. exists [Z.to_nat k]. rewrite Z.mul_1_l in EX. subst x. split; [apply calls_last|cbn; lia]. destruct (Z.to_nat k); [now destruct X1|lia].
    - destruct (legendre_w fuel _ _) as [[[v' c'] h']|] eqn:R; [|discriminate E]. injection E as <- <- <-. destruct (IH _ _ _ _ _ R) as (l & C & -> & ->).
      exists (Z.to_nat k :: l). subst x. split; [apply calls_more; [|exact O1|exact C]|unfold list_sum; cbn; lia].
      rewrite Zodd_mod. apply Zeq_is_eq_bool. destruct (Z.odd o) eqn:OD; [rewrite Zmod_odd, OD; reflexivity|]. exfalso. apply O. apply Z.rem_divide; [lia|].
      rewrite <- Z.negb_even in OD. apply negb_false_iff, Z.even_spec in OD as (q & ->). exists q. lia. }
  intros x p. destruct (C106_legendre x p) as (c & h & E & _). destruct (X _ _ _ _ _ _ (E _ (le_n _))) as (l & C & -> & ->). exists l. auto.
Qed.
Print Assumptions C106_legendre_calls.

(** * Files *)

(** Sealing and unsealing evaluate the delay function, respectively its inverse, once per
    unit and round, whatever the file, the key, the iv and the rules for the dependencies. *)
Theorem C106_seal : forall H pr params key iv n m, geometry params n m -> forall f st,
  seal H pr params key iv f = Ok st -> length (s_log st) = n * m * seal_rounds params.
Proof. intros H pr params key iv n m G f st E. rewrite (seal_count H pr params key iv n m G f st E). lia. Qed.
Print Assumptions C106_seal.
Theorem C106_unseal : forall H pr params key iv n m, geometry params n m -> forall f g log,
  unseal_w H pr params key iv f = Ok (g, log) -> length log = n * m * seal_rounds params.
Proof. intros H pr params key iv n m G f g log E. rewrite (unseal_count H pr params key iv n m G f g log E). lia. Qed.
Print Assumptions C106_unseal.
(** Checking an answer: once per round and unit it contains, whatever is in it. *)
Theorem C106_check : forall H pr params key iv ks before deps bs out log,
  batch_unseal_w H pr params key iv ks before deps bs = Ok (out, log) ->
  length log = seal_rounds params * list_sum (map (@length (list byte)) bs).
Proof. exact batch_count. Qed.
Print Assumptions C106_check.
(** The same with threads, for every schedule; a unit on which a thread panics and those it
    leaves behind do not count. *)
Theorem C106_check_threads : forall H params key iv ks before deps threads t bs k p,
  steps_w H params key iv ks before deps threads t k (mkPool bs (repeat Waiting (length bs))) p -> finished p ->
  k <= seal_rounds params * list_sum (map (@length (list byte)) bs) /\
  (~ In Dead (p_jobs p) -> k = seal_rounds params * list_sum (map (@length (list byte)) bs)).
Proof. exact pool_count. Qed.
Print Assumptions C106_check_threads.

(** So what the verifier does is decided by the size of the answer, not of the question:
    to one challenged block an answer can be given that costs any number of evaluations. *)
Definition flood_params : PosPara := ex_params 1 0 0 0 0.
Lemma flood_unit N cur log j : length cur = N -> Forall (fun u => length u = 3) cur -> j < N -> exists st,
  bu_unit_w hsum flood_params ex_key [] [[]] [[]] [] 0 0 N (cur, log) j = Ok st /\ length (fst st) = N /\ Forall (fun u => length u = 3) (fst st).
Proof.
  intros L F J. unfold bu_unit_w. set (i := N - 1 - j). assert (I : i < N) by (unfold i; lia). clearbody i.
  assert (D : exists d, bu_depend_data hsum flood_params [] [[]] [[]] [] 0 0 N cur i = Ok d).
  { unfold bu_depend_data. cbn [index nth_error bind foldM]. cbn [mode_s cnt_s flood_params ex_params Nat.eqb negb].
    destruct (Nat.eqb_spec i 0) as [->|NZ].
    - rewrite (short_depend_random_none hsum N [] 0 hsum_32). cbn [bind foldM]. eauto.
    - destruct (index_ok cur (i - 1)) as (d & ED); [lia|]. rewrite ED. cbn [bind]. rewrite (short_depend_random_none hsum N d i hsum_32). cbn [bind foldM]. eauto. }
  destruct D as (d & ->). cbn [bind]. destruct (index_ok cur i) as (u & EU); [lia|]. rewrite EU. cbn [bind].
  assert (LU : length u = 3) by (rewrite Forall_forall in F; apply F; eapply index_In; exact EU).
  assert (LV : length (vde_inv u ex_key (vde_rounds flood_params) (vde_mode flood_params) (unit_pl flood_params)) = 3).
  { apply vde_inv_len_any; [unfold ex_key; lia|cbn; unfold ex_key; lia|exact LU]. }
  revert LV. generalize (vde_inv u ex_key (vde_rounds flood_params) (vde_mode flood_params) (unit_pl flood_params)). intros v LV.
  destruct (modsub_ok v (hsum d) ex_key) as (r & ER & LR & _).
  - unfold ex_key. lia.
  - rewrite LV. unfold ex_key. cbn. lia.
  - pose proof (le2z_nonneg v). pose proof (hsum_small d). unfold ex_key. lia.
  - rewrite ER. cbn [bind]. unfold set_index. assert (I' : i <? length cur = true) by (apply Nat.ltb_lt; lia). rewrite I'. cbn [bind]. eexists. split; [reflexivity|]. cbn [fst].
    split; [now rewrite upd_length|]. apply Forall_upd; [exact F|congruence].
Qed.
Theorem C106_bounded_refuted : forall N, exists bs out log, length bs = 1 /\
  batch_unseal_w hsum Debug flood_params ex_key [] [0] [[]] [[]] bs = Ok (out, log) /\ length log = N.
Proof.
  intros N. exists [repeat [x01; x00; x00] N].
  assert (X : exists st, foldM (fun st _ => foldM (bu_unit_w hsum flood_params ex_key [] [[]] [[]] [] 0 0 N) (seq 0 N) st) (seq 0 1) (repeat [x01; x00; x00] N, []) = Ok st /\
     length (fst st) = N /\ Forall (fun u => length u = 3) (fst st)).
  { apply (foldM_inv (fun st => length (fst st) = N /\ Forall (fun u => length u = 3) (fst st))).
    - intros _ st _ IS. apply (foldM_inv (fun st => length (fst st) = N /\ Forall (fun u => length u = 3) (fst st))); [|exact IS].
      intros j [cur log] J (L & F). apply in_seq in J. destruct (flood_unit N cur log j L F ltac:(lia)) as (st' & E & P). eauto.
    - cbn [fst]. split; [apply repeat_length|]. apply Forall_forall. intros u I. apply repeat_spec in I. now subst u. }
  destruct X as ((cur & log) & E & L & F). exists [cur], log. split; [reflexivity|].
  assert (B : batch_unseal_w hsum Debug flood_params ex_key [] [0] [[]] [[]] [repeat [x01; x00; x00] N] = Ok ([cur], log)).
  { unfold batch_unseal_w. change (bu_idxs_s Debug flood_params) with (Ok (@nil (list nat))). cbn [bind length seq foldM]. unfold bu_block_w. cbn [index nth_error bind]. rewrite repeat_length.
    change (seal_rounds flood_params) with 1. rewrite E. reflexivity. }
  split; [exact B|]. apply C106_check in B. rewrite B. cbn [map list_sum fold_right]. rewrite repeat_length. change (seal_rounds flood_params) with 1. lia.
Qed.
Print Assumptions C106_bounded_refuted.

(** * What is undone *)

(** Unsealing a sealed file hands to the inverse exactly the values the delay function
    returned while sealing, in the opposite order: no evaluation is skipped or repeated. *)
Theorem C106_undo : forall H pr params key iv n m, setting H pr params key n m -> forall f st,
  sound_key H key -> sealable params key n m f -> seal H pr params key iv f = Ok st -> ~ In 0%Z (s_log st) -> plain_rows pr params n ->
  exists log, unseal_w H pr params key iv (s_file st) = Ok (f, log) /\ rev log = map (fun x => sloth x key (vde_rounds params)) (s_log st).
Proof. exact unseal_undo. Qed.
Print Assumptions C106_undo.
(** Checking blocks ks of it: exactly the values of these blocks, block by block, which are
    those between positions (n - 1 - k) r m and (n - k) r m of the log of sealing; so for c
    blocks c m r evaluations of the n m r. *)
Theorem C106_undo_blocks : forall H pr params key iv n m, setting H pr params key n m -> forall f st,
  sound_key H key -> sealable params key n m f -> seal H pr params key iv f = Ok st -> ~ In 0%Z (s_log st) -> forall ks, unit_table params m -> Forall (fun k => k < n) ks ->
  exists rs log, mapM (single_unseal_prepare H pr params (s_file st)) ks = Ok rs /\
    batch_unseal_w H pr params key iv ks (map (fun r => snd (fst r)) rs) (map snd rs) (map (fun r => fst (fst r)) rs) = Ok (map (block_units params m f) ks, log) /\
    rev log = map (fun x => sloth x key (vde_rounds params)) (concat (map (fun k => firstn (seal_rounds params * m) (skipn ((n - 1 - k) * (seal_rounds params * m)) (s_log st))) ks)) /\
    length log = length ks * m * seal_rounds params.
Proof.
  intros H pr params key iv n m SET f st SK SE E NZ ks UT F. destruct (batch_undo H pr params key iv n m SET f st SK SE E NZ ks UT F) as (rs & log & P & B & R).
  exists rs, log. split; [exact P|]. split; [exact B|]. split; [exact R|].
  pose proof (seal_count H pr params key iv n m (set_geom _ _ _ _ _ _ SET) f st E) as LS.
  rewrite <- rev_length, R, map_length. set (c := seal_rounds params * m) in *.
  assert (X : forall ks, Forall (fun k => k < n) ks -> length (concat (map (block_log params n m (s_log st)) ks)) = length ks * c).
  { clear - LS. intros ks F. induction F as [|k ks K F IH]; [reflexivity|]. cbn [map concat length]. rewrite app_length, IH. unfold block_log. fold c.
    rewrite firstn_length, skipn_length, LS. replace (n * c) with ((n - 1 - k) * c + (c + k * c)) by (replace n with ((n - 1 - k) + (1 + k)) at 2 by lia; lia). lia. }
  rewrite (X ks F). unfold c. lia.
Qed.
Print Assumptions C106_undo_blocks.

(** The example: three blocks of two units and two rounds of sealing, all
    hypotheses met. *)
Definition work_params : PosPara := ex_params 2 0 0 0 10.
Definition work_trial : bool :=
  match seal hsum Debug work_params ex_key [x07] ex_file with
  | Ok st => no_zero (s_log st)
  | Panic => false
  end.
Example C106_ex : exists st, seal hsum Debug work_params ex_key [x07] ex_file = Ok st /\ length (s_log st) = 12 /\
  (exists log, unseal_w hsum Debug work_params ex_key [x07] (s_file st) = Ok (ex_file, log) /\ length log = 12) /\
  (exists rs log, mapM (single_unseal_prepare hsum Debug work_params (s_file st)) [2; 0] = Ok rs /\
     batch_unseal_w hsum Debug work_params ex_key [x07] [2; 0] (map (fun r => snd (fst r)) rs) (map snd rs) (map (fun r => fst (fst r)) rs) = Ok (map (block_units work_params 2 ex_file) [2; 0], log) /\
     rev log = map (fun x => sloth x ex_key 2) (firstn 4 (s_log st) ++ skipn 8 (s_log st)) /\ length log = 8).
Proof.
  assert (T : work_trial = true) by (vm_compute; reflexivity). unfold work_trial in T.
  destruct (seal hsum Debug work_params ex_key [x07] ex_file) as [st|] eqn:E; [|discriminate]. apply no_zero_ok in T. exists st. split; [reflexivity|].
  assert (SET : setting hsum Debug work_params ex_key 3 2) by (apply ex_setting; [exact hsum_32|cbn; lia|cbn; lia]).
  pose proof (C106_seal hsum Debug work_params ex_key [x07] 3 2 (ex_geometry 2 0 0 0 10) ex_file st E) as LS. change (length (s_log st) = 12) in LS. split; [exact LS|]. split.
  - destruct (C106_undo hsum Debug work_params ex_key [x07] 3 2 SET ex_file st ex_sound (ex_sealable 2 0 0 0 10) E T ltac:(now left)) as (log & U & _). exists log. split; [exact U|].
    now apply (C106_unseal hsum Debug work_params ex_key [x07] 3 2 (ex_geometry 2 0 0 0 10)) in U.
  - destruct (C106_undo_blocks hsum Debug work_params ex_key [x07] 3 2 SET ex_file st ex_sound (ex_sealable 2 0 0 0 10) E T [2; 0] ltac:(now left) ltac:(repeat constructor)) as (rs & log & P & B & R & L).
    exists rs, log. split; [exact P|]. split; [exact B|]. split; [|exact L]. rewrite R. change (vde_rounds work_params) with 2. f_equal.
    cbn [map concat]. change (seal_rounds work_params * 2) with 4. change ((3 - 1 - 2) * 4) with 0. change ((3 - 1 - 0) * 4) with 8. rewrite app_nil_r. f_equal. apply firstn_all2. rewrite skipn_length, LS. lia.
Qed.
Example C106_ex_small : legendre_w 20 1000003 P_256 = Some ((-1)%Z, 9, 8) /\ fast_modpow_w 8 7 100 P_64 1 = Some ((7 ^ 100 mod P_64)%Z, 10).
Proof. vm_compute. split; reflexivity. Qed.
