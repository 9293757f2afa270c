(** Properties C85 and C86: the MiMC hashes as functions, and spaces for related keys. *)
From Coq Require Import Ring Strings.Byte Sorted.
From Verif Require Import Base Field Mimc Convert Space ConvertFacts MimcFacts SpaceFacts FrField FrFacts PropSpace MimcAlg.
Local Open Scope nat_scope.

Lemma Ok_inj {A} (a b : A) : Ok a = Ok b -> a = b.
Proof. congruence. Qed.

(** * C85 *)
(** From h to h' by the rounds h -> (h + k + c)^e, one for each constant. *)
Inductive keyed {K : ops} (e : nat) (k : K) : list K -> K -> K -> Prop :=
| keyed_nil h : keyed e k [] h h
| keyed_cons c cs h h' : keyed e k cs (fpow (fadd (fadd h k) c) e) h' -> keyed e k (c :: cs) h h'.
(** The keyed function with exponent e and the given number of rounds: the first round adds
    only the key, the others also their constant; constants beyond the last round and the
    first one are not looked at. *)
Definition mimc_fn {K : ops} (e rounds : nat) (cs : list K) (x k y : K) : Prop :=
  exists c0 used rest h, cs = c0 :: used ++ rest /\ length used = rounds - 1 /\ keyed e k used (fpow (fadd x k) e) h /\ y = fadd h k.

Lemma keyed_fold {K : ops} e (k : K) cs : forall h h', keyed e k cs h h' <-> h' = fold_left (fun h c => fpow (fadd (fadd h k) c) e) cs h.
Proof.
  induction cs as [|c cs IH]; intros h h'; cbn [fold_left].
  - split; [intros X; now inversion X|intros ->; constructor].
  - rewrite <- IH. split; [intros X; now inversion X|now constructor].
Qed.
Lemma fn_perm {K : ops} e r (cs : list K) x k y : 0 < r -> (mimc_fn e r cs x k y <-> r <= length cs /\ y = mimc_perm e (firstn r cs) x k).
Proof.
  intros R. unfold mimc_fn, mimc_perm. split.
  - intros (c0 & used & rest & h & -> & L & KE & ->). apply keyed_fold in KE. cbn [length]. rewrite app_length. split; [lia|]. destruct r as [|r]; [lia|]. cbn [firstn tl]. replace r with (length used + 0) by lia.
    rewrite firstn_app_2, firstn_O, app_nil_r. now rewrite KE.
  - intros (L & ->). destruct cs as [|c0 cs]; [cbn in L; lia|]. destruct r as [|r]; [lia|]. cbn [firstn tl length] in *. exists c0, (firstn r cs), (skipn r cs). eexists. split; [now rewrite firstn_skipn|]. split; [rewrite firstn_length; lia|].
    split; [now apply keyed_fold|reflexivity].
Qed.
Theorem C85_hash5 : forall K, is_ring K -> forall (x k : K) cs y, mimc5_hash x k cs = Ok y <-> mimc_fn 5 10 cs x k y.
Proof.
  intros K HK x k cs y. rewrite fn_perm by lia. rewrite (hash5_any HK). destruct (Nat.leb_spec 10 (length cs)) as [L|L]; split.
  - intros [= <-]. auto.
  - intros (_ & ->). reflexivity.
  - discriminate.
  - intros (Q & _). lia.
Qed.
Print Assumptions C85_hash5.
Theorem C85_hash7 : forall K, is_ring K -> forall (x k : K) cs y, mimc7_hash x k cs = Ok y <-> mimc_fn 7 91 cs x k y.
Proof.
  intros K HK x k cs y. rewrite fn_perm by lia. rewrite (hash7_any HK). destruct (Nat.leb_spec 91 (length cs)) as [L|L]; split.
  - intros [= <-]. auto.
  - intros (_ & ->). reflexivity.
  - discriminate.
  - intros (Q & _). lia.
Qed.
Print Assumptions C85_hash7.
(** They panic exactly for too few constants. *)
Theorem C85_panics : forall K, is_ring K -> forall (x k : K) cs, (mimc5_hash x k cs = Panic <-> length cs < 10) /\ (mimc7_hash x k cs = Panic <-> length cs < 91).
Proof.
  intros K HK x k cs. rewrite (hash5_any HK), (hash7_any HK). split; destruct (Nat.leb_spec (if true then 10 else 0) (length cs)), (Nat.leb_spec 91 (length cs)); cbn [Nat.leb] in *; split; intros; try discriminate; try lia; try reflexivity.
  all: destruct (Nat.leb_spec 10 (length cs)); try discriminate; try reflexivity; lia.
Qed.
Print Assumptions C85_panics.
(** Over the scalar field of BLS12-381 both are permutations for every key: each value is
    the hash of exactly one x. *)
Theorem C85_permutation : forall (k : FrBls) cs y,
  (10 <= length cs -> exists x, mimc5_hash x k cs = Ok y /\ forall x', mimc5_hash x' k cs = Ok y -> x' = x) /\
  (91 <= length cs -> exists x, mimc7_hash x k cs = Ok y /\ forall x', mimc7_hash x' k cs = Ok y -> x' = x).
Proof.
  intros k cs y. split; intros L.
  - exists (unperm (K := FrOps) (fr_root d5) (firstn 10 cs) y k). rewrite (hash5_long FrBls_ring) by exact L. split.
    + f_equal. apply (perm_unperm FrBls_ring 5 (fr_root d5)). intros x. apply (pow_root 5 d5 2); [discriminate|discriminate|exact d5_ok].
    + intros x'. rewrite (hash5_long FrBls_ring) by exact L. intros E. apply Ok_inj in E. rewrite <- E. symmetry. apply (unperm_perm FrBls_ring 5 (fr_root d5)). intros x. apply (root_pow 5 d5 2); [discriminate|discriminate|exact d5_ok].
  - exists (unperm (K := FrOps) (fr_root d7) (firstn 91 cs) y k). rewrite (hash7_long FrBls_ring) by exact L. split.
    + f_equal. apply (perm_unperm FrBls_ring 7 (fr_root d7)). intros x. apply (pow_root 7 d7 3); [discriminate|discriminate|exact d7_ok].
    + intros x'. rewrite (hash7_long FrBls_ring) by exact L. intros E. apply Ok_inj in E. rewrite <- E. symmetry. apply (unperm_perm FrBls_ring 7 (fr_root d7)). intros x. apply (root_pow 7 d7 3); [discriminate|discriminate|exact d7_ok].
Qed.
Print Assumptions C85_permutation.
(** Hashing a list: from state r, absorbing x leads to r + x + hash of x under r. *)
Inductive absorbs {K : ops} (hash : K -> K -> K -> Prop) : K -> list K -> K -> Prop :=
| absorbs_nil r : absorbs hash r [] r
| absorbs_cons r x h xs y : hash x r h -> absorbs hash (fadd (fadd r x) h) xs y -> absorbs hash r (x :: xs) y.
Theorem C85_multi : forall K, is_ring K -> forall xs (k : K) cs y,
  (multi_mimc5_hash xs k cs = Ok y <-> absorbs (fun x r h => mimc_fn 5 10 cs x r h) k xs y) /\
  (multi_mimc7_hash xs k cs = Ok y <-> absorbs (fun x r h => mimc_fn 7 91 cs x r h) k xs y).
Proof.
  intros K HK xs k cs y. split.
  - unfold multi_mimc5_hash. revert k. induction xs as [|x xs IH]; intros k; cbn [foldM].
    + split; [intros [= <-]; constructor|intros X; now inversion X].
    + destruct (mimc5_hash x k cs) as [h|] eqn:E; cbn [bind].
      * rewrite IH. split; [apply absorbs_cons; now apply (C85_hash5 K HK)|]. intros X. inversion X as [|? ? h' ? ? F A]; subst. apply (C85_hash5 K HK) in F. congruence.
      * split; [discriminate|]. intros X. inversion X as [|? ? h' ? ? F A]; subst. apply (C85_hash5 K HK) in F. congruence.
  - unfold multi_mimc7_hash. revert k. induction xs as [|x xs IH]; intros k; cbn [foldM].
    + split; [intros [= <-]; constructor|intros X; now inversion X].
    + destruct (mimc7_hash x k cs) as [h|] eqn:E; cbn [bind].
      * rewrite IH. split; [apply absorbs_cons; now apply (C85_hash7 K HK)|]. intros X. inversion X as [|? ? h' ? ? F A]; subst. apply (C85_hash7 K HK) in F. congruence.
      * split; [discriminate|]. intros X. inversion X as [|? ? h' ? ? F A]; subst. apply (C85_hash7 K HK) in F. congruence.
Qed.
Print Assumptions C85_multi.
Lemma foldM_app {A S} (f : S -> A -> res S) l1 : forall l2 s, foldM f (l1 ++ l2) s = (let* t := foldM f l1 s in foldM f l2 t).
Proof. induction l1 as [|x l1 IH]; intros l2 s; [reflexivity|]. cbn [app foldM]. destruct (f s x); cbn [bind]; [apply IH|reflexivity]. Qed.
(** The hash of a list is the key under which the hash goes on (length extension), and the
    key is the hash of the empty list. *)
Theorem C85_extension : forall (K : ops) xs ys (k : K) cs, 
  multi_mimc5_hash [] k cs = Ok k /\ multi_mimc5_hash (xs ++ ys) k cs = (let* h := multi_mimc5_hash xs k cs in multi_mimc5_hash ys h cs) /\
  multi_mimc7_hash [] k cs = Ok k /\ multi_mimc7_hash (xs ++ ys) k cs = (let* h := multi_mimc7_hash xs k cs in multi_mimc7_hash ys h cs).
Proof. intros K xs ys k cs. repeat split; apply foldM_app. Qed.
Print Assumptions C85_extension.
(** So key and list are not determined by the hash: every list has the hash of each of its
    tails under a suitable key. *)
Theorem C85_binding_refuted : forall K, is_ring K -> forall x xs (k : K) cs, 10 <= length cs ->
  exists k' y, multi_mimc5_hash (x :: xs) k cs = Ok y /\ multi_mimc5_hash xs k' cs = Ok y.
Proof.
  intros K HK x xs k cs L.
  assert (T : forall zs k, exists y, multi_mimc5_hash zs k cs = Ok y).
  { induction zs as [|z zs IH]; intros k0; [cbn; eauto|]. unfold multi_mimc5_hash in *. cbn [foldM]. rewrite (hash5_long HK) by exact L. cbn [bind]. apply IH. }
  destruct (T [x] k) as (k' & E). destruct (T xs k') as (y & Y). exists k', y. split; [|exact Y].
  change (x :: xs) with ([x] ++ xs). rewrite (proj1 (proj2 (C85_extension K [x] xs k cs))), E. exact Y.
Qed.
Print Assumptions C85_binding_refuted.
(** The delay functions return one half of a permutation of pairs: every value is the
    result for exactly one pair for each final other half, so not a permutation. *)
Theorem C85_delay_preimages : forall K, is_ring K -> forall (cs : list K) y,
  (length cs = 322 -> exists pre : K -> K * K, (forall z z', pre z = pre z' -> z = z') /\ forall xl xr, mimc3_df xl xr cs = Ok y <-> exists z, pre z = (xl, xr)) /\
  (length cs = 10 -> exists pre : K -> K * K, (forall z z', pre z = pre z' -> z = z') /\ forall xl xr, mimc5_df xl xr cs = Ok y <-> exists z, pre z = (xl, xr)).
Proof.
  intros K HK cs y. assert (G : forall e, (forall z z', unfeistel e cs (y, z) = unfeistel e cs (y, z') -> z = z') /\
    forall xl xr, fst (feistel e cs (xl, xr)) = y <-> exists z, unfeistel e cs (y, z) = (xl, xr)).
  { intros e. split.
    - intros z z' E. apply (f_equal (feistel e cs)) in E. rewrite !(feistel_unfeistel HK) in E. congruence.
    - intros xl xr. split.
      + intros E. exists (snd (feistel e cs (xl, xr))). rewrite <- E, <- surjective_pairing. apply (unfeistel_feistel HK).
      + intros (z & E). rewrite <- E, (feistel_unfeistel HK). reflexivity. }
  split; intros L; [exists (fun z => unfeistel 3 cs (y, z)); destruct (G 3) as (I & E)|exists (fun z => unfeistel 5 cs (y, z)); destruct (G 5) as (I & E)]; (split; [exact I|]); intros xl xr; rewrite <- E.
  - rewrite (mimc3_df_ok HK) by exact L. split; congruence.
  - rewrite (mimc5_df_ok HK) by exact L. split; congruence.
Qed.
Print Assumptions C85_delay_preimages.
Definition ex_consts : list FrBls := map (fun i => fr (Z.of_nat i)) (seq 1 12).
Example C85_ex : is_ring FrBls /\ length ex_consts = 12 /\ exists x y z, mimc5_hash (K := FrBls) x (fr 5) ex_consts = Ok (fr 3) /\
  multi_mimc5_hash (K := FrBls) [fr 3; fr 4] (fr 5) ex_consts = Ok y /\ multi_mimc5_hash (K := FrBls) [fr 4] z ex_consts = Ok y.
Proof.
  split; [exact FrBls_ring|]. split; [reflexivity|]. assert (L : 10 <= length ex_consts) by (cbn; lia).
  destruct (proj1 (C85_permutation (fr 5) ex_consts (fr 3)) L) as (x & X & _). destruct (C85_binding_refuted FrBls FrBls_ring (fr 3) [fr 4] (fr 5) ex_consts L) as (z & y & Y & Z).
  exists x, y, z. exact (conj X (conj Y Z)).
Qed.

(** * C86 *)
(** What the space answers to one challenge: the largest x below 2^n that leads to it. *)
Theorem C86_single : forall pr (K : prime_ops), is_prime_field K -> forall (key m : K) consts hash_consts n f f1 f2,
  length consts = MIMC5_DF_ROUNDS -> length hash_consts = MIMC5_HASH_ROUNDS -> 3 <= n <= 58 ->
  prepare_space pr f n = Ok f1 -> mark_space pr f1 key m consts n = Ok f2 -> forall y, y < 2 ^ n ->
  (exists x h, x < 2 ^ n /\ maps_to K key m consts n x y /\ (forall x', x < x' < 2 ^ n -> ~ maps_to K key m consts n x' y) /\
     response_1 pr f2 [Z.of_nat y] key hash_consts n = Ok ([of_Z (Z.of_nat x)], [0], h)) \/
  ((forall x, x < 2 ^ n -> ~ maps_to K key m consts n x y) /\ exists h, response_1 pr f2 [Z.of_nat y] key hash_consts n = Ok ([], [], h)).
Proof.
  intros pr K HK key m consts hc n f f1 f2 L LH N P M y Y. destruct (df_total K HK key m consts L) as (df & D).
  destruct (mark_space_table pr key m consts n f df (fun z => proj1 (pf_repr K HK z)) N D) as (f1' & f2' & P' & M' & LL & T).
  rewrite P in P'. injection P' as <-. rewrite M in M'. injection M' as <-.
  assert (LEN : (n + 1) * 2 ^ n <= 8 * length f2).
  { rewrite LL. destruct (C50_exact_bits pr f n N) as (g & G & E). rewrite P in G. injection G as <-. lia. }
  assert (F : Forall (fun yn => (Z.of_nat ((n + 1) * yn) < two64)%Z) [y]).
  { constructor; [|constructor]. pose proof (space_fits n (proj2 N)). assert ((n + 1) * y <= (n + 1) * 2 ^ n) by (apply Nat.mul_le_mono_l; lia). lia. }
  pose proof (respond_ok (K := K) pr f2 n ltac:(lia) [y] [] [] [] F ltac:(cbn; unfold RESPONSE_COUNT; lia)) as R.
  cbn [app length map seq filter nth] in R. rewrite Nat.sub_0_r in R. cbv zeta in R.
  assert (SR : slot_read f2 n y = slot f2 n y) by (apply slot_read_in; etransitivity; [|exact LEN]; apply Nat.mul_le_mono_l; lia).
  unfold response_1. rewrite R. clear R. unfold flag_at, value_at. rewrite SR. destruct (T y Y) as [(x & X & G & MX & E)|(NO & E)]; rewrite E.
  - left. rewrite app_nth2, int_bits_length, Nat.sub_diag by (rewrite int_bits_length; lia). cbn [nth]. change (firstn RESPONSE_COUNT [0]) with [0]. cbn [map nth bind].
    rewrite SR, E, firstn_app, int_bits_length, Nat.sub_diag, firstn_O, app_nil_r, firstn_all2 by (rewrite int_bits_length; lia). rewrite val_int_bits by exact X.
    eexists x, _. split; [exact X|]. split; [now apply (maps_iff K HK key m consts n x y df D)|]. split.
    + intros x' X' Q. apply (maps_iff K HK key m consts n x' y df D) in Q. now apply (MX x').
    + rewrite multi_mimc5_ok by (try exact LH; exact (F_R (pf_field K HK))). cbn [bind]. reflexivity.
  - right. rewrite nth_repeat. cbn [firstn RESPONSE_COUNT map bind]. split.
    + intros x X Q. apply (maps_iff K HK key m consts n x y df D) in Q. now apply (NO x X).
    + eexists. reflexivity.
Qed.
Print Assumptions C86_single.
(** Under the key increased by d, x behaves as x + d does under the key itself. *)
Theorem C86_shift : forall (K : prime_ops), is_prime_field K -> forall (key m : K) consts n d x y,
  maps_to K (fadd key (of_Z (Z.of_nat d))) m consts n x y <-> maps_to K key m consts n (x + d) y.
Proof.
  intros K HK key m consts n d x y. unfold maps_to.
  assert (E : fadd (of_Z (Z.of_nat x)) (fadd key (of_Z (Z.of_nat d))) = fadd (of_Z (Z.of_nat (x + d))) key :> K); [|now rewrite E].
  pose proof (F_R (pf_field K HK)) as RT. rewrite Nat2Z.inj_add, (pf_add K HK). rewrite <- (Radd_assoc RT). f_equal. apply (Radd_comm RT).
Qed.
Print Assumptions C86_shift.
(** So a space for one key answers for the key d further on: subtract d from its answers. *)
Theorem C86_reuse : forall pr (K : prime_ops), is_prime_field K -> forall (key m : K) consts hash_consts n f f1 f2,
  length consts = MIMC5_DF_ROUNDS -> length hash_consts = MIMC5_HASH_ROUNDS -> 3 <= n <= 58 ->
  prepare_space pr f n = Ok f1 -> mark_space pr f1 key m consts n = Ok f2 -> forall d y x h, y < 2 ^ n -> d <= x < 2 ^ n ->
  response_1 pr f2 [Z.of_nat y] key hash_consts n = Ok ([of_Z (Z.of_nat x)], [0], h) ->
  maps_to K (fadd key (of_Z (Z.of_nat d))) m consts n (x - d) y.
Proof.
  intros pr K HK key m consts hc n f f1 f2 L LH N P M d y x h Y X R. apply (C86_shift K HK). replace (x - d + d) with x by lia.
  destruct (C86_single pr K HK key m consts hc n f f1 f2 L LH N P M y Y) as [(x' & h' & X' & MT & _ & R')|(_ & h' & R')]; rewrite R in R'; [|discriminate]. injection R' as E _.
  destruct MT as (v & D & V). exists v. split; [|exact V]. now rewrite E.
Qed.
Print Assumptions C86_reuse.
(** Of the challenges that a space marked for the second key answers, at most d cannot be
    answered in this way. *)
Theorem C86_few_missing : forall pr (K : prime_ops), is_prime_field K -> forall (key m : K) consts hash_consts n f f1 f2 g1 g2,
  length consts = MIMC5_DF_ROUNDS -> length hash_consts = MIMC5_HASH_ROUNDS -> 3 <= n <= 58 ->
  forall d, prepare_space pr f n = Ok f1 -> mark_space pr f1 key m consts n = Ok f2 ->
  prepare_space pr f n = Ok g1 -> mark_space pr g1 (fadd key (of_Z (Z.of_nat d))) m consts n = Ok g2 ->
  forall ys, NoDup ys ->
  (forall y, In y ys -> y < 2 ^ n /\ (exists x h, response_1 pr g2 [Z.of_nat y] (fadd key (of_Z (Z.of_nat d))) hash_consts n = Ok ([x], [0], h)) /\
     ~ exists x h, d <= x < 2 ^ n /\ response_1 pr f2 [Z.of_nat y] key hash_consts n = Ok ([of_Z (Z.of_nat x)], [0], h)) ->
  length ys <= d.
Proof.
  intros pr K HK key m consts hc n f f1 f2 g1 g2 L LH N d P M P' M' ys ND H.
  destruct (df_total K HK key m consts L) as (df & D).
  assert (I : incl ys (map (fun x => low_bits n (df x)) (seq (2 ^ n) d))).
  { intros y YS. destruct (H y YS) as (Y & (x0 & h0 & R0) & NO). apply in_map_iff.
    destruct (C86_single pr K HK _ m consts hc n f g1 g2 L LH N P' M' y Y) as [(x & h & X & MT & _)|(_ & h & R)]; [|rewrite R in R0; discriminate].
    apply (C86_shift K HK) in MT. exists (x + d). split; [now apply (maps_iff K HK key m consts n (x + d) y df D)|]. apply in_seq. split; [|lia].
    destruct (Nat.le_gt_cases (2 ^ n) (x + d)) as [Q|Q]; [exact Q|]. exfalso. apply NO.
    destruct (C86_single pr K HK key m consts hc n f f1 f2 L LH N P M y Y) as [(x' & h' & X' & _ & MX & R')|(NA & _)]; [|now destruct (NA (x + d) Q)].
    exists x', h'. split; [|exact R']. split; [|exact X']. destruct (Nat.le_gt_cases (x + d) x') as [W|W]; [lia|]. now destruct (MX (x + d) ltac:(lia)). }
  apply NoDup_incl_length in I; [|exact ND]. now rewrite map_length, seq_length in I.
Qed.
Print Assumptions C86_few_missing.
(** Eight slots for the key 1: some challenge is answered by 7, so 6 answers it for the key 2. *)
Example C86_ex : exists f1 f2 y h, prepare_space Debug [] 3 = Ok f1 /\ mark_space (K := FrBls) Debug f1 (fr 1) (fr 2) zero_consts 3 = Ok f2 /\ y < 2 ^ 3 /\
  response_1 (K := FrBls) Debug f2 [Z.of_nat y] (fr 1) zero_consts 3 = Ok ([of_Z (p := FrBls) (Z.of_nat 7)], [0], h) /\
  maps_to FrBls (fadd (o := FrBls) (fr 1) (of_Z (p := FrBls) (Z.of_nat 1))) (fr 2) zero_consts 3 6 y.
Proof.
  destruct (C51_inverse_table Debug FrBls FrBls_prime_field (fr 1) (fr 2) zero_consts 3 [] eq_refl ltac:(lia)) as (f1 & f2 & P & M & _).
  destruct (df_total FrBls FrBls_prime_field (fr 1) (fr 2) zero_consts eq_refl) as (df & D).
  assert (Y : low_bits (K := FrBls) 3 (df 7) < 2 ^ 3) by apply low_bits_lt.
  assert (M7 : maps_to FrBls (fr 1) (fr 2) zero_consts 3 7 (low_bits (K := FrBls) 3 (df 7))) by now apply (maps_iff FrBls FrBls_prime_field _ _ _ _ _ _ df D).
  destruct (C86_single Debug FrBls FrBls_prime_field (fr 1) (fr 2) zero_consts zero_consts 3 [] f1 f2 eq_refl eq_refl ltac:(lia) P M _ Y) as [(x & h & X & _ & MX & R)|(NO & _)].
  - assert (x = 7) as -> by (cbn in X; destruct (Nat.eq_dec x 7) as [|NE]; [assumption|]; destruct (MX 7); [cbn; lia|exact M7]).
    exists f1, f2, (low_bits (K := FrBls) 3 (df 7)), h. split; [exact P|]. split; [exact M|]. split; [exact Y|]. split; [exact R|].
    apply (C86_reuse Debug FrBls FrBls_prime_field (fr 1) (fr 2) zero_consts zero_consts 3 [] _ _ eq_refl eq_refl ltac:(lia) P M 1 _ 7 h); [exact Y|cbn; lia|exact R].
  - destruct (NO 7); [cbn; lia|exact M7].
Qed.
