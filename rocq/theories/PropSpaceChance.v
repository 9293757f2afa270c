(** Property C92: how likely a proof-of-space run is to end well, for an honest prover and
    for one with less space.  Vocabulary: [tables], [stream], [tail] from SpaceChance,
    [count], [binom] from Chance, [maps_to] from PropSpace, [groth16] from PropPospace. *)
From Verif Require Import Base Convert Field Mimc Space R1cs Circuits SpaceRun Chance BytesFacts ConvertFacts MimcFacts SpaceFacts ChanceFacts SpaceChance FrField FrFacts PropSpace PropPospace.
Local Open Scope nat_scope.

(** Every list of n challenges of e bits comes from exactly one outcome of the random bits. *)
Theorem C92_uniform : forall pr n e cs, e <= 63 -> length cs = n -> Forall (fun c => (0 <= c < 2 ^ Z.of_nat e)%Z) cs ->
  count (fun t => match create_challenges pr (stream t) n e with Ok l => if list_eq_dec Z.eq_dec l cs then true else false | Panic => false end) (tables n e) = 1.
Proof.
  intros pr n e cs E L F. unfold count. set (q := fun t => _). set (t0 := map (byte_bits_loop e) cs).
  assert (I0 : In t0 (tables n e)).
  { apply tables_In. unfold t0. rewrite map_length. split; [exact L|]. apply Forall_forall. intros w W. apply in_map_iff in W as (c & <- & _). apply bits_loop_length. }
  assert (V0 : map (fun w => Z.of_nat (nval w)) t0 = cs).
  { unfold t0. rewrite map_map. rewrite <- (map_id cs) at 2. apply map_ext_in. intros c C. rewrite Forall_forall in F. specialize (F c C). unfold nval. rewrite bits_loop_val, Z.mod_small, Z2Nat.id by lia. reflexivity. }
  assert (Q : forall t, In t (filter q (tables n e)) <-> In t [t0]).
  { intros t. rewrite filter_In. split.
    - intros (I & T). left. unfold q in T. rewrite (stream_challenges pr n e t E I) in T. destruct (list_eq_dec _ _ cs) as [EQ|]; [|discriminate]. rewrite <- V0 in EQ.
      apply tables_In in I as (LT & FT), I0 as (LT0 & FT0). clear - EQ LT FT LT0 FT0. assert (L : length t0 = length t) by congruence. clear LT LT0. clearbody t0. revert t0 EQ FT0 L.
      induction t as [|w t IH]; intros [|v u] EQ FT0 L; try discriminate; [reflexivity|]. cbn [map] in EQ. injection EQ as E1 E2. inversion FT; subst. inversion FT0; subst. f_equal; [|apply IH; auto].
      symmetry. apply nval_inj; [congruence|]. now apply Nat2Z.inj.
    - intros [<-|[]]. split; [exact I0|]. unfold q. rewrite (stream_challenges pr n e t0 E I0), V0. destruct (list_eq_dec _ cs cs); congruence. }
  assert (N1 : NoDup (filter q (tables n e))) by apply NoDup_filter, tables_NoDup.
  assert (N2 : NoDup [t0]) by (repeat constructor; auto).
  apply Nat.le_antisymm; change 1 with (length [t0]); apply NoDup_incl_length; auto; intros t; apply Q.
Qed.
Print Assumptions C92_uniform.

Section File.
Context (pr : profile) (K : prime_ops) (HK : is_ring K) (key : K) (hc : list K) (LH : length hc = MIMC5_HASH_ROUNDS) (e : nat) (E58 : e <= 58) (f : file).
Lemma slot_small y : y < 2 ^ e -> (Z.of_nat ((e + 1) * y) < two64)%Z.
Proof. intros Y. pose proof (space_fits e E58) as S. assert ((e + 1) * y <= (e + 1) * 2 ^ e) by (apply Nat.mul_le_mono_l; lia). lia. Qed.
Lemma answers_eq l : Forall (fun y => y < 2 ^ e) l -> let a := firstn 50 (filter (fun i => flag_at f e (nth i l 0)) (seq 0 (length l))) in
  exists xs h, response_1 pr f (map Z.of_nat l) key hc e = Ok (xs, a, h) /\ length xs = length a.
Proof.
  intros FL a. assert (FL' : Forall (fun yn => (Z.of_nat ((e + 1) * yn) < two64)%Z) l) by (eapply Forall_impl; [|exact FL]; apply slot_small).
  pose proof (respond_ok (K := K) pr f e ltac:(lia) l [] [] [] FL' ltac:(cbn; unfold RESPONSE_COUNT; lia)) as R. unfold response_1. cbn [app length] in R. rewrite Nat.sub_0_r in R. cbv zeta in R. rewrite R. cbn [bind].
  rewrite multi_mimc5_ok by assumption. cbn [bind]. do 2 eexists. split; [reflexivity|]. apply map_length.
Qed.
Lemma answers_one y : y < 2 ^ e -> ((exists x h, response_1 pr f [Z.of_nat y] key hc e = Ok ([x], [0], h)) <-> flag_at f e y = true).
Proof.
  intros Y. destruct (answers_eq [y] ltac:(repeat constructor; exact Y)) as (xs & h & R & L). cbn [map length seq filter nth] in R, L. rewrite R. destruct (flag_at f e y); cbn [firstn] in *.
  - split; [reflexivity|]. intros _. destruct xs as [|x [|]]; try discriminate. eauto.
  - split; [|discriminate]. intros (x & h' & EQ). congruence.
Qed.
Lemma answers_all t L : In t (tables L e) ->
  ((exists cs xs idxs h, create_challenges pr (stream t) L e = Ok cs /\ response_1 pr f cs key hc e = Ok (xs, idxs, h) /\ length idxs = 50) <-> 50 <= count (fun w => flag_at f e (nval w)) t).
Proof.
  intros I. rewrite (stream_challenges pr L e t ltac:(lia) I). apply tables_In in I as (LT & FT). assert (FL : Forall (fun y => y < 2 ^ e) (map nval t)).
  { apply Forall_forall. intros y Y. apply in_map_iff in Y as (w & <- & W). rewrite Forall_forall in FT. apply nval_lt, FT, W. }
  destruct (answers_eq (map nval t) FL) as (xs & h & R & LX). set (a := firstn 50 _) in R. rewrite map_map in R.
  assert (C : length a = Nat.min 50 (count (fun w => flag_at f e (nval w)) t)).
  { unfold a. rewrite firstn_length, (count_index (flag_at f e)), count_map. reflexivity. }
  split.
  - intros (cs & xs' & idxs & h' & EC & ER & L50). injection EC as <-. rewrite R in ER. assert (EI : idxs = a) by congruence. rewrite EI, C in L50. lia.
  - intros G. do 4 eexists. split; [reflexivity|]. split; [exact R|]. rewrite C. lia.
Qed.
End File.

(** C92 for any space file f, honest or not: if g of the 2 ^ e values are answered from it,
    the outcomes in which 50 of L challenges are answered number
    sum over j >= 50 of (L choose j) * g ^ j * (2 ^ e - g) ^ (L - j). *)
Theorem C92_file : forall pr (K : prime_ops), is_ring K -> forall (key : K) hc, length hc = MIMC5_HASH_ROUNDS -> forall e, e <= 58 -> forall f,
  forall good, NoDup good -> (forall y, In y good <-> y < 2 ^ e /\ exists x h, response_1 pr f [Z.of_nat y] key hc e = Ok ([x], [0], h)) ->
  forall L acc, (forall t, acc t = true <-> exists cs xs idxs h, create_challenges pr (stream t) L e = Ok cs /\ response_1 pr f cs key hc e = Ok (xs, idxs, h) /\ length idxs = 50) ->
  count acc (tables L e) = tail L 50 (length good) (2 ^ e - length good).
Proof.
  intros pr K HK key hc LH e E58 f good N G L acc ACC. set (p := fun w => flag_at f e (nval w)).
  rewrite (count_ext acc (fun t => 50 <=? count p t)).
  - unfold tables. rewrite enough_hits. unfold p at 1 2. rewrite (count_values (flag_at f e) e good N), tuples_length; [reflexivity|]. intros y. rewrite G. split; intros (Y & A); (split; [exact Y|]); now apply (answers_one pr K HK key hc LH e E58 f y Y).
  - intros t T. apply Bool.eq_iff_eq_true. rewrite ACC, Nat.leb_le. now apply answers_all.
Qed.
Print Assumptions C92_file.
(** A file of s bytes answers at most one value for each e + 1 bits, rounded up. *)
Theorem C92_space : forall pr (K : prime_ops), is_ring K -> forall (key : K) hc, length hc = MIMC5_HASH_ROUNDS -> forall e, e <= 58 -> forall f,
  forall good, NoDup good -> (forall y, In y good <-> y < 2 ^ e /\ exists x h, response_1 pr f [Z.of_nat y] key hc e = Ok ([x], [0], h)) ->
  length good * (e + 1) <= 8 * length f + e.
Proof.
  intros pr K HK key hc LH e E58 f good N G. assert (I : incl good (seq 0 ((8 * length f + e) / (e + 1)))).
  { intros y Y. apply G in Y as (Y & A). apply (answers_one pr K HK key hc LH e E58 f y Y) in A. apply flag_inside in A. apply in_seq. split; [lia|]. cbn [Nat.add].
    apply Nat.div_le_lower_bound; [lia|]. lia. }
  apply NoDup_incl_length in I; [|exact N]. rewrite seq_length in I. pose proof (Nat.mul_div_le (8 * length f + e) (e + 1) ltac:(lia)). nia.
Qed.
Print Assumptions C92_space.
Lemma count_below g q : g <= q -> count (fun y => y <? g) (seq 0 q) = g.
Proof.
  intros LE. unfold count. transitivity (length (seq 0 g)); [|apply seq_length]. apply Nat.le_antisymm; apply NoDup_incl_length; try apply NoDup_filter; try apply seq_NoDup.
  - intros y Y. apply filter_In in Y as (_ & Y). apply Nat.ltb_lt in Y. apply in_seq. lia.
  - intros y Y. apply in_seq in Y. apply filter_In. split; [apply in_seq; lia|]. apply Nat.ltb_lt. lia.
Qed.
Lemma nth_error_Some_lt {A} (l : list A) i x : nth_error l i = Some x -> i < length l.
Proof. intros E. apply nth_error_Some. congruence. Qed.
Lemma share L k g e : g <= 2 ^ e -> tail L k g (2 ^ e - g) * (2 ^ e) ^ k <= binom L k * g ^ k * (2 ^ e) ^ L.
Proof.
  intros LE. pose proof (hits_bound (fun y => y <? g) (seq 0 (2 ^ e)) L k) as B. rewrite seq_length in B.
  rewrite (count_below g (2 ^ e) LE) in B. exact B.
Qed.
Lemma share_eighth k T N C g M : T * N ^ k <= C * g ^ k * M -> C <= 2 ^ (2 * k) -> 8 * g <= N -> 0 < N -> T * 2 ^ k <= M.
Proof.
  intros B CB G N0. assert (P : 0 < N ^ k) by (pose proof (Nat.pow_nonzero N k); lia). assert (P4 : 0 < 2 ^ (2 * k)) by (pose proof (Nat.pow_nonzero 2 (2 * k)); lia).
  pose proof (Nat.pow_le_mono_l (8 * g) N k G) as G'. rewrite Nat.pow_mul_l in G'. assert (E8 : 8 ^ k = 2 ^ (2 * k) * 2 ^ k) by (rewrite <- Nat.pow_add_r; replace (2 * k + k) with (3 * k) by lia; rewrite Nat.pow_mul_r; reflexivity).
  rewrite E8 in G'. clear E8 G N0. set (F := 2 ^ (2 * k)) in *. set (D := 2 ^ k) in *. set (X := N ^ k) in *. set (Y := g ^ k) in *. clearbody F D X Y.
  apply (Nat.mul_le_mono_pos_l _ _ (X * F)); [now apply Nat.mul_pos_pos|].
  transitivity (C * Y * M * F * D); [|transitivity (F * Y * M * F * D)].
  - replace (X * F * (T * D)) with (T * X * (F * D)) by ring. replace (C * Y * M * F * D) with (C * Y * M * (F * D)) by ring. now apply Nat.mul_le_mono_r.
  - do 4 apply Nat.mul_le_mono_r. exact CB.
  - replace (F * Y * M * F * D) with (F * D * Y * (F * M)) by ring. replace (X * F * M) with (X * (F * M)) by ring. now apply Nat.mul_le_mono_r.
Qed.
Lemma small_share k L g e : L = 2 * k -> 8 * g <= 2 ^ e -> 0 < 2 ^ e -> tail L k g (2 ^ e - g) * 2 ^ k <= (2 ^ e) ^ L.
Proof.
  intros LK G N0. apply (share_eighth k _ (2 ^ e) (binom L k) g); [apply share; lia|rewrite <- LK; apply binom_pow|exact G|exact N0].
Qed.
(** The share of the outcomes with 50 answers is at most (L choose 50) * (g / 2 ^ e) ^ 50. *)
Theorem C92_bound : forall pr (K : prime_ops), is_ring K -> forall (key : K) hc, length hc = MIMC5_HASH_ROUNDS -> forall e, e <= 58 -> forall f,
  forall good, NoDup good -> (forall y, In y good <-> y < 2 ^ e /\ exists x h, response_1 pr f [Z.of_nat y] key hc e = Ok ([x], [0], h)) ->
  forall L acc, (forall t, acc t = true <-> exists cs xs idxs h, create_challenges pr (stream t) L e = Ok cs /\ response_1 pr f cs key hc e = Ok (xs, idxs, h) /\ length idxs = 50) ->
  count acc (tables L e) * (2 ^ e) ^ 50 <= binom L 50 * length good ^ 50 * length (tables L e).
Proof.
  intros pr K HK key hc LH e E58 f good N G L acc ACC. rewrite (C92_file pr K HK key hc LH e E58 f good N G L acc ACC), tables_length.
  assert (LE : length good <= 2 ^ e) by (rewrite <- (seq_length (2 ^ e) 0); apply NoDup_incl_length; [exact N|]; intros y Y; apply G in Y as (Y & _); apply in_seq; lia).
  exact (share L 50 (length good) e LE).
Qed.
Print Assumptions C92_bound.
(** A file of at most an eighth of the size: one run in 2 ^ 50. *)
Theorem C92_small_space : forall pr (K : prime_ops), is_ring K -> forall (key : K) hc, length hc = MIMC5_HASH_ROUNDS -> forall e, e <= 58 -> forall f,
  8 * (8 * length f + e) <= (e + 1) * 2 ^ e ->
  forall acc, (forall t, acc t = true <-> exists cs xs idxs h, create_challenges pr (stream t) 100 e = Ok cs /\ response_1 pr f cs key hc e = Ok (xs, idxs, h) /\ length idxs = 50) ->
  count acc (tables 100 e) * 2 ^ 50 <= length (tables 100 e).
Proof.
  intros pr K HK key hc LH e E58 f SM acc ACC. set (good := filter (flag_at f e) (seq 0 (2 ^ e))).
  assert (N : NoDup good) by apply NoDup_filter, seq_NoDup.
  assert (G : forall y, In y good <-> y < 2 ^ e /\ exists x h, response_1 pr f [Z.of_nat y] key hc e = Ok ([x], [0], h)).
  { intros y. unfold good. rewrite filter_In, in_seq. split.
    - intros (Y & FL). assert (Y' : y < 2 ^ e) by lia. split; [exact Y'|]. now apply (answers_one pr K HK key hc LH e E58 f y Y').
    - intros (Y & A). split; [lia|]. now apply (answers_one pr K HK key hc LH e E58 f y Y). }
  pose proof (C92_space pr K HK key hc LH e E58 f good N G) as SP. rewrite (C92_file pr K HK key hc LH e E58 f good N G 100 acc ACC), tables_length. clearbody good. clear - SP SM.
  assert (G8 : 8 * length good <= 2 ^ e) by (apply (Nat.mul_le_mono_pos_l _ _ (e + 1)); lia).
  assert (N0 : 0 < 2 ^ e) by (pose proof (Nat.pow_nonzero 2 e); lia).
  exact (small_share 50 100 (length good) e eq_refl G8 N0).
Qed.
Print Assumptions C92_small_space.
(** A byte is little enough for 32 slots. *)
Example C92_small_example : 8 * (8 * length [xff] + 5) <= (5 + 1) * 2 ^ 5.
Proof. cbn. lia. Qed.

(** The number of values that an honest space answers: those that some x below 2 ^ 20 is
    mapped to.  A whole run, Groth16 included, ends normally in exactly this many of the
    outcomes of the random bits, and panics in all others. *)
Theorem C92_run : forall (K : prime_ops) (G : snark K), is_prime_field K -> groth16 K G -> forall pr f dfc hc key m,
  length dfc = MIMC5_DF_ROUNDS -> length hc = MIMC5_HASH_ROUNDS ->
  forall good, NoDup good -> (forall y, In y good <-> y < 2 ^ SPACE_N /\ exists x, x < 2 ^ SPACE_N /\ maps_to K key m dfc SPACE_N x y) ->
  forall acc, (forall t, acc t = true <-> pospace G pr f dfc hc key m (stream t) <> Panic) ->
  count acc (tables 100 SPACE_N) = tail 100 50 (length good) (2 ^ SPACE_N - length good).
Proof.
  intros K G PF GR pr f dfc hc key m LC LH good N GOOD acc ACC. assert (N63 : SPACE_N <= 63) by (apply Nat.leb_le; reflexivity). revert N63.
  set (p := fun y => if in_dec Nat.eq_dec y good then true else false).
  assert (P : forall y, p y = true <-> In y good) by (intros y; unfold p; destruct (in_dec Nat.eq_dec y good); split; congruence).
  assert (RUN : SPACE_N <= 63 -> forall t, In t (tables 100 SPACE_N) -> (pospace G pr f dfc hc key m (stream t) <> Panic <-> 50 <= count (fun w => p (nval w)) t)).
  { intros N63 t I. destruct (C68_run K G PF GR pr f dfc hc key m (stream t) LC LH) as (cs & f2 & EC & R1 & R2). rewrite (stream_challenges pr 100 SPACE_N t N63 I) in EC. injection EC as <-.
    pose proof (proj1 (proj1 (tables_In _ _ _) I)) as LT.
    assert (A : forall i, i < 100 -> (answerable K key m dfc (map (fun w => Z.of_nat (nval w)) t) i <-> p (nval (nth i t [])) = true)).
    { intros i IL. assert (IT : nth_error t i = Some (nth i t [])) by (apply nth_error_nth'; lia). rewrite P, GOOD. apply tables_In in I as (_ & FT). assert (B : nval (nth i t []) < 2 ^ SPACE_N) by (rewrite Forall_forall in FT; apply nval_lt, FT, nth_In; lia). unfold answerable. split.
      - intros (yn & x & EY & X & M). rewrite nth_error_map, IT in EY. cbn in EY. injection EY as EY. apply Nat2Z.inj in EY. subst yn. split; [exact B|]. exists x. split; [exact X|exact M].
      - intros (_ & x & X & M). exists (nval (nth i t [])), x. split; [rewrite nth_error_map, IT; reflexivity|]. split; [exact X|exact M]. }
    rewrite <- (count_index (fun w => p (nval w)) t []), LT. set (l := filter (fun i => p (nval (nth i t []))) (seq 0 100)).
    assert (IFF : (exists l, NoDup l /\ length l = 50 /\ Forall (answerable K key m dfc (map (fun w => Z.of_nat (nval w)) t)) l) <-> 50 <= length l).
    { split.
      - intros (l' & ND & L50 & F). rewrite <- L50. apply NoDup_incl_length; [exact ND|]. intros i IL. rewrite Forall_forall in F. specialize (F i IL). assert (I100 : i < 100).
        { destruct F as (yn & x & EY & _). apply nth_error_Some_lt in EY. now rewrite map_length, LT in EY. }
        apply filter_In. split; [apply in_seq; lia|]. now apply A.
      - intros LE. exists (firstn 50 l). split; [|split].
        + apply (NoDup_app_l _ (skipn 50 l)). rewrite firstn_skipn. apply NoDup_filter, seq_NoDup.
        + rewrite firstn_length. lia.
        + apply Forall_forall. intros i IL. assert (IL' : In i l) by (rewrite <- (firstn_skipn 50 l); apply in_or_app; now left). apply filter_In in IL' as (S & Q). apply in_seq in S. apply A; [lia|exact Q]. }
    rewrite <- IFF. split.
    - intros NP. destruct (le_lt_dec 50 (length l)) as [C|C]; [now apply IFF|]. exfalso. apply NP, R2. intros X. apply IFF in X. lia.
    - intros X. rewrite (R1 X). discriminate. }
  intros N63. specialize (RUN N63). revert RUN GOOD ACC. generalize SPACE_N. intros e RUN GOOD ACC.
  rewrite (count_ext acc (fun t => 50 <=? count (fun w => p (nval w)) t)).
  - unfold tables. rewrite enough_hits, (count_values p e good N), tuples_length; [reflexivity|]. intros y. rewrite P, GOOD. tauto.
  - intros t T. apply Bool.eq_iff_eq_true. rewrite ACC, Nat.leb_le. exact (RUN t T).
Qed.
Print Assumptions C92_run.
(** If at least half of the values are answerable, at least half of the outcomes end well. *)
Theorem C92_half : forall (K : prime_ops) (G : snark K), is_prime_field K -> groth16 K G -> forall pr f dfc hc key m,
  length dfc = MIMC5_DF_ROUNDS -> length hc = MIMC5_HASH_ROUNDS ->
  forall good, NoDup good -> (forall y, In y good <-> y < 2 ^ SPACE_N /\ exists x, x < 2 ^ SPACE_N /\ maps_to K key m dfc SPACE_N x y) ->
  forall acc, (forall t, acc t = true <-> pospace G pr f dfc hc key m (stream t) <> Panic) ->
  2 ^ SPACE_N <= 2 * length good -> length (tables 100 SPACE_N) <= 2 * count acc (tables 100 SPACE_N).
Proof.
  intros K G PF GR pr f dfc hc key m LC LH good N GOOD acc ACC HALF. rewrite (C92_run K G PF GR pr f dfc hc key m LC LH good N GOOD acc ACC), tables_length.
  assert (LE : length good <= 2 ^ SPACE_N).
  { rewrite <- (seq_length (2 ^ SPACE_N) 0). apply NoDup_incl_length; [exact N|]. intros y Y. apply GOOD in Y. apply in_seq. lia. }
  clear GOOD ACC. revert HALF LE. generalize SPACE_N. intros e HALF LE.
  pose proof (half_hits 50 (length good) (2 ^ e - length good) ltac:(lia)) as HH. change (2 * 50) with 100 in HH. etransitivity; [|exact HH]. clear HH.
  assert (T : count (fun w => 0 <=? count (fun y => y <? length good) w) (tuples (seq 0 (2 ^ e)) 100) = tail 100 0 (length good) (2 ^ e - length good)).
  { rewrite enough_hits, seq_length, (count_below (length good) (2 ^ e) LE). reflexivity. }
  rewrite <- T, all_words, seq_length by reflexivity. reflexivity.
Qed.
Print Assumptions C92_half.
(** The formula: at least two heads in four throws of a coin; a coin with one face. *)
Example C92_tail : tail 4 2 1 1 = 11 /\ tail 4 2 3 0 = 81 /\ tail 4 2 0 3 = 0 /\ tail 3 2 1 3 = 10.
Proof. vm_compute. auto. Qed.
(** A file of ones, one byte long, and 3-bit challenges: two values are answered. *)
Example C92_ex : exists acc, (forall t, acc t = true <-> exists cs xs idxs h, create_challenges Debug (stream t) 100 3 = Ok cs /\ response_1 (K := FrBls) Debug [xff] cs (fr 5) (repeat (fr 1) 10) 3 = Ok (xs, idxs, h) /\ length idxs = 50) /\
  count acc (tables 100 3) = tail 100 50 2 6.
Proof.
  set (hc := repeat (fr 1) 10). assert (LH : length hc = MIMC5_HASH_ROUNDS) by reflexivity. clearbody hc. set (key := fr 5). clearbody key.
  set (acc := fun t => match create_challenges Debug (stream t) 100 3 with Ok cs => match response_1 (K := FrBls) Debug [xff] cs key hc 3 with Ok (_, idxs, _) => length idxs =? 50 | Panic => false end | Panic => false end).
  assert (ACC : forall t, acc t = true <-> exists cs xs idxs h, create_challenges Debug (stream t) 100 3 = Ok cs /\ response_1 (K := FrBls) Debug [xff] cs key hc 3 = Ok (xs, idxs, h) /\ length idxs = 50).
  { intros t. unfold acc. destruct (create_challenges Debug (stream t) 100 3) as [cs|]; [|split; [discriminate|intros (? & ? & ? & ? & X & _); discriminate]].
    destruct (response_1 (K := FrBls) Debug [xff] cs key hc 3) as [[[xs idxs] h]|] eqn:E.
    - rewrite Nat.eqb_eq. split; [intros L; exists cs, xs, idxs, h; auto|]. intros (cs' & xs' & idxs' & h' & X & Y & L). assert (cs' = cs) by congruence. subst cs'. rewrite E in Y. congruence.
    - split; [discriminate|]. intros (cs' & xs' & idxs' & h' & X & Y & L). assert (cs' = cs) by congruence. subst cs'. rewrite E in Y. discriminate. }
  exists acc. split; [exact ACC|].
  assert (HK : is_ring FrBls) by exact (F_R (pf_field FrBls FrBls_prime_field)).
  apply (C92_file Debug FrBls HK key hc LH 3 ltac:(lia) [xff] [0; 1]); [repeat constructor; cbn; lia| |exact ACC].
  intros y. change (2 ^ 3) with 8. destruct (Nat.lt_ge_cases y 8) as [Y|Y].
  - rewrite (answers_one Debug FrBls HK key hc LH 3 ltac:(lia) [xff] y Y). do 8 (destruct y as [|y]; [vm_compute; intuition (try discriminate; try lia)|]). lia.
  - split; [|lia]. cbn. lia.
Qed.
(** The values an honest space answers form a list like the one in C92_run. *)
Example C92_ex_run : forall (K : prime_ops), is_prime_field K -> forall (key m : K) dfc, length dfc = MIMC5_DF_ROUNDS ->
  exists good, NoDup good /\ (forall y, In y good <-> y < 2 ^ SPACE_N /\ exists x, x < 2 ^ SPACE_N /\ maps_to K key m dfc SPACE_N x y) /\ good <> [].
Proof.
  intros K PF key m dfc LC. destruct (df_total K PF key m dfc LC) as (df & D). generalize SPACE_N. intros e. set (g := fun x => low_bits e (df x)).
  assert (M : forall x y, maps_to K key m dfc e x y <-> g x = y) by (intros x y; apply (maps_iff K PF key m dfc e x y df D)).
  assert (E0 : 0 < 2 ^ e) by (pose proof (Nat.pow_nonzero 2 e); lia).
  assert (G : forall y, In y (nodup Nat.eq_dec (map g (seq 0 (2 ^ e)))) <-> y < 2 ^ e /\ exists x, x < 2 ^ e /\ maps_to K key m dfc e x y).
  { intros y. rewrite nodup_In, in_map_iff. split.
    - intros (x & <- & X). apply in_seq in X. split; [apply low_bits_lt|]. exists x. split; [lia|now apply M].
    - intros (_ & x & X & Q). apply M in Q. exists x. split; [exact Q|]. apply in_seq. lia. }
  exists (nodup Nat.eq_dec (map g (seq 0 (2 ^ e)))). split; [apply NoDup_nodup|]. split; [exact G|]. intros N. specialize (G (g 0)). rewrite N in G. destruct G as (_ & G). apply G. split; [apply low_bits_lt|]. exists 0. split; [exact E0|now apply M].
Qed.
