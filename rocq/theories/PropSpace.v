(** Properties C48-C55, C64-C66: conversions, the marked space, responses, MiMC, verify. *)
From Coq Require Import Strings.Byte Sorted.
From Verif Require Import Base Field Mimc Convert Space ConvertFacts MimcFacts SpaceFacts FrField FrFacts.

(** * C48: bytes and bits *)
Theorem C48_bytes_bits_bytes : forall pr x, bits_to_bytes pr (bytes_to_bits x) = Ok x.
Proof. intros pr x. rewrite bits_to_bytes_pack. now rewrite pack_bits. Qed.
Print Assumptions C48_bytes_bits_bytes.
Theorem C48_bits_bytes_bits : forall pr b, exists y k, bits_to_bytes pr b = Ok y /\
  bytes_to_bits y = b ++ repeat false k /\ k < 8 /\ (length b + k) mod 8 = 0.
Proof.
  intros pr b. exists (pack b), ((8 - length b mod 8) mod 8). split; [apply bits_to_bytes_pack|]. split; [apply bits_pack|]. split; [apply Nat.mod_upper_bound; lia|].
  pose proof (f_equal (@length bool) (bits_pack b)) as E. unfold pad8 in E. rewrite bytes_to_bits_length, app_length, repeat_length in E. rewrite <- E, Nat.mul_comm. apply Nat.mod_mul. lia.
Qed.
Print Assumptions C48_bits_bytes_bits.
(** The order: bit i of byte k is entry 8k + i. *)
Theorem C48_order : forall x k i b, nth_error x k = Some b -> i < 8 ->
  nth_error (bytes_to_bits x) (8 * k + i) = Some (Z.testbit (b2z b) (Z.of_nat i)).
Proof.
  intros x k i b E I. assert (T : nth_error (byte_bits b) i = Some (Z.testbit (b2z b) (Z.of_nat i))).
  { do 8 (destruct i as [|i]; [destruct b; reflexivity|]). lia. }
  revert x E. induction k as [|k IH]; intros [|y x] E; try discriminate; cbn [nth_error] in E.
  - injection E as ->. rewrite bytes_to_bits_cons, nth_error_app1 by (rewrite byte_bits_length; lia). exact T.
  - rewrite bytes_to_bits_cons, nth_error_app2 by (rewrite byte_bits_length; lia). rewrite byte_bits_length. replace (8 * S k + i - 8) with (8 * k + i) by lia. now apply IH.
Qed.
Print Assumptions C48_order.
Example C48_example : bytes_to_bits [x05] = [true; false; true; false; false; false; false; false] /\
  bits_to_bytes Debug [true; false; true] = Ok [x05].
Proof. split; reflexivity. Qed.

(** * C49: integers and bits *)
Theorem C49_int_bits_int : forall pr x n, (0 <= x < two64)%Z -> 1 <= n <= 63 -> exists b,
  usize_to_bits x n = Some (Ok b) /\ length b = n /\ bits_to_usize pr b = Ok (x mod 2 ^ Z.of_nat n)%Z.
Proof.
  intros pr x n X N. exists (byte_bits_loop n x). split; [apply usize_to_bits_ok; lia|]. split; [apply bits_loop_length|].
  rewrite bits_to_usize_val by (rewrite bits_loop_length; lia). f_equal. apply bits_loop_val. lia.
Qed.
Print Assumptions C49_int_bits_int.
Theorem C49_bits_int_bits : forall pr b, length b <= 63 -> exists x,
  bits_to_usize pr b = Ok x /\ (0 <= x < 2 ^ Z.of_nat (length b))%Z /\ usize_to_bits x (length b) = Some (Ok b).
Proof.
  intros pr b B. exists (val b). split; [now apply bits_to_usize_val|]. pose proof (val_bounds b) as V. split; [exact V|].
  destruct b as [|c b]; [reflexivity|]. rewrite usize_to_bits_ok by (cbn [length]; lia). do 2 f_equal. apply val_inj; [apply bits_loop_length|].
  rewrite bits_loop_val by lia. now apply Z.mod_small.
Qed.
Print Assumptions C49_bits_int_bits.
Theorem C49_bit_i : forall x n b i, (0 <= x < two64)%Z -> 1 <= n -> usize_to_bits x n = Some (Ok b) -> i < n ->
  nth_error b i = Some (Z.testbit x (Z.of_nat i)).
Proof.
  intros x n b i X N E I. rewrite usize_to_bits_ok in E by lia. injection E as <-. destruct X as [X _]. clear N.
  revert x X i I. induction n as [|n IH]; intros x X i I; [lia|]. cbn [byte_bits_loop]. destruct i as [|i]; cbn [nth_error].
  - f_equal. rewrite Z.bit0_odd, Zmod_odd. now destruct (Z.odd x).
  - rewrite (IH (x / 2)%Z) by (try apply Z.div_pos; lia). f_equal. rewrite <- Z.div2_div, Z.div2_spec, Z.shiftr_spec by lia. f_equal. lia.
Qed.
Print Assumptions C49_bit_i.
Theorem C49_long_panics : forall b, 64 <= length b -> bits_to_usize Debug b = Panic.
Proof. exact bits_to_usize_panic. Qed.
Print Assumptions C49_long_panics.
Theorem C49_long_wraps : forall b, exists x, bits_to_usize Release b = Ok x /\ (0 <= x < two64)%Z /\
  exists z, usize_to_bits x 64 = Some (Ok z) /\ firstn (length b) z = firstn 64 b.
Proof.
  intros b. exists (val b mod two64)%Z. assert (W : (0 <= val b mod two64 < two64)%Z) by (apply Z.mod_pos_bound; reflexivity).
  split; [apply bits_to_usize_release|]. split; [exact W|]. exists (byte_bits_loop 64 (val b mod two64)). split; [apply usize_to_bits_ok; lia|].
  assert (P64 : two64 = (2 ^ Z.of_nat 64)%Z) by reflexivity. rewrite P64 in *. clear P64. remember 64%nat as w eqn:Ew. clear Ew.
  assert (F : forall k l, (k <= length l) -> val (firstn k l) = (val l mod 2 ^ Z.of_nat k)%Z).
  { intros k l L. rewrite <- (firstn_skipn k l) at 2. rewrite val_app, firstn_length_le by exact L.
    rewrite Z.mul_comm, Z.mod_add by (apply Z.pow_nonzero; lia). symmetry. apply Z.mod_small. pose proof (val_bounds (firstn k l)) as B. rewrite firstn_length_le in B by exact L. exact B. }
  assert (V : val (byte_bits_loop w (val b mod 2 ^ Z.of_nat w)) = (val b mod 2 ^ Z.of_nat w)%Z).
  { rewrite bits_loop_val by lia. apply Z.mod_mod. apply Z.pow_nonzero; lia. }
  apply val_inj; [rewrite !firstn_length, bits_loop_length; lia|].
  destruct (Nat.le_gt_cases w (length b)) as [H|H].
  - rewrite firstn_all2 by (rewrite bits_loop_length; lia). rewrite V. symmetry. apply F. exact H.
  - rewrite (firstn_all2 b) by lia. rewrite F by (rewrite bits_loop_length; lia). rewrite V. pose proof (val_bounds b) as B.
    assert (2 ^ Z.of_nat (length b) <= 2 ^ Z.of_nat w)%Z by (apply Z.pow_le_mono_r; lia).
    rewrite (Z.mod_small (val b) (2 ^ Z.of_nat w)) by lia. apply Z.mod_small. exact B.
Qed.
Print Assumptions C49_long_wraps.
Theorem C49_zero_width : forall x, (0 <= x < two64)%Z -> usize_to_bits x 0 = Some Panic <-> Z.odd x = true.
Proof. intros x X. rewrite usize_to_bits_0 by lia. rewrite Zmod_odd. now destruct (Z.odd x). Qed.
Print Assumptions C49_zero_width.
Example C49_example : usize_to_bits 6 4 = Some (Ok [false; true; true; false]) /\ bits_to_usize Debug [false; true; true; false] = Ok 6%Z.
Proof. split; reflexivity. Qed.

(** * C50: the prepared file *)
Theorem C50_prepare : forall pr f n, n <= 58 -> exists g, prepare_space pr f n = Ok g /\
  length g = (n + 1) * 2 ^ n / 8 /\ Forall (eq x00) g.
Proof.
  intros pr f n N. eexists. split; [now apply prepare_space_ok|]. split; [apply repeat_length|]. apply Forall_forall. intros x I. symmetry. now apply repeat_spec in I.
Qed.
Print Assumptions C50_prepare.
Theorem C50_exact_bits : forall pr f n, 3 <= n <= 58 -> exists g, prepare_space pr f n = Ok g /\ 8 * length g = (n + 1) * 2 ^ n.
Proof.
  intros pr f n N. eexists. split; [apply prepare_space_ok; lia|]. unfold zeros. rewrite repeat_length. symmetry. apply slots_divide. lia.
Qed.
Print Assumptions C50_exact_bits.
Theorem C50_large_n_panics : forall f n, 59 <= n -> prepare_space Debug f n = Panic.
Proof. exact prepare_space_panic. Qed.
Print Assumptions C50_large_n_panics.
Example C50_example : prepare_space Debug [xff; xff] 3 = Ok [x00; x00; x00; x00].
Proof. reflexivity. Qed.

(** * C51-C52: the table and the answers *)
(** The delay function sends x (offset by key) to a value whose low n bits are y. *)
Definition maps_to (K : prime_ops) (key m : K) (consts : list K) (n x y : nat) : Prop :=
  exists v : K, mimc5_df (fadd (of_Z (Z.of_nat x)) key) m consts = Ok v /\ (repr v mod 2 ^ Z.of_nat n = Z.of_nat y)%Z.

Lemma maps_iff (K : prime_ops) (HK : is_prime_field K) (key m : K) consts n x y df :
  (forall x, mimc5_df (fadd (of_Z (Z.of_nat x)) key) m consts = Ok (df x)) ->
  maps_to K key m consts n x y <-> low_bits n (df x) = y.
Proof.
  intros D. unfold maps_to, low_bits. rewrite D. assert (B : (0 <= repr (df x) mod 2 ^ Z.of_nat n)%Z) by (apply Z.mod_pos_bound; lia). split.
  - intros (v & [= <-] & ->). apply Nat2Z.id.
  - intros <-. eexists. split; [reflexivity|]. symmetry. now apply Z2Nat.id.
Qed.
Lemma df_total (K : prime_ops) (HK : is_prime_field K) (key m : K) consts : length consts = MIMC5_DF_ROUNDS -> exists df : nat -> K,
  forall x, mimc5_df (fadd (of_Z (Z.of_nat x)) key) m consts = Ok (df x).
Proof. intros L. eexists. intros x. apply mimc5_df_ok; [exact (F_R (pf_field K HK))|exact L]. Qed.

Theorem C51_inverse_table : forall pr (K : prime_ops), is_prime_field K -> forall (key m : K) consts n f,
  length consts = MIMC5_DF_ROUNDS -> 3 <= n <= 58 ->
  exists f1 f2, prepare_space pr f n = Ok f1 /\ mark_space pr f1 key m consts n = Ok f2 /\ 8 * length f2 = (n + 1) * 2 ^ n /\
  forall y, y < 2 ^ n ->
    let bits := firstn (n + 1) (skipn ((n + 1) * y) (bytes_to_bits f2)) in
    (exists x, x < 2 ^ n /\ maps_to K key m consts n x y /\ (forall x', x < x' < 2 ^ n -> ~ maps_to K key m consts n x' y) /\
       exists xb, bits = xb ++ [true] /\ usize_to_bits (Z.of_nat x) n = Some (Ok xb)) \/
    ((forall x, x < 2 ^ n -> ~ maps_to K key m consts n x y) /\ bits = repeat false (n + 1)).
Proof.
  intros pr K HK key m consts n f L N. destruct (df_total K HK key m consts L) as (df & D).
  destruct (mark_space_table pr key m consts n f df (fun z => proj1 (pf_repr K HK z)) N D) as (f1 & f2 & P & M & LL & T).
  exists f1, f2. split; [exact P|]. split; [exact M|]. split.
  { rewrite LL. destruct (C50_exact_bits pr f n N) as (g & G & E). rewrite P in G. injection G as <-. exact E. }
  intros y Y. cbn zeta. destruct (T y Y) as [(x & X & G & B & E)|(NO & E)].
  - left. exists x. split; [exact X|]. split; [now apply (maps_iff K HK key m consts n x y df D)|]. split.
    + intros x' X' Q. apply (maps_iff K HK key m consts n x' y df D) in Q. now apply (B x').
    + exists (int_bits n x). split; [exact E|]. apply usize_to_bits_ok; lia.
  - right. split; [|exact E]. intros x X Q. apply (maps_iff K HK key m consts n x y df D) in Q. now apply (NO x).
Qed.
Print Assumptions C51_inverse_table.

(** Every answer is right, in order, at most 50, and nothing answerable is skipped early. *)
Theorem C52_answers : forall pr (K : prime_ops), is_prime_field K -> forall (key m : K) consts hash_consts n f cs,
  length consts = MIMC5_DF_ROUNDS -> length hash_consts = MIMC5_HASH_ROUNDS -> 3 <= n <= 58 -> Forall (fun yn => yn < 2 ^ n) cs ->
  exists f1 f2 xs idxs h, prepare_space pr f n = Ok f1 /\ mark_space pr f1 key m consts n = Ok f2 /\
  response_1 pr f2 (map Z.of_nat cs) key hash_consts n = Ok (map (fun x => of_Z (Z.of_nat x)) xs, idxs, h) /\
  length xs = length idxs /\
  (forall j x i, nth_error xs j = Some x -> nth_error idxs j = Some i ->
     x < 2 ^ n /\ exists yn, nth_error cs i = Some yn /\ maps_to K key m consts n x yn) /\
  (forall i yn, nth_error cs i = Some yn -> ~ In i idxs ->
     (forall x, x < 2 ^ n -> ~ maps_to K key m consts n x yn) \/ (length idxs = RESPONSE_COUNT /\ Forall (fun i' => i' < i) idxs)).
Proof.
  intros pr K HK key m consts hc n f cs L LH N C. destruct (df_total K HK key m consts L) as (df & D).
  destruct (mark_space_table pr key m consts n f df (fun z => proj1 (pf_repr K HK z)) N D) as (f1 & f2 & P & M & LL & T).
  assert (LEN : (n + 1) * 2 ^ n <= 8 * length f2).
  { rewrite LL. destruct (C50_exact_bits pr f n N) as (g & G & E). rewrite P in G. injection G as <-. lia. }
  pose proof (space_fits n (proj2 N)) as FIT.
  assert (F : Forall (fun yn => (Z.of_nat ((n + 1) * yn) < two64)%Z) cs).
  { eapply Forall_impl; [|exact C]. cbn beta. intros y Y. assert ((n + 1) * y <= (n + 1) * 2 ^ n) by (apply Nat.mul_le_mono_l; lia). lia. }
  pose proof (respond_ok (K := K) pr f2 n ltac:(lia) cs [] [] [] F ltac:(cbn; unfold RESPONSE_COUNT; lia)) as R.
  cbn [app length] in R. rewrite Nat.sub_0_r in R. set (fl := filter _ (seq 0 (length cs))) in R. cbv zeta in R.
  pose proof (fun y Y => flag_marked (fun x => low_bits n (df x)) n f2 LEN T y Y) as FM.
  exists f1, f2, (map (fun i => Z.to_nat (value_at f2 n (nth i cs 0))) (firstn RESPONSE_COUNT fl)), (firstn RESPONSE_COUNT fl).
  assert (IN : forall i, In i (firstn RESPONSE_COUNT fl) -> i < length cs /\ flag_at f2 n (nth i cs 0) = true).
  { intros i I. assert (In i fl) as I' by (rewrite <- (firstn_skipn RESPONSE_COUNT fl); apply in_or_app; now left). apply filter_In in I'. destruct I' as [I' FT]. apply in_seq in I'. split; [lia|exact FT]. }
  assert (VAL : forall i, In i (firstn RESPONSE_COUNT fl) -> exists x, x < 2 ^ n /\ low_bits n (df x) = nth i cs 0 /\ value_at f2 n (nth i cs 0) = Z.of_nat x).
  { intros i I. destruct (IN i I) as [Li Fi]. rewrite Forall_forall in C. destruct (FM (nth i cs 0)) as [(_ & x & X)|(Q & _)]; [apply C, nth_In, Li|exists x; exact X|congruence]. }
  assert (EX : map (fun i => of_Z (value_at f2 n (nth i cs 0))) (firstn RESPONSE_COUNT fl) = map (fun x => of_Z (Z.of_nat x)) (map (fun i => Z.to_nat (value_at f2 n (nth i cs 0))) (firstn RESPONSE_COUNT fl)) :> list K).
  { rewrite map_map. apply map_ext_in. intros i I. destruct (VAL i I) as (x & _ & _ & ->). now rewrite Nat2Z.id. }
  exists (mimc_chain 5 hc key (map (fun i => of_Z (value_at f2 n (nth i cs 0))) (firstn RESPONSE_COUNT fl))).
  split; [exact P|]. split; [exact M|]. split.
  { unfold response_1. rewrite R. cbn [bind]. rewrite multi_mimc5_ok by (try exact LH; exact (F_R (pf_field K HK))). cbn [bind]. rewrite <- EX. reflexivity. }
  split; [apply map_length|]. split.
  - intros j x i EXJ EI. rewrite nth_error_map, EI in EXJ. cbn in EXJ. injection EXJ as <-. pose proof (nth_error_In _ _ EI) as I. destruct (VAL i I) as (x & X & G & ->). rewrite Nat2Z.id. split; [exact X|].
    exists (nth i cs 0). split; [apply nth_error_nth'; now apply IN|]. now apply (maps_iff K HK key m consts n x _ df D).
  - intros i yn EI NI. pose proof (nth_error_nth _ _ 0 EI) as NT. rewrite Forall_forall in C. pose proof (C _ (nth_error_In _ _ EI)) as Y.
    destruct (FM yn Y) as [(FT & _)|(_ & NO)].
    + right. apply firstn_skipped; [apply filter_sorted| |exact NI]. apply filter_In. rewrite NT. split; [|exact FT]. apply in_seq. assert (i < length cs) by (apply nth_error_Some; congruence). lia.
    + left. intros x X Q. apply (maps_iff K HK key m consts n x yn df D) in Q. now apply (NO x X).
Qed.
Print Assumptions C52_answers.

(** * C54: any file, honest or not *)
(** A list is answered as its members are answered one at a time, the first 50 of them. *)
Theorem C54_any_file : forall pr (K : prime_ops), is_ring K -> forall (key : K) hash_consts n f cs,
  length hash_consts = MIMC5_HASH_ROUNDS -> n <= 63 -> Forall (fun yn => (Z.of_nat ((n + 1) * yn) < two64)%Z) cs ->
  exists xs idxs h, response_1 pr f (map Z.of_nat cs) key hash_consts n = Ok (xs, idxs, h) /\
  length xs = length idxs /\ length idxs <= 50 /\ StronglySorted lt idxs /\
  (forall j x i, nth_error xs j = Some x -> nth_error idxs j = Some i -> exists yn h', nth_error cs i = Some yn /\
     response_1 pr f [Z.of_nat yn] key hash_consts n = Ok ([x], [0], h')) /\
  (forall i yn, nth_error cs i = Some yn -> ~ In i idxs ->
     (exists h', response_1 pr f [Z.of_nat yn] key hash_consts n = Ok ([], [], h')) \/ (length idxs = 50 /\ Forall (fun i' => i' < i) idxs)) /\
  multi_mimc5_hash xs key hash_consts = Ok h.
Proof.
  intros pr K HK key hc n f cs LH N F.
  assert (R : forall l, Forall (fun yn => (Z.of_nat ((n + 1) * yn) < two64)%Z) l ->
    let a := firstn 50 (filter (fun i => flag_at f n (nth i l 0)) (seq 0 (length l))) in
    response_1 pr f (map Z.of_nat l) key hc n = Ok (map (fun i => of_Z (value_at f n (nth i l 0))) a, a, mimc_chain 5 hc key (map (fun i => of_Z (value_at f n (nth i l 0))) a))).
  { intros l FL a. pose proof (respond_ok (K := K) pr f n N l [] [] [] FL ltac:(cbn; unfold RESPONSE_COUNT; lia)) as R. unfold response_1. cbn [app length] in R. rewrite Nat.sub_0_r in R. cbv zeta in R. rewrite R. cbn [bind].
    rewrite multi_mimc5_ok by assumption. reflexivity. }
  pose proof (R cs F) as RC. cbv zeta in RC. set (fl := filter _ (seq 0 (length cs))) in RC.
  do 3 eexists. split; [exact RC|]. split; [apply map_length|]. split; [apply filter_firstn_count|]. split; [apply firstn_sorted, filter_sorted|].
  assert (ONE : forall yn, In yn cs -> response_1 pr f [Z.of_nat yn] key hc n = Ok (if flag_at f n yn then ([of_Z (value_at f n yn)], [0], mimc_chain 5 hc key [of_Z (value_at f n yn)]) else ([], [], key))).
  { intros yn I. change [Z.of_nat yn] with (map Z.of_nat [yn]). rewrite R by (constructor; [rewrite Forall_forall in F; now apply F|constructor]). cbn [length seq filter nth]. destruct (flag_at f n yn); reflexivity. }
  split; [|split; [|now apply multi_mimc5_ok]].
  - intros j x i EX EI. rewrite nth_error_map, EI in EX. cbn in EX. injection EX as <-. pose proof (nth_error_In _ _ EI) as I.
    assert (In i fl) as I' by (rewrite <- (firstn_skipn 50 fl); apply in_or_app; now left). apply filter_In in I'. destruct I' as [I' FT]. apply in_seq in I'.
    exists (nth i cs 0). eexists. split; [apply nth_error_nth'; lia|]. rewrite ONE by (apply nth_In; lia). rewrite FT. reflexivity.
  - intros i yn EI NI. pose proof (nth_error_nth _ _ 0 EI) as NT. destruct (flag_at f n yn) eqn:FT.
    + right. apply firstn_skipped; [apply filter_sorted| |exact NI]. apply filter_In. rewrite NT. split; [|exact FT]. apply in_seq. assert (i < length cs) by (apply nth_error_Some; congruence). lia.
    + left. eexists. rewrite ONE by (eapply nth_error_In; exact EI). rewrite FT. reflexivity.
Qed.
Print Assumptions C54_any_file.
(** A file of ones, one byte long: slots 0 and 1 are answered, slot 3 lies behind the end. *)
Definition seen (r : res (list FrBls * list nat * FrBls)) : option (list Z * list nat) :=
  match r with Ok (xs, idxs, _) => Some (map repr xs, idxs) | Panic => None end.
Lemma seen_ok r zs idxs : seen r = Some (zs, idxs) -> exists xs h, r = Ok (xs, idxs, h) /\ map repr xs = zs.
Proof. destruct r as [[[xs i] h]|]; cbn [seen]; [|discriminate]. intros [= <- <-]. eauto. Qed.
Example C54_example : exists xs h, response_1 (K := FrBls) Debug [xff] [3%Z; 0%Z; 1%Z] (fr 5) (repeat (fr 1) 10) 3 = Ok (xs, [1; 2], h) /\ map repr xs = [7%Z; 7%Z].
Proof. apply seen_ok. vm_compute. reflexivity. Qed.

(** * C53: two-bit spaces *)
(** The prepared file has 8 bits, the four slots need 12. *)
Theorem C53_too_short : forall pr f, prepare_space pr f 2 = Ok [x00].
Proof. intros pr f. exact (prepare_space_ok pr f 2 ltac:(lia)). Qed.
Print Assumptions C53_too_short.
Definition zero_consts : list FrBls := repeat (fr 0) 10.
(** Slot 3 is answered with x = 3 although no x below 4 maps to it: the conclusion of C52 fails for n = 2. *)
Theorem C53_false_answer_refuted : exists (key m : FrBls) consts hash_consts f1 f2 xs h,
  length consts = MIMC5_DF_ROUNDS /\
  prepare_space Debug [] 2 = Ok f1 /\ mark_space Debug f1 key m consts 2 = Ok f2 /\
  response_1 Debug f2 [3%Z] key hash_consts 2 = Ok (xs, [0], h) /\ map repr xs = [3%Z] /\
  forall x, x < 4 -> ~ maps_to FrBls key m consts 2 x 3.
Proof.
  exists (fr 0), (fr 6), zero_consts, zero_consts, [x00], [xee; xef].
  destruct (seen_ok (response_1 (K := FrBls) Debug [xee; xef] [3%Z] (fr 0) zero_consts 2) [3%Z] [0] ltac:(vm_compute; reflexivity)) as (xs & h & R & XS). exists xs, h.
  split; [reflexivity|]. split; [vm_compute; reflexivity|]. split; [vm_compute; reflexivity|]. split; [exact R|]. split; [exact XS|].
  intros x X (v & E & M).
  assert (Q : match mimc5_df (K := FrBls) (fadd (of_Z (p := FrBls) (Z.of_nat x)) (fr 0)) (fr 6) zero_consts with Ok v => (repr v mod 4)%Z | Panic => 0%Z end <> 3%Z).
  { do 4 (destruct x as [|x]; [vm_compute; discriminate|]). lia. }
  rewrite E in Q. apply Q. exact M.
Qed.
Print Assumptions C53_false_answer_refuted.

(** C51 and C52 have instances: the field is the scalar field of BLS12-381. *)
Example C51_example : exists f1 f2, prepare_space Debug [xff] 3 = Ok f1 /\ mark_space (K := FrBls) Debug f1 (fr 1) (fr 2) zero_consts 3 = Ok f2 /\ length f2 = 4.
Proof.
  destruct (C51_inverse_table Debug FrBls FrBls_prime_field (fr 1) (fr 2) zero_consts 3 [xff] eq_refl ltac:(lia)) as (f1 & f2 & P & M & L & _).
  exists f1, f2. split; [exact P|]. split; [exact M|]. cbn in L. lia.
Qed.
Example C52_example : exists f1 f2 xs idxs h, prepare_space Debug [xff] 3 = Ok f1 /\ mark_space (K := FrBls) Debug f1 (fr 1) (fr 2) zero_consts 3 = Ok f2 /\
  response_1 (K := FrBls) Debug f2 [5%Z; 0%Z; 7%Z] (fr 1) zero_consts 3 = Ok (xs, idxs, h).
Proof.
  destruct (C52_answers Debug FrBls FrBls_prime_field (fr 1) (fr 2) zero_consts zero_consts 3 [xff] [5; 0; 7] eq_refl eq_refl ltac:(lia) ltac:(repeat constructor; cbn; lia)) as (f1 & f2 & xs & idxs & h & P & M & R & _).
  exists f1, f2. do 3 eexists. split; [exact P|]. split; [exact M|exact R].
Qed.

(** * C55: the Feistel functions *)
(** One round, and the rounds in sequence, as a relation on pairs. *)
Definition round_rel {K : ops} (e : nat) (c : K) (s s' : K * K) : Prop := fst s' = fadd (snd s) (fpow (fadd (fst s) c) e) /\ snd s' = fst s.
Inductive rounds_rel {K : ops} (e : nat) : list K -> K * K -> K * K -> Prop :=
| rounds_nil s : rounds_rel e [] s s
| rounds_cons c cs s s' s'' : round_rel e c s s' -> rounds_rel e cs s' s'' -> rounds_rel e (c :: cs) s s''.

Lemma rounds_feistel (K : ops) (HK : is_ring K) e cs : forall s s', rounds_rel (K := K) e cs s s' <-> s' = feistel e cs s.
Proof.
  assert (ST : forall c s s', round_rel (K := K) e c s s' <-> s' = feistel_round e s c).
  { intros c [l r] [l' r']. unfold round_rel, feistel_round. cbn [fst snd]. rewrite (Radd_comm HK r). split; [intros [-> ->]; reflexivity|intros [= -> ->]; auto]. }
  induction cs as [|c cs IH]; intros s s'; split.
  - inversion 1; reflexivity.
  - intros ->. constructor.
  - inversion 1 as [|? ? ? t ? R RS]; subst. apply ST in R. subst t. apply IH in RS. exact RS.
  - intros ->. econstructor; [now apply ST|]. now apply IH.
Qed.
Theorem C55_mimc3 : forall (K : ops), is_ring K -> forall (xl xr : K) cs y,
  mimc3_df xl xr cs = Ok y <-> length cs = 322 /\ exists z, rounds_rel 3 cs (xl, xr) (y, z).
Proof.
  intros K HK xl xr cs y. destruct (Nat.eq_dec (length cs) 322) as [L|L].
  - rewrite (mimc3_df_ok HK) by exact L. split.
    + intros [= <-]. split; [exact L|]. exists (snd (feistel 3 cs (xl, xr))). apply (rounds_feistel K HK). symmetry. apply surjective_pairing.
    + intros (_ & z & R). apply (rounds_feistel K HK) in R. now rewrite <- R.
  - rewrite (mimc3_df_panic xl xr cs L). split; [discriminate|intros [Q _]; contradiction].
Qed.
Print Assumptions C55_mimc3.
Theorem C55_mimc5 : forall (K : ops), is_ring K -> forall (xl xr : K) cs y,
  mimc5_df xl xr cs = Ok y <-> length cs = 10 /\ exists z, rounds_rel 5 cs (xl, xr) (y, z).
Proof.
  intros K HK xl xr cs y. destruct (Nat.eq_dec (length cs) 10) as [L|L].
  - rewrite (mimc5_df_ok HK) by exact L. split.
    + intros [= <-]. split; [exact L|]. exists (snd (feistel 5 cs (xl, xr))). apply (rounds_feistel K HK). symmetry. apply surjective_pairing.
    + intros (_ & z & R). apply (rounds_feistel K HK) in R. now rewrite <- R.
  - rewrite (mimc5_df_panic xl xr cs L). split; [discriminate|intros [Q _]; contradiction].
Qed.
Print Assumptions C55_mimc5.
Theorem C55_panic_iff : forall (K : ops), is_ring K -> forall (xl xr : K) cs,
  (mimc3_df xl xr cs = Panic <-> length cs <> 322) /\ (mimc5_df xl xr cs = Panic <-> length cs <> 10).
Proof.
  intros K HK xl xr cs. split; split.
  - intros P L. rewrite (mimc3_df_ok HK) in P by exact L. discriminate.
  - apply mimc3_df_panic.
  - intros P L. rewrite (mimc5_df_ok HK) in P by exact L. discriminate.
  - apply mimc5_df_panic.
Qed.
Print Assumptions C55_panic_iff.
(** The rounds are a bijection of pairs: total, functional, injective and onto. *)
Theorem C55_bijection : forall (K : ops), is_ring K -> forall e (cs : list K),
  (forall s, exists s', rounds_rel e cs s s' /\ forall t, rounds_rel e cs s t -> t = s') /\
  (forall s', exists s, rounds_rel e cs s s' /\ forall t, rounds_rel e cs t s' -> t = s).
Proof.
  intros K HK e cs. split.
  - intros s. exists (feistel e cs s). split; [now apply (rounds_feistel K HK)|]. intros t T. now apply (rounds_feistel K HK) in T.
  - intros s'. exists (unfeistel e cs s'). split; [apply (rounds_feistel K HK); now rewrite (feistel_unfeistel HK)|].
    intros t T. apply (rounds_feistel K HK) in T. subst s'. now rewrite (unfeistel_feistel HK).
Qed.
Print Assumptions C55_bijection.
Example C55_example : match mimc5_df (K := FrBls) (fr 1) (fr 2) [fr 1; fr 2; fr 3; fr 4; fr 5; fr 6; fr 7; fr 8; fr 9; fr 10] with Ok y => negb (repr y =? 0)%Z | Panic => false end = true.
Proof. vm_compute. reflexivity. Qed.

(** * C64: verify *)
Theorem C64_contract : forall (K : prime_ops) (PVK PROOF : Type) (backend : PVK -> PROOF -> list K -> verdict) pvk proof key m challenges idxs x_hash,
  verify backend pvk proof key m challenges idxs x_hash = Ok tt <->
  exists yns b, Forall2 (fun i yn => nth_error challenges i = Some yn) idxs yns /\
    backend pvk proof (key :: m :: map of_Z yns ++ [x_hash]) = VOk b.
Proof.
  intros K PVK PROOF backend pvk proof key m challenges idxs x_hash.
  assert (M : (exists yns, Forall2 (fun i yn => nth_error challenges i = Some yn) idxs yns /\
      mapM (fun i => let* yn := index challenges i in Ok (of_Z yn : K)) idxs = Ok (map of_Z yns)) \/
    ((forall yns, ~ Forall2 (fun i yn => nth_error challenges i = Some yn) idxs yns) /\ mapM (fun i => let* yn := index challenges i in Ok (of_Z yn : K)) idxs = Panic)).
  { induction idxs as [|i idxs IH]; [left; exists []; split; [constructor|reflexivity]|]. cbn [mapM]. unfold index at 1 3. destruct (nth_error challenges i) as [yn|] eqn:E; cbn [bind].
    - destruct IH as [(yns & F & ->)|(N & ->)]; cbn [bind].
      + left. exists (yn :: yns). split; [now constructor|reflexivity].
      + right. split; [|reflexivity]. intros l F. inversion F; subst. eapply N. eassumption.
    - right. split; [|reflexivity]. intros l F. inversion F; subst. congruence. }
  unfold verify, verify_input. destruct M as [(yns & F & ->)|(N & ->)]; cbn [bind].
  - cbn [app]. split.
    + destruct (backend _ _ _) as [b|] eqn:B; [|discriminate]. intros _. now exists yns, b.
    + intros (yns' & b & F' & B). assert (yns' = yns) as ->.
      { clear B. revert yns F yns' F'. induction idxs as [|i idxs IH]; intros yns F yns' F'; inversion F; inversion F'; subst; [reflexivity|]. f_equal; [congruence|now apply IH]. }
      now rewrite B.
  - split; [discriminate|]. intros (yns & b & F & _). now apply N in F.
Qed.
Print Assumptions C64_contract.
(** A proof that the backend judges invalid is accepted: the outcome does not depend on the judgement. *)
Theorem C64_invalid_accepted_refuted : forall (K : prime_ops) (PVK PROOF : Type) (judge : PVK -> PROOF -> list K -> bool) pvk proof key m challenges idxs x_hash,
  Forall (fun i => i < length challenges) idxs ->
  verify (fun p q i => VOk (judge p q i)) pvk proof key m challenges idxs x_hash = Ok tt.
Proof.
  intros K PVK PROOF judge pvk proof key m challenges idxs x_hash F. apply C64_contract.
  exists (map (fun i => nth i challenges 0%Z) idxs). eexists. split; [|reflexivity].
  induction F as [|i idxs I F IH]; [constructor|]. cbn [map]. constructor; [now apply nth_error_nth'|exact IH].
Qed.
Print Assumptions C64_invalid_accepted_refuted.
(** With a backend that fails exactly on a wrong number of inputs, only the number of responses matters. *)
Theorem C64_arity : forall (K : prime_ops) (PVK PROOF : Type) (arity : PVK -> nat) (backend : PVK -> PROOF -> list K -> verdict),
  (forall pvk proof input, backend pvk proof input = VErr <-> length input <> arity pvk) ->
  forall pvk proof key m challenges idxs x_hash,
  verify backend pvk proof key m challenges idxs x_hash = Ok tt <-> Forall (fun i => i < length challenges) idxs /\ length idxs + 3 = arity pvk.
Proof.
  intros K PVK PROOF arity backend A pvk proof key m challenges idxs x_hash. rewrite C64_contract. split.
  - intros (yns & b & F & B). split.
    + clear B. induction F; constructor; [|assumption]. apply nth_error_Some. congruence.
    + pose proof (A pvk proof (key :: m :: map of_Z yns ++ [x_hash])) as [_ A2]. cbn [length] in A2. rewrite app_length, map_length in A2. cbn [length] in A2.
      assert (length idxs = length yns) as -> by (clear - F; induction F; cbn [length]; lia). destruct (Nat.eq_dec (S (S (length yns + 1))) (arity pvk)) as [|N]; [lia|]. specialize (A2 N). congruence.
  - intros (F & L). exists (map (fun i => nth i challenges 0%Z) idxs).
    destruct (backend pvk proof (key :: m :: map of_Z (map (fun i => nth i challenges 0%Z) idxs) ++ [x_hash])) as [b|] eqn:B.
    + exists b. split; [|reflexivity]. clear - F. induction F as [|i idxs I F IH]; [constructor|]. cbn [map]. constructor; [now apply nth_error_nth'|exact IH].
    + apply A in B. cbn [length] in B. rewrite app_length, !map_length in B. cbn [length] in B. lia.
Qed.
Print Assumptions C64_arity.
Example C64_example : verify (K := FrBls) (fun (_ : unit) (_ : unit) i => if length i =? 5 then VOk false else VErr) tt tt (fr 1) (fr 2) [7%Z; 8%Z] [0; 1] (fr 3) = Ok tt.
Proof. reflexivity. Qed.

(** * C65: challenges *)
Theorem C65_range : forall pr rnd n e, e <= 63 -> exists cs, create_challenges pr rnd n e = Ok cs /\ length cs = n /\
  Forall (fun c => (0 <= c < 2 ^ Z.of_nat e)%Z) cs.
Proof.
  intros pr rnd n e E. exists (map (fun i => val (map (rnd i) (seq 0 e))) (seq 0 n)). split.
  - unfold create_challenges. generalize (seq 0 n) as l. induction l as [|i l IH]; [reflexivity|]. cbn [mapM map]. rewrite bits_to_usize_val by (rewrite map_length, seq_length; lia). cbn [bind]. now rewrite IH.
  - split; [now rewrite map_length, seq_length|]. apply Forall_forall. intros c I. apply in_map_iff in I. destruct I as (i & <- & _). pose proof (val_bounds (map (rnd i) (seq 0 e))) as V. now rewrite map_length, seq_length in V.
Qed.
Print Assumptions C65_range.
Theorem C65_every_list : forall pr e cs, e <= 63 -> Forall (fun c => (0 <= c < 2 ^ Z.of_nat e)%Z) cs ->
  exists rnd, create_challenges pr rnd (length cs) e = Ok cs.
Proof.
  intros pr e cs E F. exists (fun i j => nth j (byte_bits_loop e (nth i cs 0%Z)) false). unfold create_challenges.
  assert (M : forall i, map (fun j => nth j (byte_bits_loop e (nth i cs 0%Z)) false) (seq 0 e) = byte_bits_loop e (nth i cs 0%Z)).
  { intros i. set (l := byte_bits_loop e (nth i cs 0%Z)). assert (L : length l = e) by apply bits_loop_length. rewrite <- L at 1. clear. induction l as [|b l IH] using rev_ind; [reflexivity|].
    rewrite app_length, seq_app, map_app. cbn [length seq map Nat.add]. f_equal.
    - rewrite <- IH at 2. apply map_ext_in. intros j J. apply in_seq in J. rewrite app_nth1 by lia. reflexivity.
    - rewrite app_nth2, Nat.sub_diag by lia. reflexivity. }
  assert (G : forall pre post, cs = pre ++ post -> mapM (fun i => bits_to_usize pr (map (fun j => nth j (byte_bits_loop e (nth i cs 0%Z)) false) (seq 0 e))) (seq (length pre) (length post)) = Ok post).
  { intros pre post. revert pre. induction post as [|c post IH]; intros pre Q; [reflexivity|]. cbn [length seq mapM]. rewrite M, bits_to_usize_val by (rewrite bits_loop_length; lia).
    assert (N : nth (length pre) cs 0%Z = c) by (rewrite Q, app_nth2, Nat.sub_diag by lia; reflexivity). rewrite N.
    assert (C : (0 <= c < 2 ^ Z.of_nat e)%Z) by (rewrite Forall_forall in F; apply F; rewrite Q; apply in_or_app; right; now left).
    rewrite bits_loop_val, Z.mod_small by lia. cbn [bind]. specialize (IH (pre ++ [c])). rewrite app_length in IH. cbn [length] in IH. replace (length pre + 1) with (S (length pre)) in IH by lia.
    rewrite IH; [reflexivity|]. now rewrite <- app_assoc. }
  exact (G [] cs eq_refl).
Qed.
Print Assumptions C65_every_list.
Theorem C65_wide_panics : forall rnd n e, 64 <= e -> 0 < n -> create_challenges Debug rnd n e = Panic.
Proof.
  intros rnd n e E N. destruct n; [lia|]. unfold create_challenges. cbn [seq mapM]. rewrite bits_to_usize_panic by (rewrite map_length, seq_length; lia). reflexivity.
Qed.
Print Assumptions C65_wide_panics.
Example C65_example : create_challenges Debug (fun i j => Nat.even (i + j)) 2 4 = Ok [5%Z; 10%Z].
Proof. reflexivity. Qed.
