(** Counting the outcomes of the random challenges of the proof of space. *)
From Verif Require Import Base Convert Space Chance BytesFacts ConvertFacts SpaceFacts ChanceFacts.
Local Open Scope nat_scope.

(** All outcomes of the random bits for n challenges of e bits: gen_range(0..2) makes them
    equally likely (proof_of_space verifier.rs 19-24). *)
Definition tables (n e : nat) : list (list (list bool)) := tuples (tuples [false; true] e) n.
(** An outcome as the random choices the model reads. *)
Definition stream (t : list (list bool)) (i j : nat) : bool := nth j (nth i t []) false.
(** The number of ways to get at least k hits in L trials with a hits and b misses each. *)
Definition tail (L k a b : nat) : nat := list_sum (map (fun j => binom L j * a ^ j * b ^ (L - j)) (seq k (L + 1 - k))).

(** * Hits in a sequence of trials *)
Lemma count_cons {A} (q : A -> bool) x k : count q (x :: k) = (if q x then 1 else 0) + count q k.
Proof. unfold count. cbn. now destruct (q x). Qed.
Section Hits.
Context {A : Type} (p : A -> bool) (l : list A).
Let a := count p l.
Let b := length l - a.
Lemma count_le_length (q : A -> bool) (k : list A) : count q k <= length k.
Proof. unfold count. induction k as [|x k IH]; cbn; [lia|]. destruct (q x); cbn; lia. Qed.
Lemma count_both (k : list A) : count p k + count (fun x => negb (p x)) k = length k.
Proof. induction k as [|x k IH]; [reflexivity|]. rewrite !count_cons. destruct (p x); cbn; lia. Qed.
Lemma count_miss : count (fun x => negb (p x)) l = b.
Proof. unfold b, a. pose proof (count_both l). lia. Qed.
Lemma count_step (r : bool -> list A -> bool) (T : list (list A)) :
  count (fun w => match w with [] => false | x :: w' => r (p x) w' end) (flat_map (fun w => map (fun x => x :: w) l) T) = a * count (r true) T + b * count (r false) T.
Proof.
  rewrite <- count_miss. unfold a. induction T as [|w T IH]; [cbn; lia|]. cbn [flat_map]. unfold count at 1. rewrite filter_app, app_length. fold (count (fun w => match w with [] => false | x :: w' => r (p x) w' end) (flat_map (fun w => map (fun x => x :: w) l) T)).
  rewrite IH, !count_cons. clear IH.
  assert (E : length (filter (fun w => match w with [] => false | x :: w' => r (p x) w' end) (map (fun x => x :: w) l)) = count p l * (if r true w then 1 else 0) + count (fun x => negb (p x)) l * (if r false w then 1 else 0)).
  { clear. induction l as [|x k IH]; [reflexivity|]. cbn [map filter]. rewrite !count_cons. destruct (p x); cbn [negb]; [destruct (r true w)|destruct (r false w)]; cbn [length]; lia. }
  rewrite E. lia.
Qed.
Lemma exact_hits L : forall k, count (fun w => count p w =? k) (tuples l L) = binom L k * a ^ k * b ^ (L - k).
Proof.
  induction L as [|L IH]; intros k.
  - cbn [tuples]. destruct k; reflexivity.
  - cbn [tuples]. rewrite (count_ext _ (fun w => match w with [] => false | x :: w' => (if p x then 1 else 0) + count p w' =? k end)).
    2:{ intros w W. apply in_flat_map in W as (w' & _ & W). apply in_map_iff in W as (x & <- & _). now rewrite count_cons. }
    rewrite (count_step (fun h w => (if h then 1 else 0) + count p w =? k)). cbn [Nat.add]. rewrite (IH k). destruct k as [|k].
    + rewrite (count_ext _ (fun _ => false)) by reflexivity. unfold count at 1. rewrite (filter_none (fun _ => false)) by (apply Forall_forall; reflexivity).
      rewrite !binom_0, !Nat.sub_0_r. cbn [length Nat.pow]. lia.
    + rewrite (count_ext _ (fun w => count p w =? k)) by reflexivity. rewrite IH. cbn [binom Nat.pow Nat.sub]. destruct (Nat.le_gt_cases (S k) L) as [C|C].
      * replace (L - k) with (S (L - S k)) by lia. cbn [Nat.pow]. ring.
      * rewrite (binom_zero L (S k)) by lia. ring.
Qed.
Lemma range_hits L k : forall d, count (fun w => (k <=? count p w) && (count p w <? k + d)) (tuples l L) = list_sum (map (fun j => binom L j * a ^ j * b ^ (L - j)) (seq k d)).
Proof.
  induction d as [|d IH].
  - rewrite (count_ext _ (fun _ => false)); [unfold count; rewrite filter_none; [reflexivity|]; apply Forall_forall; reflexivity|]. intros w _.
    destruct (Nat.leb_spec k (count p w)), (Nat.ltb_spec (count p w) (k + 0)); auto; lia.
  - rewrite seq_S, map_app, list_sum_app. cbn [map list_sum fold_right]. rewrite <- IH, <- exact_hits. rewrite (count_split _ (fun w => count p w <? k + d) (tuples l L)). rewrite Nat.add_0_r. f_equal; apply count_ext; intros w _.
    + destruct (Nat.leb_spec k (count p w)), (Nat.ltb_spec (count p w) (k + S d)), (Nat.ltb_spec (count p w) (k + d)); auto; lia.
    + destruct (Nat.leb_spec k (count p w)), (Nat.ltb_spec (count p w) (k + S d)), (Nat.ltb_spec (count p w) (k + d)), (Nat.eqb_spec (count p w) (k + d)); auto; lia.
Qed.
Theorem enough_hits L k : count (fun w => k <=? count p w) (tuples l L) = tail L k a b.
Proof.
  unfold tail. rewrite <- range_hits. apply count_ext. intros w W. apply tuples_In in W as (W & _). pose proof (count_le_length p w) as C.
  destruct (Nat.leb_spec k (count p w)), (Nat.ltb_spec (count p w) (k + (L + 1 - k))); auto; lia.
Qed.
Lemma enough_rec L k : count (fun w => S k <=? count p w) (tuples l (S L)) = a * count (fun w => k <=? count p w) (tuples l L) + b * count (fun w => S k <=? count p w) (tuples l L).
Proof.
  cbn [tuples]. rewrite (count_ext _ (fun w => match w with [] => false | x :: w' => S k <=? (if p x then 1 else 0) + count p w' end)).
  2:{ intros w W. apply in_flat_map in W as (w' & _ & W). apply in_map_iff in W as (x & <- & _). now rewrite count_cons. }
  rewrite (count_step (fun h w => S k <=? (if h then 1 else 0) + count p w)). reflexivity.
Qed.
Lemma all_words (q : list A -> bool) L : (forall w, q w = true) -> count q (tuples l L) = length l ^ L.
Proof. intros E. rewrite <- tuples_length. unfold count. f_equal. induction (tuples l L) as [|w T IH]; [reflexivity|]. cbn. now rewrite E, IH. Qed.
(** The union bound over the k hits. *)
Theorem hits_bound L : forall k, tail L k a b * length l ^ k <= binom L k * a ^ k * length l ^ L.
Proof.
  assert (AB : b <= length l) by (unfold b; lia). induction L as [|L IH]; intros k; [destruct k; cbn; lia|].
  rewrite <- enough_hits. destruct k as [|k]; [rewrite all_words by reflexivity; rewrite binom_0; cbn [Nat.pow]; lia|].
  rewrite enough_rec, !enough_hits. pose proof (IH k) as I1. pose proof (IH (S k)) as I2. cbn [binom Nat.pow] in *. set (N := length l) in *. clearbody a b N. clear - AB I1 I2.
  set (x := tail L k a b) in *. set (y := tail L (S k) a b) in *. rewrite Nat.mul_add_distr_r.
  apply (Nat.mul_le_mono_l _ _ (a * N)) in I1. apply (Nat.mul_le_mono_l _ _ b) in I2.
  assert (I3 : b * (binom L (S k) * (a * a ^ k) * N ^ L) <= N * (binom L (S k) * (a * a ^ k) * N ^ L)) by now apply Nat.mul_le_mono_r.
  replace (a * x * (N * N ^ k)) with (a * N * (x * N ^ k)) by ring. replace (b * y * (N * N ^ k)) with (b * (y * (N * N ^ k))) by ring.
  replace ((binom L k + binom L (S k)) * (a * a ^ k) * (N * N ^ L)) with (a * N * (binom L k * a ^ k * N ^ L) + N * (binom L (S k) * (a * a ^ k) * N ^ L)) by ring. lia.
Qed.
End Hits.
Lemma binom_pow n : forall k, binom n k <= 2 ^ n.
Proof. induction n as [|n IH]; intros [|k]; cbn [binom Nat.pow]; try (pose proof (IH k); pose proof (IH (S k)); lia); try lia. pose proof (Nat.pow_nonzero 2 n). lia. Qed.
Lemma binom_full n : binom n n = 1.
Proof. induction n as [|n IH]; [reflexivity|]. cbn [binom]. rewrite IH, (binom_zero n (S n)) by lia. lia. Qed.
Lemma binom_sym n : forall k, k <= n -> binom n k = binom n (n - k).
Proof.
  induction n as [|n IH]; intros [|k] K; try (rewrite ?Nat.sub_0_r, ?binom_0, ?binom_full; reflexivity); [lia|].
  destruct (Nat.eq_dec (S k) (S n)) as [E|N]; [rewrite E, Nat.sub_diag, binom_full, binom_0; reflexivity|].
  replace (S n - S k) with (S (n - S k)) by lia. cbn [binom]. rewrite (IH k), (IH (S k)) by lia. replace (S (n - S k)) with (n - k) by lia. lia.
Qed.
(** With at least as many hits as misses, half of the sequences have at least half hits. *)
Lemma term_swap a b : b <= a -> forall j k, j <= k -> b ^ k * a ^ j <= a ^ k * b ^ j.
Proof.
  intros LE j k JK. replace k with (j + (k - j)) by lia. rewrite !Nat.pow_add_r. pose proof (Nat.pow_le_mono_l b a (k - j) LE) as P.
  apply (Nat.mul_le_mono_l _ _ (a ^ j * b ^ j)) in P. lia.
Qed.
Lemma list_sum_le {A} (f g : A -> nat) l : (forall x, In x l -> f x <= g x) -> list_sum (map f l) <= list_sum (map g l).
Proof. induction l as [|x l IH]; intros E; [reflexivity|]. cbn. pose proof (E x (or_introl eq_refl)). assert (list_sum (map f l) <= list_sum (map g l)) by (apply IH; intros; apply E; now right). unfold list_sum in *. lia. Qed.
Lemma list_sum_rev (f : nat -> nat) n : list_sum (map f (seq 0 (S n))) = list_sum (map (fun j => f (n - j)) (seq 0 (S n))).
Proof.
  assert (G : forall m, m <= S n -> list_sum (map f (seq 0 m)) = list_sum (map (fun j => f (n - j)) (seq (S n - m) m))).
  { induction m as [|m IH]; intros M; [reflexivity|]. rewrite seq_S, map_app, list_sum_app, IH by lia. replace (S n - m) with (S (S n - S m)) by lia. cbn [seq map list_sum fold_right Nat.add].
    replace (n - (S n - S m)) with m by lia. unfold list_sum. lia. }
  rewrite (G (S n)) by lia. now rewrite Nat.sub_diag.
Qed.
Lemma half_hits n a b : b <= a -> tail (2 * n) 0 a b <= 2 * tail (2 * n) n a b.
Proof.
  intros LE. unfold tail. set (t := fun j => binom (2 * n) j * a ^ j * b ^ (2 * n - j)).
  assert (S1 : seq 0 (2 * n + 1 - 0) = seq 0 n ++ seq n (2 * n + 1 - n)) by (rewrite <- seq_app; f_equal; lia). rewrite S1, map_app, list_sum_app.
  assert (L : list_sum (map t (seq 0 n)) <= list_sum (map t (seq n (2 * n + 1 - n)))).
  { assert (R : list_sum (map t (seq n (2 * n + 1 - n))) = list_sum (map (fun j => t (2 * n - j)) (seq 0 (S n)))).
    { replace (2 * n + 1 - n) with (S n) by lia. assert (E : seq n (S n) = map (fun j => n + j) (seq 0 (S n))).
      { generalize (S n). intros m. clear. induction m as [|m IH]; [reflexivity|]. rewrite !seq_S, map_app, IH. reflexivity. }
      rewrite E, map_map, (list_sum_rev (fun j => t (n + j))). f_equal. apply map_ext_in. intros j J. apply in_seq in J. f_equal. lia. }
    rewrite R, seq_S, map_app, list_sum_app. cbn [Nat.add]. transitivity (list_sum (map (fun j => t (2 * n - j)) (seq 0 n))); [|lia]. apply list_sum_le. intros j J. apply in_seq in J. unfold t.
    replace (2 * n - (2 * n - j)) with j by lia. rewrite <- (binom_sym (2 * n) j) by lia. rewrite <- !Nat.mul_assoc. apply Nat.mul_le_mono_l. pose proof (term_swap a b LE j (2 * n - j) ltac:(lia)). lia. }
  lia.
Qed.

(** * The values of the challenges *)
Lemma bits_In e w : In w (tuples [false; true] e) <-> length w = e.
Proof.
  rewrite tuples_In. split; [tauto|]. intros E. split; [exact E|]. apply Forall_forall. intros [] _; cbn; auto.
Qed.
Definition nval (w : list bool) : nat := Z.to_nat (val w).
Lemma nval_lt e w : length w = e -> nval w < 2 ^ e.
Proof. intros <-. pose proof (val_bounds w) as V. unfold nval. apply Nat2Z.inj_lt. rewrite Z2Nat.id, Nat2Z.inj_pow by lia. apply V. Qed.
Lemma nval_inj w v : length w = length v -> nval w = nval v -> w = v.
Proof. intros L E. apply val_inj; [exact L|]. pose proof (val_bounds w). pose proof (val_bounds v). unfold nval in E. lia. Qed.
Lemma nval_onto e y : y < 2 ^ e -> nval (byte_bits_loop e (Z.of_nat y)) = y.
Proof.
  intros Y. unfold nval. rewrite bits_loop_val by lia. rewrite Z.mod_small; [apply Nat2Z.id|]. split; [lia|]. change 2%Z with (Z.of_nat 2). rewrite <- Nat2Z.inj_pow. lia.
Qed.
Lemma count_values (p : nat -> bool) e (good : list nat) : NoDup good -> (forall y, In y good <-> y < 2 ^ e /\ p y = true) ->
  count (fun w => p (nval w)) (tuples [false; true] e) = length good.
Proof.
  intros N G. unfold count. rewrite <- (map_length nval). assert (ND : NoDup (map nval (filter (fun w => p (nval w)) (tuples [false; true] e)))).
  { apply NoDup_map_inj.
    - intros w v W V. apply filter_In in W as (W & _), V as (V & _). apply bits_In in W, V. apply nval_inj. congruence.
    - apply NoDup_filter, tuples_NoDup. repeat constructor; cbn; intuition discriminate. }
  apply Nat.le_antisymm; apply NoDup_incl_length; auto.
  - intros y Y. apply in_map_iff in Y as (w & <- & W). apply filter_In in W as (W & P). apply bits_In in W. apply G. split; [now apply nval_lt|exact P].
  - intros y Y. apply G in Y as (Y & P). apply in_map_iff. exists (byte_bits_loop e (Z.of_nat y)). pose proof (nval_onto e y Y) as E. split; [exact E|].
    apply filter_In. split; [apply bits_In, bits_loop_length|]. now rewrite E.
Qed.
Lemma tables_In n e t : In t (tables n e) <-> length t = n /\ Forall (fun w => length w = e) t.
Proof.
  unfold tables. rewrite tuples_In, !Forall_forall. split; intros (L & F); (split; [exact L|]); intros w W; now apply bits_In, F.
Qed.
Lemma tables_NoDup n e : NoDup (tables n e).
Proof. apply tuples_NoDup, tuples_NoDup. repeat constructor; cbn; intuition discriminate. Qed.
Lemma tables_length n e : length (tables n e) = (2 ^ e) ^ n.
Proof. unfold tables. now rewrite !tuples_length. Qed.
Lemma map_nth_seq {A} (l : list A) d : map (fun i => nth i l d) (seq 0 (length l)) = l.
Proof.
  induction l as [|x l IH] using rev_ind; [reflexivity|]. rewrite app_length, seq_app, map_app. cbn [length seq map Nat.add]. f_equal.
  - rewrite <- IH at 2. apply map_ext_in. intros j J. apply in_seq in J. rewrite app_nth1 by lia. reflexivity.
  - rewrite app_nth2, Nat.sub_diag by lia. reflexivity.
Qed.
Lemma stream_challenges pr n e t : e <= 63 -> In t (tables n e) -> create_challenges pr (stream t) n e = Ok (map (fun w => Z.of_nat (nval w)) t).
Proof.
  intros E I. apply tables_In in I as (L & F). unfold create_challenges.
  assert (V : mapM (fun i => bits_to_usize pr (map (stream t i) (seq 0 e))) (seq 0 n) = Ok (map (fun i => Z.of_nat (nval (nth i t []))) (seq 0 n))).
  { assert (P : forall l, Forall (fun i => i < n) l -> mapM (fun i => bits_to_usize pr (map (stream t i) (seq 0 e))) l = Ok (map (fun i => Z.of_nat (nval (nth i t []))) l)).
    { induction l as [|i l IH]; intros FL; [reflexivity|]. inversion FL as [|? ? I FL']; subst. cbn [mapM map].
      assert (W : length (nth i t []) = e) by (rewrite Forall_forall in F; apply F, nth_In; lia).
      assert (Q : map (stream t i) (seq 0 e) = nth i t []) by (rewrite <- W; apply map_nth_seq). rewrite Q, bits_to_usize_val by lia. cbn [bind]. rewrite (IH FL'). cbn [bind].
      unfold nval. rewrite Z2Nat.id by (apply val_bounds). reflexivity. }
    apply P. apply Forall_forall. intros i I. apply in_seq in I. lia. }
  rewrite V. f_equal. subst n. rewrite <- (map_map (fun i => nth i t []) (fun w => Z.of_nat (nval w))). now rewrite map_nth_seq.
Qed.
Lemma count_map {A B} (f : A -> B) (p : B -> bool) l : count p (map f l) = count (fun x => p (f x)) l.
Proof. unfold count. induction l as [|x l IH]; [reflexivity|]. cbn. destruct (p (f x)); cbn; congruence. Qed.
Lemma count_index {A} (p : A -> bool) (l : list A) d : length (filter (fun i => p (nth i l d)) (seq 0 (length l))) = count p l.
Proof. transitivity (count p (map (fun i => nth i l d) (seq 0 (length l)))); [now rewrite count_map|now rewrite map_nth_seq]. Qed.
(** A slot that is flagged begins inside the file. *)
Lemma flag_inside f n y : flag_at f n y = true -> (n + 1) * y < 8 * length f.
Proof.
  intros F. destruct (Nat.lt_ge_cases ((n + 1) * y) (8 * length f)) as [|C]; [assumption|]. exfalso. unfold flag_at, slot_read in F. set (p := (n + 1) * y) in *.
  assert (B : length f <= p / 8) by (apply Nat.div_le_lower_bound; lia).
  assert (Z : map (byte_seen f (p / 8)) (seq (p / 8) (n + 2)) = zeros (n + 2)).
  { unfold zeros. assert (G : forall k s, length f <= s -> map (byte_seen f (p / 8)) (seq s k) = repeat x00 k).
    { induction k as [|k IH]; intros s' S'; [reflexivity|]. cbn [seq map repeat]. rewrite IH by lia. f_equal. unfold byte_seen. destruct (Nat.ltb_spec s' (length f)); [lia|]. destruct (Nat.ltb_spec (p / 8) (length f)); [lia|reflexivity]. }
    now apply G. }
  rewrite Z, zeros_bits, skipn_repeat, firstn_repeat in F.
  assert (G : forall k i, nth i (repeat false k) false = false) by (induction k as [|k IH]; intros [|i]; cbn; auto). rewrite G in F. discriminate.
Qed.
