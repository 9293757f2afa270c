(** Property C111: the answers of a space do not show that the space is there.
    Vocabulary: [thrifty_mark], [thrifty_ask], [bare_ask] and [response_by] from Thrifty. *)
From Coq Require Import Strings.Byte.
From Verif Require Import Base BytesFacts Field Mimc MimcFacts Convert ConvertFacts Space SpaceFacts FrField FrFacts PropSpace Thrifty.
Local Open Scope nat_scope.

(** * Marking slots of any width *)
Definition held (g : nat -> nat) (code : nat -> list bool) (w X y : nat) (s : list bool) : Prop :=
  (exists x, x < X /\ g x = y /\ (forall x', x < x' < X -> g x' <> y) /\ s = code x ++ [true]) \/
  ((forall x, x < X -> g x <> y) /\ s = repeat false (w + 1)).
Lemma mark_any pr w N (g : nat -> nat) (code : nat -> list bool) (step : file -> nat -> res file) :
  (Z.of_nat ((w + 1) * N) <= two64)%Z -> (forall x, g x < N) -> (forall x, length (code x) = w) ->
  (forall f x, step f x = mark_slot pr w f (Z.of_nat (g x)) (code x ++ [true])) ->
  forall X f, (w + 1) * N <= 8 * length f -> (forall y, y < N -> slot f w y = repeat false (w + 1)) ->
  exists f', foldM step (seq 0 X) f = Ok f' /\ length f' = length f /\ forall y, y < N -> held g code w X y (slot f' w y).
Proof.
  intros U G LC ST X f LF Z0. induction X as [|X IH].
  - exists f. split; [reflexivity|]. split; [reflexivity|]. intros y Y. right. split; [lia|auto].
  - destruct IH as (f1 & R & L1 & S1). rewrite seq_S. cbn [Nat.add].
    assert (FA : forall l1 l2 s, foldM step (l1 ++ l2) s = let* s := foldM step l1 s in foldM step l2 s).
    { induction l1 as [|x l1 IH1]; intros; cbn [app foldM bind]; [reflexivity|]. destruct (step s x); cbn [bind]; auto. }
    rewrite FA, R. cbn [bind foldM]. rewrite ST. specialize (G X).
    assert (B : (w + 1) * (g X + 1) <= (w + 1) * N) by (apply Nat.mul_le_mono_l; lia).
    destruct (mark_slot_slots pr w f1 (g X) (code X ++ [true])) as (f2 & E & L2 & SE & SO); [now rewrite app_length, LC|lia|lia|].
    rewrite E. cbn [bind]. exists f2. split; [reflexivity|]. split; [lia|]. intros y Y. destruct (Nat.eq_dec y (g X)) as [->|NE].
    + left. exists X. split; [lia|]. split; [reflexivity|]. split; [lia|exact SE].
    + rewrite SO by exact NE. destruct (S1 y Y) as [(x & A & C & D & E')|(A & C)].
      * left. exists x. split; [lia|]. split; [exact C|]. split; [|exact E']. intros x' X'. destruct (Nat.eq_dec x' X) as [->|]; [congruence|]. apply D. lia.
      * right. split; [|exact C]. intros x X'. destruct (Nat.eq_dec x X) as [->|]; [congruence|]. apply A. lia.
Qed.

Section P.
Context {K : prime_ops} (pr : profile) (key m : K) (consts : list K) (n : nat) (dfv : nat -> K).
Hypothesis RP : forall z : K, (0 <= repr z)%Z.
Hypothesis HD : forall x, mimc5_df (fadd (of_Z (Z.of_nat x)) key) m consts = Ok (dfv x).
Hypothesis N : 3 <= n <= 58.
Notation g := (fun x => low_bits n (dfv x)).

(** * Searching *)
Lemma search_top y lo : forall c, exists r w, search key m consts n y lo c = Ok (r, w) /\ w <= c /\
  match r with
  | Some x => lo <= x < lo + c /\ g x = y /\ forall x', x < x' < lo + c -> g x' <> y
  | None => forall x, lo <= x < lo + c -> g x <> y
  end.
Proof using HD.
  clear RP N.
  induction c as [|c IH]; [exists None, 0; repeat split; intros; lia|]. cbn [search]. rewrite HD. cbn [bind].
  destruct (Nat.eqb_spec (low_bits n (dfv (lo + c))) y) as [E|E].
  - exists (Some (lo + c)), 1. repeat split; try lia; auto.
  - destruct IH as (r & w & S1 & W & R). rewrite S1. cbn [bind]. exists r, (S w). split; [reflexivity|]. split; [lia|]. destruct r as [x|].
    + destruct R as (B & G & T). repeat split; try lia; auto. intros x' X'. destruct (Nat.eq_dec x' (lo + c)) as [->|]; [exact E|]. apply T. lia.
    + intros x X. destruct (Nat.eq_dec x (lo + c)) as [->|]; [exact E|]. apply R. lia.
Qed.
Lemma search_found y lo c x : lo <= x < lo + c -> g x = y -> (forall x', x < x' < lo + c -> g x' <> y) ->
  exists w, search key m consts n y lo c = Ok (Some x, w) /\ w <= c.
Proof using HD.
  clear RP N.
  intros X G T. destruct (search_top y lo c) as (r & w & S1 & W & R). exists w. split; [|exact W]. rewrite S1. do 2 f_equal. destruct r as [x'|].
  - destruct R as (B & G' & T'). f_equal. destruct (Nat.lt_total x x') as [L|[E|L]]; [exfalso; now apply (T x'); [lia|]|now symmetry|exfalso; now apply (T' x); [lia|]].
  - exfalso. now apply (R x).
Qed.

(** * What the cut slots hold *)
Section Cut.
Context (k : nat) (KN : k <= n).
Lemma width_fits w : w <= n -> (Z.of_nat ((w + 1) * 2 ^ n) < two64)%Z.
Proof using N. clear k KN. intros W. pose proof (space_fits n (proj2 N)). assert ((w + 1) * 2 ^ n <= (n + 1) * 2 ^ n) by (apply Nat.mul_le_mono_r; lia). lia. Qed.
Lemma width_divides w : 8 * ((w + 1) * 2 ^ n / 8) = (w + 1) * 2 ^ n.
Proof.
  replace n with (3 + (n - 3)) by lia. rewrite Nat.pow_add_r. change (2 ^ 3) with 8. replace ((w + 1) * (8 * 2 ^ (n - 3))) with ((w + 1) * 2 ^ (n - 3) * 8) by ring.
  rewrite Nat.div_mul by lia. ring.
Qed.
Lemma to_bits w z : usize_to_bits (Z.of_nat z) w = Some (Ok (int_bits w z)) \/ w = 0.
Proof. destruct w as [|w]; [now right|left]. apply usize_to_bits_ok; lia. Qed.
Lemma high_bits x : x < 2 ^ n -> usize_to_bits (Z.of_nat (x / 2 ^ k)) (n - k) = Some (Ok (int_bits (n - k) (x / 2 ^ k))).
Proof.
  intros X. destruct (to_bits (n - k) (x / 2 ^ k)) as [E|E]; [exact E|]. rewrite E. assert (k = n) by lia. subst k. rewrite Nat.div_small by exact X. reflexivity.
Qed.
Lemma thrifty_table : exists t, thrifty_mark pr key m consts n k = Ok t /\ 8 * length t = (n - k + 1) * 2 ^ n /\
  forall y, y < 2 ^ n -> held g (fun x => int_bits (n - k) (x / 2 ^ k)) (n - k) (2 ^ n) y (slot t (n - k) y).
Proof.
  unfold thrifty_mark. set (t0 := zeros ((n - k + 1) * 2 ^ n / 8)). assert (L0 : 8 * length t0 = (n - k + 1) * 2 ^ n) by (unfold t0, zeros; rewrite repeat_length; apply width_divides).
  destruct (mark_any pr (n - k) (2 ^ n) g (fun x => int_bits (n - k) (x / 2 ^ k)) (fun f x => mark_slot pr (n - k) f (Z.of_nat (g x)) (int_bits (n - k) (x / 2 ^ k) ++ [true]))) with (X := 2 ^ n) (f := t0) as (t & R & L & S1).
  - pose proof (width_fits (n - k)). lia.
  - intros x. apply low_bits_lt.
  - intros x. apply int_bits_length.
  - reflexivity.
  - lia.
  - intros y Y. apply slot_zeros. rewrite width_divides. apply Nat.mul_le_mono_l. lia.
  - exists t. split; [|split; [lia|exact S1]]. rewrite <- R. clear R L S1.
    assert (Q : forall l f, (forall x, In x l -> x < 2 ^ n) ->
      foldM (fun f x => let* (y, _) := mark_target pr key m consts n (Z.of_nat x) in match usize_to_bits (Z.of_nat (x / 2 ^ k)) (n - k) with Some (Ok b) => mark_slot pr (n - k) f y (b ++ [true]) | _ => Panic end) l f
      = foldM (fun f x => mark_slot pr (n - k) f (Z.of_nat (g x)) (int_bits (n - k) (x / 2 ^ k) ++ [true])) l f).
    { induction l as [|x l IH]; intros f B; [reflexivity|]. cbn [foldM]. rewrite (mark_target_ok pr key m consts n x (dfv x) RP ltac:(lia) (HD x)). cbn [bind].
      rewrite high_bits by (apply B; now left). destruct (mark_slot pr (n - k) f (Z.of_nat (low_bits n (dfv x))) (int_bits (n - k) (x / 2 ^ k) ++ [true])); cbn [bind]; [|reflexivity]. apply IH. intros z Z1. apply B. now right. }
    apply Q. intros x I. apply in_seq in I. lia.
Qed.
End Cut.

(** * The answer to one challenge *)
Context (f2 : file).
Hypothesis LEN : (n + 1) * 2 ^ n <= 8 * length f2.
Hypothesis TAB : forall y, y < 2 ^ n -> slot_spec g n (2 ^ n) y (slot f2 n y).
Definition true_answer (y : nat) (a : option nat) : Prop :=
  match a with
  | Some x => x < 2 ^ n /\ g x = y /\ forall x', x < x' < 2 ^ n -> g x' <> y
  | None => forall x, x < 2 ^ n -> g x <> y
  end.
Lemma stored_answer y : y < 2 ^ n -> exists a, true_answer y a /\ flag_at f2 n y = (match a with Some _ => true | None => false end) /\
  (forall x, a = Some x -> value_at f2 n y = Z.of_nat x).
Proof.
  intros Y. unfold flag_at, value_at. rewrite slot_read_in by (etransitivity; [|exact LEN]; apply Nat.mul_le_mono_l; lia).
  destruct (TAB y Y) as [(x & X & G & T & E)|(NO & E)]; rewrite E.
  - exists (Some x). split; [now repeat split|]. split.
    + rewrite app_nth2, int_bits_length, Nat.sub_diag by (rewrite int_bits_length; lia). reflexivity.
    + intros x' Q. injection Q as <-. rewrite firstn_app, int_bits_length, Nat.sub_diag, firstn_O, app_nil_r, firstn_all2 by (rewrite int_bits_length; lia). now apply val_int_bits.
  - exists None. split; [exact NO|]. split; [apply nth_repeat|]. intros x Q. discriminate Q.
Qed.
Lemma bare_answer y a : true_answer y a -> exists w, bare_ask key m consts n y = Ok (a, w) /\ w <= 2 ^ n.
Proof using HD.
  clear f2 LEN TAB RP N.
  intros A. unfold bare_ask. destruct a as [x|]; cbn [true_answer] in A.
  - destruct A as (X & G & T). apply search_found; [lia|exact G|]. intros x' X'. apply T. lia.
  - destruct (search_top y 0 (2 ^ n)) as (r & w & S1 & W & R). exists w. split; [|exact W]. rewrite S1. do 2 f_equal. destruct r as [x|]; [|reflexivity]. destruct R as (B & G & _). exfalso. apply (A x); [lia|exact G].
Qed.
Lemma cut_answer k t y a : k <= n -> 8 * length t = (n - k + 1) * 2 ^ n -> held g (fun x => int_bits (n - k) (x / 2 ^ k)) (n - k) (2 ^ n) y (slot t (n - k) y) -> y < 2 ^ n ->
  true_answer y a -> exists w, thrifty_ask pr key m consts n k t y = Ok (a, w) /\ w <= (match a with Some _ => 2 ^ k | None => 0 end).
Proof using HD N.
  clear f2 LEN TAB RP.
  intros KN LT HS Y A. unfold thrifty_ask. assert (B : (n - k + 1) * (y + 1) <= (n - k + 1) * 2 ^ n) by (apply Nat.mul_le_mono_l; lia).
  assert (WF := width_fits (n - k) ltac:(lia)). assert (B' : (n - k + 1) * y <= (n - k + 1) * 2 ^ n) by (apply Nat.mul_le_mono_l; lia).
  rewrite read_slot_ok by (eapply Z.le_lt_trans; [apply Nat2Z.inj_le; exact B'|exact WF]). cbn [bind]. rewrite slot_read_in by lia. destruct HS as [(x & X & G & T & E)|(NO & E)]; rewrite E.
  - unfold index. rewrite nth_error_app2, int_bits_length, Nat.sub_diag by (rewrite int_bits_length; lia). cbn [nth_error bind].
    rewrite firstn_app, int_bits_length, Nat.sub_diag, firstn_O, app_nil_r, firstn_all2 by (rewrite int_bits_length; lia).
    rewrite bits_to_usize_val by (rewrite int_bits_length; lia). cbn [bind].
    assert (HX : x / 2 ^ k < 2 ^ (n - k)). { apply Nat.div_lt_upper_bound; [apply Nat.pow_nonzero; lia|]. rewrite <- Nat.pow_add_r. replace (k + (n - k)) with n by lia. exact X. }
    rewrite val_int_bits by exact HX. rewrite Nat2Z.id.
    assert (AX : a = Some x). { destruct a as [x'|]; cbn [true_answer] in A; [|exfalso; now apply (A x)]. destruct A as (X' & G' & T'). f_equal. destruct (Nat.lt_total x x') as [L|[Q|L]]; [exfalso; now apply (T x'); [lia|]|now symmetry|exfalso; now apply (T' x); [lia|]]. }
    subst a. assert (NZ : 2 ^ k <> 0) by (apply Nat.pow_nonzero; lia). pose proof (Nat.div_mod x (2 ^ k) NZ) as DM. pose proof (Nat.mod_upper_bound x (2 ^ k) NZ).
    assert (UP : x / 2 ^ k * 2 ^ k + 2 ^ k <= 2 ^ n). { replace (2 ^ n) with (2 ^ (n - k) * 2 ^ k) by (rewrite <- Nat.pow_add_r; f_equal; lia). replace (x / 2 ^ k * 2 ^ k + 2 ^ k) with ((x / 2 ^ k + 1) * 2 ^ k) by ring. apply Nat.mul_le_mono_r. lia. }
    apply search_found; [lia|exact G|]. intros x' X'. apply T. lia.
  - unfold index. assert (Q : nth_error (repeat false (n - k + 1)) (n - k) = Some false) by (rewrite nth_error_repeat by lia; reflexivity). rewrite Q. cbn [bind].
    exists 0. destruct a as [x|]; [|now split]. destruct A as (X & G & _). exfalso. now apply (NO x).
Qed.

(** * The answers to a list of challenges *)
Lemma respond_by_ok ask p q : (forall y a, y < 2 ^ n -> true_answer y a -> exists w, ask y = Ok (a, w) /\ w <= match a with Some _ => p | None => q end) ->
  forall cs i (xs : list K) idxs work, Forall (fun y => y < 2 ^ n) cs ->
  exists xs' idxs' work', respond_by ask i cs xs idxs work = Ok (xs', idxs', work') /\ respond pr f2 n i (map Z.of_nat cs) xs idxs = Ok (xs', idxs') /\
  length idxs <= length idxs' /\ work' + p * length idxs + q * length idxs' <= work + p * length idxs' + q * length cs + q * length idxs.
Proof.
  intros ASK. induction cs as [|y cs IH]; intros i xs idxs work F.
  - exists xs, idxs, work. repeat split; cbn [length]; lia.
  - inversion F as [|? ? Y FR]; subst. cbn [map respond respond_by]. destruct (stored_answer y Y) as (a & A & FL & V). destruct (ASK y a Y A) as (w & R & W). rewrite R. cbn [bind].
    rewrite read_slot_ok by (assert ((n + 1) * y <= (n + 1) * 2 ^ n) by (apply Nat.mul_le_mono_l; lia); pose proof (space_fits n (proj2 N)); lia). cbn [bind]. unfold index.
    destruct (nth_error (slot_read f2 n y) n) as [b|] eqn:NE; [|apply nth_error_None in NE; rewrite slot_read_length in NE; lia]. cbn [bind].
    assert (FB : b = match a with Some _ => true | None => false end) by (rewrite <- FL; unfold flag_at; symmetry; now apply nth_error_nth). subst b.
    destruct a as [x|]; cbn beta iota in W.
    + unfold slice. rewrite slot_read_length. destruct (Nat.leb_spec 0 n), (Nat.leb_spec n (n + 1)); try lia. cbn [andb bind]. rewrite Nat.sub_0_r. cbn [skipn].
      rewrite bits_to_usize_val by (rewrite firstn_length, slot_read_length; lia). cbn [bind]. fold (value_at f2 n y). rewrite (V x eq_refl).
      destruct (Nat.eqb_spec (length (xs ++ [of_Z (Z.of_nat x)])) RESPONSE_COUNT).
      * eexists _, _, _. split; [reflexivity|]. split; [reflexivity|]. rewrite app_length. cbn [length]. pose proof (Nat.le_0_l (q * length cs)). nia.
      * destruct (IH (S i) (xs ++ [of_Z (Z.of_nat x)]) (idxs ++ [i]) (work + w) FR) as (xs' & idxs' & work' & E1 & E2 & E3 & E4). exists xs', idxs', work'. split; [exact E1|]. split; [exact E2|].
        rewrite app_length in E3, E4. cbn [length] in *. lia.
    + cbn [bind]. destruct (Nat.eqb_spec (length xs) RESPONSE_COUNT).
      * eexists _, _, _. split; [reflexivity|]. split; [reflexivity|]. cbn [length]. nia.
      * destruct (IH (S i) xs idxs (work + w) FR) as (xs' & idxs' & work' & E1 & E2 & E3 & E4). exists xs', idxs', work'. split; [exact E1|]. split; [exact E2|]. cbn [length] in *. lia.
Qed.
End P.

(** A prover with (n - k + 1) 2^n bits instead of (n + 1) 2^n gives the very answers of the
    marked space, with at most 2^k evaluations for each answered challenge. *)
Theorem C111_thrifty : forall pr (K : prime_ops), is_prime_field K -> forall (key m : K) consts hash_consts n k f cs,
  length consts = MIMC5_DF_ROUNDS -> length hash_consts = MIMC5_HASH_ROUNDS -> 3 <= n <= 58 -> k <= n -> Forall (fun y => y < 2 ^ n) cs ->
  exists f1 f2 t xs idxs h work,
  prepare_space pr f n = Ok f1 /\ mark_space pr f1 key m consts n = Ok f2 /\ 8 * length f2 = (n + 1) * 2 ^ n /\
  response_1 pr f2 (map Z.of_nat cs) key hash_consts n = Ok (xs, idxs, h) /\
  thrifty_mark pr key m consts n k = Ok t /\ 8 * length t = (n - k + 1) * 2 ^ n /\
  response_by key (thrifty_ask pr key m consts n k t) hash_consts cs = Ok (xs, idxs, h, work) /\ work <= 2 ^ k * length idxs /\ length idxs <= 50.
Proof.
  intros pr K HK key m consts hc n k f cs L LH N KN C. destruct (df_total K HK key m consts L) as (dfv & D). assert (RP := fun z => proj1 (pf_repr K HK z)).
  destruct (mark_space_table pr key m consts n f dfv RP N D) as (f1 & f2 & P & M & LL & T).
  assert (LEN : 8 * length f2 = (n + 1) * 2 ^ n) by (rewrite LL; destruct (C50_exact_bits pr f n N) as (g & G & E); rewrite P in G; apply (f_equal (fun r => match r with Ok a => a | Panic => g end)) in G; subst g; exact E).
  destruct (thrifty_table pr key m consts n dfv RP D N k KN) as (t & TM & TL & TS).
  destruct (respond_by_ok pr n dfv N f2 ltac:(lia) T (thrifty_ask pr key m consts n k t) (2 ^ k) 0) with (cs := cs) (i := 0) (xs := @nil K) (idxs := @nil nat) (work := 0) as (xs & idxs & work & E1 & E2 & _ & E4).
  { intros y a Y A. now apply (cut_answer pr key m consts n dfv D N k t y a KN TL (TS y Y) Y). }
  { exact C. }
  assert (FC : Forall (fun y => (Z.of_nat ((n + 1) * y) < two64)%Z) cs).
  { pose proof (space_fits n (proj2 N)). eapply Forall_impl; [|exact C]. cbn beta. intros y Y. assert ((n + 1) * y <= (n + 1) * 2 ^ n) by (apply Nat.mul_le_mono_l; lia). lia. }
  destruct (C54_any_file pr K (F_R (pf_field K HK)) key hc n f2 cs LH ltac:(lia) FC) as (xs0 & idxs0 & h & R & _ & L50 & _ & _ & _ & HH).
  assert (R' := R). unfold response_1 in R'. rewrite E2 in R'. cbn [bind] in R'. destruct (multi_mimc5_hash xs key hc) as [h0|] eqn:EH; [|discriminate R']. cbn [bind] in R'.
  assert (Q : (xs, idxs, h0) = (xs0, idxs0, h)) by (now apply (f_equal (fun r => match r with Ok a => a | Panic => (xs0, idxs0, h) end)) in R'). injection Q as -> -> ->.
  exists f1, f2, t, xs0, idxs0, h, work. split; [exact P|]. split; [exact M|]. split; [exact LEN|]. split; [exact R|]. split; [exact TM|]. split; [exact TL|]. split; [|split; [cbn [length] in E4; lia|exact L50]].
  unfold response_by. rewrite E1. cbn [bind]. rewrite EH. reflexivity.
Qed.

(** A prover that keeps nothing gives them too, with at most 2^n evaluations for each challenge. *)
Theorem C111_nothing : forall pr (K : prime_ops), is_prime_field K -> forall (key m : K) consts hash_consts n f cs,
  length consts = MIMC5_DF_ROUNDS -> length hash_consts = MIMC5_HASH_ROUNDS -> 3 <= n <= 58 -> Forall (fun y => y < 2 ^ n) cs ->
  exists f1 f2 xs idxs h work,
  prepare_space pr f n = Ok f1 /\ mark_space pr f1 key m consts n = Ok f2 /\
  response_1 pr f2 (map Z.of_nat cs) key hash_consts n = Ok (xs, idxs, h) /\
  response_by key (bare_ask key m consts n) hash_consts cs = Ok (xs, idxs, h, work) /\ work <= 2 ^ n * length cs.
Proof.
  intros pr K HK key m consts hc n f cs L LH N C. destruct (df_total K HK key m consts L) as (dfv & D). assert (RP := fun z => proj1 (pf_repr K HK z)).
  destruct (mark_space_table pr key m consts n f dfv RP N D) as (f1 & f2 & P & M & LL & T).
  assert (LEN : 8 * length f2 = (n + 1) * 2 ^ n) by (rewrite LL; destruct (C50_exact_bits pr f n N) as (g & G & E); rewrite P in G; apply (f_equal (fun r => match r with Ok a => a | Panic => g end)) in G; subst g; exact E).
  destruct (respond_by_ok pr n dfv N f2 ltac:(lia) T (bare_ask key m consts n) (2 ^ n) (2 ^ n)) with (cs := cs) (i := 0) (xs := @nil K) (idxs := @nil nat) (work := 0) as (xs & idxs & work & E1 & E2 & _ & E4).
  { intros y a Y A. destruct (bare_answer key m consts n dfv D y a A) as (w & R & W). exists w. split; [exact R|]. now destruct a. }
  { exact C. }
  assert (FC : Forall (fun y => (Z.of_nat ((n + 1) * y) < two64)%Z) cs).
  { pose proof (space_fits n (proj2 N)). eapply Forall_impl; [|exact C]. cbn beta. intros y Y. assert ((n + 1) * y <= (n + 1) * 2 ^ n) by (apply Nat.mul_le_mono_l; lia). lia. }
  destruct (C54_any_file pr K (F_R (pf_field K HK)) key hc n f2 cs LH ltac:(lia) FC) as (xs0 & idxs0 & h & R & _ & L50 & _ & _ & _ & HH).
  assert (R' := R). unfold response_1 in R'. rewrite E2 in R'. cbn [bind] in R'. destruct (multi_mimc5_hash xs key hc) as [h0|] eqn:EH; [|discriminate R']. cbn [bind] in R'.
  assert (Q : (xs, idxs, h0) = (xs0, idxs0, h)) by (now apply (f_equal (fun r => match r with Ok a => a | Panic => (xs0, idxs0, h) end)) in R'). injection Q as -> -> ->.
  exists f1, f2, xs0, idxs0, h, work. split; [exact P|]. split; [exact M|]. split; [exact R|]. split; [|cbn [length] in E4; lia].
  unfold response_by. rewrite E1. cbn [bind]. rewrite EH. reflexivity.
Qed.

(** The evaluations are counted exactly: one for each number tried, from the top down to
    the one found, and their sum over the challenges looked at. *)
Theorem C111_search_count : forall (K : prime_ops) (key m : K) consts n y lo c a w, search key m consts n y lo c = Ok (a, w) ->
  match a with Some x => lo <= x < lo + c /\ w = lo + c - x | None => w = c end.
Proof.
  intros K key m consts n y lo. induction c as [|c IH]; intros a w E; cbn [search] in E; [now injection E as <- <-|].
  destruct (mimc5_df _ m consts) as [v|]; [|discriminate E]. cbn [bind] in E. destruct (low_bits n v =? y); [injection E as <- <-; lia|].
  destruct (search key m consts n y lo c) as [[r w']|]; [|discriminate E]. cbn [bind] in E. specialize (IH r w' eq_refl). injection E as <- <-. destruct r; lia.
Qed.
Print Assumptions C111_search_count.
Theorem C111_counted : forall (K : prime_ops) (key : K) ask hash_consts cs xs idxs h work, response_by key ask hash_consts cs = Ok (xs, idxs, h, work) ->
  exists j ws, Forall2 (fun y w => exists a, ask y = Ok (a, w)) (firstn j cs) ws /\ work = list_sum ws /\ (j = length cs \/ j < length cs /\ length xs = 50).
Proof.
  intros K key ask hc cs xs idxs h work E. unfold response_by in E. destruct (respond_by ask 0 cs [] [] 0) as [[[xs0 idxs0] work0]|] eqn:R; [|discriminate E]. cbn [bind] in E.
  destruct (multi_mimc5_hash xs0 key hc) as [h0|]; [|discriminate E]. cbn [bind] in E. injection E as -> -> _ ->.
  enough (G : forall cs i (xs0 : list K) idxs0 w0, respond_by ask i cs xs0 idxs0 w0 = Ok (xs, idxs, work) ->
    exists j ws, Forall2 (fun y w => exists a, ask y = Ok (a, w)) (firstn j cs) ws /\ work = w0 + list_sum ws /\ (j = length cs \/ j < length cs /\ length xs = 50)) by exact (G cs 0 [] [] 0 R).
  clear. induction cs as [|y cs IH]; intros i xs0 idxs0 w0 E; cbn [respond_by] in E.
  - injection E as -> -> ->. exists 0, []. repeat split; [constructor|cbn; lia|now left].
  - destruct (ask y) as [[a w]|] eqn:A; [|discriminate E]. cbn [bind] in E.
    destruct (match a with Some x => (xs0 ++ [of_Z (Z.of_nat x)], idxs0 ++ [i]) | None => (xs0, idxs0) end) as [xs1 idxs1].
    destruct (Nat.eqb_spec (length xs1) RESPONSE_COUNT) as [L|L].
    + injection E as -> -> <-. exists 1, [w]. cbn [firstn list_sum fold_right length]. repeat split; [constructor; [eauto|constructor]|lia|]. destruct cs; [left|right]; cbn [length]; [reflexivity|]. split; [lia|exact L].
    + destruct (IH _ _ _ _ E) as (j & ws & F & -> & J). exists (S j), (w :: ws). cbn [firstn length]. split; [constructor; [eauto|exact F]|]. split; [cbn [list_sum fold_right]; unfold list_sum; lia|]. lia.
Qed.
Print Assumptions C111_counted.

(** One bit for each slot is 1/(n+1) of the space: at the shipped n = 20, 128 KiB instead of 2.625 MiB. *)
Example C111_ex_sizes : 8 * (128 * 1024) = (20 - 20 + 1) * 2 ^ 20 /\ 8 * (2688 * 1024) = (20 + 1) * 2 ^ 20.
Proof. split; apply Nat2Z.inj; rewrite !Nat2Z.inj_mul, Nat2Z.inj_pow; reflexivity. Qed.
(** A case that meets the hypotheses: n = 3, one bit of three cut off. *)
Example C111_ex : exists f1 f2 t xs idxs h work, prepare_space Debug [] 3 = Ok f1 /\ mark_space (K := FrBls) Debug f1 (fr 1) (fr 2) zero_consts 3 = Ok f2 /\ length f2 = 4 /\
  response_1 (K := FrBls) Debug f2 (map Z.of_nat [5; 0; 7]) (fr 1) zero_consts 3 = Ok (xs, idxs, h) /\
  thrifty_mark (K := FrBls) Debug (fr 1) (fr 2) zero_consts 3 1 = Ok t /\ length t = 3 /\
  response_by (K := FrBls) (fr 1) (thrifty_ask (K := FrBls) Debug (fr 1) (fr 2) zero_consts 3 1 t) zero_consts [5; 0; 7] = Ok (xs, idxs, h, work).
Proof.
  destruct (C111_thrifty Debug FrBls FrBls_prime_field (fr 1) (fr 2) zero_consts zero_consts 3 1 [] [5; 0; 7] eq_refl eq_refl ltac:(lia) ltac:(lia) ltac:(repeat constructor; cbn; lia)) as (f1 & f2 & t & xs & idxs & h & work & A & B & C & D & E & F & G & _).
  change ((3 + 1) * 2 ^ 3) with 32 in C. change ((3 - 1 + 1) * 2 ^ 3) with 24 in F. exists f1, f2, t, xs, idxs, h, work. split; [exact A|]. split; [exact B|]. split; [lia|]. split; [exact D|]. split; [exact E|]. split; [lia|exact G].
Qed.
Print Assumptions C111_thrifty.
Print Assumptions C111_nothing.
