(** Property C110: what preparing, marking and answering a space do to the disk. *)
From Coq Require Import Strings.Byte Sorted.
From Verif Require Import Base BytesFacts Field Mimc MimcFacts Convert ConvertFacts Space SpaceFacts FrField FrFacts PropSpace Room SpaceDisk SpaceDiskFacts.
Local Open Scope nat_scope.

(** The bytes that hold slot y. *)
Definition touches (n y i : nat) : Prop := exists b, (n + 1) * y <= b < (n + 1) * (y + 1) /\ b / 8 = i.
(** The positions written, the positions read, and the numbers the delay function was
    evaluated at, in order. *)
Definition writes (l : list act) : list nat := flat_map (fun a => match a with Put i => [i] | _ => [] end) l.
Definition reads (l : list act) : list nat := flat_map (fun a => match a with Get i => [i] | _ => [] end) l.
Definition evals (l : list act) : list nat := flat_map (fun a => match a with Df x => [x] | _ => [] end) l.

(** Preparing needs exactly the room of the space; with less it panics, the disk full of zeros. *)
Theorem C110_prepare : forall pr n s, n <= 58 ->
  let L := (n + 1) * 2 ^ n / 8 in let r := length (d_file s) + d_room s in
  (L <= r -> exists g, prepare_space pr (d_file s) n = Ok g /\ length g = L /\
     prepare_space_d pr n s = (mkD g (r - L) (d_acts s ++ map Put (seq 0 L)), Ok tt)) /\
  (r < L -> prepare_space_d pr n s = (mkD (zeros r) 0 (d_acts s ++ map Put (seq 0 (r + 1))), Panic)).
Proof.
  intros pr n s N L r. pose proof (prepare_d pr n s N) as P. cbv zeta in P. fold L in P. fold r in P. split; intros B.
  - destruct (Nat.leb_spec L r); [|lia]. exists (zeros L). split; [exact (prepare_space_ok pr _ n N)|]. split; [apply repeat_length|exact P].
  - destruct (Nat.leb_spec L r); [lia|]. exact P.
Qed.

Lemma writes_app a b : writes (a ++ b) = writes a ++ writes b. Proof. apply flat_map_app. Qed.
Lemma reads_app a b : reads (a ++ b) = reads a ++ reads b. Proof. apply flat_map_app. Qed.
Lemma evals_app a b : evals (a ++ b) = evals a ++ evals b. Proof. apply flat_map_app. Qed.
Lemma pair_parts c : forall a, writes (pair_acts a c) = seq a c /\ reads (pair_acts a c) = seq (S a) c /\ evals (pair_acts a c) = [].
Proof.
  induction c as [|c IH]; intros a; [easy|]. destruct (IH (S a)) as (W & R & E). unfold pair_acts in *. cbn [seq flat_map].
  rewrite writes_app, reads_app, evals_app, W, R, E. easy.
Qed.
Lemma seq_snoc a c : seq a c ++ [a + c] = seq a (S c).
Proof. now rewrite seq_S. Qed.
Definition slot_bytes (n y : nat) : nat := ((n + 1) * (y + 1) + 7) / 8 - (n + 1) * y / 8.
Lemma slot_ends n y : let a := (n + 1) * y / 8 in let e := (n + 1) * (y + 1) in a <= e / 8 /\
  (e mod 8 = 0 -> (e + 7) / 8 = e / 8 /\ a < e / 8) /\ (e mod 8 <> 0 -> (e + 7) / 8 = S (e / 8)).
Proof.
  intros a e. assert (E : e = (n + 1) * y + (n + 1)) by (unfold e; lia). set (p := (n + 1) * y) in *.
  pose proof (Nat.div_mod p 8 ltac:(lia)) as DP. pose proof (Nat.div_mod e 8 ltac:(lia)) as DE. pose proof (Nat.mod_upper_bound p 8 ltac:(lia)). pose proof (Nat.mod_upper_bound e 8 ltac:(lia)).
  fold a in DP. clearbody a. split; [lia|]. split; intros M.
  - split; [|lia]. symmetry. apply (Nat.div_unique _ _ _ 7); lia.
  - symmetry. apply (Nat.div_unique _ _ _ (e mod 8 - 1)); lia.
Qed.
Lemma slot_parts n y : writes (slot_acts n y) = seq ((n + 1) * y / 8) (slot_bytes n y) /\ evals (slot_acts n y) = [] /\
  reads (slot_acts n y) = seq ((n + 1) * y / 8) (S ((n + 1) * (y + 1) / 8 - (n + 1) * y / 8)).
Proof.
  unfold slot_acts, slot_bytes. destruct (slot_ends n y) as (LE & Z0 & NZ). cbv zeta in *. set (a := (n + 1) * y / 8) in *. set (e := (n + 1) * (y + 1)) in *.
  destruct (pair_parts (e / 8 - a) a) as (W & R & E). set (tl := if e mod 8 =? 0 then [] else [Put (e / 8)]).
  change (Get a :: pair_acts a (e / 8 - a) ++ tl) with ([Get a] ++ pair_acts a (e / 8 - a) ++ tl). rewrite !writes_app, !reads_app, !evals_app, W, R, E.
  assert (T : reads tl = [] /\ evals tl = []) by (unfold tl; destruct (e mod 8 =? 0); easy). destruct T as [-> ->]. cbn [writes reads evals flat_map app]. rewrite app_nil_r.
  split; [|easy]. unfold tl. destruct (Nat.eqb_spec (e mod 8) 0) as [M|M]; cbn [writes flat_map app].
  - destruct (Z0 M) as [-> _]. now rewrite app_nil_r.
  - rewrite (NZ M). replace (S (e / 8) - a) with (S (e / 8 - a)) by lia. rewrite <- seq_snoc. do 2 f_equal. lia.
Qed.
Lemma slot_touches n y i : In i (seq ((n + 1) * y / 8) (slot_bytes n y)) <-> touches n y i.
Proof.
  rewrite in_seq. unfold slot_bytes, touches. assert (E : (n + 1) * (y + 1) = (n + 1) * y + (n + 1)) by lia. rewrite E. set (p := (n + 1) * y). set (e := p + (n + 1)).
  assert (PE : p / 8 <= (e + 7) / 8) by (apply Nat.div_le_mono; unfold e; lia). split.
  - intros [A B]. pose proof (Nat.div_mod p 8 ltac:(lia)) as DP. pose proof (Nat.mod_upper_bound p 8 ltac:(lia)). pose proof (Nat.div_mod (e + 7) 8 ltac:(lia)) as DE. pose proof (Nat.mod_upper_bound (e + 7) 8 ltac:(lia)).
    destruct (Nat.le_gt_cases p (8 * i)) as [L|L].
    + exists (8 * i). split; [lia|]. rewrite Nat.mul_comm. apply Nat.div_mul. lia.
    + exists p. split; [unfold e; lia|]. lia.
  - intros (b & B & <-). assert (p / 8 <= b / 8) by (apply Nat.div_le_mono; lia). assert (b / 8 < (e + 7) / 8); [|lia].
    assert (b / 8 + 1 <= (e + 7) / 8); [|lia]. replace (b / 8 + 1) with ((b + 1 * 8) / 8) by (rewrite Nat.div_add; lia). apply Nat.div_le_mono; unfold e in *; lia.
Qed.
Lemma seq_sorted c : forall a, StronglySorted lt (seq a c).
Proof. induction c as [|c IH]; intros a; cbn [seq]; constructor; [apply IH|]. apply Forall_forall. intros x I. apply in_seq in I. lia. Qed.

(** Marking evaluates the delay function once for every x below 2^n, in order; after each
    evaluation it reads the bytes of the one slot and writes each of them once, in
    ascending order; it may read one byte behind; it never makes the file longer, and so
    succeeds whatever the room. *)
Theorem C110_mark : forall pr (K : prime_ops), is_prime_field K -> forall (key m : K) consts n s,
  length consts = MIMC5_DF_ROUNDS -> 3 <= n <= 58 -> 8 * length (d_file s) = (n + 1) * 2 ^ n ->
  exists g (dest : nat -> nat) (part : nat -> list act),
  mark_space pr (d_file s) key m consts n = Ok g /\ length g = length (d_file s) /\
  mark_space_d pr key m consts n s = (mkD g (d_room s) (d_acts s ++ flat_map (fun x => Df x :: part x) (seq 0 (2 ^ n))), Ok tt) /\
  forall x, x < 2 ^ n -> dest x < 2 ^ n /\ maps_to K key m consts n x (dest x) /\ evals (part x) = [] /\
    (forall i, In i (writes (part x)) <-> touches n (dest x) i) /\ StronglySorted lt (writes (part x)) /\
    (reads (part x) = writes (part x) \/ reads (part x) = writes (part x) ++ [(n + 1) * (dest x + 1) / 8] /\ ((n + 1) * (dest x + 1)) mod 8 = 0) /\
    Forall (fun i => i < length g) (writes (part x)).
Proof.
  intros pr K HK key m consts n s LC N L. destruct (df_total K HK key m consts LC) as (dfv & HD).
  assert (NN : forall z : K, (0 <= repr z)%Z) by (intros z; destruct (pf_repr K HK z); lia).
  destruct (mark_space_d_ok pr key m consts n dfv NN HD N s L) as (g & LG & E1 & E2).
  exists g, (fun x => low_bits n (dfv x)), (fun x => slot_acts n (low_bits n (dfv x))). split; [exact E1|]. split; [exact LG|]. split; [exact E2|].
  intros x X. pose proof (low_bits_lt n (dfv x)) as LB. split; [exact LB|]. split; [now apply (maps_iff K HK key m consts n x _ dfv HD)|].
  destruct (slot_parts n (low_bits n (dfv x))) as (W & E & R). rewrite W, E, R. split; [reflexivity|]. set (y := low_bits n (dfv x)) in *.
  split; [apply slot_touches|]. split; [apply seq_sorted|]. split.
  - destruct (slot_ends n y) as (LE & Z0 & NZ). cbv zeta in *. unfold slot_bytes. destruct (Nat.eq_dec (((n + 1) * (y + 1)) mod 8) 0) as [M|M].
    + right. split; [|exact M]. destruct (Z0 M) as [-> _]. rewrite <- seq_snoc. do 2 f_equal. lia.
    + left. rewrite (NZ M). f_equal. lia.
  - apply Forall_forall. intros i I. apply slot_touches in I. destruct I as (b & B & <-). apply Nat.div_lt_upper_bound; [lia|]. rewrite LG, L.
    assert ((n + 1) * (y + 1) <= (n + 1) * 2 ^ n) by (apply Nat.mul_le_mono_l; lia). lia.
Qed.

(** How many accesses that makes. *)
Lemma sum_bounds (f : nat -> nat) lo hi (l : list nat) c : length l = c -> (forall x, lo <= f x <= hi) -> c * lo <= list_sum (map f l) <= c * hi.
Proof. intros <- B. induction l as [|x l IH]; [easy|]. cbn [map list_sum length fold_right] in *. change (fold_right Nat.add 0 (map f l)) with (list_sum (map f l)) in *. specialize (B x). lia. Qed.
Lemma flat_length {A} (f : nat -> list A) l : length (flat_map f l) = list_sum (map (fun x => length (f x)) l).
Proof. induction l as [|x l IH]; [reflexivity|]. cbn [flat_map map list_sum fold_right]. rewrite app_length, IH. reflexivity. Qed.
Lemma flat_flat {A B} (g : A -> list B) (f : nat -> list A) l : flat_map g (flat_map f l) = flat_map (fun x => flat_map g (f x)) l.
Proof. induction l as [|x l IH]; [reflexivity|]. cbn [flat_map]. now rewrite flat_map_app, IH. Qed.
Lemma slot_counts n y : (n + 8) / 8 <= slot_bytes n y <= (n + 15) / 8 /\
  (n + 9) / 8 <= S ((n + 1) * (y + 1) / 8 - (n + 1) * y / 8) <= (n + 16) / 8.
Proof.
  unfold slot_bytes. replace ((n + 1) * (y + 1)) with ((n + 1) * y + (n + 1)) by lia. set (p := (n + 1) * y).
  pose proof (Nat.div_mod p 8 ltac:(lia)) as DP. pose proof (Nat.mod_upper_bound p 8 ltac:(lia)). set (q := p / 8) in *. set (r := p mod 8) in *.
  assert (A : forall w, (p + w) / 8 = q + (r + w) / 8).
  { intros w. rewrite DP. replace (8 * q + r + w) with ((r + w) + q * 8) by lia. rewrite Nat.div_add by lia. lia. }
  rewrite <- Nat.add_assoc, !A. repeat split.
  - replace (q + (r + (n + 1 + 7)) / 8 - q) with ((r + (n + 1 + 7)) / 8) by lia. apply Nat.div_le_mono; lia.
  - replace (q + (r + (n + 1 + 7)) / 8 - q) with ((r + (n + 1 + 7)) / 8) by lia. apply Nat.div_le_mono; lia.
  - replace (S (q + (r + (n + 1)) / 8 - q)) with ((r + (n + 1) + 1 * 8) / 8) by (rewrite Nat.div_add; lia). apply Nat.div_le_mono; lia.
  - replace (S (q + (r + (n + 1)) / 8 - q)) with ((r + (n + 1) + 1 * 8) / 8) by (rewrite Nat.div_add; lia). apply Nat.div_le_mono; lia.
Qed.
Theorem C110_counts : forall pr (K : prime_ops), is_prime_field K -> forall (key m : K) consts n s g r acts,
  length consts = MIMC5_DF_ROUNDS -> 3 <= n <= 58 -> 8 * length (d_file s) = (n + 1) * 2 ^ n ->
  mark_space_d pr key m consts n s = (mkD g r (d_acts s ++ acts), Ok tt) ->
  evals acts = seq 0 (2 ^ n) /\
  2 ^ n * ((n + 8) / 8) <= length (writes acts) <= 2 ^ n * ((n + 15) / 8) /\
  2 ^ n * ((n + 9) / 8) <= length (reads acts) <= 2 ^ n * ((n + 16) / 8).
Proof.
  intros pr K HK key m consts n s g r acts LC N L RUN. destruct (df_total K HK key m consts LC) as (dfv & HD).
  assert (NN : forall z : K, (0 <= repr z)%Z) by (intros z; destruct (pf_repr K HK z); lia).
  destruct (mark_space_d_ok pr key m consts n dfv NN HD N s L) as (g' & LG & E1 & E2). rewrite E2 in RUN. apply (f_equal (fun p => d_acts (fst p))) in RUN. cbn [fst d_acts] in RUN. apply app_inv_head in RUN. subst acts.
  unfold evals, writes, reads. rewrite !flat_flat. split.
  - rewrite (flat_map_ext _ (fun x => [x])).
    + generalize (seq 0 (2 ^ n)). intros l. induction l as [|x l IH]; [reflexivity|]. cbn [flat_map]. now rewrite IH.
    + intros x. change (x :: evals (slot_acts n (low_bits n (dfv x))) = [x]). destruct (slot_parts n (low_bits n (dfv x))) as (_ & E & _). now rewrite E.
  - rewrite !flat_length. pose proof (seq_length (2 ^ n) 0) as SL. split.
    + apply (sum_bounds _ _ _ _ _ SL). intros x. change (flat_map (fun a => match a with Put i => [i] | _ => [] end) (Df x :: slot_acts n (low_bits n (dfv x)))) with (writes (slot_acts n (low_bits n (dfv x)))).
      destruct (slot_parts n (low_bits n (dfv x))) as (W & _ & _). rewrite W, seq_length. apply slot_counts.
    + apply (sum_bounds _ _ _ _ _ SL). intros x. change (flat_map (fun a => match a with Get i => [i] | _ => [] end) (Df x :: slot_acts n (low_bits n (dfv x)))) with (reads (slot_acts n (low_bits n (dfv x)))).
      destruct (slot_parts n (low_bits n (dfv x))) as (_ & _ & R). rewrite R, seq_length. apply slot_counts.
Qed.

(** Answering evaluates nothing and writes nothing: for the challenges it looks at, and no
    others, it reads the bytes of the slot and at most one more. *)
Theorem C110_answer : forall pr (K : prime_ops), is_ring K -> forall (key : K) hash_consts n s cs,
  length hash_consts = MIMC5_HASH_ROUNDS -> n <= 63 -> Forall (fun y => (Z.of_nat ((n + 1) * y) < two64)%Z) cs ->
  exists k xs idxs h (part : nat -> list nat), k <= length cs /\ (k < length cs -> length idxs = 50) /\
  response_1 pr (d_file s) (map Z.of_nat cs) key hash_consts n = Ok (xs, idxs, h) /\
  response_1_d pr (map Z.of_nat cs) key hash_consts n s = (mkD (d_file s) (d_room s) (d_acts s ++ map Get (flat_map part (firstn k cs))), Ok (xs, idxs, h)) /\
  forall y, StronglySorted lt (part y) /\ (n + 9) / 8 <= length (part y) <= (n + 16) / 8 /\
    (forall i, touches n y i -> In i (part y)) /\ (forall i, In i (part y) -> touches n y i \/ i = (n + 1) * (y + 1) / 8).
Proof.
  intros pr K HK key hash_consts n s cs LH N F.
  destruct (C54_any_file pr K HK key hash_consts n (d_file s) cs LH N F) as (xs & idxs & h & R & LX & _ & _ & _ & _ & HH).
  destruct (respond_d_ok (K := K) pr n N cs s 0 [] [] F) as (k & xs' & idxs' & KL & E1 & E2 & E3).
  assert (R0 := R). unfold response_1 in R0. rewrite E1 in R0. cbn [bind] in R0. destruct (multi_mimc5_hash xs' key hash_consts) as [h'|] eqn:EH; [|discriminate R0]. cbn [bind] in R0.
  assert (Q : (xs', idxs', h') = (xs, idxs, h)) by (now apply (f_equal (fun r => match r with Ok a => a | Panic => (xs, idxs, h) end)) in R0). injection Q as -> -> ->.
  exists k, xs, idxs, h, (fun y => seq ((n + 1) * y / 8) (S ((n + 1) * (y + 1) / 8 - (n + 1) * y / 8))). split; [exact KL|]. split; [intros Q; rewrite <- LX; exact (E3 Q)|]. split; [exact R|]. split.
  - unfold response_1_d, bindD at 1. rewrite E2. unfold bindD, pureD. rewrite EH. do 3 f_equal. generalize (firstn k cs). intros l.
    induction l as [|y l IH]; [reflexivity|]. cbn [flat_map]. rewrite map_app, <- IH. reflexivity.
  - intros y. split; [apply seq_sorted|]. rewrite seq_length. split; [apply slot_counts|].
    destruct (slot_ends n y) as (LE & Z0 & NZ). cbv zeta in *. split.
    + intros i T. apply slot_touches in T. apply in_seq in T. apply in_seq. unfold slot_bytes in T. destruct (Nat.eq_dec (((n + 1) * (y + 1)) mod 8) 0) as [M|M]; [destruct (Z0 M) as [Q _]|pose proof (NZ M) as Q]; rewrite Q in T; lia.
    + intros i I. apply in_seq in I. destruct (Nat.eq_dec i ((n + 1) * (y + 1) / 8)) as [D|D]; [now right|left]. apply slot_touches, in_seq. unfold slot_bytes.
      destruct (Nat.eq_dec (((n + 1) * (y + 1)) mod 8) 0) as [M|M]; [destruct (Z0 M) as [-> _]|rewrite (NZ M)]; lia.
Qed.

(** A whole turn: prepare, mark, answer. *)
Definition turn_d {K : prime_ops} (pr : profile) (key m : K) consts hash_consts n cs : disk_run (list K * list nat * K) :=
  do _ <- prepare_space_d pr n; do _ <- mark_space_d pr key m consts n; response_1_d pr cs key hash_consts n.
(** It succeeds exactly when the disk has room for the space, counting what the old file
    gives back; and then the answers and the file are those of Space.v. *)
Theorem C110_room : forall pr (K : prime_ops), is_prime_field K -> forall (key m : K) consts hash_consts n s cs,
  length consts = MIMC5_DF_ROUNDS -> length hash_consts = MIMC5_HASH_ROUNDS -> 3 <= n <= 58 -> Forall (fun y => y < 2 ^ n) cs ->
  ((exists s' a, turn_d pr key m consts hash_consts n (map Z.of_nat cs) s = (s', Ok a)) <-> (n + 1) * 2 ^ n <= 8 * (length (d_file s) + d_room s)) /\
  (forall s' a, turn_d pr key m consts hash_consts n (map Z.of_nat cs) s = (s', Ok a) ->
   exists f1, prepare_space pr (d_file s) n = Ok f1 /\ mark_space pr f1 key m consts n = Ok (d_file s') /\
     response_1 pr (d_file s') (map Z.of_nat cs) key hash_consts n = Ok a /\ 8 * length (d_file s') = (n + 1) * 2 ^ n).
Proof.
  intros pr K HK key m consts hash_consts n s cs LC LH N F. destruct (C110_prepare pr n s ltac:(lia)) as [BIG SMALL]. cbv zeta in *.
  pose proof (slots_divide n ltac:(lia)) as SD. set (L := (n + 1) * 2 ^ n / 8) in *. pose proof (space_fits n ltac:(lia)) as SF.
  destruct (Nat.le_gt_cases L (length (d_file s) + d_room s)) as [B|B].
  - destruct (BIG B) as (f1 & P1 & L1 & P2).
    set (s1 := mkD f1 (length (d_file s) + d_room s - L) (d_acts s ++ map Put (seq 0 L))).
    destruct (C110_mark pr K HK key m consts n s1 LC N) as (g & dest & part & M1 & LG & M2 & _); [cbn [d_file s1]; lia|]. cbn [d_file d_room d_acts s1] in *.
    destruct (C110_answer pr K (F_R (pf_field K HK)) key hash_consts n (mkD g (length (d_file s) + d_room s - L) ((d_acts s ++ map Put (seq 0 L)) ++ flat_map (fun x => Df x :: part x) (seq 0 (2 ^ n)))) cs LH ltac:(lia)) as (k & xs & idxs & h & pt & _ & _ & R1 & R2 & _).
    { eapply Forall_impl; [|exact F]. intros y Y. cbn beta in *. assert ((n + 1) * y <= (n + 1) * 2 ^ n) by (apply Nat.mul_le_mono_l; lia). lia. }
    assert (T : exists st, turn_d pr key m consts hash_consts n (map Z.of_nat cs) s = (st, Ok (xs, idxs, h)) /\ d_file st = g).
    { eexists. split; [unfold turn_d, bindD at 1; rewrite P2; unfold bindD at 1; fold s1; rewrite M2; exact R2|reflexivity]. }
    destruct T as (st & T & TF). rewrite T. cbn [d_file d_room d_acts] in *. split.
    + split; [intros _; lia|]. intros _. eexists _, _. reflexivity.
    + intros s' a E. assert (E' := f_equal fst E). apply (f_equal snd) in E. cbn [fst snd] in E, E'. subst s'. rewrite TF. exists f1. split; [exact P1|]. split; [exact M1|]. split; [rewrite R1; exact E|]. lia.
  - assert (T : exists st, turn_d pr key m consts hash_consts n (map Z.of_nat cs) s = (st, Panic)).
    { eexists. unfold turn_d, bindD at 1. rewrite (SMALL B). reflexivity. }
    destruct T as (st & T). rewrite T. split.
    + split; [intros (s' & a & E); apply (f_equal snd) in E; discriminate E|intros; lia].
    + intros s' a E. apply (f_equal snd) in E. discriminate E.
Qed.

(** A small case: n = 3 on an empty disk with room for four bytes, and with room for three. *)
Example C110_ex : length zero_consts = MIMC5_DF_ROUNDS /\ length zero_consts = MIMC5_HASH_ROUNDS /\ Forall (fun y => y < 2 ^ 3) [5; 0; 7] /\
  (exists s' a, turn_d (K := FrBls) Debug (fr 1) (fr 2) zero_consts zero_consts 3 (map Z.of_nat [5; 0; 7]) (mkD [] 4 []) = (s', Ok a)) /\
  turn_d (K := FrBls) Debug (fr 1) (fr 2) zero_consts zero_consts 3 (map Z.of_nat [5; 0; 7]) (mkD [] 3 []) = (mkD (zeros 3) 0 [Put 0; Put 1; Put 2; Put 3], Panic).
Proof.
  assert (F : Forall (fun y => y < 2 ^ 3) [5; 0; 7]) by (repeat constructor; cbn; lia).
  split; [reflexivity|]. split; [reflexivity|]. split; [exact F|]. split.
  - apply (C110_room Debug FrBls FrBls_prime_field (fr 1) (fr 2) zero_consts zero_consts 3 (mkD [] 4 []) [5; 0; 7] eq_refl eq_refl ltac:(lia) F). cbn. lia.
  - unfold turn_d, bindD at 1. rewrite (proj2 (C110_prepare Debug 3 (mkD [] 3 []) ltac:(lia)) ltac:(cbn; lia)). reflexivity.
Qed.
Print Assumptions C110_prepare.
Print Assumptions C110_mark.
Print Assumptions C110_counts.
Print Assumptions C110_answer.
Print Assumptions C110_room.
