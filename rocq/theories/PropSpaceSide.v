(** Property C112: one space used by several runs at the same time.
    Vocabulary: [run], [turns] from Side, [mark_space_p] and [response_1_p] from SpaceSide,
    [maps_to] from PropSpace, [at_slot] from PropSpaceCrash. *)
From Coq Require Import Strings.Byte.
From Verif Require Import Base BytesFacts Field Mimc MimcFacts Convert ConvertFacts Space SpaceFacts SpaceCrash SpaceCrashFacts FrField FrFacts PropSpace PropSpaceCrash
  Paths Side SideFacts SpaceSide SpaceSideFacts.
Local Open Scope nat_scope.

(** * Alone *)
(** Alone, a run taken access by access is the call of Space.v. *)
Theorem C112_alone : forall (K : prime_ops) pr p n d,
  (let r := run (prepare_space_p pr p n) d in
   (forall q, q <> p -> fst r q = d q) /\
   match prepare_space pr (content d p) n with Ok g => snd r = Ok tt /\ fst r p = Some g | Panic => snd r = Panic end) /\
  (forall (key m : K) consts, let r := run (mark_space_p pr p key m consts n) d in
   (forall q, q <> p -> fst r q = d q) /\
   match d p with
   | None => snd r = Panic /\ fst r p = None
   | Some f => match mark_space pr f key m consts n with Ok g => snd r = Ok tt /\ fst r p = Some g | Panic => snd r = Panic end
   end) /\
  (forall cs (key : K) hash_consts, let r := run (response_1_p pr p cs key hash_consts n) d in
   (forall q, q <> p -> fst r q = d q) /\
   match d p with
   | None => snd r = Panic /\ fst r p = None
   | Some f => snd r = response_1 pr f cs key hash_consts n
   end).
Proof.
  intros K pr p n d. split; [exact (run_prepare_space pr p n d)|]. split.
  - intros key m consts r. unfold r. destruct (d p) as [f|] eqn:P.
    + destruct (does_mark_space pr p key m consts n d f P) as [F R]. split; [exact F|]. destruct (mark_space pr f key m consts n); exact R.
    + unfold mark_space_p. cbn [p_existing next run]. rewrite P. cbn [next run fst snd]. auto.
  - intros cs key hc r. unfold r. destruct (d p) as [f|] eqn:P.
    + destruct (does_response pr p cs key hc n d f P) as [F R]. split; [exact F|]. destruct (response_1 pr f cs key hc n); [exact (proj1 R)|exact R].
    + unfold response_1_p. cbn [p_existing next run]. rewrite P. cbn [next run fst snd]. auto.
Qed.
Print Assumptions C112_alone.

(** * Side by side *)
(** What a run does to the space: mark it for a key, or answer challenges from it. *)
Inductive job (K : prime_ops) : Type :=
| Mark (key m : K) (consts : list K)
| Ask (challenges : list nat) (key : K) (hash_consts : list K).
Arguments Mark {K}. Arguments Ask {K}.
Definition job_run {K : prime_ops} (pr : profile) (p : place) (n : nat) (j : job K) : proc (option (list K * list nat * K)) :=
  match j with
  | Mark key m consts => go _ <- mark_space_p pr p key m consts n; calc (Ok None)
  | Ask cs key hc => go r <- response_1_p pr p (map Z.of_nat cs) key hc n; calc (Ok (Some r))
  end.
(** As many constants as rounds, and challenges within the space. *)
Definition proper {K : prime_ops} (n : nat) (j : job K) : Prop :=
  match j with
  | Mark _ _ consts => length consts = MIMC5_DF_ROUNDS
  | Ask cs _ hc => length hc = MIMC5_HASH_ROUNDS /\ Forall (fun y => y < 2 ^ n) cs
  end.
(** x belongs in slot y for one of the runs that mark. *)
Definition belongs {K : prime_ops} (jobs : list (job K)) (n y x : nat) : Prop :=
  exists key m consts, In (Mark key m consts) jobs /\ x < 2 ^ n /\ maps_to K key m consts n x y.
(** What slot y held at first, or some x that belongs there followed by a set bit. *)
Definition content_of {K : prime_ops} (jobs : list (job K)) (n : nat) (old : file) (y : nat) (c : list bool) : Prop :=
  c = at_slot n old y \/ exists x xb, belongs jobs n y x /\ usize_to_bits (Z.of_nat x) n = Some (Ok xb) /\ c = xb ++ [true].
(** The bits of s that share a byte of the file come from one such content. *)
Definition by_bytes {K : prime_ops} (jobs : list (job K)) (n : nat) (old : file) (y : nat) (s : list bool) : Prop :=
  length s = n + 1 /\
  forall i, exists c, content_of jobs n old y c /\ forall k, k < n + 1 -> ((n + 1) * y + k) / 8 = i -> nth k s false = nth k c false.

Lemma f2_imp {A B} (R Q : A -> B -> Prop) l m : (forall a b, R a b -> Q a b) -> Forall2 R l m -> Forall2 Q l m.
Proof. intros I F. induction F; constructor; auto. Qed.
Lemma bit_at (f : file) : forall i u, u < 8 -> nth (8 * i + u) (bytes_to_bits f) false = nth u (byte_bits (nth i f x00)) false.
Proof.
  induction f as [|b f IH]; intros i u U.
  - rewrite nth_overflow by (cbn; lia). replace (nth i [] x00) with x00 by (now destruct i). do 8 (destruct u as [|u]; [reflexivity|]). lia.
  - rewrite bytes_to_bits_cons. destruct i as [|i]; [rewrite app_nth1 by (rewrite byte_bits_length; lia); reflexivity|].
    rewrite app_nth2 by (rewrite byte_bits_length; lia). rewrite byte_bits_length. replace (8 * S i + u - 8) with (8 * i + u) by lia. now apply IH.
Qed.
Lemma nth_first (l : list bool) : forall k i, i < k -> nth i (firstn k l) false = nth i l false.
Proof. induction l as [|x l IH]; intros [|k] [|i] I; try lia; cbn [firstn nth]; auto. apply IH. lia. Qed.
Lemma nth_skip (l : list bool) : forall k i, nth i (skipn k l) false = nth (k + i) l false.
Proof. induction l as [|x l IH]; intros [|k] i; auto; [now rewrite skipn_nil, !nth_overflow by (cbn; lia)|]. apply IH. Qed.
Lemma slot_bit n (f : file) y k : k < n + 1 -> nth k (at_slot n f y) false = nth ((n + 1) * y + k) (bytes_to_bits f) false.
Proof. intros KN. unfold at_slot. rewrite nth_first by exact KN. apply nth_skip. Qed.

Section Facts.
Context (K : prime_ops) (HK : is_prime_field K) (pr : profile) (p : place) (n : nat) (jobs : list (job K)) (f : file).
Hypothesis N : 3 <= n <= 58.
Hypothesis LEN : 8 * length f = (n + 1) * 2 ^ n.
Hypothesis PROPER : Forall (proper n) jobs.

Definition fine (i : nat) (b : byte) : Prop := forall y, y < 2 ^ n ->
  exists c, content_of jobs n f y c /\ forall u, u < 8 -> (n + 1) * y <= 8 * i + u < (n + 1) * y + (n + 1) -> nth u (byte_bits b) false = nth (8 * i + u - (n + 1) * y) c false.
Lemma fine_start : whole_file (length f) fine f.
Proof.
  split; [reflexivity|]. intros i I y Y. exists (at_slot n f y). split; [now left|]. intros u U R. rewrite slot_bit by lia. rewrite <- bit_at by exact U. f_equal. lia.
Qed.
Lemma fine_closed key m consts df x : In (Mark key m consts) jobs -> (forall x, mimc5_df (fadd (of_Z (Z.of_nat x)) key) m consts = Ok (df x)) -> x < 2 ^ n ->
  closed (length f) fine n (low_bits n (df x)) (int_bits n x ++ [true]).
Proof.
  intros IN D X i b e I FB E y Y. destruct (Nat.eq_dec y (low_bits n (df x))) as [->|NE].
  - exists (int_bits n x ++ [true]). split.
    + right. exists x, (int_bits n x). split; [exists key, m, consts; split; [exact IN|split; [exact X|now apply (maps_iff K HK key m consts n x _ df D)]]|]. split; [apply usize_to_bits_ok; lia|reflexivity].
    + intros u U R. rewrite E by exact U. unfold patch. destruct (Nat.leb_spec ((n + 1) * low_bits n (df x)) (8 * i + u)), (Nat.ltb_spec (8 * i + u) ((n + 1) * low_bits n (df x) + (n + 1))); try lia. reflexivity.
  - destruct (FB y Y) as (c & C & B). exists c. split; [exact C|]. intros u U R. rewrite E by exact U. unfold patch.
    assert (A : y < low_bits n (df x) \/ low_bits n (df x) < y) by lia.
    destruct (Nat.leb_spec ((n + 1) * low_bits n (df x)) (8 * i + u)), (Nat.ltb_spec (8 * i + u) ((n + 1) * low_bits n (df x) + (n + 1))); cbn [andb]; try (now apply B).
    exfalso. destruct A as [A|A]; apply (Nat.mul_le_mono_l _ _ (n + 1)) in A; lia.
Qed.
Lemma safe_mark key m consts : In (Mark key m consts) jobs -> safe p (whole_file (length f) fine) (fun _ => True) (mark_space_p pr p key m consts n).
Proof.
  intros IN. assert (LC : length consts = MIMC5_DF_ROUNDS) by (rewrite Forall_forall in PROPER; exact (PROPER _ IN)). destruct (df_total K HK key m consts LC) as (df & D).
  unfold mark_space_p. constructor. intros g _. cbn [p_existing next]. rewrite pow2_ok by lia. cbn [calc next].
  replace (Z.to_nat (2 ^ Z.of_nat n)) with (2 ^ n) by (apply Nat2Z.inj; rewrite Z2Nat.id by (apply Z.pow_nonneg; lia); now rewrite Nat2Z.inj_pow).
  eapply safe_imp; [apply (safe_each p (whole_file (length f) fine) (fun _ _ => True) _ _ 0)|auto]; [|exact I].
  intros j x s E _. assert (X : x < 2 ^ n) by (apply nth_error_In, in_seq in E; lia).
  rewrite (mark_target_ok pr key m consts n x (df x)) by (try (intros z; apply (pf_repr K HK z)); auto; lia). cbn [calc next].
  destruct (slot_fits (length f) n ltac:(lia) ltac:(lia) _ (low_bits_lt n (df x))) as [FIT SM].
  apply safe_mark_slot; [exact FIT|exact SM|rewrite app_length, int_bits_length; reflexivity|]. now apply (fine_closed key m consts).
Qed.
Definition results (j : job K) (r : option (list K * list nat * K)) : Prop :=
  match j with
  | Mark _ _ _ => r = None
  | Ask cs _ _ => exists xs idxs h, r = Some (xs, idxs, h) /\ Forall2 (good fine n (map Z.of_nat cs)) xs idxs
  end.
Lemma safe_job j : In j jobs -> safe p (whole_file (length f) fine) (results j) (job_run pr p n j).
Proof.
  intros IN. destruct j as [key m consts|cs key hc]; cbn [job_run].
  - eapply safe_next; [now apply safe_mark|]. intros _ _. now constructor.
  - rewrite Forall_forall in PROPER. destruct (PROPER _ IN) as [LH FC]. eapply safe_next; [apply (safe_response p (length f) fine pr n ltac:(lia) ltac:(lia) (F_R (pf_field K HK)))|].
    + exact LH.
    + apply Forall_forall. intros c IC. apply in_map_iff in IC. destruct IC as (y & <- & IY). rewrite Forall_forall in FC. eauto.
    + intros ((xs, idxs), h) G. constructor. exists xs, idxs, h. split; [reflexivity|exact G].
Qed.
Lemma safe_state d d' ps : d p = Some f -> turns (d, map (fun j => Some (job_run pr p n j)) jobs) (d', ps) ->
  (exists g, d' p = Some g /\ whole_file (length f) fine g) /\ (forall q, q <> p -> d' q = d q) /\
  forall i j m, nth_error jobs i = Some j -> nth_error ps i = Some (Some m) -> safe p (whole_file (length f) fine) (results j) m.
Proof.
  intros P T. set (Qs := fun i r => match nth_error jobs i with Some j => results j r | None => True end).
  assert (S0 : all_safe p (whole_file (length f) fine) Qs (d, map (fun j => Some (job_run pr p n j)) jobs)).
  { split; [exists f; split; [exact P|apply fine_start]|]. cbn [snd]. intros i m E. rewrite nth_error_map in E. destruct (nth_error jobs i) as [j|] eqn:EJ; [|discriminate]. injection E as <-.
    eapply safe_imp; [apply safe_job; now apply nth_error_In in EJ|]. intros r R. unfold Qs. now rewrite EJ. }
  pose proof (safe_turns _ _ _ _ _ T S0) as [A B]. split; [exact A|]. split; [exact (safe_frame _ _ _ _ _ T S0)|].
  intros i j m EJ EM. eapply safe_imp; [exact (B i m EM)|]. intros r. unfold Qs. now rewrite EJ.
Qed.
Lemma pieces_bytes y s : length s = n + 1 -> y < 2 ^ n ->
  (forall i, (n + 1) * y < 8 * i + 8 -> 8 * i < (n + 1) * y + (n + 1) -> exists b, fine i b /\ piece n y s (n + 1) i b) -> by_bytes jobs n f y s.
Proof.
  intros LS Y F. split; [exact LS|]. intros i. destruct (Nat.lt_ge_cases ((n + 1) * y) (8 * i + 8)) as [A|A]; [destruct (Nat.lt_ge_cases (8 * i) ((n + 1) * y + (n + 1))) as [B|B]|].
  - destruct (F i A B) as (b & FB & PB). destruct (FB y Y) as (c & C & E). exists c. split; [exact C|]. intros k KN KI.
    pose proof (Nat.div_mod ((n + 1) * y + k) 8 ltac:(lia)) as DM. pose proof (Nat.mod_upper_bound ((n + 1) * y + k) 8 ltac:(lia)) as MB. rewrite KI in DM. set (u := ((n + 1) * y + k) mod 8) in *.
    replace k with (8 * i + u - (n + 1) * y) by lia. rewrite PB by lia. apply E; lia.
  - exists (at_slot n f y). split; [now left|]. intros k KN KI. exfalso. pose proof (Nat.div_mod ((n + 1) * y + k) 8 ltac:(lia)). lia.
  - exists (at_slot n f y). split; [now left|]. intros k KN KI. exfalso. pose proof (Nat.div_mod ((n + 1) * y + k) 8 ltac:(lia)). pose proof (Nat.mod_upper_bound ((n + 1) * y + k) 8 ltac:(lia)). lia.
Qed.
Lemma file_bytes g y : whole_file (length f) fine g -> y < 2 ^ n -> by_bytes jobs n f y (at_slot n g y).
Proof.
  intros [LG G] Y. apply pieces_bytes; [|exact Y|].
  - assert (B : (n + 1) * (y + 1) <= (n + 1) * 2 ^ n) by (apply Nat.mul_le_mono_l; lia). apply (slot_length g n y). lia.
  - intros i _ B. assert (Q : (n + 1) * (y + 1) <= (n + 1) * 2 ^ n) by (apply Nat.mul_le_mono_l; lia). exists (nth i g x00). split; [apply G; lia|]. intros u U R. rewrite slot_bit by lia. rewrite <- bit_at by exact U. f_equal. lia.
Qed.
End Facts.

(** Any number of runs mark and read one space at the same time, each with its own key; any
    schedule, any of them killed anywhere.  At every moment the file has its length, and of
    every slot the bits in one byte of the file are those of one x that belongs there, or as
    they were at first.  No run panics.  A challenge is answered only with bits of that kind,
    and only if the mark among them is set. *)
Theorem C112_side : forall (K : prime_ops), is_prime_field K -> forall pr p n (jobs : list (job K)) f, 3 <= n <= 58 -> 8 * length f = (n + 1) * 2 ^ n -> Forall (proper n) jobs ->
  forall d d' ps, d p = Some f -> turns (d, map (fun j => Some (job_run pr p n j)) jobs) (d', ps) ->
  (exists g, d' p = Some g /\ length g = length f /\ forall y, y < 2 ^ n -> by_bytes jobs n f y (at_slot n g y)) /\
  (forall q, q <> p -> d' q = d q) /\
  (forall i key m consts r, nth_error jobs i = Some (Mark key m consts) -> nth_error ps i = Some (Some (Halt r)) -> r = Ok None) /\
  (forall i cs key hc r, nth_error jobs i = Some (Ask cs key hc) -> nth_error ps i = Some (Some (Halt r)) ->
     exists xs idxs h, r = Ok (Some (xs, idxs, h)) /\
     Forall2 (fun x k => exists y s v, nth_error cs k = Some y /\ by_bytes jobs n f y s /\ nth n s false = true /\ bits_to_usize pr (firstn n s) = Ok v /\ x = of_Z v) xs idxs).
Proof.
  intros K HK pr p n jobs f N LEN PR d d' ps P T. destruct (safe_state K HK pr p n jobs f N LEN PR d d' ps P T) as ((g & PG & WG) & FR & S). split; [|split; [exact FR|split]].
  - exists g. split; [exact PG|]. split; [exact (proj1 WG)|]. intros y Y. now apply file_bytes.
  - intros i key m consts r EJ EP. specialize (S i _ _ EJ EP). inversion S as [a R| |]; subst. cbn [results] in R. now subst a.
  - intros i cs key hc r EJ EP. specialize (S i _ _ EJ EP). inversion S as [a R| |]; subst. destruct R as (xs & idxs & h & -> & F). exists xs, idxs, h. split; [reflexivity|].
    eapply f2_imp; [|exact F]. intros x k (y & s & E & Y & [LS SE] & FL & X). rewrite nth_error_map in E. destruct (nth_error cs k) as [y'|]; [|discriminate]. injection E as E. apply Nat2Z.inj in E. subst y'.
    exists y, s, (val (firstn n s)). split; [reflexivity|]. split; [now apply pieces_bytes|]. split; [exact FL|]. split; [|exact X]. apply bits_to_usize_val. rewrite firstn_length. lia.
Qed.
Print Assumptions C112_side.

(** A slot where nothing belongs is never touched. *)
Theorem C112_unmapped : forall (K : prime_ops), is_prime_field K -> forall pr p n (jobs : list (job K)) f, 3 <= n <= 58 -> 8 * length f = (n + 1) * 2 ^ n -> Forall (proper n) jobs ->
  forall d d' ps, d p = Some f -> turns (d, map (fun j => Some (job_run pr p n j)) jobs) (d', ps) ->
  forall y, y < 2 ^ n -> (forall x, ~ belongs jobs n y x) -> exists g, d' p = Some g /\ at_slot n g y = at_slot n f y.
Proof.
  intros K HK pr p n jobs f N LEN PR d d' ps P T y Y NO. destruct (C112_side K HK pr p n jobs f N LEN PR d d' ps P T) as ((g & PG & LG & G) & _). exists g. split; [exact PG|].
  destruct (G y Y) as [LS B]. assert (Q : (n + 1) * (y + 1) <= (n + 1) * 2 ^ n) by (apply Nat.mul_le_mono_l; lia). assert (LO : length (at_slot n f y) = n + 1) by (apply (slot_length f n y); lia).
  apply (nth_ext _ _ false false); [congruence|]. intros k KL. rewrite LS in KL. destruct (B (((n + 1) * y + k) / 8)) as (c & [->|(x & xb & BL & _)] & E); [now apply E|]. now destruct (NO x).
Qed.
Print Assumptions C112_unmapped.

(** Slots of four or eight bits lie in one byte: each is whole at every moment, and on a
    space that was prepared first every answer is right for one of the runs that mark. *)
Lemma one_byte_slot n y k : n = 3 \/ n = 7 -> k < n + 1 -> ((n + 1) * y + k) / 8 = (n + 1) * y / 8.
Proof.
  intros [-> | ->] KN; cbn [Nat.add].
  - destruct (Nat.Even_or_Odd y) as [[z ->]|[z ->]].
    + replace (4 * (2 * z) + k) with (k + z * 8) by lia. replace (4 * (2 * z)) with (0 + z * 8) by lia. rewrite !Nat.div_add by lia. now rewrite !Nat.div_small by lia.
    + replace (4 * (2 * z + 1) + k) with ((4 + k) + z * 8) by lia. replace (4 * (2 * z + 1)) with (4 + z * 8) by lia. rewrite !Nat.div_add by lia. now rewrite !Nat.div_small by lia.
  - replace (8 * y + k) with (k + y * 8) by lia. replace (8 * y) with (0 + y * 8) by lia. rewrite !Nat.div_add by lia. now rewrite !Nat.div_small by lia.
Qed.
Lemma content_length {K : prime_ops} (jobs : list (job K)) n f y c : 0 < n -> (n + 1) * (y + 1) <= 8 * length f -> content_of jobs n f y c -> length c = n + 1.
Proof.
  intros N B [->|(x & xb & _ & E & ->)]; [now apply slot_length|]. rewrite usize_to_bits_ok in E by lia. injection E as <-. rewrite app_length, bits_loop_length. reflexivity.
Qed.
Lemma whole_slot {K : prime_ops} (jobs : list (job K)) n f y s : n = 3 \/ n = 7 -> 8 * length f = (n + 1) * 2 ^ n -> y < 2 ^ n -> by_bytes jobs n f y s -> content_of jobs n f y s.
Proof.
  intros N LEN Y [LS B]. destruct (B ((n + 1) * y / 8)) as (c & C & E). assert (Q : (n + 1) * (y + 1) <= (n + 1) * 2 ^ n) by (apply Nat.mul_le_mono_l; lia). pose proof (content_length jobs n f y c ltac:(lia) ltac:(lia) C) as LC.
  replace s with c; [exact C|]. apply (nth_ext _ _ false false); [congruence|]. intros k KL. symmetry. apply E; [lia|]. apply one_byte_slot; [exact N|lia].
Qed.
Theorem C112_whole : forall (K : prime_ops), is_prime_field K -> forall pr p n (jobs : list (job K)) f f0, n = 3 \/ n = 7 -> prepare_space pr f0 n = Ok f -> Forall (proper n) jobs ->
  forall d d' ps, d p = Some f -> turns (d, map (fun j => Some (job_run pr p n j)) jobs) (d', ps) ->
  (exists g, d' p = Some g /\ forall y, y < 2 ^ n -> content_of jobs n f y (at_slot n g y)) /\
  (forall i cs key hc xs idxs h, nth_error jobs i = Some (Ask cs key hc) -> nth_error ps i = Some (Some (Halt (Ok (Some (xs, idxs, h))))) ->
     Forall2 (fun x k => exists y v, nth_error cs k = Some y /\ belongs jobs n y v /\ x = of_Z (Z.of_nat v)) xs idxs).
Proof.
  intros K HK pr p n jobs f f0 N PS PR d d' ps P T. destruct (C50_exact_bits pr f0 n ltac:(lia)) as (f1 & P1 & LEN). rewrite PS in P1. injection P1 as <-.
  destruct (C112_side K HK pr p n jobs f ltac:(lia) LEN PR d d' ps P T) as ((g & PG & LG & G) & _ & _ & A). split.
  - exists g. split; [exact PG|]. intros y Y. apply whole_slot; auto.
  - intros i cs key hc xs idxs h EJ EP. destruct (A i cs key hc _ EJ EP) as (xs' & idxs' & h' & E & F). injection E as <- <- <-.
    assert (FC : Forall (fun y => y < 2 ^ n) cs) by (rewrite Forall_forall in PR; exact (proj2 (PR _ (nth_error_In _ _ EJ)))).
    eapply f2_imp; [|exact F]. intros x k (y & s & v & EY & B & FL & V & ->). assert (Y : y < 2 ^ n) by (rewrite Forall_forall in FC; apply FC; now apply nth_error_In in EY).
    apply whole_slot in B; [|exact N|exact LEN|exact Y]. destruct B as [->|(x & xb & BL & U & ->)].
    + exfalso. rewrite prepare_space_ok in PS by lia. assert (EF : f = zeros ((n + 1) * 2 ^ n / 8)) by congruence.
      assert (SZ : at_slot n f y = repeat false (n + 1)) by (rewrite EF; apply slot_zeros; rewrite <- (slots_divide n) by lia; apply Nat.mul_le_mono_l; lia). rewrite SZ, nth_repeat in FL. discriminate FL.
    + exists y, x. split; [exact EY|]. split; [exact BL|]. rewrite usize_to_bits_ok in U by lia. injection U as <-. destruct BL as (_ & _ & _ & _ & X & _).
      rewrite firstn_app, bits_loop_length, Nat.sub_diag in V. cbn [firstn] in V. rewrite app_nil_r, firstn_all2 in V by (rewrite bits_loop_length; lia). rewrite bits_to_usize_val in V by (rewrite bits_loop_length; lia).
      injection V as <-. f_equal. now apply val_int_bits.
Qed.
Print Assumptions C112_whole.

(** However runs for one key got in each other's way, marking once more, alone, gives the
    table that one run alone would have given. *)
Theorem C112_again : forall (K : prime_ops), is_prime_field K -> forall pr p n (jobs : list (job K)) f key m consts, 3 <= n <= 58 -> 8 * length f = (n + 1) * 2 ^ n -> Forall (proper n) jobs ->
  length consts = MIMC5_DF_ROUNDS -> (forall key' m' consts', In (Mark key' m' consts') jobs -> key' = key /\ m' = m /\ consts' = consts) ->
  forall d d' ps, d p = Some f -> turns (d, map (fun j => Some (job_run pr p n j)) jobs) (d', ps) ->
  exists g f2, d' p = Some g /\ mark_space pr f key m consts n = Ok f2 /\ mark_space pr g key m consts n = Ok f2.
Proof.
  intros K HK pr p n jobs f key m consts N LEN PR LC SAME d d' ps P T. destruct (C112_side K HK pr p n jobs f N LEN PR d d' ps P T) as ((g & PG & LG & _) & _).
  destruct (df_total K HK key m consts LC) as (df & D). pose proof (fun z => proj1 (pf_repr K HK z)) as RP.
  destruct (mark_upto_ok pr key m consts n df RP N D f (2 ^ n) LEN) as (f2 & E & L2 & S2). destruct (mark_upto_ok pr key m consts n df RP N D g (2 ^ n) ltac:(lia)) as (f3 & E3 & L3 & S3).
  rewrite <- (mark_space_upto pr key m consts n N) in E, E3. exists g, f2. split; [exact PG|]. split; [exact E|]. rewrite E3. f_equal. apply (slots_ext n); [lia|lia|]. intros y Y.
  specialize (S2 y Y). specialize (S3 y Y). destruct S2 as [A|[NO A]].
  - destruct S3 as [A'|[NO' _]]; [|destruct A as (x & X & DX & _); now destruct (NO' x X)]. eapply (slot_over_fun (fun x => low_bits n (df x)) n (2 ^ n) y []); left; eassumption.
  - destruct S3 as [(x & X & DX & _)|[_ A']]; [now destruct (NO x X)|]. rewrite A, A'.
    destruct (C112_unmapped K HK pr p n jobs f N LEN PR d d' ps P T y Y) as (g' & PG' & EG).
    + intros x (key' & m' & consts' & IN & X & M). destruct (SAME _ _ _ IN) as (-> & -> & ->). apply (maps_iff K HK key m consts n x y df D) in M. now apply (NO x X).
    + rewrite PG in PG'. injection PG' as <-. exact EG.
Qed.
Print Assumptions C112_again.

(** Runs that only answer do not disturb each other: each answers as if alone. *)
Theorem C112_askers : forall (K : prime_ops) pr p n (jobs : list (job K)) f, (forall key m consts, ~ In (Mark key m consts) jobs) ->
  forall d d' ps, d p = Some f -> turns (d, map (fun j => Some (job_run pr p n j)) jobs) (d', ps) ->
  (forall q, d' q = d q) /\
  forall i cs key hc r, nth_error jobs i = Some (Ask cs key hc) -> nth_error ps i = Some (Some (Halt r)) -> r = let* a := response_1 pr f (map Z.of_nat cs) key hc n in Ok (Some a).
Proof.
  intros K pr p n jobs f NO d d' ps P T. rewrite <- (map_map (job_run pr p n) Some) in T.
  assert (U : forall i m, nth_error (map (job_run pr p n) jobs) i = Some m -> uses (fun q => q = p) (fun _ => False) m).
  { intros i m E. rewrite nth_error_map in E. destruct (nth_error jobs i) as [[key mm consts|cs key hc]|] eqn:EJ; [| |discriminate].
    - now destruct (NO key mm consts (nth_error_In _ _ EJ)).
    - injection E as <-. cbn [job_run]. apply (uses_next _ _ (response_1_p pr p (map Z.of_nat cs) key hc n)); [now apply uses_response|]. intros a. exact I. }
  assert (W : forall i : nat, forall q : place, False -> q = p) by (intros ? ? []).
  assert (X : forall (i j : nat) (q : place), i < length (map (job_run pr p n) jobs) -> j < length (map (job_run pr p n) jobs) -> i <> j -> False -> ~ q = p) by (intros ? ? ? _ _ _ []).
  split.
  - intros q. exact (apart_rest (map (job_run pr p n) jobs) (fun _ q => q = p) (fun _ _ => False) W U X d d' ps T q (fun i _ F => F)).
  - intros i cs key hc r EJ EP.
    destruct (apart_run (map (job_run pr p n) jobs) (fun _ q => q = p) (fun _ _ => False) W U X d d' ps i (job_run pr p n (Ask cs key hc)) r T ltac:(now rewrite nth_error_map, EJ) EP) as [-> _].
    cbn [job_run]. rewrite run_next. unfold andThen. destruct (C112_alone K pr p n d) as (_ & _ & R). destruct (R (map Z.of_nat cs) key hc) as [_ A]. rewrite P in A.
    destruct (run (response_1_p pr p (map Z.of_nat cs) key hc n) d) as [d1 r1]. cbn [snd] in A. subst r1. destruct (response_1 pr f (map Z.of_nat cs) key hc n); reflexivity.
Qed.
Print Assumptions C112_askers.

(** * Two runs for the same key *)
(** A run that marks with key 9 (see [nine]), with its targets worked out. *)
Definition marks (pr : profile) (p : place) {K : prime_ops} : proc (option (list K * list nat * K)) :=
  go _ <- (go _ <- p_existing p; each (fun _ x => mark_slot_p pr p 4 (Z.of_nat (nth x nine 0)) (int_bits 4 x ++ [true])) (seq 0 16) tt); calc (Ok None).
Lemma marks_same {K : prime_ops} pr p (T : nat -> res (Z * list bool)) : (forall x, x < 16 -> T x = Ok (Z.of_nat (nth x nine 0), int_bits 4 x ++ [true])) ->
  same (marks (K := K) pr p) (go _ <- (go _ <- p_existing p; go count <- calc (Ok 16%Z); each (fun _ x => go (y, x_bits) <- calc (T x); mark_slot_p pr p 4 y x_bits) (seq 0 (Z.to_nat count)) tt); calc (Ok None)).
Proof.
  intros E. unfold marks. apply same_next; [|intros _; apply same_refl]. apply same_next; [apply same_refl|]. intros _. cbn [calc next]. change (Z.to_nat 16) with 16.
  apply same_each. assert (G : forall l, (forall x, In x l -> x < 16) -> Forall2 (fun a b => forall s : unit, same (mark_slot_p pr p 4 (Z.of_nat (nth a nine 0)) (int_bits 4 a ++ [true]))
    (go (y, x_bits) <- calc (T b); mark_slot_p pr p 4 y x_bits)) l l).
  { induction l as [|x l IH]; intros B; constructor; [|apply IH; intros; apply B; now right]. intros _. rewrite (E x) by (apply B; now left). apply same_refl. }
  apply G. intros x I. apply in_seq in I. lia.
Qed.
Lemma nine_run pr p : same (marks pr p) (job_run (K := FrBls) pr p 4 (Mark (K := FrBls) (fr 9) (fr 2) zero_consts)).
Proof. exact (marks_same pr p (fun x => mark_target (K := FrBls) pr (fr 9) (fr 2) zero_consts 4 (Z.of_nat x)) (nine_target pr)). Qed.
Definition only (f : file) : disk := fun q => if q =? 0 then Some f else None.
Definition kept {A} (s : shared A) : file := match fst s 0 with Some g => g | None => [] end.
Definition ended_none {A} (x : option (proc (option A))) : bool := match x with Some (Halt (Ok None)) => true | _ => false end.
(** Both runs end well, and 11, which either of them marks in slot 7, is in neither the file
    nor the answers: each run wrote back a byte it had read before the other one's mark. *)
Definition lost_schedule : list nat := repeat 0 37 ++ repeat 1 41 ++ repeat 0 1 ++ repeat 1 13 ++ repeat 0 13 ++ repeat 1 1 ++ repeat 0 4.
Definition lost_state : shared (option (list FrBls * list nat * FrBls)) := fold_left move lost_schedule (only (zeros 10), [Some (marks Debug 0); Some (marks Debug 0)]).
Lemma lost_trial : ended_none (nth 0 (snd lost_state) None) && ended_none (nth 1 (snd lost_state) None) && (length (kept lost_state) =? 10) && (length (snd lost_state) =? 2)
  && match fst lost_state 0 with Some _ => true | None => false end && negb (nth 4 (slot (kept lost_state) 4 7) false) = true.
Proof. vm_compute. reflexivity. Qed.
Lemma ended_ok {A} (x : option (proc (option A))) : ended_none x = true -> x = Some (Halt (Ok None)).
Proof. destruct x as [[[[|]|]| |]|]; try discriminate. reflexivity. Qed.
Theorem C112_lost_refuted : exists f d d' g f2, prepare_space Debug [] 4 = Ok f /\ d 0 = Some f /\
  turns (d, map (fun j => Some (job_run (K := FrBls) Debug 0 4 j)) [Mark (K := FrBls) (fr 9) (fr 2) zero_consts; Mark (K := FrBls) (fr 9) (fr 2) zero_consts]) (d', [Some (Halt (Ok None)); Some (Halt (Ok None))]) /\
  d' 0 = Some g /\ answers FrBls Debug (fr 9) zero_consts 4 g 7 None /\
  mark_space (K := FrBls) Debug f (fr 9) (fr 2) zero_consts 4 = Ok f2 /\ answers FrBls Debug (fr 9) zero_consts 4 f2 7 (Some 11) /\ maps_to FrBls (fr 9) (fr 2) zero_consts 4 11 7.
Proof.
  pose proof lost_trial as T. do 5 (apply andb_prop in T; let X := fresh "X" in destruct T as [T X]). rename T into E0, X into FL, X0 into EX, X1 into L2, X2 into LG, X3 into E1. apply ended_ok in E0, E1. apply Nat.eqb_eq in LG, L2. apply Bool.negb_true_iff in FL.
  assert (PS : snd lost_state = [Some (Halt (Ok None)); Some (Halt (Ok None))]).
  { destruct (snd lost_state) as [|a [|b [|]]]; try discriminate L2. cbn [nth] in E0, E1. now rewrite E0, E1. }
  pose proof (moves lost_schedule (only (zeros 10), [Some (marks Debug 0); Some (marks (K := FrBls) Debug 0)])) as T. fold lost_state in T.
  destruct (same_turns _ _ T [Some (job_run (K := FrBls) Debug 0 4 (Mark (K := FrBls) (fr 9) (fr 2) zero_consts)); Some (job_run (K := FrBls) Debug 0 4 (Mark (K := FrBls) (fr 9) (fr 2) zero_consts))]) as (ps1 & T1 & F1).
  { constructor; [apply nine_run|]. constructor; [apply nine_run|constructor]. }
  rewrite PS in F1. assert (EP : ps1 = [Some (Halt (Ok None)); Some (Halt (Ok None))]).
  { inversion F1 as [|x a l m R F]; subst. inversion F as [|x b l m' R' F']; subst. inversion F'; subst. destruct a as [a|], b as [b|]; try contradiction. cbn [same_run] in R, R'. now rewrite (same_done _ _ R), (same_done _ _ R'). }
  subst ps1. destruct (fst lost_state 0) as [g|] eqn:EG; [|discriminate EX]. unfold kept in LG, FL. rewrite EG in LG, FL.
  assert (PZ : prepare_space Debug [] 4 = Ok (zeros 10)) by (vm_compute; reflexivity).
  assert (L10 : 8 * length (zeros 10) = (4 + 1) * 2 ^ 4) by reflexivity.
  destruct (C99_over Debug FrBls FrBls_prime_field (fr 9) (fr 2) zero_consts 4 (zeros 10) eq_refl ltac:(lia) L10) as (f2 & M & [LF TF]).
  exists (zeros 10), (only (zeros 10)), (fst lost_state), g, f2. split; [exact PZ|]. split; [reflexivity|]. split; [exact T1|]. split; [exact EG|]. split; [|split; [exact M|]].
  - pose proof (answer_slot Debug FrBls FrBls_prime_field (fr 9) 4 ltac:(lia) zero_consts g 7 eq_refl ltac:(rewrite LG; reflexivity) ltac:(apply Nat.ltb_lt; reflexivity)) as A. rewrite FL in A. exact A.
  - assert (M11 : maps_to FrBls (fr 9) (fr 2) zero_consts 4 11 7) by (apply nine_maps; [lia|reflexivity]). split; [|exact M11].
    destruct (TF 7 ltac:(apply Nat.ltb_lt; reflexivity)) as [(x & X & MX & _ & xb & SX & U)|[NO _]]; [|destruct (NO 11 ltac:(apply Nat.ltb_lt; reflexivity) M11)].
    assert (x = 11). { apply nine_maps in MX; [|exact X]. clear - X MX. change (2 ^ 4) with 16 in X. do 16 (destruct x as [|x]; [try reflexivity; discriminate MX|]). lia. } subst x.
    pose proof (answer_slot Debug FrBls FrBls_prime_field (fr 9) 4 ltac:(lia) zero_consts f2 7 eq_refl ltac:(rewrite LF; exact L10) ltac:(apply Nat.ltb_lt; reflexivity)) as A.
    change (slot f2 4 7 = xb ++ [true]) in SX. rewrite SX in A. vm_compute in U. injection U as <-. exact A.
Qed.
Print Assumptions C112_lost_refuted.

(** A challenge answered while the space is being marked, by a run that reads the first byte
    of slot 6 before 15 is marked there and the second byte afterwards: the answer is made of
    the low bits of 10 and the high bits of 15, and does not belong there. *)
Definition torn_schedule : list nat := repeat 0 38 ++ repeat 1 2 ++ repeat 0 17 ++ repeat 1 1.
Definition torn_state : shared (option (list FrBls * list nat * FrBls)) :=
  fold_left move torn_schedule (only (zeros 10), [Some (marks Debug 0); Some (job_run (K := FrBls) Debug 0 4 (Ask (K := FrBls) [6] (fr 9) zero_consts))]).
Definition ended_with (x : option (proc (option (list FrBls * list nat * FrBls)))) (v : Z) : bool :=
  match x with Some (Halt (Ok (Some ([x], [0], _)))) => (repr (p := FrBls) x =? v)%Z | _ => false end.
Lemma torn_trial : ended_none (nth 0 (snd torn_state) None) && ended_with (nth 1 (snd torn_state) None) 14 && (length (snd torn_state) =? 2) = true.
Proof. vm_compute. reflexivity. Qed.
Theorem C112_torn_refuted : exists f d d' x h, prepare_space Debug [] 4 = Ok f /\ d 0 = Some f /\
  turns (d, map (fun j => Some (job_run (K := FrBls) Debug 0 4 j)) [Mark (K := FrBls) (fr 9) (fr 2) zero_consts; Ask (K := FrBls) [6] (fr 9) zero_consts]) (d', [Some (Halt (Ok None)); Some (Halt (Ok (Some ([x], [0], h))))]) /\
  repr (p := FrBls) x = 14%Z /\ ~ maps_to FrBls (fr 9) (fr 2) zero_consts 4 14 6.
Proof.
  pose proof torn_trial as T. do 2 (apply andb_prop in T; let X := fresh "X" in destruct T as [T X]). rename T into E0, X into L2, X0 into E1. apply ended_ok in E0. apply Nat.eqb_eq in L2.
  assert (EX : exists x h, nth 1 (snd torn_state) None = Some (Halt (Ok (Some ([x], [0], h)))) /\ repr (p := FrBls) x = 14%Z).
  { destruct (nth 1 (snd torn_state) None) as [[[[((xs, is), h)|]|]| |]|]; try discriminate E1. destruct xs as [|x [|]]; try discriminate E1. destruct is as [|[|] [|]]; try discriminate E1. exists x, h. split; [reflexivity|]. now apply Z.eqb_eq. }
  destruct EX as (x & h & EA & EV).
  assert (PS : snd torn_state = [Some (Halt (Ok None)); Some (Halt (Ok (Some ([x], [0], h))))]).
  { destruct (snd torn_state) as [|a [|b [|]]]; try discriminate L2. cbn [nth] in E0, EA. now rewrite E0, EA. }
  pose proof (moves torn_schedule (only (zeros 10), [Some (marks Debug 0); Some (job_run (K := FrBls) Debug 0 4 (Ask (K := FrBls) [6] (fr 9) zero_consts))])) as T. fold torn_state in T.
  destruct (same_turns _ _ T [Some (job_run (K := FrBls) Debug 0 4 (Mark (K := FrBls) (fr 9) (fr 2) zero_consts)); Some (job_run (K := FrBls) Debug 0 4 (Ask (K := FrBls) [6] (fr 9) zero_consts))]) as (ps1 & T1 & F1).
  { constructor; [apply nine_run|]. constructor; [apply same_refl|constructor]. }
  rewrite PS in F1. assert (EP : ps1 = [Some (Halt (Ok None)); Some (Halt (Ok (Some ([x], [0], h))))]).
  { inversion F1 as [|? a l m R F]; subst. inversion F as [|? b l m' R' F']; subst. inversion F'; subst. destruct a as [a|], b as [b|]; try contradiction. cbn [same_run] in R, R'. now rewrite (same_done _ _ R), (same_done _ _ R'). }
  subst ps1. exists (zeros 10), (only (zeros 10)), (fst torn_state), x, h. split; [vm_compute; reflexivity|]. split; [reflexivity|]. split; [exact T1|]. split; [exact EV|].
  intros Q. apply nine_maps in Q; [|lia]. discriminate Q.
Qed.
Print Assumptions C112_torn_refuted.
(** The two runs above meet the hypotheses; one more run alone repairs the table. *)
Example C112_ex : let jobs := [Mark (K := FrBls) (fr 9) (fr 2) zero_consts; Mark (K := FrBls) (fr 9) (fr 2) zero_consts] in
  Forall (proper 4) jobs /\ exists f d d' g f2, prepare_space Debug [] 4 = Ok f /\ 8 * length f = (4 + 1) * 2 ^ 4 /\ d 0 = Some f /\
  turns (d, map (fun j => Some (job_run (K := FrBls) Debug 0 4 j)) jobs) (d', [Some (Halt (Ok None)); Some (Halt (Ok None))]) /\
  d' 0 = Some g /\ (forall y, y < 2 ^ 4 -> by_bytes jobs 4 f y (at_slot 4 g y)) /\ mark_space (K := FrBls) Debug f (fr 9) (fr 2) zero_consts 4 = Ok f2 /\ mark_space (K := FrBls) Debug g (fr 9) (fr 2) zero_consts 4 = Ok f2.
Proof.
  intros jobs. assert (PR : Forall (proper 4) jobs) by (repeat constructor). split; [exact PR|].
  destruct C112_lost_refuted as (f & d & d' & g & f2 & P & D & T & G & _ & M & _). destruct (C50_exact_bits Debug [] 4 ltac:(lia)) as (f' & P' & L). rewrite P in P'. injection P' as <-.
  exists f, d, d', g, f2. split; [exact P|]. split; [exact L|]. split; [exact D|]. split; [exact T|]. split; [exact G|]. split; [|split; [exact M|]].
  - destruct (C112_side FrBls FrBls_prime_field Debug 0 4 jobs f ltac:(lia) L PR d d' _ D T) as ((g' & G' & _ & B) & _). rewrite G in G'. injection G' as <-. exact B.
  - destruct (C112_again FrBls FrBls_prime_field Debug 0 4 jobs f (fr 9) (fr 2) zero_consts ltac:(lia) L PR eq_refl) with (d := d) (d' := d') (ps := [Some (Halt (Ok (@None (list FrBls * list nat * FrBls)))); Some (Halt (Ok None))]) as (g' & f2' & G' & M' & A); [|exact D|exact T|].
    + intros key m consts [E|[E|[]]]; injection E as <- <- <-; auto.
    + rewrite G in G'. injection G' as <-. rewrite M in M'. injection M' as <-. exact A.
Qed.
