(** Property C114: accepted answers give the data back.  Vocabulary: [answer], [collect],
    [gather] from Gather; [words], [tuples], [count], [drawn], [finished] from Chance. *)
From Coq Require Import Strings.Byte Sorted.
From Verif Require Import Base Sloth Common Depend Prover Verifier Merkle Postorage BytesFacts DependSpec DependFacts CommonFacts SealSpec SealTop SealPad SealZero SealWitness
  SealFile WorkFacts PathFacts VerifierFacts ChallengeFacts SpotFacts PropSpot PropVerifier Chance ChanceFacts Gather.
Local Open Scope nat_scope.

(** * What is accepted *)
(** One unsealed block for each index asked for, each of which batch_verify accepts. *)
Definition verified (params : PosPara) (origin : file) (r : list nat * list (list (list byte))) : Prop :=
  length (snd r) = length (fst r) /\
  forall i k o, nth_error (fst r) i = Some k -> nth_error (snd r) i = Some o -> batch_verify origin k o (block_l params) (unit_l params) = Ok tt.
(** An answer with one block for each index asked for, which batch_unseal_and_verify accepts. *)
Definition accepted (H : list byte -> list byte) (pr : profile) (params : PosPara) (key : Z) (iv : list byte) (origin : file) (r : list nat * answer) : Prop :=
  length (a_blocks (snd r)) = length (fst r) /\
  batch_unseal_and_verify H pr params key iv (fst r) (a_before (snd r)) (a_deps (snd r)) origin (a_blocks (snd r)) = Ok tt.
(** The two tables of unit dependencies agree (see C35). *)
Definition same_tables (params : PosPara) : Prop :=
  mode_s params = 0 \/ (block_l params <> 0 /\ unit_l params <> 0 /\ data_l params / block_l params = block_l params / unit_l params).

Lemma plain_verified params origin k o : batch_verify origin k o (block_l params) (unit_l params) = Ok tt ->
  plain params o = read_file origin (k * block_l params) (block_l params).
Proof.
  intros B. apply C34_batch_verify in B as (U & (q & D) & B). rewrite D in B |- *. rewrite Nat.div_mul in B by lia. rewrite read_units. unfold plain. rewrite D, Nat.div_mul by lia. f_equal.
  assert (LE : q <= length o). { destruct (Nat.le_gt_cases q (length o)) as [|LT]; [assumption|]. destruct q as [|q']; [lia|]. destruct (B q' ltac:(lia)) as (c & N & _). assert (q' < length o) by (apply nth_error_Some; congruence). lia. }
  apply BytesFacts.list_ext. intros j. rewrite !nth_error_map, nth_error_firstn. destruct (j <? q) eqn:L; [apply Nat.ltb_lt in L|apply Nat.ltb_ge in L].
  - destruct (B j L) as (c & N & E). rewrite N, (proj2 (nth_seq q j j)) by auto. cbn. now rewrite E.
  - rewrite (proj2 (nth_error_None (seq 0 q) j)) by (rewrite seq_length; lia). reflexivity.
Qed.

Section Collect.
Variables (params : PosPara) (n : nat) (origin : file).
Notation bl := (block_l params).
Hypothesis DL : data_l params = n * bl.
Notation blk f k := (read_file f (k * bl) bl).
(** [f] has the blocks in [done], and zeros elsewhere. *)
Definition has (done : list nat) (f : file) : Prop :=
  length f = data_l params /\ forall k, k < n -> (In k done -> blk f k = blk origin k) /\ (~ In k done -> blk f k = zeros bl).
Lemma has_none : has [] (zeros (data_l params)).
Proof. split; [apply repeat_length|]. intros k K. split; [intros []|]. intros _. apply read_zeros. Qed.
Lemma keep_has done f k o : has done f -> k < n -> batch_verify origin k o bl (unit_l params) = Ok tt -> has (done ++ [k]) (keep params f (k, o)).
Proof.
  intros (L & HF) K B. apply plain_verified in B. unfold keep. cbn [fst snd]. rewrite B.
  assert (FIT : k * bl + length (blk origin k) <= length f) by (rewrite read_file_length, L, DL; replace (k * bl + bl) with (S k * bl) by lia; apply Nat.mul_le_mono_r; lia).
  split; [now rewrite write_at_length|]. intros j J. destruct (Nat.eq_dec j k) as [->|NE].
  - split; [intros _|intros X; exfalso; apply X, in_or_app; right; now left].
    pose proof (read_write_same f (k * bl) (blk origin k) FIT) as Q. rewrite read_file_length in Q. exact Q.
  - assert (SAME : blk (write_at f (k * bl) (blk origin k)) j = blk f j).
    { apply read_file_ext. intros x X. rewrite write_at_nth by exact FIT. rewrite read_file_length.
      replace ((k * bl <=? x) && (x <? k * bl + bl)) with false; [reflexivity|]. symmetry. apply andb_false_iff. rewrite Nat.leb_gt, Nat.ltb_ge.
      destruct (Nat.lt_ge_cases j k) as [C|C].
      - left. assert (S j * bl <= k * bl) by (apply Nat.mul_le_mono_r; lia). lia.
      - right. assert (S k * bl <= j * bl) by (apply Nat.mul_le_mono_r; lia). lia. }
    rewrite SAME. destruct (HF j J) as (A & C). split; intros X.
    + apply A. apply in_app_or in X as [X|[X|[]]]; [exact X|congruence].
    + apply C. intros Y. apply X, in_or_app. now left.
Qed.
Lemma keeps_has : forall ks os done f, has done f -> Forall (fun k => k < n) ks -> verified params origin (ks, os) ->
  has (done ++ ks) (fold_left (keep params) (combine ks os) f).
Proof.
  induction ks as [|k ks IH]; intros os done f HF R (L & V); cbn [fst snd] in *; [cbn; now rewrite app_nil_r|]. destruct os as [|o os]; [discriminate|].
  inversion R as [|? ? K R']; subst. cbn [combine fold_left]. replace (done ++ k :: ks) with ((done ++ [k]) ++ ks) by now rewrite <- app_assoc. apply IH; auto.
  - apply keep_has; auto. apply (V 0 k o); reflexivity.
  - split; [cbn in *; lia|]. intros i. apply (V (S i)).
Qed.
Lemma collects_has : forall rounds done f, has done f -> Forall (fun r => Forall (fun k => k < n) (fst r)) rounds -> Forall (verified params origin) rounds ->
  has (done ++ concat (map fst rounds)) (fold_left (fun f r => fold_left (keep params) (combine (fst r) (snd r)) f) rounds f).
Proof.
  induction rounds as [|(ks, os) rounds IH]; intros done f HF R V; [cbn; now rewrite app_nil_r|]. inversion R; subst. inversion V; subst. cbn [map concat fold_left fst snd].
  rewrite app_assoc. apply IH; auto. apply keeps_has; auto.
Qed.
Lemma has_all done f : has done f -> (forall k, k < n -> In k done) -> f = read_file origin 0 (data_l params).
Proof.
  intros (L & HF) A. transitivity (read_file f 0 (data_l params)); [rewrite read_file_full by lia; cbn; symmetry; apply firstn_all2; lia|].
  rewrite DL, !read_units. f_equal. apply map_ext_in. intros k K. apply in_seq in K. cbn [Nat.add]. apply HF; [lia|apply A; lia].
Qed.
End Collect.

(** * C114 *)
(** Whatever unsealed blocks batch_verify accepted: putting them where they belong gives the
    blocks of the original that were asked for, and zeros for the others. *)
Theorem C114_collect : forall params n origin rounds, data_l params = n * block_l params ->
  Forall (verified params origin) rounds -> Forall (fun r => Forall (fun k => k < n) (fst r)) rounds ->
  length (collect params rounds) = data_l params /\
  forall k, k < n -> read_file (collect params rounds) (k * block_l params) (block_l params) =
    if in_dec Nat.eq_dec k (concat (map fst rounds)) then read_file origin (k * block_l params) (block_l params) else zeros (block_l params).
Proof.
  intros params n origin rounds DL V R. destruct (collects_has params n origin DL rounds [] _ (has_none params n origin) R V) as (L & HF). split; [exact L|].
  intros k K. destruct (HF k K) as (A & B). destruct (in_dec Nat.eq_dec k (concat (map fst rounds))); auto.
Qed.
Print Assumptions C114_collect.
Lemma batch_unseal_length H pr params key iv ks before deps bs out : batch_unseal H pr params key iv ks before deps bs = Ok out -> length out = length bs.
Proof.
  unfold batch_unseal. destruct (bu_idxs_s pr params) as [t|]; cbn; [|discriminate]. generalize (seq 0 (length bs)) as l. intros l. revert bs.
  induction l as [|i l IH]; intros bs E; cbn in E; [congruence|]. destruct (bu_block H params key iv ks before deps t bs i) as [bs'|] eqn:B; cbn in E; [|discriminate].
  apply IH in E. rewrite E. unfold bu_block in B. destruct (index ks i); cbn in B; [|discriminate]. destruct (index bs i); cbn in B; [|discriminate].
  destruct (foldM _ _ _) in B; cbn in B; [|discriminate]. now apply set_index_len in B.
Qed.
Lemma accepted_verified H pr params key iv origin r : same_tables params -> accepted H pr params key iv origin r ->
  exists out, batch_unseal H pr params key iv (fst r) (a_before (snd r)) (a_deps (snd r)) (a_blocks (snd r)) = Ok out /\ verified params origin (fst r, out).
Proof.
  intros T (L & A). apply C35_unseal_and_verify in A as (out & E & V); [|exact T]. exists out. split; [exact E|]. pose proof (batch_unseal_length _ _ _ _ _ _ _ _ _ _ E) as LO.
  split; [cbn; congruence|]. cbn [fst snd]. intros i k o K O. destruct (V i o O) as (k' & K' & B). congruence.
Qed.
Lemma gather_collect H pr params key iv origin rounds : same_tables params -> Forall (accepted H pr params key iv origin) rounds ->
  exists outs, gather H pr params key iv rounds = Ok (collect params outs) /\ map fst outs = map fst rounds /\ Forall (verified params origin) outs.
Proof.
  intros T A. unfold gather.
  destruct (mapM_exists (fun r => let* out := batch_unseal H pr params key iv (fst r) (a_before (snd r)) (a_deps (snd r)) (a_blocks (snd r)) in Ok (fst r, out))
    (fun r o => fst o = fst r /\ verified params origin o) rounds) as (outs & E & F2).
  { intros r IR. rewrite Forall_forall in A. destruct (accepted_verified H pr params key iv origin r T (A r IR)) as (out & E & V). exists (fst r, out). rewrite E. auto. }
  rewrite E. exists outs. split; [reflexivity|]. clear E A. induction F2 as [|r o rs os (FS & V) F2 (IH1 & IH2)]; [split; [reflexivity|constructor]|]. cbn. split; [congruence|now constructor].
Qed.
(** Whatever answers batch_unseal_and_verify accepted, from whatever prover: the blocks of
    the original that were asked for can be computed from them. *)
Theorem C114_gather : forall H pr params key iv n origin rounds, data_l params = n * block_l params -> same_tables params ->
  Forall (accepted H pr params key iv origin) rounds -> Forall (fun r => Forall (fun k => k < n) (fst r)) rounds ->
  exists f, gather H pr params key iv rounds = Ok f /\ length f = data_l params /\
  forall k, k < n -> read_file f (k * block_l params) (block_l params) =
    if in_dec Nat.eq_dec k (concat (map fst rounds)) then read_file origin (k * block_l params) (block_l params) else zeros (block_l params).
Proof.
  intros H pr params key iv n origin rounds DL T A R. destruct (gather_collect _ _ _ _ _ _ _ T A) as (outs & E & M & V). exists (collect params outs). split; [exact E|]. rewrite <- M. apply C114_collect; auto.
  rewrite Forall_forall in *. intros o O. assert (I : In (fst o) (map fst rounds)) by (rewrite <- M; now apply in_map). apply in_map_iff in I as (r & F & I). rewrite <- F. now apply R.
Qed.
Print Assumptions C114_gather.
(** Once every block was asked for, the whole data. *)
Theorem C114_whole : forall H pr params key iv n origin rounds, data_l params = n * block_l params -> same_tables params -> length origin = data_l params ->
  Forall (accepted H pr params key iv origin) rounds -> Forall (fun r => Forall (fun k => k < n) (fst r)) rounds ->
  (forall k, k < n -> In k (concat (map fst rounds))) ->
  gather H pr params key iv rounds = Ok origin.
Proof.
  intros H pr params key iv n origin rounds DL T LO A R ALL. destruct (C114_gather H pr params key iv n origin rounds DL T A R) as (f & E & L & B). rewrite E. f_equal.
  rewrite (has_all params n origin DL (concat (map fst rounds)) f); auto.
  - rewrite read_file_full by lia. cbn. apply firstn_all2. lia.
  - split; [exact L|]. intros k K. rewrite (B k K). destruct (in_dec Nat.eq_dec k (concat (map fst rounds))); split; intros; tauto || reflexivity.
Qed.
Print Assumptions C114_whole.

(** * A run of random challenges *)
(** A prover that chooses each answer after seeing the challenges so far, the newest last. *)
Definition dialogue (prover : list (list nat) -> answer) (asked : list (list nat)) : list (list nat * answer) :=
  map (fun i => (nth i asked [], prover (firstn (S i) asked))) (seq 0 (length asked)).
Lemma dialogue_asked prover asked : map fst (dialogue prover asked) = asked.
Proof.
  unfold dialogue. rewrite map_map. cbn [fst]. apply BytesFacts.list_ext. intros i. rewrite nth_error_map. destruct (nth_error (seq 0 (length asked)) i) as [j|] eqn:N.
  - apply nth_seq in N as (-> & L). cbn. symmetry. now apply nth_error_nth'.
  - cbn. apply nth_error_None in N. rewrite seq_length in N. symmetry. now apply nth_error_None.
Qed.
Lemma count_union {A B} (bad : A -> bool) (q : B -> A -> bool) bs K l : (forall x, In x l -> bad x = true -> exists b, In b bs /\ q b x = true) ->
  (forall b, In b bs -> count (q b) l <= K) -> count bad l <= length bs * K.
Proof.
  revert bad. induction bs as [|b bs IH]; intros bad U C.
  - cbn. rewrite (count_ext bad (fun _ => false)); [unfold count; rewrite filter_none; [reflexivity|apply Forall_forall; reflexivity]|].
    intros x X. destruct (bad x) eqn:E; [|reflexivity]. destruct (U x X E) as (b & [] & _).
  - rewrite (count_split bad (q b)). cbn [length Nat.mul]. apply Nat.add_le_mono.
    + etransitivity; [|apply (C b); now left]. unfold count. clear. induction l as [|x l IH]; [reflexivity|]. cbn. destruct (bad x), (q b x); cbn; lia.
    + apply IH; [|intros; apply C; now right]. intros x X E. apply andb_true_iff in E as (E1 & E2). apply negb_true_iff in E2. destruct (U x X E1) as (b' & [<-|I] & Q); [congruence|eauto].
Qed.
Lemma binom_absorb p c : S p * binom p c = (S p - c) * binom (S p) c.
Proof.
  destruct c as [|c]; [rewrite !binom_0; lia|]. cbn [binom]. destruct (Nat.le_gt_cases c p) as [L|L].
  - pose proof (binom_step p c) as E. replace (c + 1) with (S c) in E by lia. replace (S p - S c) with (p - c) by lia. rewrite Nat.mul_add_distr_l, <- E.
    replace (S p) with (S c + (p - c)) by lia. rewrite Nat.mul_add_distr_r. reflexivity.
  - rewrite (binom_zero p (S c)) by lia. replace (S p - S c) with 0 by lia. lia.
Qed.
(** The draws that are enough and leave block k out have the share (n - cnt) / n. *)
Definition misses (cnt n k : nat) (w : list nat) : bool :=
  match drawn cnt 0 n w with Some s => negb (if in_dec Nat.eq_dec k s then true else false) | None => false end.
Lemma misses_share cnt n k L : k < n -> cnt <= n -> count (misses cnt n k) (words n L) * n = count (finished cnt 0 n) (words n L) * (n - cnt).
Proof.
  intros K C. set (good := filter (fun x => negb (x =? k)) (seq 0 n)).
  assert (G : forall x, In x good <-> x < n /\ x <> k) by (intros x; unfold good; rewrite filter_In, in_seq, negb_true_iff, Nat.eqb_neq; lia).
  assert (SG : StronglySorted lt good). { unfold good. generalize (seq_sorted n 0). generalize (seq 0 n) as l. intros l. induction 1 as [|a l S IH F]; [constructor|]. cbn. destruct (negb (a =? k)); [|exact IH].
    constructor; [exact IH|]. rewrite Forall_forall in *. intros x X. apply filter_In in X as (X & _). auto. }
  assert (LG : length good = n - 1).
  { assert (E : count (fun x => x =? k) (seq 0 n) = 1).
    { unfold count. rewrite <- (filter_ext (Nat.eqb k)) by (intros; apply Nat.eqb_sym). replace n with (k + S (n - k - 1)) by lia. rewrite seq_app, filter_app, app_length. cbn [Nat.add seq filter]. rewrite Nat.eqb_refl.
      rewrite !filter_none; [reflexivity| |]; apply Forall_forall; intros x X; apply in_seq in X; apply Nat.eqb_neq; lia. }
    pose proof (count_split (fun _ => true) (fun x => x =? k) (seq 0 n)) as Q. cbn [andb] in Q. fold good in Q. unfold count in *. rewrite E in Q.
    assert (T : filter (fun _ => true) (seq 0 n) = seq 0 n) by (clear; induction (seq 0 n) as [|x l IH]; cbn; congruence). rewrite T, seq_length in Q. fold good in Q. lia. }
  assert (SH : count (misses cnt n k) (words n L) * binom n cnt = count (finished cnt 0 n) (words n L) * binom (n - 1) cnt).
  { rewrite <- LG. apply accepted_share; auto; [apply Forall_forall; intros x X; now apply G in X|]. intros w. unfold misses. destruct (drawn cnt 0 n w) as [s|] eqn:D; [|split; [discriminate|intros (s & E & _); discriminate]].
    apply drawn_sound in D as (_ & _ & D). rewrite Forall_forall in D. destruct (in_dec Nat.eq_dec k s) as [I|I]; cbn; split; try discriminate; try reflexivity.
    - intros (s' & E & J). injection E as <-. apply J, G in I. lia.
    - intros _. exists s. split; [reflexivity|]. intros x X. apply G. split; [apply D in X; lia|congruence]. }
  destruct n as [|p]; [lia|]. pose proof (binom_absorb p cnt) as AB. cbn [Nat.sub] in SH. rewrite Nat.sub_0_r in SH. pose proof (binom_pos (S p) cnt C) as P.
  apply (Nat.mul_cancel_r _ _ (binom (S p) cnt)); [lia|]. set (B := binom (S p) cnt) in *. set (B' := binom p cnt) in *.
  transitivity (count (misses cnt (S p) k) (words (S p) L) * B * S p); [lia|]. rewrite SH. transitivity (count (finished cnt 0 (S p)) (words (S p) L) * (S p * B')); [lia|]. rewrite AB. lia.
Qed.
(** Against any prover, also one that adapts: among the draws for a run of R challenges of
    cnt blocks, those with which every answer is accepted and yet the data cannot be
    computed from the answers have at most the share n * ((n - cnt) / n) ^ R of the draws
    that are enough. *)
Theorem C114_chance : forall H pr params key iv n origin prover cnt R lost, data_l params = n * block_l params -> same_tables params -> length origin = data_l params -> cnt <= n ->
  (forall ws, length ws = R -> (lost ws = true <-> exists asked, map (drawn cnt 0 n) ws = map Some asked /\
     Forall (accepted H pr params key iv origin) (dialogue prover asked) /\ gather H pr params key iv (dialogue prover asked) <> Ok origin)) ->
  forall L, count lost (tuples (words n L) R) * n ^ R <= n * (count (finished cnt 0 n) (words n L) * (n - cnt)) ^ R.
Proof.
  intros H pr params key iv n origin prover cnt R lost DL T LO C LOST L. destruct (Nat.eq_dec n 0) as [N0|N0].
  { destruct R as [|R]; [|subst n; cbn [Nat.pow Nat.mul]; lia]. subst n. cbn [Nat.pow Nat.mul]. rewrite Nat.mul_1_r. unfold count. cbn [tuples filter].
    destruct (lost []) eqn:E; [|reflexivity]. apply (LOST [] eq_refl) in E as (asked & M & _ & G). destruct asked; [|discriminate]. exfalso. apply G. cbn. rewrite DL. destruct origin; [reflexivity|cbn in LO; lia]. }
  set (fin := count (finished cnt 0 n) (words n L)).
  assert (U : count lost (tuples (words n L) R) <= length (seq 0 n) * count (misses cnt n 0) (words n L) ^ R).
  { apply (count_union lost (fun k => forallb (misses cnt n k)) (seq 0 n)).
    - intros ws W E. apply tuples_In in W as (W & _). apply (LOST ws W) in E as (asked & M & A & G).
      destruct (forallb (fun k => if in_dec Nat.eq_dec k (concat asked) then true else false) (seq 0 n)) eqn:F.
      + exfalso. apply G. apply (C114_whole H pr params key iv n); auto.
        * apply Forall_forall. intros r IR. assert (IA : In (fst r) asked) by (rewrite <- (dialogue_asked prover asked); now apply in_map).
          assert (IS : In (Some (fst r)) (map (drawn cnt 0 n) ws)) by (rewrite M; now apply in_map). apply in_map_iff in IS as (w & D & _). apply drawn_sound in D as (_ & _ & D). eapply Forall_impl; [|exact D]. cbn. lia.
        * intros k K. rewrite dialogue_asked. rewrite forallb_forall in F. specialize (F k ltac:(apply in_seq; lia)). destruct (in_dec Nat.eq_dec k (concat asked)); [assumption|discriminate].
      + assert (X : exists k, In k (seq 0 n) /\ ~ In k (concat asked)).
        { clear - F. induction (seq 0 n) as [|x l IH]; [discriminate|]. cbn in F. destruct (in_dec Nat.eq_dec x (concat asked)) as [I|I]; [|exists x; split; [now left|exact I]].
          destruct (IH F) as (k & K & N). exists k. split; [now right|exact N]. }
        destruct X as (k & K & NK). exists k. split; [exact K|]. apply forallb_forall. intros w W'. unfold misses. assert (IS : In (drawn cnt 0 n w) (map Some asked)) by (rewrite <- M; now apply in_map).
        apply in_map_iff in IS as (s & E & S). rewrite <- E. destruct (in_dec Nat.eq_dec k s) as [I|I]; [|reflexivity]. exfalso. apply NK, in_concat. eauto.
    - intros k K. apply in_seq in K. rewrite count_tuples. apply Nat.eq_le_incl. f_equal. apply (Nat.mul_cancel_r _ _ n); [lia|]. rewrite !misses_share by lia. reflexivity. }
  rewrite seq_length in U. etransitivity; [apply Nat.mul_le_mono_r, U|]. rewrite <- Nat.mul_assoc, <- Nat.pow_mul_l, misses_share by lia. reflexivity.
Qed.
Print Assumptions C114_chance.

(** The verifier does not count: it accepts an answer without any blocks to whatever
    challenge, and such answers give nothing back. *)
Theorem C114_unanswered_refuted : forall H pr params key iv before deps origin asked, mode_s params = 0 ->
  Forall (fun ks => batch_unseal_and_verify H pr params key iv ks before deps origin [] = Ok tt) asked /\
  gather H pr params key iv (map (fun ks => (ks, mkAnswer before deps [])) asked) = Ok (zeros (data_l params)).
Proof.
  intros H pr params key iv before deps origin asked M. split.
  - apply Forall_forall. intros ks _. unfold batch_unseal_and_verify, bv_idxs_s. rewrite M. reflexivity.
  - unfold gather. rewrite mapM_ok with (g := fun r => (fst r, [])).
    + cbn [bind]. f_equal. unfold collect. rewrite map_map. cbn [fst]. generalize (zeros (data_l params)). induction asked as [|ks asked IH]; intros f; [reflexivity|]. cbn [map fold_left fst snd].
      rewrite combine_nil. apply IH.
    + intros r IR. apply in_map_iff in IR as (ks & <- & _). cbn [fst snd a_before a_deps a_blocks]. unfold batch_unseal, bu_idxs_s. rewrite M. reflexivity.
Qed.
Print Assumptions C114_unanswered_refuted.

(** * Examples *)
(** An executable test for the condition of C114_chance. *)
Fixpoint known (l : list (option (list nat))) : option (list (list nat)) :=
  match l with
  | [] => Some []
  | Some a :: l' => match known l' with Some t => Some (a :: t) | None => None end
  | None :: _ => None
  end.
Definition accepted_b H pr params key iv origin (r : list nat * answer) : bool :=
  (length (a_blocks (snd r)) =? length (fst r)) &&
  match batch_unseal_and_verify H pr params key iv (fst r) (a_before (snd r)) (a_deps (snd r)) origin (a_blocks (snd r)) with Ok _ => true | Panic => false end.
Definition lost_b H pr params key iv origin cnt n prover (ws : list (list nat)) : bool :=
  match known (map (drawn cnt 0 n) ws) with
  | Some asked => forallb (accepted_b H pr params key iv origin) (dialogue prover asked) &&
      match gather H pr params key iv (dialogue prover asked) with Ok f => if list_eq_dec Byte.byte_eq_dec f origin then false else true | Panic => true end
  | None => false
  end.
Lemma known_spec l : forall a, known l = Some a <-> l = map Some a.
Proof.
  induction l as [|o l IH]; intros a; cbn.
  - split; [intros E; injection E as <-; reflexivity|destruct a; [reflexivity|discriminate]].
  - destruct o as [x|]; [|split; [discriminate|destruct a; discriminate]]. destruct (known l) as [t|].
    + specialize (IH t). split; [intros E; injection E as <-; cbn; f_equal; now apply IH|]. destruct a as [|y a]; [discriminate|]. intros E. injection E as -> E. apply proj1 in IH. rewrite IH in E by reflexivity.
      f_equal. f_equal. clear - E. revert a E. induction t as [|u t IH]; intros [|v a] E; cbn in E; try discriminate; [reflexivity|]. injection E as -> E. f_equal. now apply IH.
    + split; [discriminate|]. destruct a as [|y a]; [discriminate|]. intros E. injection E as -> E. apply IH in E. discriminate.
Qed.
Lemma accepted_b_spec H pr params key iv origin r : accepted_b H pr params key iv origin r = true <-> accepted H pr params key iv origin r.
Proof. unfold accepted_b, accepted. rewrite andb_true_iff, Nat.eqb_eq. destruct (batch_unseal_and_verify _ _ _ _ _ _ _ _ _ _) as [[]|]; intuition congruence. Qed.
Lemma lost_b_spec H pr params key iv origin cnt n prover ws : lost_b H pr params key iv origin cnt n prover ws = true <-> exists asked, map (drawn cnt 0 n) ws = map Some asked /\
     Forall (accepted H pr params key iv origin) (dialogue prover asked) /\ gather H pr params key iv (dialogue prover asked) <> Ok origin.
Proof.
  unfold lost_b. destruct (known (map (drawn cnt 0 n) ws)) as [asked|] eqn:K.
  - pose proof (proj1 (known_spec _ _) K) as M. rewrite andb_true_iff, forallb_forall. setoid_rewrite accepted_b_spec. rewrite <- Forall_forall. split.
    + intros (A & G). exists asked. repeat split; auto. intros E. rewrite E in G. destruct (list_eq_dec _ origin origin); [discriminate|congruence].
    + intros (a & M' & A & G). apply known_spec in M'. rewrite K in M'. injection M' as <-. split; [exact A|]. destruct (gather _ _ _ _ _ _) as [f|]; [|reflexivity]. destruct (list_eq_dec _ f origin); [congruence|reflexivity].
  - split; [discriminate|]. intros (a & M & _). apply known_spec in M. congruence.
Qed.
(** Three blocks and the answers of a prover with the sealed file, to two challenges of two
    blocks each: accepted, and they give the data back. *)
Definition gather_answer (F : file) (ks : list nat) : answer :=
  match mapM (single_unseal_prepare hsum Debug spot_params F) ks with
  | Ok rs => mkAnswer (map (fun r => snd (fst r)) rs) (map snd rs) (map (fun r => fst (fst r)) rs)
  | Panic => mkAnswer [] [] []
  end.
Definition gather_rounds : list (list nat * answer) :=
  match seal hsum Debug spot_params ex_key [] ex_file with Ok st => map (fun ks => (ks, gather_answer (s_file st) ks)) [[0; 2]; [1; 2]] | Panic => [] end.
Definition gather_trial : bool := (length gather_rounds =? 2) && forallb (accepted_b hsum Debug spot_params ex_key [] spot_origin) gather_rounds.
Lemma gather_trial_ok : gather_trial = true.
Proof. vm_compute. reflexivity. Qed.
Example C114_ex : map fst gather_rounds = [[0; 2]; [1; 2]] /\ Forall (accepted hsum Debug spot_params ex_key [] spot_origin) gather_rounds /\
  gather hsum Debug spot_params ex_key [] gather_rounds = Ok spot_origin.
Proof.
  pose proof gather_trial_ok as T. unfold gather_trial in T. apply andb_true_iff in T as (L & A).
  assert (M : map fst gather_rounds = [[0; 2]; [1; 2]]). { revert L. unfold gather_rounds. destruct (seal _ _ _ _ _ _); [reflexivity|discriminate]. }
  clear L. revert M A. generalize gather_rounds. intros rounds M A. rewrite forallb_forall in A.
  assert (F : Forall (accepted hsum Debug spot_params ex_key [] spot_origin) rounds). { apply Forall_forall. intros r IR. exact (proj1 (accepted_b_spec _ _ _ _ _ _ _) (A r IR)). }
  split; [exact M|]. split; [exact F|]. clear A.
  apply (C114_whole hsum Debug spot_params ex_key [] 3); auto; [now left| |].
  - destruct rounds as [|[k1 a1] [|[k2 a2] [|? ?]]]; try discriminate M. cbn in M. injection M as E1 E2. subst k1 k2. repeat constructor.
  - rewrite M. intros k K. cbn. lia.
Qed.
(** Any prover, two challenges of two of three blocks, three draws each, of which 24 of 27
    are enough: at most 192 of 576 pairs of draws lose the data although all is accepted,
    namely those in which the same block is left out twice. *)
Example C114_chance_ex : forall prover, count (lost_b hsum Debug spot_params ex_key [] spot_origin 2 3 prover) (tuples (words 3 3) 2) <= 192.
Proof.
  intros prover. pose proof (C114_chance hsum Debug spot_params ex_key [] 3 spot_origin prover 2 2 (lost_b hsum Debug spot_params ex_key [] spot_origin 2 3 prover)
    eq_refl (or_introl eq_refl) eq_refl ltac:(lia) (fun ws _ => lost_b_spec _ _ _ _ _ _ _ _ _ ws) 3) as B.
  replace (count (finished 2 0 3) (words 3 3)) with 24 in B by (vm_compute; reflexivity). revert B. generalize (count (lost_b hsum Debug spot_params ex_key [] spot_origin 2 3 prover) (tuples (words 3 3) 2)). cbn [Nat.pow Nat.mul Nat.sub]. lia.
Qed.
