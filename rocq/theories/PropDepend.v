(** Properties C14-C20: dependency selection.  The vocabulary is in DependSpec. *)
From Verif Require Import Base BytesFacts Depend DependSpec DependFacts DependDet SealSpec SealWitness.
From Coq Require Import Sorted.
Local Open Scope nat_scope.

(** C14 *)
Theorem C14_long_mode_1 : forall pr index count, (Z.of_nat count <= 2 ^ 62)%Z ->
  long_mode_1 pr index count = Ok (back_by dist_1 index count).
Proof. exact long_mode_1_spec. Qed.
Print Assumptions C14_long_mode_1.
Theorem C14_long_mode_2 : forall pr index count, count <= 64 ->
  long_mode_2 pr index count = Ok (back_by dist_2 index count).
Proof. exact long_mode_2_spec. Qed.
Print Assumptions C14_long_mode_2.
Theorem C14_long_mode_3 : forall pr index, long_mode_3 pr index = long_mode_2 pr index (index / 10).
Proof. exact long_mode_3_is_2. Qed.
Print Assumptions C14_long_mode_3.
Theorem C14_distances_backward : forall index count,
  (forall x, In x (back_by dist_1 index count) <-> exists i, i < count /\ Z.of_nat x = (Z.of_nat index - (1 + 2 * Z.of_nat i))%Z) /\
  (forall x, In x (back_by dist_2 index count) <-> exists i, i < count /\ Z.of_nat x = (Z.of_nat index - (1 + 2 ^ Z.of_nat i))%Z) /\
  Forall (fun x => x < index) (back_by dist_1 index count) /\ NoDup (back_by dist_1 index count) /\
  Forall (fun x => x < index) (back_by dist_2 index count) /\ NoDup (back_by dist_2 index count).
Proof.
  intros index count. destruct (back_by_props dist_1 index count dist_1_pos dist_1_inj) as (A & B & C).
  destruct (back_by_props dist_2 index count dist_2_pos dist_2_inj) as (A' & B' & C').
  exact (conj C (conj C' (conj A (conj B (conj A' B'))))).
Qed.
Print Assumptions C14_distances_backward.
Theorem C14_overflow_debug : forall index count, 64 < count -> long_mode_2 Debug index count = Panic.
Proof. exact long_mode_2_debug_panic. Qed.
Print Assumptions C14_overflow_debug.
Theorem C14_overflow_release : forall index count, 64 < count -> (Z.of_nat count <= 2 ^ 32)%Z ->
  long_mode_2 Release index count =
  Ok (back_by dist_2 index 64 ++ (if index =? 0 then [] else repeat (index - 1) (count - 64))).
Proof. exact long_mode_2_release_wraps. Qed.
Print Assumptions C14_overflow_release.
Example C14_ex : long_mode_1 Debug 6 5 = Ok [5; 3; 1] /\ long_mode_2 Debug 10 5 = Ok [8; 7; 5; 1] /\ long_mode_3 Debug 45 = Ok [43; 42; 40; 36].
Proof. repeat split. Qed.

(** C15 *)
Theorem C15_short_mode_1 : forall num index count,
  short_mode_1 num index count = Ok (firstn count (odd_neighbours num index)).
Proof. intros. apply short_mode_1_spec. Qed.
Print Assumptions C15_short_mode_1.
Theorem C15_short_mode_1_terminates : forall num index count,
  exists l, short_mode_1_loop (short_mode_1_fuel num index) num index count 0 [] = Some l.
Proof. intros. eexists. apply short_mode_1_spec. Qed.
Print Assumptions C15_short_mode_1_terminates.
Theorem C15_odd_neighbours : forall num index, index < num ->
  (forall x, In x (odd_neighbours num index) <-> x < num /\ exists e, x + (1 + 2 * e) = index \/ x = index + (1 + 2 * e)) /\
  NoDup (odd_neighbours num index).
Proof. intros num index L. split; [intros x; now apply odd_neighbours_In|apply odd_neighbours_NoDup]. Qed.
Print Assumptions C15_odd_neighbours.
Theorem C15_short_mode_1_props : forall num index count l, index < num -> short_mode_1 num index count = Ok l ->
  NoDup l /\ Forall (fun x => x < num /\ x <> index) l /\ length l = Nat.min count (length (odd_neighbours num index)).
Proof. exact short_mode_1_props. Qed.
Print Assumptions C15_short_mode_1_props.
Example C15_ex : short_mode_1 8 2 10 = Ok [1; 3; 5; 7] /\ short_mode_1 8 3 3 = Ok [2; 4; 0].
Proof. split; reflexivity. Qed.

(** C16 *)
Theorem C16_debug_panics : forall num index count, (Z.of_nat num <= two64)%Z -> index < num -> 2 <= count ->
  short_mode_2 Debug num index count = Panic.
Proof. exact short_mode_2_debug_2. Qed.
Print Assumptions C16_debug_panics.
Theorem C16_debug_one : forall num index,
  (index < 2 -> short_mode_2 Debug num index 1 = Panic) /\
  ((Z.of_nat num <= two64)%Z -> 2 <= index < num -> short_mode_2 Debug num index 1 = Ok [index - 2]).
Proof. intros. split; [apply short_mode_2_debug_1|apply short_mode_2_debug_1_ok]. Qed.
Print Assumptions C16_debug_one.
Theorem C16_release : forall num index count, (Z.of_nat num <= 2 ^ 62)%Z -> index < num -> count <= 63 ->
  short_mode_2 Release num index count =
  Ok (map Z.to_nat (take_while (fun z => (0 <=? z)%Z && (z <? Z.of_nat num)%Z) (map (alternating index) (seq 0 count)))).
Proof. exact short_mode_2_release. Qed.
Print Assumptions C16_release.
Example C16_ex : short_mode_2 Release 20 10 5 = Ok [8; 11; 5; 17] /\ short_mode_2 Debug 20 10 5 = Panic.
Proof. split; reflexivity. Qed.

(** C17 *)
Theorem C17_long_random_props : forall H num data idx count l, long_mode_random H num data idx count = Ok l ->
  StronglySorted lt l /\ Forall (fun i => i < idx) l /\ length l <= count.
Proof. exact long_mode_random_props. Qed.
Print Assumptions C17_long_random_props.
Theorem C17_long_random_returns : forall H num data idx count, (forall d, length (H d) = 32) ->
  ((exists l, long_mode_random H num data idx count = Ok l) <->
   ~ ((65536 < Z.of_nat num)%Z /\ 6 <= count /\ idx <> 0)).
Proof. exact long_random_returns_iff. Qed.
Print Assumptions C17_long_random_returns.
Example C17_ex : (exists l, long_mode_random hsum 100 [x01] 50 3 = Ok l /\ 1 < length l) /\ hash32 hsum.
Proof. split; [|apply hsum_32]. exists [15; 16; 34]. split; [vm_compute; reflexivity|cbn; lia]. Qed.

(** C18 *)
Theorem C18_short_random_props : forall H num data idx count l, short_depend_random H num data idx count = Ok l ->
  StronglySorted lt l /\ Forall (fun i => i < num /\ i <> idx) l /\ length l <= count.
Proof. exact short_depend_random_props. Qed.
Print Assumptions C18_short_random_props.
Theorem C18_short_random_returns : forall H num data idx count, (forall d, length (H d) = 32) ->
  (0 < Z.of_nat num <= 65536)%Z -> exists l, short_depend_random H num data idx count = Ok l.
Proof. exact short_depend_random_returns. Qed.
Print Assumptions C18_short_random_returns.
(** num > 65536: the sixth candidate is out of bounds. *)
Lemma short_inner_app h step num idx count is1 is2 : forall v c,
  short_inner h step num idx count (is1 ++ is2) v c =
  let* (v', c') := short_inner h step num idx count is1 v c in short_inner h step num idx count is2 v' c'.
Proof.
  induction is1 as [|i is1 IH]; intros v c; cbn [app short_inner bind]; [reflexivity|].
  destruct (Nat.ltb_spec c count) as [C|C]; cbn [bind].
  - destruct (data_idx h step i) as [d|]; cbn [bind]; [|reflexivity]. destruct (rem_nat d num) as [x|]; cbn [bind]; [|reflexivity].
    destruct (x =? idx); apply IH.
  - destruct is2 as [|j is2]; cbn [short_inner]; [reflexivity|]. destruct (Nat.ltb_spec c count); [lia|reflexivity].
Qed.
Theorem short_depend_random_big H num data idx count : hash_ok H -> (65536 < Z.of_nat num)%Z ->
  ((exists l, short_depend_random H num data idx count = Ok l) <->
   count <= length (kept num idx (map (candidate (firstn 16 (H data)) 3) [0;3;6;9;12]))).
Proof.
  intros K B. unfold short_depend_random.
  destruct (step_of_cases num) as [[X _]|[[X _]|[_ ->]]]; [lia|lia|].
  rewrite hash16_ok by (apply hash_ok_16, K). cbn [bind]. rewrite step_by_starts by lia. cbn [bind].
  set (h := firstn 16 (H data)). assert (L : length h = 16) by (apply firstn16_len, K).
  change (starts 3) with ([0;3;6;9;12] ++ [15]). rewrite short_inner_app.
  destruct (short_inner_ok h 3 num idx count [0;3;6;9;12] ltac:(lia)) with (v := @nil nat) (c := 0) as ([v1 c1] & E).
  { repeat constructor; lia. }
  rewrite E. cbn [bind]. change 0 with (length (@nil nat)) in E at 7. apply short_inner_val in E; [|cbn; lia]. destruct E as (EV & EC & LV & _).
  cbn [app length] in EV. rewrite Nat.sub_0_r in EV. assert (LL : c1 = Nat.min count (length (kept num idx (map (candidate h 3) [0;3;6;9;12])))) by (rewrite EC, EV; apply short_pick_len).
  assert (D15 : data_idx h 3 15 = Panic).
  { unfold data_idx. cbn [seq foldM]. destruct (index_ok h (15 + 0)) as (b & ->); [lia|]. cbn [bind]. rewrite index_panic by lia. reflexivity. }
  cbn [short_inner]. set (kl := length (kept _ _ _)) in *. destruct (Nat.ltb_spec c1 count) as [C|C].
  - rewrite D15. cbn [bind]. split; [intros (l & X); discriminate|lia].
  - cbn [bind]. split; [lia|]. intros _.
    assert (K5 : kl <= 5).
    { unfold kl, kept. etransitivity; [apply filter_length_le'|]. now rewrite !map_length. }
    replace (count / (8 * 3) - 1) with 0 by (rewrite Nat.div_small by lia; reflexivity). cbn [short_outer bind]. eauto.
Qed.
Lemma short_depend_random_none H num data idx : hash_ok H -> short_depend_random H num data idx 0 = Ok [].
Proof.
  intros K. unfold short_depend_random. rewrite hash16_ok by (apply hash_ok_16, K). cbn [bind]. pose proof (step_of_pos num). rewrite step_by_starts by lia. cbn [bind].
  rewrite Nat.div_0_l by lia. destruct (starts (step_of num)); reflexivity.
Qed.
(** The first five candidates of a block of more than 65536 units. *)
Definition first_five (H : list byte -> list byte) (data : list byte) : list nat :=
  map (fun k => 768 + byte_at (H data) (3 * k) + byte_at (H data) (3 * k + 1) + byte_at (H data) (3 * k + 2)) (seq 0 5).
Theorem C18_short_random_returns_exactly : forall H num data idx count, (forall d, length (H d) = 32) ->
  ((exists l, short_depend_random H num data idx count = Ok l) <->
   count = 0 \/ (0 < Z.of_nat num <= 65536)%Z \/
   ((65536 < Z.of_nat num)%Z /\ count <= length (filter (fun v => negb (v =? idx)) (first_five H data)))).
Proof.
  intros H num data idx count K. destruct (Nat.eq_dec count 0) as [->|C0].
  { split; [auto|]. intros _. exists []. now apply short_depend_random_none. }
  destruct (Z.eq_dec (Z.of_nat num) 0) as [N0|N0].
  { split; [|lia]. intros (l & E). apply short_depend_random_val in E as (_ & [X|X]); lia. }
  destruct (Z_le_gt_dec (Z.of_nat num) 65536) as [S|B].
  { split; [lia|]. intros _. apply short_depend_random_returns; [exact K|lia]. }
  rewrite (short_depend_random_big H num data idx count K) by lia.
  assert (E : kept num idx (map (candidate (firstn 16 (H data)) 3) [0;3;6;9;12]) = filter (fun v => negb (v =? idx)) (first_five H data)).
  { unfold kept, first_five. f_equal. cbn [seq map]. 
    assert (G : forall i, i + 2 < 16 -> candidate (firstn 16 (H data)) 3 i mod num = 768 + byte_at (H data) i + byte_at (H data) (i + 1) + byte_at (H data) (i + 2)).
    { intros i I. pose proof (candidate_3 (firstn 16 (H data)) i). rewrite Nat.mod_small by lia. unfold candidate. cbn [seq map list_sum fold_right]. rewrite Nat.add_0_r.
      assert (F : forall j, j < 16 -> byte_at (firstn 16 (H data)) j = byte_at (H data) j).
      { intros j J. unfold byte_at. rewrite <- (firstn_skipn 16 (H data)) at 2. rewrite app_nth1; [reflexivity|]. rewrite firstn_length, K. exact J. }
      rewrite !F by lia. lia. }
    rewrite !G by lia. reflexivity. }
  rewrite E. split; [intros X; right; right; split; [lia|exact X]|]. intros [X|[X|X]]; [lia|lia|apply X].
Qed.
Print Assumptions C18_short_random_returns_exactly.
(** In particular six dependencies can never be drawn for such a block. *)
Theorem C18_six_panic : forall H num data idx count, (forall d, length (H d) = 32) -> (65536 < Z.of_nat num)%Z -> 6 <= count ->
  short_depend_random H num data idx count = Panic.
Proof.
  intros H num data idx count K B C. destruct (short_depend_random H num data idx count) as [l|] eqn:E; [|reflexivity]. exfalso.
  assert (X : exists l, short_depend_random H num data idx count = Ok l) by eauto. apply (C18_short_random_returns_exactly H num data idx count K) in X as [X|[X|(_ & X)]]; [lia|lia|].
  pose proof (filter_length_le' (fun v => negb (v =? idx)) (first_five H data)) as F. change (length (first_five H data)) with 5 in F. lia.
Qed.
Print Assumptions C18_six_panic.
Example C18_ex : exists l, short_depend_random hsum 100 [x01] 50 3 = Ok l /\ 1 < length l.
Proof. exists [15; 66; 84]. split; [vm_compute; reflexivity|cbn; lia]. Qed.

Example C18_ex_big : forall num, (65536 < Z.of_nat num)%Z -> exists l, short_depend_random hsum num [x01] 50 5 = Ok l.
Proof.
  intros num B. apply C18_short_random_returns_exactly; [exact hsum_32|]. right. right. split; [exact B|].
  vm_compute. lia.
Qed.

(** C19 *)
Theorem C19_reach : forall H num data idx count l, 256 < num -> short_depend_random H num data idx count = Ok l ->
  forall x, In x l -> exists v, x = v mod num /\
    (if (Z.of_nat num <=? 65536)%Z then 256 <= v <= 766 else 768 <= v <= 1533).
Proof. exact short_depend_random_reach. Qed.
Print Assumptions C19_reach.
(** In particular most units of a large block are never chosen. *)
Theorem C19_unreachable : forall H num data idx count l, (766 < Z.of_nat num <= 65536)%Z ->
  short_depend_random H num data idx count = Ok l -> forall x, In x l -> 256 <= x <= 766.
Proof. exact short_unreachable. Qed.
Print Assumptions C19_unreachable.
Example C19_ex : exists l, short_depend_random hsum 1000 [x01] 50 3 = Ok l /\ 1 < length l.
Proof. exists [256; 271; 406]. split; [vm_compute; reflexivity|cbn; lia]. Qed.

(** C20 *)
Theorem C20_small : forall H num data idx count l, num <= 256 -> idx <> 0 -> long_mode_random H num data idx count = Ok l ->
  forall x, In x l <-> exists k, k < count /\ x = byte_at (hash_chain H data (k / 16)) (k mod 16) mod idx.
Proof. exact long_step1_exact. Qed.
Print Assumptions C20_small.
Theorem C20_medium : forall H num data idx count l, (256 < Z.of_nat num <= 65536)%Z -> 8 < count < 32 ->
  (short_depend_random H num data idx count = Ok l -> length l <= 8) /\
  (long_mode_random H num data idx count = Ok l -> length l <= 8).
Proof. intros H num data idx count l N C. split; [now apply few_short|now apply few_long]. Qed.
Print Assumptions C20_medium.
Example C20_ex : exists l, long_mode_random hsum 1000 [x01] 500 20 = Ok l /\ 1 < length l.
Proof. exists [256; 271; 406]. split; [vm_compute; reflexivity|cbn; lia]. Qed.
