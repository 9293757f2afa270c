(** Facts about depend.rs. *)
From Verif Require Import Base Depend DependSpec BytesFacts.
From Coq Require Import Sorted.
Local Open Scope nat_scope.

(** * sort_dedup *)
Lemma insert_uniq_In x l y : In y (insert_uniq x l) <-> y = x \/ In y l.
Proof.
  induction l as [|z l IH]; cbn [insert_uniq In]; [intuition|].
  destruct (Nat.ltb_spec x z); [cbn [In]; intuition|]. destruct (Nat.eqb_spec x z); [subst; cbn [In]; intuition|].
  cbn [In]. rewrite IH. intuition.
Qed.
Lemma insert_uniq_sorted x l : StronglySorted lt l -> StronglySorted lt (insert_uniq x l).
Proof.
  induction 1 as [|z l S IH F]; cbn [insert_uniq]; [repeat constructor|].
  destruct (Nat.ltb_spec x z) as [C|C].
  - constructor; [constructor; assumption|]. constructor; [exact C|].
    eapply Forall_impl; [|exact F]. cbn. intros; lia.
  - destruct (Nat.eqb_spec x z); [constructor; assumption|]. constructor; [exact IH|].
    apply Forall_forall. intros y Y. apply insert_uniq_In in Y as [->|Y]; [lia|].
    rewrite Forall_forall in F. apply F, Y.
Qed.
Lemma sort_dedup_spec v : sorted_set_of v (sort_dedup v).
Proof.
  split.
  - induction v as [|x v IH]; [constructor|]. apply insert_uniq_sorted, IH.
  - intros x. induction v as [|y v IH]; [reflexivity|]. cbn [sort_dedup fold_right].
    rewrite insert_uniq_In. unfold sort_dedup in IH. rewrite IH. cbn. intuition.
Qed.
Lemma ssorted_lt_NoDup l : StronglySorted lt l -> NoDup l.
Proof.
  induction 1 as [|x l S IH F]; constructor; [|exact IH]. intros I. rewrite Forall_forall in F.
  specialize (F x I). lia.
Qed.
Lemma sorted_set_len v l : sorted_set_of v l -> length l <= length v.
Proof.
  intros [S I]. apply NoDup_incl_length; [apply ssorted_lt_NoDup, S|]. intros x X. apply I, X.
Qed.

(** * Candidates *)
Lemma data_idx_gen h i js : forall acc d,
  foldM (fun acc j => let* b := index h (i + j) in Ok (acc + (j * 256 + Z.to_nat (b2z b)))) js acc = Ok d ->
  d = acc + list_sum (map (fun j => 256 * j + byte_at h (i + j)) js).
Proof.
  induction js as [|j js IH]; intros acc d; cbn [foldM].
  - intros [= <-]. cbn. lia.
  - unfold index at 1. destruct (nth_error h (i + j)) as [b|] eqn:E; [|discriminate]. cbn [bind].
    intros F. apply IH in F. rewrite F. cbn [map list_sum fold_right].
    unfold byte_at at 2. rewrite (nth_error_nth _ _ x00 E). unfold list_sum. lia.
Qed.
Lemma data_idx_val h step i d : data_idx h step i = Ok d -> d = candidate h step i.
Proof. intros E. apply data_idx_gen in E. exact E. Qed.
Lemma data_idx_ex h i js : forall acc, (forall j, In j js -> i + j < length h) ->
  exists d, foldM (fun acc j => let* b := index h (i + j) in Ok (acc + (j * 256 + Z.to_nat (b2z b)))) js acc = Ok d.
Proof.
  induction js as [|j js IH]; intros acc F; cbn [foldM]; [eauto|].
  destruct (index_ok h (i + j)) as (b & ->); [apply F; now left|]. cbn [bind]. apply IH.
  intros; apply F; now right.
Qed.
Lemma data_idx_ok h step i : i + step <= length h -> data_idx h step i = Ok (candidate h step i).
Proof.
  intros L. assert (X : exists d, data_idx h step i = Ok d).
  { apply data_idx_ex. intros j J. apply in_seq in J. lia. }
  destruct X as (d & E). rewrite E. f_equal. now apply data_idx_val.
Qed.
Lemma byte_at_lt h i : byte_at h i < 256.
Proof. unfold byte_at. pose proof (b2z_range (nth i h x00)). lia. Qed.
Lemma candidate_1 h i : candidate h 1 i < 256.
Proof. unfold candidate. cbn [seq map list_sum fold_right]. pose proof (byte_at_lt h (i+0)). lia. Qed.
Lemma candidate_2 h i : 256 <= candidate h 2 i <= 766.
Proof.
  unfold candidate. cbn [seq map list_sum fold_right].
  pose proof (byte_at_lt h (i+0)). pose proof (byte_at_lt h (i+1)). lia.
Qed.
Lemma candidate_3 h i : 768 <= candidate h 3 i <= 1533.
Proof.
  unfold candidate. cbn [seq map list_sum fold_right].
  pose proof (byte_at_lt h (i+0)). pose proof (byte_at_lt h (i+1)). pose proof (byte_at_lt h (i+2)). lia.
Qed.

Lemma step_of_cases num : (num <= 256 /\ step_of num = 1)
  \/ ((256 < Z.of_nat num <= 65536)%Z /\ step_of num = 2) \/ ((65536 < Z.of_nat num)%Z /\ step_of num = 3).
Proof.
  unfold step_of. destruct (Z.leb_spec (Z.of_nat num) (2^8)); [left; split; [lia|reflexivity]|].
  right. destruct (Z.leb_spec (Z.of_nat num) (2^16)); [left|right]; (split; [lia|reflexivity]).
Qed.
Lemma step_of_pos num : 1 <= step_of num <= 3.
Proof. destruct (step_of_cases num) as [[_ ->]|[[_ ->]|[_ ->]]]; lia. Qed.

Definition starts (step : nat) : list nat := map (fun k => k * step) (seq 0 ((16 + (step - 1)) / step)).
Lemma step_by_starts step : 0 < step -> step_by 16 step = Ok (starts step).
Proof. intros L. unfold step_by. destruct step; [lia|]. reflexivity. Qed.
Lemma hash16_val H d h : hash16 H d = Ok h -> h = firstn 16 (H d).
Proof.
  unfold hash16, slice. destruct (0 <=? 16); cbn [andb]; [|discriminate].
  destruct (16 <=? length (H d)); [|discriminate]. intros [= <-]. reflexivity.
Qed.
Lemma hash16_ok H d : 16 <= length (H d) -> hash16 H d = Ok (firstn 16 (H d)).
Proof.
  intros L. unfold hash16, slice. destruct (Nat.leb_spec 16 (length (H d))); [|lia]. reflexivity.
Qed.

(** * Long random dependencies *)
Definition long_pick (idx count : nat) (cs : list nat) : list nat :=
  firstn count (map (fun x => x mod idx) cs).

Lemma long_inner_val h step idx count is : forall v v' c',
  length v <= count ->
  long_inner h step idx count is v (length v) = Ok (v', c') ->
  v' = v ++ long_pick idx (count - length v) (map (candidate h step) is) /\ c' = length v' /\ length v' <= count.
Proof.
  induction is as [|i is IH]; intros v v' c' L; cbn [long_inner].
  - intros [= <- <-]. unfold long_pick. cbn. rewrite firstn_nil, app_nil_r. auto.
  - destruct (Nat.ltb_spec (length v) count) as [C|C].
    + destruct (data_idx h step i) as [d|] eqn:E; cbn [bind]; [|discriminate].
      apply data_idx_val in E. subst d. unfold rem_nat. destruct (Nat.eqb_spec idx 0); cbn [bind]; [discriminate|].
      set (x := candidate h step i mod idx). intros F.
      replace (length v + 1) with (length (v ++ [x])) in F by (rewrite app_length; reflexivity).
      apply IH in F; [|rewrite app_length; cbn; lia]. destruct F as (-> & -> & B). split; [|split; [reflexivity|exact B]].
      rewrite app_length. cbn [length]. rewrite <- app_assoc. f_equal. unfold long_pick. cbn [map].
      replace (count - length v) with (S (count - (length v + 1))) by lia. cbn [firstn app]. reflexivity.
    + intros [= <- <-]. replace (count - length v) with 0 by lia. unfold long_pick. cbn [firstn]. rewrite app_nil_r. auto.
Qed.

Lemma long_inner_ok h step idx count is : idx <> 0 -> Forall (fun i => i + step <= length h) is ->
  forall v c, exists r, long_inner h step idx count is v c = Ok r.
Proof.
  intros NZ F. induction F as [|i is I F IH]; intros v c; cbn [long_inner]; [eauto|].
  destruct (c <? count); [|eauto]. rewrite data_idx_ok by exact I. cbn [bind].
  unfold rem_nat. destruct (Nat.eqb_spec idx 0); [lia|]. cbn [bind]. apply IH.
Qed.

Lemma long_pick_app idx n a b : long_pick idx n (a ++ b) = long_pick idx n a ++ long_pick idx (n - length a) b.
Proof. unfold long_pick. rewrite map_app, firstn_app, map_length. reflexivity. Qed.
Lemma long_pick_len idx n cs : length (long_pick idx n cs) = Nat.min n (length cs).
Proof. unfold long_pick. rewrite firstn_length, map_length. reflexivity. Qed.

Lemma chain_shift H d r : hash_chain H d (S r) = hash_chain H (hash_chain H d 0) r.
Proof. induction r as [|r IH]; [reflexivity|]. cbn [hash_chain] in *. now rewrite IH. Qed.
Lemma draws_S H d step r : draws H d step (S r) =
  map (candidate (firstn 16 (H d)) step) (starts step) ++ draws H (firstn 16 (H d)) step r.
Proof.
  unfold draws at 1. cbn [seq flat_map]. f_equal; [unfold starts; now rewrite map_map|].
  unfold draws. rewrite <- seq_shift. rewrite !flat_map_concat_map, map_map. f_equal.
  apply map_ext. intros a. rewrite chain_shift. reflexivity.
Qed.

Lemma long_outer_val H step idx count rounds : 0 < step -> forall h v v', length v <= count ->
  long_outer H rounds h step idx count v (length v) = Ok v' ->
  v' = v ++ long_pick idx (count - length v) (draws H h step rounds) .
Proof.
  intros SP. induction rounds as [|r IH]; intros h v v' L; cbn [long_outer].
  - intros [= <-]. unfold draws, long_pick. cbn. rewrite firstn_nil, app_nil_r. reflexivity.
  - destruct (hash16 H h) as [h'|] eqn:Eh; cbn [bind]; [|discriminate]. apply hash16_val in Eh. subst h'.
    rewrite step_by_starts by exact SP. cbn [bind].
    destruct (long_inner (firstn 16 (H h)) step idx count (starts step) v (length v)) as [[v1 c1]|] eqn:E; cbn [bind]; [|discriminate].
    apply long_inner_val in E; [|exact L]. destruct E as (E1 & -> & B).
    rewrite draws_S, long_pick_app, map_length.
    set (cs := map (candidate (firstn 16 (H h)) step) (starts step)) in *.
    assert (L1 : length v1 = length v + Nat.min (count - length v) (length cs)).
    { rewrite E1, app_length, long_pick_len. reflexivity. }
    assert (Lc : length cs = length (starts step)) by (unfold cs; apply map_length).
    destruct (Nat.leb_spec count (length v1)) as [C|C].
    + intros [= <-]. rewrite E1. f_equal.
      replace (count - length v - length (starts step)) with 0 by lia.
      unfold long_pick at 3. cbn [firstn]. now rewrite app_nil_r.
    + intros F. apply IH in F; [|exact B]. rewrite F, E1, <- app_assoc. do 2 f_equal.
      rewrite app_length, long_pick_len. f_equal. lia.
Qed.

Definition long_total (step count : nat) : nat := S (count / (8 * step) - 1).

Theorem long_mode_random_val H num data idx count l :
  long_mode_random H num data idx count = Ok l ->
  (idx = 0 /\ l = []) \/
  (idx <> 0 /\ sorted_set_of (long_pick idx count (draws H data (step_of num) (long_total (step_of num) count))) l).
Proof.
  unfold long_mode_random. pose proof (step_of_pos num) as SP. set (step := step_of num) in *. clearbody step.
  destruct (Nat.eqb_spec idx 0) as [Z0|NZ]; [intros [= <-]; now left|]. intros E. right. split; [exact NZ|].
  destruct (hash16 H data) as [h|] eqn:Eh; cbn [bind] in E; [|discriminate]. apply hash16_val in Eh.
  rewrite step_by_starts in E by lia. cbn [bind] in E.
  destruct (long_inner h step idx count (starts step) [] 0) as [[v c]|] eqn:E1; cbn [bind] in E; [|discriminate].
  change 0 with (length (@nil nat)) in E1 at 1. apply long_inner_val in E1; [|cbn; lia].
  destruct E1 as (Ev & -> & B). cbn [length app] in Ev. rewrite Nat.sub_0_r in Ev.
  destruct (long_outer H (count / (8 * step) - 1) h step idx count v (length v)) as [v'|] eqn:E2; cbn [bind] in E; [|discriminate].
  injection E as <-. apply long_outer_val in E2; [|lia|exact B].
  assert (Ev' : v' = long_pick idx count (draws H data step (long_total step count))).
  { unfold long_total. rewrite draws_S, <- Eh, long_pick_app, <- Ev, map_length, E2. f_equal.
    rewrite Ev, long_pick_len, map_length. f_equal. lia. }
  rewrite <- Ev'. apply sort_dedup_spec.
Qed.

Lemma starts_1 : Forall (fun i => i + 1 <= 16) (starts 1). Proof. vm_compute. repeat constructor. Qed.
Lemma starts_2 : Forall (fun i => i + 2 <= 16) (starts 2). Proof. vm_compute. repeat constructor. Qed.
Lemma starts_12 step (h : list byte) : step = 1 \/ step = 2 -> length h = 16 -> Forall (fun i => i + step <= length h) (starts step).
Proof. intros [->| ->] ->; [apply starts_1|apply starts_2]. Qed.

Definition hash_ok (H : list byte -> list byte) : Prop := forall d, length (H d) = 32.
Lemma hash_ok_16 H d : hash_ok H -> 16 <= length (H d). Proof. intros K. rewrite K. lia. Qed.
Lemma firstn16_len H d : hash_ok H -> length (firstn 16 (H d)) = 16.
Proof. intros K. rewrite firstn_length, K. reflexivity. Qed.

Lemma long_outer_ok H step idx count rounds : hash_ok H -> idx <> 0 -> step = 1 \/ step = 2 ->
  forall h v c, exists r, long_outer H rounds h step idx count v c = Ok r.
Proof.
  intros K NZ S12. induction rounds as [|r IH]; intros h v c; cbn [long_outer]; [eauto|].
  rewrite hash16_ok by (apply hash_ok_16, K). cbn [bind]. rewrite step_by_starts by lia. cbn [bind].
  destruct (long_inner_ok (firstn 16 (H h)) step idx count (starts step) NZ) with (v := v) (c := c) as ([v1 c1] & ->).
  { apply starts_12; [exact S12|apply firstn16_len, K]. }
  cbn [bind]. destruct (count <=? c1); [eauto|]. apply IH.
Qed.

Theorem long_mode_random_returns H num data idx count : hash_ok H ->
  (idx = 0 \/ (Z.of_nat num <= 65536)%Z) -> exists l, long_mode_random H num data idx count = Ok l.
Proof.
  intros K C. unfold long_mode_random. destruct (Nat.eqb_spec idx 0) as [Z0|NZ]; [eauto|].
  destruct C as [C|C]; [lia|].
  assert (S12 : step_of num = 1 \/ step_of num = 2).
  { destruct (step_of_cases num) as [[_ ->]|[[_ ->]|[X _]]]; [auto|auto|lia]. }
  set (step := step_of num) in *. clearbody step.
  rewrite hash16_ok by (apply hash_ok_16, K). cbn [bind]. rewrite step_by_starts by lia. cbn [bind].
  destruct (long_inner_ok (firstn 16 (H data)) step idx count (starts step) NZ) with (v := @nil nat) (c := 0) as ([v1 c1] & ->).
  { apply starts_12; [exact S12|apply firstn16_len, K]. }
  cbn [bind]. destruct (long_outer_ok H step idx count (count / (8 * step) - 1) K NZ S12 (firstn 16 (H data)) v1 c1) as (r & ->).
  cbn [bind]. eauto.
Qed.

(** num > 65536: six candidates would be needed, the sixth is out of bounds. *)
Lemma long_inner_3 h idx count : idx <> 0 -> length h = 16 -> 
  long_inner h 3 idx count (starts 3) [] 0 =
  if 6 <=? count then Panic else Ok (long_pick idx count (map (candidate h 3) (starts 3)), count).
Proof.
  intros NZ L. change (starts 3) with [0;3;6;9;12;15].
  assert (D : forall i, i <= 13 -> data_idx h 3 i = Ok (candidate h 3 i)) by (intros; apply data_idx_ok; lia).
  assert (D15 : data_idx h 3 15 = Panic).
  { unfold data_idx. cbn [seq foldM]. destruct (index_ok h (15 + 0)) as (b & ->); [lia|]. cbn [bind].
    rewrite index_panic by lia. reflexivity. }
  assert (R : forall x, rem_nat x idx = Ok (x mod idx)).
  { intros x. unfold rem_nat. destruct (Nat.eqb_spec idx 0); [lia|reflexivity]. }
  unfold long_pick. cbn [map].
  destruct count as [|[|[|[|[|[|count]]]]]]; cbn [long_inner Nat.ltb Nat.leb Nat.add app firstn];
    rewrite ?D, ?D15 by lia; cbn [bind]; rewrite ?R; cbn [bind long_inner Nat.ltb Nat.leb Nat.add app firstn];
    repeat (rewrite ?D, ?D15 by lia; cbn [bind]; rewrite ?R; cbn [bind long_inner Nat.ltb Nat.leb Nat.add app firstn]);
    reflexivity.
Qed.

Theorem long_mode_random_big H num data idx count : hash_ok H -> (65536 < Z.of_nat num)%Z -> idx <> 0 ->
  (6 <= count -> long_mode_random H num data idx count = Panic) /\
  (count <= 5 -> exists l, long_mode_random H num data idx count = Ok l).
Proof.
  intros K B NZ. unfold long_mode_random. destruct (Nat.eqb_spec idx 0) as [Z0|_]; [lia|].
  destruct (step_of_cases num) as [[X _]|[[X _]|[_ ->]]]; [lia|lia|].
  rewrite hash16_ok by (apply hash_ok_16, K). cbn [bind]. rewrite step_by_starts by lia. cbn [bind].
  rewrite long_inner_3 by (auto using firstn16_len). split; intros C.
  - destruct (Nat.leb_spec 6 count); [reflexivity|lia].
  - destruct (Nat.leb_spec 6 count); [lia|]. cbn [bind].
    replace (count / (8 * 3) - 1) with 0 by (rewrite Nat.div_small by lia; reflexivity). cbn [long_outer bind]. eauto.
Qed.

(** Consequences. *)
Lemma long_pick_In idx n cs x : In x (long_pick idx n cs) -> exists c, In c cs /\ x = c mod idx.
Proof.
  unfold long_pick. intros I. rewrite <- (firstn_skipn n) in *.
  assert (I2 : In x (map (fun x => x mod idx) cs)).
  { rewrite <- (firstn_skipn n (map _ cs)). apply in_or_app. left. rewrite firstn_skipn in I. exact I. }
  apply in_map_iff in I2 as (c & <- & Ic). eauto.
Qed.
Lemma draws_In H d step r c : In c (draws H d step r) -> exists h i, c = candidate h step i.
Proof.
  unfold draws. intros I. apply in_flat_map in I as (q & _ & I). apply in_map_iff in I as (k & <- & _). eauto.
Qed.

Theorem long_mode_random_props H num data idx count l :
  long_mode_random H num data idx count = Ok l ->
  StronglySorted lt l /\ Forall (fun i => i < idx) l /\ length l <= count.
Proof.
  intros E. apply long_mode_random_val in E as [[-> ->]|(NZ & SS)].
  - split; [constructor|]. split; [constructor|cbn; lia].
  - split; [apply SS|]. split.
    + apply Forall_forall. intros x X. apply SS in X. apply long_pick_In in X as (c & _ & ->).
      apply Nat.mod_upper_bound. exact NZ.
    + apply sorted_set_len in SS. rewrite long_pick_len in SS. lia.
Qed.

(** * Short random dependencies *)
Definition short_pick (num idx count : nat) (cs : list nat) : list nat :=
  firstn count (filter (fun x => negb (x =? idx)) (map (fun x => x mod num) cs)).

Lemma short_inner_val h step num idx count is : forall v v' c',
  length v <= count ->
  short_inner h step num idx count is v (length v) = Ok (v', c') ->
  v' = v ++ short_pick num idx (count - length v) (map (candidate h step) is) /\ c' = length v' /\ length v' <= count
  /\ (count <= 0 \/ is = [] \/ count <= length v \/ num <> 0).
Proof.
  induction is as [|i is IH]; intros v v' c' L; cbn [short_inner].
  - intros [= <- <-]. unfold short_pick. cbn. rewrite firstn_nil, app_nil_r. repeat split; auto.
  - destruct (Nat.ltb_spec (length v) count) as [C|C].
    + destruct (data_idx h step i) as [d|] eqn:E; cbn [bind]; [|discriminate].
      apply data_idx_val in E. subst d. unfold rem_nat. destruct (Nat.eqb_spec num 0); cbn [bind]; [discriminate|].
      set (x := candidate h step i mod num). intros F. unfold short_pick. cbn [map filter]. fold x.
      destruct (Nat.eqb_spec x idx) as [Q|Q]; cbn [negb].
      * apply IH in F; [|exact L]. destruct F as (-> & -> & B & _). repeat split; auto.
      * replace (length v + 1) with (length (v ++ [x])) in F by (rewrite app_length; reflexivity).
        apply IH in F; [|rewrite app_length; cbn; lia]. destruct F as (-> & -> & B & _).
        split; [|split; [reflexivity|split; [exact B|auto]]].
        rewrite app_length. cbn [length]. rewrite <- app_assoc. f_equal.
        replace (count - length v) with (S (count - (length v + 1))) by lia. cbn [firstn app]. reflexivity.
    + intros [= <- <-]. replace (count - length v) with 0 by lia. unfold short_pick. cbn [firstn]. rewrite app_nil_r. repeat split; auto.
Qed.

Lemma short_inner_ok h step num idx count is : num <> 0 -> Forall (fun i => i + step <= length h) is ->
  forall v c, exists r, short_inner h step num idx count is v c = Ok r.
Proof.
  intros NZ F. induction F as [|i is I F IH]; intros v c; cbn [short_inner]; [eauto|].
  destruct (c <? count); [|eauto]. rewrite data_idx_ok by exact I. cbn [bind].
  unfold rem_nat. destruct (Nat.eqb_spec num 0); [lia|]. cbn [bind].
  destruct (candidate h step i mod num =? idx); apply IH.
Qed.

Definition kept (num idx : nat) (cs : list nat) : list nat :=
  filter (fun x => negb (x =? idx)) (map (fun x => x mod num) cs).
Lemma short_pick_app num idx n a b : short_pick num idx n (a ++ b) =
  short_pick num idx n a ++ short_pick num idx (n - length (kept num idx a)) b.
Proof. unfold short_pick, kept. rewrite map_app, filter_app, firstn_app. reflexivity. Qed.
Lemma short_pick_len num idx n cs : length (short_pick num idx n cs) = Nat.min n (length (kept num idx cs)).
Proof. unfold short_pick, kept. rewrite firstn_length. reflexivity. Qed.

Lemma short_outer_val H step num idx count rounds : 0 < step -> forall h v v', length v <= count ->
  short_outer H rounds h step num idx count v (length v) = Ok v' ->
  v' = v ++ short_pick num idx (count - length v) (draws H h step rounds) .
Proof.
  intros SP. induction rounds as [|r IH]; intros h v v' L; cbn [short_outer].
  - intros [= <-]. unfold draws, short_pick. cbn. rewrite firstn_nil, app_nil_r. reflexivity.
  - destruct (hash16 H h) as [h'|] eqn:Eh; cbn [bind]; [|discriminate]. apply hash16_val in Eh. subst h'.
    rewrite step_by_starts by exact SP. cbn [bind].
    destruct (short_inner (firstn 16 (H h)) step num idx count (starts step) v (length v)) as [[v1 c1]|] eqn:E; cbn [bind]; [|discriminate].
    apply short_inner_val in E; [|exact L]. destruct E as (E1 & -> & B & _).
    rewrite draws_S, short_pick_app.
    set (cs := map (candidate (firstn 16 (H h)) step) (starts step)) in *.
    assert (L1 : length v1 = length v + Nat.min (count - length v) (length (kept num idx cs))).
    { rewrite E1, app_length, short_pick_len. reflexivity. }
    destruct (Nat.leb_spec count (length v1)) as [C|C].
    + intros [= <-]. rewrite E1. f_equal.
      replace (count - length v - length (kept num idx cs)) with 0 by lia.
      unfold short_pick at 3. cbn [firstn]. now rewrite app_nil_r.
    + intros F. apply IH in F; [|exact B]. rewrite F, E1, <- app_assoc. do 2 f_equal.
      rewrite app_length, short_pick_len. f_equal. lia.
Qed.

Theorem short_depend_random_val H num data idx count l :
  short_depend_random H num data idx count = Ok l ->
  sorted_set_of (short_pick num idx count (draws H data (step_of num) (long_total (step_of num) count))) l
  /\ (count = 0 \/ num <> 0).
Proof.
  unfold short_depend_random. pose proof (step_of_pos num) as SP. set (step := step_of num) in *. clearbody step.
  intros E.
  destruct (hash16 H data) as [h|] eqn:Eh; cbn [bind] in E; [|discriminate]. apply hash16_val in Eh.
  rewrite step_by_starts in E by lia. cbn [bind] in E.
  destruct (short_inner h step num idx count (starts step) [] 0) as [[v c]|] eqn:E1; cbn [bind] in E; [|discriminate].
  change 0 with (length (@nil nat)) in E1 at 1. apply short_inner_val in E1; [|cbn; lia].
  destruct E1 as (Ev & -> & B & NZ). cbn [length app] in Ev. rewrite Nat.sub_0_r in Ev.
  destruct (short_outer H (count / (8 * step) - 1) h step num idx count v (length v)) as [v'|] eqn:E2; cbn [bind] in E; [|discriminate].
  injection E as <-. apply short_outer_val in E2; [|lia|exact B].
  assert (Ev' : v' = short_pick num idx count (draws H data step (long_total step count))).
  { unfold long_total. rewrite draws_S, <- Eh, short_pick_app, <- Ev, E2. f_equal.
    rewrite Ev, short_pick_len. f_equal. lia. }
  rewrite <- Ev'. split; [apply sort_dedup_spec|].
  destruct NZ as [X|[X|[X|X]]]; [left; lia| |left; cbn in X; lia|right; exact X].
  exfalso. unfold starts in X. apply (f_equal (@length nat)) in X. rewrite map_length, seq_length in X. cbn [length] in X.
  assert (1 <= (16 + (step - 1)) / step) by (apply Nat.div_le_lower_bound; lia). lia.
Qed.

Lemma short_outer_ok H step num idx count rounds : hash_ok H -> num <> 0 -> step = 1 \/ step = 2 ->
  forall h v c, exists r, short_outer H rounds h step num idx count v c = Ok r.
Proof.
  intros K NZ S12. induction rounds as [|r IH]; intros h v c; cbn [short_outer]; [eauto|].
  rewrite hash16_ok by (apply hash_ok_16, K). cbn [bind]. rewrite step_by_starts by lia. cbn [bind].
  destruct (short_inner_ok (firstn 16 (H h)) step num idx count (starts step) NZ) with (v := v) (c := c) as ([v1 c1] & ->).
  { apply starts_12; [exact S12|apply firstn16_len, K]. }
  cbn [bind]. destruct (count <=? c1); [eauto|]. apply IH.
Qed.

Theorem short_depend_random_returns H num data idx count : hash_ok H -> (0 < Z.of_nat num <= 65536)%Z ->
  exists l, short_depend_random H num data idx count = Ok l.
Proof.
  intros K C. unfold short_depend_random.
  assert (S12 : step_of num = 1 \/ step_of num = 2).
  { destruct (step_of_cases num) as [[_ ->]|[[_ ->]|[X _]]]; [auto|auto|lia]. }
  set (step := step_of num) in *. clearbody step. assert (NZ : num <> 0) by lia.
  rewrite hash16_ok by (apply hash_ok_16, K). cbn [bind]. rewrite step_by_starts by lia. cbn [bind].
  destruct (short_inner_ok (firstn 16 (H data)) step num idx count (starts step) NZ) with (v := @nil nat) (c := 0) as ([v1 c1] & ->).
  { apply starts_12; [exact S12|apply firstn16_len, K]. }
  cbn [bind]. destruct (short_outer_ok H step num idx count (count / (8 * step) - 1) K NZ S12 (firstn 16 (H data)) v1 c1) as (r & ->).
  cbn [bind]. eauto.
Qed.

Lemma short_pick_In num idx n cs x : In x (short_pick num idx n cs) -> x <> idx /\ exists c, In c cs /\ x = c mod num.
Proof.
  unfold short_pick. intros I.
  assert (I2 : In x (filter (fun x => negb (x =? idx)) (map (fun x => x mod num) cs))).
  { rewrite <- (firstn_skipn n (filter _ _)). apply in_or_app. left. exact I. }
  apply filter_In in I2 as (I2 & N). apply in_map_iff in I2 as (c & <- & Ic).
  split; [|eauto]. destruct (Nat.eqb_spec (c mod num) idx); [discriminate|assumption].
Qed.

Theorem short_depend_random_props H num data idx count l :
  short_depend_random H num data idx count = Ok l ->
  StronglySorted lt l /\ Forall (fun i => i < num /\ i <> idx) l /\ length l <= count.
Proof.
  intros E. apply short_depend_random_val in E as (SS & NZ).
  split; [apply SS|]. split.
  - apply Forall_forall. intros x X. apply SS in X. pose proof X as X'. apply short_pick_In in X as (N & c & _ & ->).
    split; [|exact N]. destruct NZ as [->|NZ]; [unfold short_pick in X'; cbn in X'; contradiction|].
    apply Nat.mod_upper_bound. exact NZ.
  - apply sorted_set_len in SS. rewrite short_pick_len in SS. lia.
Qed.

Theorem short_depend_random_reach H num data idx count l : (256 < num)%nat ->
  short_depend_random H num data idx count = Ok l ->
  forall x, In x l -> exists v, x = v mod num /\
     if (Z.of_nat num <=? 65536)%Z then 256 <= v <= 766 else 768 <= v <= 1533.
Proof.
  intros B E x X. apply short_depend_random_val in E as (SS & _). apply SS in X.
  apply short_pick_In in X as (_ & c & Ic & ->). exists c. split; [reflexivity|].
  apply draws_In in Ic as (h & i & ->).
  destruct (step_of_cases num) as [[C _]|[[C ->]|[C ->]]]; [lia| |].
  - destruct (Z.leb_spec (Z.of_nat num) 65536); [apply candidate_2|lia].
  - destruct (Z.leb_spec (Z.of_nat num) 65536); [lia|apply candidate_3].
Qed.

Lemma draws_length H d step r : length (draws H d step r) = r * ((16 + (step - 1)) / step).
Proof.
  revert d. induction r as [|r IH]; intros d; [reflexivity|]. rewrite draws_S, app_length, map_length, IH.
  unfold starts. rewrite map_length, seq_length. lia.
Qed.

Lemma filter_length_le' {A} (f : A -> bool) l : length (filter f l) <= length l.
Proof. induction l as [|x l IH]; cbn; [lia|]. destruct (f x); cbn; lia. Qed.
(** The number of dependencies available at step 2. *)
Lemma draws_2_few H d count : 8 < count < 32 -> length (draws H d 2 (long_total 2 count)) = 8.
Proof.
  intros C. rewrite draws_length. unfold long_total. change (8 * 2) with 16. change ((16 + (2 - 1)) / 2) with 8.
  assert (count / 16 <= 1) by (apply Nat.lt_succ_r, Nat.div_lt_upper_bound; lia). lia.
Qed.
Theorem few_short H num data idx count l : (256 < Z.of_nat num <= 65536)%Z -> 8 < count < 32 ->
  short_depend_random H num data idx count = Ok l -> length l <= 8.
Proof.
  intros B C E. apply short_depend_random_val in E as (SS & _). apply sorted_set_len in SS.
  destruct (step_of_cases num) as [[X _]|[[_ Es]|[X _]]]; [lia| |lia]. rewrite Es in SS.
  rewrite short_pick_len in SS. unfold kept in SS. 
  assert (length (filter (fun x => negb (x =? idx)) (map (fun x => x mod num) (draws H data 2 (long_total 2 count)))) <= 8).
  { etransitivity; [apply filter_length_le'|]. rewrite map_length, draws_2_few by exact C. lia. }
  lia.
Qed.
Theorem few_long H num data idx count l : (256 < Z.of_nat num <= 65536)%Z -> 8 < count < 32 ->
  long_mode_random H num data idx count = Ok l -> length l <= 8.
Proof.
  intros B C E. apply long_mode_random_val in E as [[-> ->]|(_ & SS)]; [cbn; lia|].
  apply sorted_set_len in SS.
  destruct (step_of_cases num) as [[X _]|[[_ Es]|[X _]]]; [lia| |lia]. rewrite Es in SS.
  rewrite long_pick_len, draws_2_few in SS by exact C. lia.
Qed.
(** At step 1 there are always at least [count] candidates. *)
Lemma draws_1_enough H d count : count <= length (draws H d 1 (long_total 1 count)).
Proof.
  rewrite draws_length. unfold long_total. change (8 * 1) with 8. change ((16 + (1 - 1)) / 1) with 16.
  pose proof (Nat.div_mod count 8 ltac:(lia)). pose proof (Nat.mod_upper_bound count 8 ltac:(lia)). lia.
Qed.
Theorem long_step1_exact H num data idx count l : num <= 256 -> idx <> 0 ->
  long_mode_random H num data idx count = Ok l ->
  forall x, In x l <-> exists k, k < count /\ x = byte_at (hash_chain H data (k / 16)) (k mod 16) mod idx.
Proof.
  intros B NZ E. apply long_mode_random_val in E as [[X _]|(_ & SS)]; [lia|].
  destruct (step_of_cases num) as [[_ Es]|[[X _]|[X _]]]; [|lia|lia]. rewrite Es in SS. intros x.
  rewrite (proj2 SS x). unfold long_pick.
  pose proof (draws_1_enough H data count) as En.
  assert (Nth : forall r d k, k < r * 16 -> nth_error (draws H d 1 r) k = Some (byte_at (hash_chain H d (k / 16)) (k mod 16))).
  { intros r. induction r as [|r IH]; intros d k K; [lia|]. rewrite draws_S.
    assert (Ls : length (map (candidate (firstn 16 (H d)) 1) (starts 1)) = 16) by (rewrite map_length; reflexivity).
    destruct (Nat.lt_ge_cases k 16) as [C|C].
    - rewrite nth_error_app1 by lia. rewrite Nat.div_small, Nat.mod_small by lia. rewrite nth_error_map.
      assert (En2 : nth_error (starts 1) k = Some k).
      { unfold starts. rewrite nth_error_map. rewrite nth_error_nth' with (d := 0) by (rewrite seq_length; exact C).
        rewrite seq_nth by exact C. cbn. f_equal. lia. }
      rewrite En2. cbn [option_map]. f_equal. unfold candidate. cbn [seq map list_sum fold_right hash_chain].
      replace (k + 0) with k by lia. lia.
    - rewrite nth_error_app2 by lia. rewrite Ls, IH by lia. f_equal.
      replace k with ((k - 16) + 1 * 16) at 3 4 by lia. rewrite Nat.div_add, Nat.mod_add by lia.
      replace ((k - 16) / 16 + 1) with (S ((k - 16) / 16)) by lia. rewrite chain_shift. reflexivity. }
  split.
  - intros I. apply In_nth_error in I as (k & Ek).
    assert (K : k < length (firstn count (map (fun x => x mod idx) (draws H data 1 (long_total 1 count))))) by (apply nth_error_Some; congruence).
    rewrite firstn_length, map_length in K. exists k. split; [lia|].
    assert (Ek2 : nth_error (map (fun x => x mod idx) (draws H data 1 (long_total 1 count))) k = Some x).
    { rewrite <- (firstn_skipn count (map _ _)). rewrite nth_error_app1; [exact Ek|]. rewrite firstn_length, map_length. lia. }
    rewrite nth_error_map, Nth in Ek2. 
    + cbn [option_map] in Ek2. injection Ek2 as <-. reflexivity.
    + rewrite draws_length in K. change ((16 + (1 - 1)) / 1) with 16 in K. lia.
  - intros (k & K & ->). apply nth_error_In with (n := k).
    assert (Ek2 : nth_error (map (fun x => x mod idx) (draws H data 1 (long_total 1 count))) k = Some (byte_at (hash_chain H data (k / 16)) (k mod 16) mod idx)).
    { rewrite nth_error_map, Nth; [reflexivity|]. rewrite draws_length in En. change ((16 + (1 - 1)) / 1) with 16 in En. lia. }
    rewrite <- (firstn_skipn count (map _ _)) in Ek2. rewrite nth_error_app1 in Ek2; [exact Ek2|]. rewrite firstn_length, map_length. lia.
Qed.

Theorem long_random_returns_iff H num data idx count : hash_ok H ->
  ((exists l, long_mode_random H num data idx count = Ok l) <->
   ~ ((65536 < Z.of_nat num)%Z /\ 6 <= count /\ idx <> 0)).
Proof.
  intros K. split.
  - intros (l & E) (B & C & I). destruct (long_mode_random_big H num data idx count K B I) as [P _]. rewrite P in E by exact C. discriminate.
  - intros N. destruct (Nat.eq_dec idx 0) as [I|I]; [apply long_mode_random_returns; auto|].
    destruct (Z.le_gt_cases (Z.of_nat num) 65536) as [L|L]; [apply long_mode_random_returns; auto|].
    apply (long_mode_random_big H num data idx count K L I). destruct (Nat.le_gt_cases count 5); [assumption|]. exfalso. apply N. auto.
Qed.
Theorem short_unreachable H num data idx count l : (766 < Z.of_nat num <= 65536)%Z ->
  short_depend_random H num data idx count = Ok l -> forall x, In x l -> 256 <= x <= 766.
Proof.
  intros N E x I. destruct (short_depend_random_reach H num data idx count l ltac:(lia) E x I) as (v & -> & B).
  destruct (Z.leb_spec (Z.of_nat num) 65536); [|lia]. rewrite Nat.mod_small by lia. exact B.
Qed.
