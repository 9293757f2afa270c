(** Facts about the deterministic dependency rules. *)
From Verif Require Import Base Depend DependSpec BytesFacts.
Local Open Scope nat_scope.

Lemma usz_ok pr z : (0 <= z < two64)%Z -> usz pr z = Ok z.
Proof.
  intros B. unfold usz. destruct (Z.leb_spec 0 z), (Z.ltb_spec z two64); cbn [andb]; try lia. reflexivity.
Qed.
Lemma usz_debug_panic z : ~ (0 <= z < two64)%Z -> usz Debug z = Panic.
Proof.
  intros B. unfold usz. destruct (Z.leb_spec 0 z), (Z.ltb_spec z two64); cbn [andb]; try lia; reflexivity.
Qed.
Lemma usz_release z : usz Release z = Ok (z mod two64)%Z.
Proof.
  unfold usz. destruct (Z.leb_spec 0 z), (Z.ltb_spec z two64); cbn [andb]; try reflexivity.
  now rewrite Z.mod_small by lia.
Qed.
Lemma two64_pow : two64 = (2 ^ 64)%Z. Proof. reflexivity. Qed.

Lemma pow2_lt_64 i : i < 64 -> (0 < 2 ^ Z.of_nat i <= 2 ^ 63)%Z.
Proof. intros L. split; [apply Z.pow_pos_nonneg; lia|]. apply Z.pow_le_mono_r; lia. Qed.
Lemma pow2_ge_64 i : 64 <= i -> (2 ^ Z.of_nat i mod two64 = 0)%Z /\ (two64 <= 2 ^ Z.of_nat i)%Z.
Proof.
  intros L. replace (Z.of_nat i) with (64 + (Z.of_nat i - 64))%Z by lia. rewrite Z.pow_add_r by lia.
  rewrite <- two64_pow. assert (0 < 2 ^ (Z.of_nat i - 64))%Z by (apply Z.pow_pos_nonneg; lia).
  split; [rewrite Z.mul_comm; apply Z_mod_mult|]. unfold two64. nia.
Qed.
Lemma upow2_small pr i : i < 64 -> upow2 pr i = Ok (2 ^ Z.of_nat i)%Z.
Proof.
  intros L. unfold upow2. destruct (Z.ltb_spec (Z.of_nat i) 4294967296); [|lia]. apply usz_ok.
  pose proof (pow2_lt_64 i L). change (2^63)%Z with 9223372036854775808%Z in *. unfold two64. lia.
Qed.
Lemma upow2_debug i : 64 <= i -> upow2 Debug i = Panic.
Proof.
  intros L. unfold upow2. destruct (Z.of_nat i <? 4294967296)%Z; [|reflexivity].
  apply usz_debug_panic. pose proof (pow2_ge_64 i L). lia.
Qed.
Lemma upow2_release i : 64 <= i -> (Z.of_nat i < 4294967296)%Z -> upow2 Release i = Ok 0%Z.
Proof.
  intros L B. unfold upow2. destruct (Z.ltb_spec (Z.of_nat i) 4294967296); [|lia].
  rewrite usz_release. f_equal. apply pow2_ge_64, L.
Qed.

Lemma foldM_app {A S} (f : S -> A -> res S) l1 l2 s :
  foldM f (l1 ++ l2) s = bind (foldM f l1 s) (foldM f l2).
Proof.
  revert s. induction l1 as [|a l1 IH]; intros s; [reflexivity|]. cbn. destruct (f s a); [|reflexivity]. apply IH.
Qed.
Lemma foldM_panic {A S} (f : S -> A -> res S) l a s : In a l -> (forall s, f s a = Panic) -> foldM f l s = Panic.
Proof.
  intros I P. revert s. induction l as [|b l IH]; intros s; [contradiction|]. cbn.
  destruct I as [->|I]; [now rewrite P|]. destruct (f s b); [|reflexivity]. cbn. now apply IH.
Qed.

(** The shape shared by the three long modes. *)
Lemma back_loop (body : list nat -> nat -> res (list nat)) dist index is : forall acc,
  (forall acc i, In i is -> body acc i = Ok (if (dist i <=? Z.of_nat index)%Z
                                            then acc ++ [Z.to_nat (Z.of_nat index - dist i)] else acc)) ->
  foldM body is acc = Ok (acc ++ map (fun i => Z.to_nat (Z.of_nat index - dist i))
      (filter (fun i => (dist i <=? Z.of_nat index)%Z) is)).
Proof.
  induction is as [|i is IH]; intros acc E; [cbn; now rewrite app_nil_r|].
  cbn [foldM]. rewrite E by now left. cbn [bind]. rewrite IH by (intros; apply E; now right).
  cbn [filter]. destruct (dist i <=? Z.of_nat index)%Z; [|reflexivity].
  cbn [map]. now rewrite <- app_assoc.
Qed.

Theorem long_mode_1_spec pr index count : (Z.of_nat count <= 2 ^ 62)%Z ->
  long_mode_1 pr index count = Ok (back_by dist_1 index count).
Proof.
  intros B. unfold long_mode_1. erewrite back_loop with (dist := dist_1); [reflexivity|].
  intros acc i I. apply in_seq in I. change (2^62)%Z with 4611686018427387904%Z in B.
  rewrite usz_ok by (unfold two64; lia). cbn [bind]. rewrite usz_ok by (unfold two64; lia). cbn [bind].
  fold (dist_1 i). destruct (dist_1 i <=? Z.of_nat index)%Z; reflexivity.
Qed.

Lemma mode2_body pr index acc i : i < 64 ->
  (let* t := upow2 pr i in let* dis := usz pr (1 + t) in
   if (dis <=? Z.of_nat index)%Z then Ok (acc ++ [Z.to_nat (Z.of_nat index - dis)]) else Ok acc)
  = Ok (if (dist_2 i <=? Z.of_nat index)%Z then acc ++ [Z.to_nat (Z.of_nat index - dist_2 i)] else acc).
Proof.
  intros L. rewrite upow2_small by exact L. cbn [bind]. pose proof (pow2_lt_64 i L) as B.
  rewrite usz_ok by (change (2^63)%Z with 9223372036854775808%Z in *; unfold two64; lia). cbn [bind].
  fold (dist_2 i). destruct (dist_2 i <=? Z.of_nat index)%Z; reflexivity.
Qed.

Theorem long_mode_2_spec pr index count : count <= 64 ->
  long_mode_2 pr index count = Ok (back_by dist_2 index count).
Proof.
  intros B. unfold long_mode_2. erewrite back_loop with (dist := dist_2); [reflexivity|].
  intros acc i I. apply in_seq in I. apply mode2_body. lia.
Qed.
Theorem long_mode_3_is_2 pr index : long_mode_3 pr index = long_mode_2 pr index (index / 10).
Proof. reflexivity. Qed.

Theorem long_mode_2_debug_panic index count : 64 < count -> long_mode_2 Debug index count = Panic.
Proof.
  intros L. unfold long_mode_2. apply foldM_panic with (a := 64); [apply in_seq; lia|].
  intros s. rewrite upow2_debug by lia. reflexivity.
Qed.
Theorem long_mode_2_release_wraps index count : 64 < count -> (Z.of_nat count <= 2 ^ 32)%Z ->
  long_mode_2 Release index count =
  Ok (back_by dist_2 index 64 ++ (if index =? 0 then [] else repeat (index - 1) (count - 64))).
Proof.
  intros L B. unfold long_mode_2. replace count with (64 + (count - 64)) at 1 by lia.
  rewrite seq_app, foldM_app. fold (long_mode_2 Release index 64). rewrite long_mode_2_spec by lia. cbn [bind].
  set (acc := back_by dist_2 index 64). clearbody acc. cbn [Nat.add].
  assert (G : forall n s acc, 64 <= s -> (Z.of_nat (s + n) <= 2 ^ 32)%Z ->
    foldM (fun acc i => let* t := upow2 Release i in let* dis := usz Release (1 + t) in
      if (dis <=? Z.of_nat index)%Z then Ok (acc ++ [Z.to_nat (Z.of_nat index - dis)]) else Ok acc) (seq s n) acc
    = Ok (acc ++ (if index =? 0 then [] else repeat (index - 1) n))).
  { clear. induction n as [|n IH]; intros s acc L B; cbn [seq foldM].
    - destruct (index =? 0); cbn; now rewrite app_nil_r.
    - change (2^32)%Z with 4294967296%Z in *. rewrite upow2_release by lia. cbn [bind].
      rewrite usz_ok by (unfold two64; lia). cbn [bind].
      destruct (Nat.eqb_spec index 0) as [->|NZ].
      + destruct (Z.leb_spec (1 + 0) (Z.of_nat 0)); [lia|]. cbn [bind]. rewrite IH by lia.
        destruct (Nat.eqb_spec 0 0); [reflexivity|lia].
      + destruct (Z.leb_spec (1 + 0) (Z.of_nat index)); [|lia]. cbn [bind]. rewrite IH by lia.
        destruct (Nat.eqb_spec index 0); [lia|]. cbn [repeat]. rewrite <- app_assoc. do 2 f_equal.
        replace (Z.to_nat (Z.of_nat index - (1 + 0))) with (index - 1) by lia. reflexivity. }
  rewrite G by lia. reflexivity.
Qed.

Lemma back_by_props dist index count :
  (forall i, (0 < dist i)%Z) -> (forall i j, dist i = dist j -> i = j) ->
  Forall (fun x => x < index) (back_by dist index count) /\ NoDup (back_by dist index count)
  /\ forall x, In x (back_by dist index count) <-> exists i, i < count /\ (Z.of_nat x = Z.of_nat index - dist i)%Z.
Proof.
  intros P I. unfold back_by. split; [|split].
  - apply Forall_forall. intros x X. apply in_map_iff in X as (i & <- & F). apply filter_In in F as (_ & F).
    apply Z.leb_le in F. specialize (P i). lia.
  - assert (N : NoDup (filter (fun i => (dist i <=? Z.of_nat index)%Z) (seq 0 count))) by apply NoDup_filter, seq_NoDup.
    assert (F : Forall (fun i => (dist i <= Z.of_nat index)%Z) (filter (fun i => (dist i <=? Z.of_nat index)%Z) (seq 0 count))).
    { apply Forall_forall. intros i Q. apply filter_In in Q as (_ & Q). now apply Z.leb_le in Q. }
    revert N F. generalize (filter (fun i => (dist i <=? Z.of_nat index)%Z) (seq 0 count)) as l.
    induction l as [|i l IH]; intros N F; [constructor|]. apply NoDup_cons_iff in N as (NI & N).
    apply Forall_cons_iff in F as (Fi & F). cbn [map]. constructor; [|apply IH; assumption].
    intros X. apply in_map_iff in X as (j & E & J). rewrite Forall_forall in F. specialize (F j J). cbn in F.
    assert (i = j) by (apply I; lia). congruence.
  - intros x. rewrite in_map_iff. setoid_rewrite filter_In. setoid_rewrite in_seq. split.
    + intros (i & <- & (L & F)). apply Z.leb_le in F. exists i. specialize (P i). lia.
    + intros (i & L & E). exists i. rewrite Z.leb_le. specialize (P i). repeat split; lia.
Qed.
Lemma dist_1_pos i : (0 < dist_1 i)%Z. Proof. unfold dist_1. lia. Qed.
Lemma dist_1_inj i j : dist_1 i = dist_1 j -> i = j. Proof. unfold dist_1. lia. Qed.
Lemma dist_2_pos i : (0 < dist_2 i)%Z.
Proof. unfold dist_2. assert (0 < 2 ^ Z.of_nat i)%Z by (apply Z.pow_pos_nonneg; lia). lia. Qed.
Lemma dist_2_inj i j : dist_2 i = dist_2 j -> i = j.
Proof. unfold dist_2. intros E. assert (2 ^ Z.of_nat i = 2 ^ Z.of_nat j)%Z as Q by lia. apply Z.pow_inj_r in Q; lia. Qed.

(** * short_mode_1 *)
Lemma nb_len num index e : length (nb_at num index e) <= 2.
Proof. unfold nb_at. rewrite app_length. destruct (_ <=? _), (_ <? _); cbn; lia. Qed.
Lemma nb_empty num index e : index < 1 + 2 * e -> num <= index + (1 + 2 * e) -> nb_at num index e = [].
Proof.
  intros A B. unfold nb_at. destruct (Nat.leb_spec (1 + 2 * e) index); [lia|].
  destruct (Nat.ltb_spec (index + (1 + 2 * e)) num); [lia|]. reflexivity.
Qed.
Lemma nb_empty_from num index e n : index < 1 + 2 * e -> num <= index + (1 + 2 * e) ->
  flat_map (nb_at num index) (seq e n) = [].
Proof.
  revert e. induction n as [|n IH]; intros e A B; [reflexivity|]. cbn [seq flat_map].
  rewrite nb_empty by assumption. apply IH; lia.
Qed.

Lemma short_mode_1_loop_spec num index count fuel : forall e v,
  num + index < e + fuel -> e <= num + index -> 
  short_mode_1_loop fuel num index count e v =
  Some (v ++ firstn (count - length v) (flat_map (nb_at num index) (seq e (num + index - e)))).
Proof.
  induction fuel as [|fuel IH]; intros e v F E; [lia|]. cbn [short_mode_1_loop].
  destruct (Nat.leb_spec count (length v)) as [C|C].
  { replace (count - length v) with 0 by lia. cbn [firstn]. now rewrite app_nil_r. }
  set (dis := 1 + 2 * e).
  destruct (Nat.ltb_spec index dis) as [A|A]; [destruct (Nat.leb_spec num (index + dis)) as [B|B]|]; cbn [andb].
  - rewrite nb_empty_from by assumption. now rewrite firstn_nil, app_nil_r.
  - assert (Lt : e < num + index) by (unfold dis in *; lia).
    replace (num + index - e) with (S (num + index - (e + 1))) by lia. cbn [seq flat_map].
    unfold nb_at at 1. fold dis. destruct (Nat.leb_spec dis index); [lia|].
    destruct (Nat.ltb_spec (index + dis) num); [|lia].
    destruct (Nat.leb_spec count (length v)); [lia|]. rewrite IH by lia.
    rewrite app_length. cbn [length app]. replace (count - length v) with (S (count - (length v + 1))) by lia.
    cbn [firstn]. rewrite <- app_assoc. cbn [app]. replace (S e) with (e + 1) by lia. reflexivity.
  - assert (Lt : e < num + index) by (unfold dis in *; lia).
    replace (num + index - e) with (S (num + index - (e + 1))) by lia. cbn [seq flat_map].
    unfold nb_at at 1. fold dis. destruct (Nat.leb_spec dis index); [|lia]. rewrite app_length. cbn [length].
    destruct (Nat.leb_spec count (length v + 1)) as [D|D].
    + replace (count - length v) with 1 by lia. cbn [app firstn]. reflexivity.
    + replace (S e) with (e + 1) by lia. destruct (Nat.ltb_spec (index + dis) num).
      * rewrite IH by lia. rewrite !app_length. cbn [length]. rewrite <- !app_assoc. cbn [app].
        replace (count - length v) with (S (S (count - (length v + 1 + 1)))) by lia. reflexivity.
      * rewrite IH by lia. rewrite !app_length. cbn [length]. rewrite <- !app_assoc. cbn [app].
        replace (count - length v) with (S (count - (length v + 1))) by lia. reflexivity.
Qed.

Theorem short_mode_1_spec num index count :
  short_mode_1_loop (short_mode_1_fuel num index) num index count 0 [] = Some (firstn count (odd_neighbours num index))
  /\ short_mode_1 num index count = Ok (firstn count (odd_neighbours num index)).
Proof.
  assert (E : short_mode_1_loop (short_mode_1_fuel num index) num index count 0 [] = Some (firstn count (odd_neighbours num index))).
  { rewrite short_mode_1_loop_spec by (unfold short_mode_1_fuel; lia). cbn [length app].
    now rewrite !Nat.sub_0_r. }
  split; [exact E|]. unfold short_mode_1. now rewrite E.
Qed.

Lemma nb_In num index e x : In x (nb_at num index e) <->
  (x + (1 + 2 * e) = index \/ (x = index + (1 + 2 * e) /\ x < num)).
Proof.
  unfold nb_at. rewrite in_app_iff. destruct (Nat.leb_spec (1 + 2 * e) index), (Nat.ltb_spec (index + (1 + 2 * e)) num); cbn [In]; lia.
Qed.
Lemma odd_neighbours_In num index x : index < num ->
  (In x (odd_neighbours num index) <-> x < num /\ exists e, x + (1 + 2 * e) = index \/ x = index + (1 + 2 * e)).
Proof.
  intros L. unfold odd_neighbours. rewrite in_flat_map. setoid_rewrite nb_In. setoid_rewrite in_seq. split.
  - intros (e & R & [E|[E B]]); (split; [lia|]); exists e; lia.
  - intros (B & e & [E|E]); exists e; (split; [lia|]); lia.
Qed.
Lemma odd_neighbours_NoDup num index : NoDup (odd_neighbours num index).
Proof.
  unfold odd_neighbours. generalize 0 as e. generalize (num + index) as n.
  induction n as [|n IH]; intros e; [constructor|]. cbn [seq flat_map].
  assert (N1 : NoDup (nb_at num index e)).
  { unfold nb_at. destruct (Nat.leb_spec (1 + 2 * e) index), (Nat.ltb_spec (index + (1 + 2 * e)) num); cbn [app]; repeat constructor; cbn; lia. }
  assert (D : forall x, In x (nb_at num index e) -> ~ In x (flat_map (nb_at num index) (seq (S e) n))).
  { intros x X Y. apply in_flat_map in Y as (e' & R & Y). apply in_seq in R. rewrite nb_In in X, Y. lia. }
  revert N1 D. generalize (nb_at num index e) as l. induction l as [|y l IHl]; intros N1 D; [apply IH|].
  apply NoDup_cons_iff in N1 as (NI & N1). cbn [app]. constructor.
  - rewrite in_app_iff. intros [C|C]; [contradiction|]. apply (D y); [now left|exact C].
  - apply IHl; [exact N1|]. intros x X. apply D. now right.
Qed.

Lemma NoDup_firstn {A} n (l : list A) : NoDup l -> NoDup (firstn n l).
Proof.
  intros N. revert n. induction N as [|x l NI N IH]; intros [|n]; cbn; constructor; [|apply IH].
  intros I. apply NI. rewrite <- (firstn_skipn n l). apply in_or_app. now left.
Qed.
Lemma In_firstn {A} n (l : list A) x : In x (firstn n l) -> In x l.
Proof. intros I. rewrite <- (firstn_skipn n l). apply in_or_app. now left. Qed.

Theorem short_mode_1_props num index count l : index < num -> short_mode_1 num index count = Ok l ->
  NoDup l /\ Forall (fun x => x < num /\ x <> index) l /\ length l = Nat.min count (length (odd_neighbours num index)).
Proof.
  intros L E. rewrite (proj2 (short_mode_1_spec num index count)) in E. injection E as <-.
  split; [apply NoDup_firstn, odd_neighbours_NoDup|]. split; [|apply firstn_length].
  apply Forall_forall. intros x X. apply In_firstn in X. apply odd_neighbours_In in X; [|exact L].
  destruct X as (B & e & [X|X]); lia.
Qed.

(** * short_mode_2 *)
Lemma short_mode_2_first num index is : 
  short_mode_2_loop Debug num index (0 :: is) false [] =
  (let* idx := usz Debug (Z.of_nat index - 2) in
   if (Z.of_nat num <=? idx)%Z then Ok [] else short_mode_2_loop Debug num index is true [Z.to_nat idx]).
Proof. reflexivity. Qed.
Lemma short_mode_2_second num index is v : short_mode_2_loop Debug num index (1 :: is) true v = Panic.
Proof. reflexivity. Qed.
Theorem short_mode_2_debug_2 num index count : (Z.of_nat num <= two64)%Z -> index < num -> 2 <= count ->
  short_mode_2 Debug num index count = Panic.
Proof.
  intros B L C. unfold short_mode_2. destruct count as [|[|count]]; [lia|lia|]. cbn [seq].
  rewrite short_mode_2_first. destruct (Z.lt_ge_cases (Z.of_nat index) 2) as [D|D].
  - rewrite usz_debug_panic by lia. reflexivity.
  - rewrite usz_ok by lia. cbn [bind].
    destruct (Z.leb_spec (Z.of_nat num) (Z.of_nat index - 2)); [lia|]. apply short_mode_2_second.
Qed.
Theorem short_mode_2_debug_1 num index : index < 2 -> short_mode_2 Debug num index 1 = Panic.
Proof.
  intros C. unfold short_mode_2. cbn [seq]. rewrite short_mode_2_first. rewrite usz_debug_panic by lia. reflexivity.
Qed.
Theorem short_mode_2_debug_1_ok num index : (Z.of_nat num <= two64)%Z -> 2 <= index < num -> short_mode_2 Debug num index 1 = Ok [index - 2].
Proof.
  intros B C. unfold short_mode_2. cbn [seq]. rewrite short_mode_2_first. rewrite usz_ok by lia. cbn [bind].
  destruct (Z.leb_spec (Z.of_nat num) (Z.of_nat index - 2)); [lia|]. cbn [short_mode_2_loop]. do 2 f_equal. lia.
Qed.

Lemma short_mode_2_release_loop num index n : (Z.of_nat num <= 2 ^ 62)%Z -> index < num -> forall s v,
  s + n <= 63 ->
  short_mode_2_loop Release num index (seq s n) (negb (Nat.even s)) v =
  Ok (v ++ map Z.to_nat (take_while (fun z => (0 <=? z) && (z <? Z.of_nat num))%Z (map (alternating index) (seq s n)))).
Proof.
  intros B L. induction n as [|n IH]; intros s v R; cbn [seq short_mode_2_loop map take_while]; [now rewrite app_nil_r|].
  rewrite !upow2_small by lia. cbn [bind].
  assert (HP : (1 <= 2 ^ Z.of_nat s <= 2 ^ 62)%Z).
  { split; [pose proof (Z.pow_pos_nonneg 2 (Z.of_nat s)); lia|apply Z.pow_le_mono_r; lia]. }
  change (2^62)%Z with 4611686018427387904%Z in *. rewrite !usz_release. cbn [bind].
  assert (T : (if negb (Nat.even s) then usz Release (Z.of_nat index - (1 - 2 ^ Z.of_nat s) mod two64)
           else usz Release (Z.of_nat index - (1 + 2 ^ Z.of_nat s) mod two64)) = Ok (alternating index s mod two64)%Z).
  { unfold alternating. destruct (Nat.even s); cbn [negb]; rewrite usz_release; f_equal; rewrite Zminus_mod_idemp_r; f_equal; ring. }
  rewrite T. clear T. cbn [bind].
  assert (BA : (- (2^62) - 2 <= alternating index s < two64)%Z).
  { unfold alternating, two64. change (2^62)%Z with 4611686018427387904%Z. destruct (Nat.even s); lia. }
  set (a := alternating index s) in *. clearbody a. change (2^62)%Z with 4611686018427387904%Z in *.
  destruct (Z.leb_spec 0 a) as [P0|P0].
  - rewrite Z.mod_small by (unfold two64 in *; lia). cbn [andb].
    destruct (Z.leb_spec (Z.of_nat num) a) as [Q|Q]; destruct (Z.ltb_spec a (Z.of_nat num)) as [Q'|Q']; try lia.
    + cbn [map]. now rewrite app_nil_r.
    + cbn [map]. rewrite <- Nat.negb_even, <- Nat.even_succ || idtac.
      replace (negb (negb (Nat.even s))) with (negb (Nat.even (S s))).
      2:{ rewrite Nat.even_succ, <- Nat.negb_even. reflexivity. }
      rewrite IH by lia. now rewrite <- app_assoc.
  - cbn [andb map]. replace (a mod two64)%Z with (a + two64)%Z.
    2:{ apply Z.mod_unique with (q := (-1)%Z); [left; unfold two64 in *; lia|ring]. }
    destruct (Z.leb_spec (Z.of_nat num) (a + two64)); [|unfold two64 in *; lia]. now rewrite app_nil_r.
Qed.
Theorem short_mode_2_release num index count : (Z.of_nat num <= 2 ^ 62)%Z -> index < num -> count <= 63 ->
  short_mode_2 Release num index count =
  Ok (map Z.to_nat (take_while (fun z => (0 <=? z) && (z <? Z.of_nat num))%Z (map (alternating index) (seq 0 count)))).
Proof. intros B L C. exact (short_mode_2_release_loop num index count B L 0 [] C). Qed.

(** Elements differ from the index itself (needed by the sealing proofs). *)
Lemma take_while_In {A} (f : A -> bool) l x : In x (take_while f l) -> In x l /\ f x = true.
Proof.
  induction l as [|a l IH]; cbn; [tauto|]. destruct (f a) eqn:E; cbn; [|tauto].
  intros [->|I]; [auto|]. destruct (IH I). auto.
Qed.
