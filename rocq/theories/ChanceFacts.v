(** Facts about the draws of create_challenges: symmetry and counting. *)
From Coq Require Import Sorted.
From Verif Require Import Base Common Depend Prover Verifier DependSpec BytesFacts DependFacts CommonFacts ChallengeFacts Chance.
Local Open Scope nat_scope.

(** * Words *)
Lemma tuples_In {A} (l : list A) L : forall w, In w (tuples l L) <-> length w = L /\ Forall (fun x => In x l) w.
Proof.
  induction L as [|L IH]; intros w; cbn [tuples].
  - cbn. split; [intros [<-|[]]; auto|]. intros [E _]. destruct w; [auto|discriminate].
  - rewrite in_flat_map. split.
    + intros (v & V & I). apply in_map_iff in I as (x & <- & X). apply IH in V as (E & F). cbn. split; [lia|]. constructor; auto.
    + intros (E & F). destruct w as [|x v]; [discriminate|]. inversion F; subst. injection E as E. exists v. split; [now apply IH|]. apply in_map_iff. eauto.
Qed.
Lemma words_In q L w : In w (words q L) <-> length w = L /\ Forall (fun x => x < q) w.
Proof.
  unfold words. rewrite tuples_In, !Forall_forall. split; intros (E & F); (split; [exact E|]); intros x X; apply F in X; [apply in_seq in X|apply in_seq]; lia.
Qed.
Lemma NoDup_app_i {A} (a b : list A) : NoDup a -> NoDup b -> (forall x, In x a -> ~ In x b) -> NoDup (a ++ b).
Proof.
  induction a as [|x a IH]; intros NA NB D; [exact NB|]. inversion NA; subst. cbn. constructor.
  - rewrite in_app_iff. intros [X|X]; [auto|]. apply (D x); [now left|exact X].
  - apply IH; auto. intros y Y. apply D. now right.
Qed.
Lemma NoDup_app_l {A} (a b : list A) : NoDup (a ++ b) -> NoDup a.
Proof.
  induction a as [|x a IH]; intros N; [constructor|]. inversion N as [|? ? NI N']; subst. constructor; [|auto]. intros X. apply NI. apply in_or_app. now left.
Qed.
Lemma seq_sorted q : forall a, StronglySorted lt (seq a q).
Proof. induction q as [|q IH]; intros a; cbn [seq]; constructor; auto. apply Forall_forall. intros x I. apply in_seq in I. lia. Qed.
Lemma filter_none {A} (p : A -> bool) l : Forall (fun x => p x = false) l -> filter p l = [].
Proof. induction 1 as [|x l E F IH]; [reflexivity|]. cbn. now rewrite E. Qed.
Lemma NoDup_map_inj {A B} (f : A -> B) l : (forall x y, In x l -> In y l -> f x = f y -> x = y) -> NoDup l -> NoDup (map f l).
Proof.
  induction l as [|x l IH]; intros I N; cbn; [constructor|]. inversion N; subst. constructor.
  - intros X. apply in_map_iff in X as (y & E & Y). assert (y = x) by (apply I; [now right|now left|exact E]). congruence.
  - apply IH; auto. intros y z Y Z. apply I; now right.
Qed.
Lemma NoDup_flat_map {A B} (f : A -> list B) l : NoDup l -> (forall x, In x l -> NoDup (f x)) ->
  (forall x y z, In x l -> In y l -> In z (f x) -> In z (f y) -> x = y) -> NoDup (flat_map f l).
Proof.
  induction l as [|x l IH]; intros N F D; cbn; [constructor|]. inversion N; subst. apply NoDup_app_i.
  - apply F. now left.
  - apply IH; auto; [intros; apply F; now right|]. intros y z u Y Z. apply D; now right.
  - intros z Z Z'. apply in_flat_map in Z' as (y & Y & Z'). assert (x = y) by (eapply D; eauto; [now left|now right]). congruence.
Qed.
Lemma tuples_NoDup {A} (l : list A) L : NoDup l -> NoDup (tuples l L).
Proof.
  intros N. induction L as [|L IH]; cbn [tuples]; [constructor; [tauto|constructor]|]. apply NoDup_flat_map; auto.
  - intros w _. apply NoDup_map_inj; [congruence|exact N].
  - intros x y z _ _ X Y. apply in_map_iff in X as (i & <- & _). apply in_map_iff in Y as (j & E & _). congruence.
Qed.
Lemma words_NoDup q L : NoDup (words q L).
Proof. apply tuples_NoDup, seq_NoDup. Qed.
Lemma tuples_length {A} (l : list A) L : length (tuples l L) = length l ^ L.
Proof.
  induction L as [|L IH]; [reflexivity|]. cbn [tuples Nat.pow]. rewrite <- IH. generalize (tuples l L). intros t. induction t as [|w t I]; cbn [flat_map length]; [lia|].
  rewrite app_length, map_length, I. lia.
Qed.
Lemma words_length q L : length (words q L) = q ^ L.
Proof. unfold words. now rewrite tuples_length, seq_length. Qed.
Lemma count_tuples {A} (p : A -> bool) (l : list A) k : count (forallb p) (tuples l k) = count p l ^ k.
Proof.
  unfold count. induction k as [|k IH]; [reflexivity|]. cbn [tuples Nat.pow]. rewrite <- IH. generalize (tuples l k). intros t. induction t as [|w t I]; cbn [flat_map filter length]; [lia|].
  rewrite filter_app, app_length, I. clear I. assert (E : length (filter (forallb p) (map (fun x => x :: w) l)) = if forallb p w then length (filter p l) else 0).
  { clear IH. induction l as [|x l IH]; cbn; [now destruct (forallb p w)|]. destruct (p x); cbn; [|exact IH]. destruct (forallb p w); cbn; rewrite ?IH; reflexivity. }
  rewrite E. destruct (forallb p w); cbn [length]; lia.
Qed.

(** * The loop and a permutation of the range *)
Section Sym.
Context (c a b L : nat) (w : list nat) (s : nat -> nat).
Notation q := (b - a).
Hypothesis WL : length w = L.
Hypothesis WQ : Forall (fun x => x < q) w.
Hypothesis SQ : forall x, x < q -> s x < q.
Hypothesis SI : forall x y, x < q -> y < q -> s x = s y -> x = y.
Definition image (z : nat) : nat := a + s (z - a).
Definition rel (l l' : list nat) : Prop :=
  StronglySorted lt l /\ StronglySorted lt l' /\ Forall (fun x => a <= x < b) l /\ forall y, In y l' <-> exists x, In x l /\ y = image x.
Lemma rel_len l l' : rel l l' -> length l = length l'.
Proof.
  intros (S1 & S2 & F & I). apply ssorted_lt_NoDup in S1, S2. rewrite Forall_forall in F. rewrite <- (map_length image l).
  assert (N : NoDup (map image l)).
  { apply NoDup_map_inj; [|exact S1]. intros x y X Y E. unfold image in E. pose proof (F x X). pose proof (F y Y). assert (x - a = y - a) by (apply SI; lia). lia. }
  apply Nat.le_antisymm; apply NoDup_incl_length; auto.
  - intros y Y. apply in_map_iff in Y as (x & <- & X). apply I. eauto.
  - intros y Y. apply I in Y as (x & X & ->). now apply in_map.
Qed.
Lemma lockstep : forall f i l l', i + f = L -> rel l l' -> forall r, challenge_loop (S f) c a b (fun i => nth i w 0) i l = Some (Ok r) ->
  exists r', challenge_loop (S f) c a b (fun i => nth i (map s w) 0) i l' = Some (Ok r') /\ rel r r'.
Proof.
  induction f as [|f IH]; intros i l l' IF R r E.
  - cbn [challenge_loop] in *. rewrite <- (rel_len l l' R). destruct (length l <? c); [destruct (b <=? a); discriminate|]. injection E as <-. eauto.
  - remember (S f) as g eqn:G. cbn [challenge_loop] in *. rewrite <- (rel_len l l' R). destruct (length l <? c); [|injection E as <-; eauto].
    destruct (Nat.leb_spec b a) as [BA|BA]; [discriminate|]. subst g. revert E. apply IH; [lia|]. destruct R as (S1 & S2 & F & I).
    assert (X : nth i w 0 < q) by (rewrite Forall_forall in WQ; apply WQ, nth_In; lia).
    assert (Y : nth i (map s w) 0 = s (nth i w 0)) by (rewrite (nth_indep _ 0 (s 0)) by (rewrite map_length; lia); apply map_nth).
    rewrite Y, !Nat.mod_small by auto. split; [now apply insert_uniq_sorted|]. split; [now apply insert_uniq_sorted|]. split.
    + rewrite Forall_forall in *. intros x. rewrite insert_uniq_In. intros [->|J]; [lia|auto].
    + intros y. rewrite insert_uniq_In, I. split.
      * intros [->|(x & J & ->)]; [exists (a + nth i w 0)|exists x]; rewrite insert_uniq_In; auto. split; [now left|]. unfold image. do 2 f_equal. lia.
      * intros (x & J & ->). apply insert_uniq_In in J as [->|J]; [left; unfold image; do 2 f_equal; lia|eauto].
Qed.
Lemma drawn_image r : drawn c a b w = Some r -> exists r', drawn c a b (map s w) = Some r' /\ rel r r'.
Proof.
  unfold drawn, create_challenges. cbn [fst snd]. rewrite map_length. intros E.
  destruct (challenge_loop _ c a b (fun i => nth i w 0) 0 []) as [[r0|]|] eqn:C; try discriminate. injection E as <-.
  rewrite WL in *. destruct (lockstep L 0 [] [] ltac:(lia)) with (r := r0) as (r' & C' & R); auto.
  - split; [constructor|]. split; [constructor|]. split; [constructor|]. cbn. firstorder.
  - rewrite C'. eauto.
Qed.
End Sym.
Lemma sorted_ext l : forall l', StronglySorted lt l -> StronglySorted lt l' -> (forall x, In x l <-> In x l') -> l = l'.
Proof.
  induction l as [|x l IH]; intros l' S S' E.
  - destruct l' as [|y l']; [reflexivity|]. exfalso. apply (E y). now left.
  - destruct l' as [|y l']; [exfalso; apply (E x); now left|]. inversion S as [|? ? S1 F1]; inversion S' as [|? ? S2 F2]; subst. rewrite Forall_forall in F1, F2.
    assert (x = y) as <-.
    { destruct (proj1 (E x) ltac:(now left)) as [->|X]; [reflexivity|]. destruct (proj2 (E y) ltac:(now left)) as [->|Y]; [reflexivity|]. apply F2 in X. apply F1 in Y. lia. }
    f_equal. apply IH; auto. intros z. split; intros Z.
    + destruct (proj1 (E z) ltac:(now right)) as [->|Q]; [apply F1 in Z; lia|exact Q].
    + destruct (proj2 (E z) ltac:(now right)) as [->|Q]; [apply F2 in Z; lia|exact Q].
Qed.

(** * A permutation that takes one set to another *)
Fixpoint pos (x : nat) (l : list nat) : nat :=
  match l with [] => 0 | y :: l' => if x =? y then 0 else S (pos x l') end.
Lemma pos_nth x l d : In x l -> pos x l < length l /\ nth (pos x l) l d = x.
Proof.
  induction l as [|y l IH]; intros I; [destruct I|]. cbn [pos]. destruct (Nat.eqb_spec x y) as [->|N]; [cbn; split; [lia|reflexivity]|].
  destruct I as [->|I]; [congruence|]. destruct (IH I). cbn. split; [lia|assumption].
Qed.
Lemma pos_app x l1 l2 : In x l1 -> pos x (l1 ++ l2) = pos x l1.
Proof.
  induction l1 as [|y l IH]; intros I; [destruct I|]. cbn [pos app]. destruct (Nat.eqb_spec x y) as [->|N]; [reflexivity|]. destruct I as [->|I]; [congruence|]. now rewrite IH.
Qed.
Definition compl (q : nat) (l : list nat) : list nat := filter (fun x => negb (if in_dec Nat.eq_dec x l then true else false)) (seq 0 q).
Lemma compl_In q l x : In x (compl q l) <-> x < q /\ ~ In x l.
Proof.
  unfold compl. rewrite filter_In, in_seq. destruct (in_dec Nat.eq_dec x l); cbn; intuition (try lia; try discriminate).
Qed.
Lemma whole q l : NoDup l -> Forall (fun x => x < q) l -> NoDup (l ++ compl q l) /\ (forall x, In x (l ++ compl q l) <-> x < q) /\ length (l ++ compl q l) = q.
Proof.
  intros N F. rewrite Forall_forall in F. assert (N' : NoDup (l ++ compl q l)).
  { apply NoDup_app_i; [exact N|apply NoDup_filter, seq_NoDup|]. intros x X Y. apply compl_In in Y. tauto. }
  assert (I : forall x, In x (l ++ compl q l) <-> x < q).
  { intros x. rewrite in_app_iff, compl_In. destruct (in_dec Nat.eq_dec x l); intuition auto. }
  split; [exact N'|]. split; [exact I|]. transitivity (length (seq 0 q)); [|apply seq_length]. apply Nat.le_antisymm; apply NoDup_incl_length; auto using seq_NoDup.
  - intros x X. apply in_seq. apply I in X. lia.
  - intros x X. apply I. apply in_seq in X. lia.
Qed.
Lemma swap_sets q A B : NoDup A -> NoDup B -> Forall (fun x => x < q) A -> Forall (fun x => x < q) B -> length A = length B ->
  exists s, (forall x, x < q -> s x < q) /\ (forall x y, x < q -> y < q -> s x = s y -> x = y) /\ forall y, In y B <-> exists x, In x A /\ y = s x.
Proof.
  intros NA NB FA FB LE. destruct (whole q A NA FA) as (WA & IA & LA). destruct (whole q B NB FB) as (WB & IB & LB).
  exists (fun x => nth (pos x (A ++ compl q A)) (B ++ compl q B) 0).
  assert (P : forall x, x < q -> pos x (A ++ compl q A) < q) by (intros x X; eapply Nat.lt_le_trans; [apply (pos_nth x _ 0); now apply IA|now rewrite LA]).
  split; [|split].
  - intros x X. apply IB, nth_In. rewrite LB. auto.
  - intros x y X Y E. apply NoDup_nth in E; auto; try (rewrite LB; auto). apply IA in X, Y.
    rewrite <- (proj2 (pos_nth x _ 0 X)), <- (proj2 (pos_nth y _ 0 Y)). now rewrite E.
  - assert (PA : forall x, In x A -> nth (pos x (A ++ compl q A)) (B ++ compl q B) 0 = nth (pos x A) B 0).
    { intros x X. rewrite pos_app by exact X. rewrite app_nth1; [reflexivity|]. rewrite <- LE. now apply (pos_nth x A 0). }
    intros y. split.
    + intros Y. destruct (In_nth B y 0 Y) as (i & I & <-). exists (nth i A 0). assert (X : In (nth i A 0) A) by (apply nth_In; lia). split; [exact X|].
      rewrite PA by exact X. f_equal. destruct (pos_nth _ _ 0 X) as (U & V). apply (NoDup_nth A 0) in V; auto; lia.
    + intros (x & X & ->). rewrite PA by exact X. apply nth_In. rewrite <- LE. now apply (pos_nth x A 0).
Qed.

(** * Every set is equally likely *)
Lemma is_set_true l o : is_set l o = true <-> o = Some l.
Proof. destruct o as [r|]; cbn; [|split; discriminate]. destruct (list_eq_dec _ r l); split; congruence. Qed.
Lemma count_le c a b L A B : a <= b -> StronglySorted lt A -> StronglySorted lt B -> Forall (fun x => a <= x < b) A -> Forall (fun x => a <= x < b) B -> length A = length B ->
  count (fun w => is_set A (drawn c a b w)) (words (b - a) L) <= count (fun w => is_set B (drawn c a b w)) (words (b - a) L).
Proof.
  intros AB SA SB FA FB LE. rewrite Forall_forall in FA, FB.
  assert (OF : forall l, StronglySorted lt l -> (forall x, In x l -> a <= x < b) -> NoDup (map (fun x => x - a) l) /\ Forall (fun x => x < b - a) (map (fun x => x - a) l)).
  { intros l S F. split.
    - apply NoDup_map_inj; [|now apply ssorted_lt_NoDup]. intros x y X Y E. apply F in X, Y. lia.
    - apply Forall_forall. intros y Y. apply in_map_iff in Y as (x & <- & X). apply F in X. lia. }
  destruct (OF A SA FA) as (NA & QA). destruct (OF B SB FB) as (NB & QB).
  destruct (swap_sets (b - a) _ _ NA NB QA QB) as (s & SQ & SI & SAB); [now rewrite !map_length|].
  unfold count. rewrite <- (map_length (map s)). apply NoDup_incl_length.
  - apply NoDup_map_inj; [|apply NoDup_filter, words_NoDup]. intros x y X Y E. apply filter_In in X as (X & _). apply filter_In in Y as (Y & _). apply words_In in X as (X1 & X2). apply words_In in Y as (Y1 & Y2).
    clear - SI E X1 Y1 X2 Y2. revert y Y1 Y2 E X1. generalize L. induction X2 as [|u x U X2 IH]; intros n [|v y] Y1 Y2 E X1; try discriminate; [reflexivity|].
    inversion Y2; subst. injection E as E1 E2. f_equal; [now apply SI|]. apply (IH (length x)); auto; cbn in *; lia.
  - intros y Y. apply in_map_iff in Y as (w & <- & W). apply filter_In in W as (W & D). apply is_set_true in D. apply words_In in W as (WL & WQ).
    apply filter_In. split.
    + apply words_In. rewrite map_length. split; [exact WL|]. apply Forall_forall. intros y Y. apply in_map_iff in Y as (x & <- & X). rewrite Forall_forall in WQ. auto.
    + apply is_set_true. destruct (drawn_image c a b L w s WL WQ SQ SI A D) as (r' & E & (_ & S2 & _ & I)). rewrite E. f_equal. apply sorted_ext; auto. intros y. rewrite I. split.
      * intros (x & X & ->). unfold image. assert (Q : In (s (x - a)) (map (fun x => x - a) B)) by (apply SAB; exists (x - a); split; [apply in_map_iff; eauto|reflexivity]).
        apply in_map_iff in Q as (z & Z1 & Z2). rewrite <- Z1. pose proof (FB z Z2). replace (a + (z - a)) with z by lia. exact Z2.
      * intros Y. pose proof (FB y Y). destruct (proj1 (SAB (y - a))) as (x & X & E'); [apply in_map_iff; eauto|]. apply in_map_iff in X as (z & <- & Z).
        exists z. split; [exact Z|]. unfold image. lia.
Qed.
Lemma count_eq c a b L A B : a <= b -> StronglySorted lt A -> StronglySorted lt B -> Forall (fun x => a <= x < b) A -> Forall (fun x => a <= x < b) B -> length A = length B ->
  count (fun w => is_set A (drawn c a b w)) (words (b - a) L) = count (fun w => is_set B (drawn c a b w)) (words (b - a) L).
Proof. intros. apply Nat.le_antisymm; now apply count_le. Qed.

(** * The sets there are *)
Fixpoint choose (c : nat) (l : list nat) : list (list nat) :=
  match c, l with
  | O, _ => [[]]
  | S _, [] => []
  | S c', x :: l' => map (cons x) (choose c' l') ++ choose c l'
  end.
Lemma choose_length c : forall l, length (choose c l) = binom (length l) c.
Proof.
  intros l. revert c. induction l as [|x l IH]; intros [|c]; try reflexivity. cbn [choose length binom]. now rewrite app_length, map_length, !IH.
Qed.
Lemma choose_In : forall l c s, StronglySorted lt l -> (In s (choose c l) <-> StronglySorted lt s /\ length s = c /\ incl s l).
Proof.
  induction l as [|x l IH]; intros [|c] s S.
  - cbn. split; [intros [<-|[]]; repeat split; [constructor|intros y []]|]. intros (_ & E & _). destruct s; [auto|discriminate].
  - cbn. split; [intros []|]. intros (_ & E & I). destruct s as [|y s]; [discriminate|]. destruct (I y). now left.
  - cbn. split; [intros [<-|[]]; repeat split; [constructor|intros y []]|]. intros (_ & E & _). destruct s; [auto|discriminate].
  - inversion S as [|? ? S1 F]; subst. rewrite Forall_forall in F. cbn [choose]. rewrite in_app_iff, in_map_iff. split.
    + intros [(t & <- & T)|T]; apply IH in T as (T1 & T2 & T3); auto.
      * split; [constructor; [exact T1|]; apply Forall_forall; intros y Y; apply F; now apply T3|]. split; [cbn; lia|]. intros y [->|Y]; [now left|right; now apply T3].
      * split; [exact T1|]. split; [exact T2|]. intros y Y. right. now apply T3.
    + intros (T1 & T2 & T3). destruct s as [|y s]; [discriminate|]. inversion T1 as [|? ? T4 T5]; subst. rewrite Forall_forall in T5.
      destruct (T3 y ltac:(now left)) as [->|Y].
      * left. exists s. split; [reflexivity|]. apply IH; auto. split; [exact T4|]. split; [cbn in T2; lia|]. intros z Z. destruct (T3 z ltac:(now right)) as [->|Q]; [apply T5 in Z; lia|exact Q].
      * right. apply IH; auto. split; [exact T1|]. split; [exact T2|]. intros z [->|Z]; [exact Y|]. destruct (T3 z ltac:(now right)) as [->|Q]; [|exact Q]. apply T5 in Z. apply F in Y. lia.
Qed.
Lemma choose_NoDup : forall l c, StronglySorted lt l -> NoDup (choose c l).
Proof.
  induction l as [|x l IH]; intros [|c] S; try (cbn; repeat constructor; tauto). inversion S as [|? ? S1 F]; subst. cbn [choose]. apply NoDup_app_i.
  - apply NoDup_map_inj; [congruence|auto].
  - auto.
  - intros t T T'. apply in_map_iff in T as (u & <- & _). apply choose_In in T' as (_ & _ & I); auto. rewrite Forall_forall in F. pose proof (F x (I x ltac:(now left))). lia.
Qed.

(** * Counting by outcome *)
Lemma count_ext {A} (f g : A -> bool) l : (forall x, In x l -> f x = g x) -> count f l = count g l.
Proof.
  unfold count. induction l as [|x l IH]; intros E; [reflexivity|]. cbn. rewrite (E x) by now left. destruct (g x); cbn; rewrite IH; auto; intros y Y; apply E; now right.
Qed.
Lemma count_split {A} (f g : A -> bool) l : count f l = count (fun x => f x && g x) l + count (fun x => f x && negb (g x)) l.
Proof. unfold count. induction l as [|x l IH]; [reflexivity|]. cbn. destruct (f x), (g x); cbn; lia. Qed.
Lemma count_by {A} (f : A -> option (list nat)) (ws : list A) K : forall sets, NoDup sets -> (forall s, In s sets -> count (fun w => is_set s (f w)) ws = K) ->
  count (fun w => existsb (fun s => is_set s (f w)) sets) ws = length sets * K.
Proof.
  induction sets as [|s sets IH]; intros N E.
  - cbn. unfold count. clear. induction ws as [|w ws IH]; [reflexivity|exact IH].
  - inversion N as [|? ? NI N']; subst. cbn [length existsb]. rewrite (count_split _ (fun w => is_set s (f w))). cbn [Nat.mul]. f_equal.
    + rewrite <- (E s) by now left. apply count_ext. intros w _. destruct (is_set s (f w)); cbn; [reflexivity|]. now rewrite andb_false_r.
    + rewrite <- IH; auto; [|intros; apply E; now right]. apply count_ext. intros w _. destruct (is_set s (f w)) eqn:I; cbn; [|now rewrite andb_true_r].
      symmetry. apply is_set_true in I. destruct (existsb _ sets) eqn:X; [|reflexivity]. apply existsb_exists in X as (t & T & J). apply is_set_true in J. congruence.
Qed.

(** * Words that are not enough *)
Lemma loop_mono c a b d d' : forall f f' i s r, f <= f' -> (forall j, i <= j -> j + 1 < i + f -> d j = d' j) ->
  challenge_loop f c a b d i s = Some (Ok r) -> challenge_loop f' c a b d' i s = Some (Ok r).
Proof.
  induction f as [|f IH]; intros f' i s r LE D E; [discriminate|]. destruct f' as [|f']; [lia|]. cbn [challenge_loop] in *.
  destruct (length s <? c); [|exact E]. destruct (b <=? a); [discriminate|]. destruct f as [|f]; [discriminate|].
  rewrite <- (D i) by lia. revert E. apply IH; [lia|]. intros j J1 J2. apply D; lia.
Qed.
Lemma drawn_more c a b w v r : drawn c a b w = Some r -> drawn c a b (w ++ v) = Some r.
Proof.
  unfold drawn, create_challenges. cbn [fst snd]. intros E. destruct (challenge_loop (S (length w)) c a b (fun i => nth i w 0) 0 []) as [[r0|]|] eqn:C; try discriminate. injection E as ->.
  erewrite loop_mono; [reflexivity| | |exact C].
  - rewrite app_length. lia.
  - intros j _ J. cbn beta. rewrite app_nth1; [reflexivity|lia].
Qed.
Lemma drawn_sound c a b w r : drawn c a b w = Some r -> StronglySorted lt r /\ length r = c /\ Forall (fun x => a <= x < b) r.
Proof.
  unfold drawn. intros E. destruct (create_challenges _ c (a, b) _) as [[r0|]|] eqn:C; try discriminate. injection E as ->. eapply challenges_sound, C.
Qed.
Lemma nodup_map_inj (f : nat -> nat) l : (forall x y, f x = f y -> x = y) -> length (nodup Nat.eq_dec (map f l)) = length (nodup Nat.eq_dec l).
Proof.
  intros I. induction l as [|x l IH]; [reflexivity|]. cbn. destruct (in_dec Nat.eq_dec x l) as [X|X], (in_dec Nat.eq_dec (f x) (map f l)) as [Y|Y]; cbn; try lia.
  - exfalso. apply Y. now apply in_map.
  - apply in_map_iff in Y as (y & E & Y). apply I in E. congruence.
Qed.
(** Draws are enough exactly if they have c different values. *)
Lemma finished_spec c a b w : a < b -> Forall (fun x => x < b - a) w -> (finished c a b w = true <-> c <= length (nodup Nat.eq_dec w)).
Proof.
  intros LT F. assert (E : map (fun i => a + nth i w 0 mod (b - a)) (seq 0 (length w)) = map (fun x => a + x) w).
  { clear LT. induction F as [|x w X F IH]; [reflexivity|]. cbn [length seq map nth]. f_equal; [now rewrite Nat.mod_small|]. rewrite <- seq_shift, map_map. exact IH. }
  rewrite <- (nodup_map_inj (fun x => a + x)) by (intros; lia). rewrite <- E, <- challenges_return by exact LT. unfold finished, drawn.
  destruct (create_challenges _ c (a, b) _) as [[r|]|] eqn:C; split; try discriminate; eauto; intros (l & Q); discriminate.
Qed.
Lemma pad_set q m l : NoDup l -> Forall (fun x => x < q) l -> length l <= m <= q -> exists s, In s (choose m (seq 0 q)) /\ incl l s.
Proof.
  intros N F LE. destruct (whole q l N F) as (N' & I & LQ). exists (sort_dedup (firstn m (l ++ compl q l))).
  assert (NF : NoDup (firstn m (l ++ compl q l))) by (rewrite <- (firstn_skipn m (l ++ compl q l)) in N'; now apply NoDup_app_l in N').
  destruct (sort_dedup_spec (firstn m (l ++ compl q l))) as (S & J). split.
  - apply choose_In; [apply seq_sorted|]. split; [exact S|]. split.
    + transitivity (length (firstn m (l ++ compl q l))); [|rewrite firstn_length; lia]. apply Nat.le_antisymm; apply NoDup_incl_length; auto using ssorted_lt_NoDup; intros x X; now apply J.
    + intros x X. apply J in X. apply in_seq. assert (x < q); [|lia]. apply I. rewrite <- (firstn_skipn m (l ++ compl q l)). apply in_or_app. now left.
  - intros x X. apply J. rewrite firstn_app, firstn_all2 by lia. apply in_or_app. now left.
Qed.
Lemma unfinished_bound c a b L : a < b -> 0 < c <= b - a ->
  count (fun w => negb (finished c a b w)) (words (b - a) L) <= binom (b - a) (c - 1) * (c - 1) ^ L.
Proof.
  intros LT C. set (q := b - a) in *. set (cover := flat_map (fun s => map (map (fun i => nth i s 0)) (words (c - 1) L)) (choose (c - 1) (seq 0 q))).
  assert (LC : length cover = binom q (c - 1) * (c - 1) ^ L).
  { unfold cover. rewrite <- (seq_length q 0) at 2. rewrite <- choose_length. generalize (choose (c - 1) (seq 0 q)). intros t. induction t as [|s t IH]; [reflexivity|]. cbn [flat_map length]. rewrite app_length, map_length, words_length, IH. lia. }
  rewrite <- LC. unfold count. apply NoDup_incl_length; [apply NoDup_filter, words_NoDup|]. intros w W. apply filter_In in W as (W & NF). apply words_In in W as (WL & WQ).
  assert (SM : length (nodup Nat.eq_dec w) < c).
  { destruct (Nat.lt_ge_cases (length (nodup Nat.eq_dec w)) c) as [X|X]; [exact X|]. apply (finished_spec c a b w LT WQ) in X. rewrite X in NF. discriminate. }
  destruct (pad_set q (c - 1) (nodup Nat.eq_dec w)) as (s & S & I); [apply NoDup_nodup| |lia|].
  { apply Forall_forall. intros x X. apply nodup_In in X. rewrite Forall_forall in WQ. auto. }
  apply in_flat_map. exists s. split; [exact S|]. apply choose_In in S as (S1 & S2 & _); [|apply seq_sorted]. apply in_map_iff. exists (map (fun x => pos x s) w).
  assert (IS : forall x, In x w -> In x s) by (intros x X; apply I; now apply nodup_In). split.
  - rewrite map_map. rewrite <- (map_id w) at 2. apply map_ext_in. intros x X. apply pos_nth. auto.
  - apply words_In. rewrite map_length. split; [exact WL|]. apply Forall_forall. intros y Y. apply in_map_iff in Y as (x & <- & X). rewrite <- S2. apply (pos_nth x s 0). auto.
Qed.
Lemma pow_gap c L : 0 < c -> (c - 1) ^ L * (c - 1 + L) <= c ^ L * (c - 1).
Proof.
  intros C. destruct c as [|c]; [lia|]. replace (S c - 1) with c by lia. clear C. induction L as [|L IH]; [cbn; lia|].
  cbn [Nat.pow]. transitivity (S c * (c ^ L * (c + L))); [|nia]. nia.
Qed.
Lemma unfinished_vanish c a b K : a < b -> c <= b - a -> exists L0, forall L, L0 <= L ->
  K * count (fun w => negb (finished c a b w)) (words (b - a) L) <= length (words (b - a) L).
Proof.
  intros LT C. destruct (Nat.eq_dec c 0) as [->|C0].
  - exists 0. intros L _. replace (count _ _) with 0; [lia|]. symmetry. unfold count. rewrite filter_none; [reflexivity|].
    apply Forall_forall. intros w W. apply words_In in W as (_ & W). rewrite (proj2 (finished_spec 0 a b w LT W)) by lia. reflexivity.
  - exists (K * binom (b - a) (c - 1) * (c - 1) + 1). intros L LL. rewrite words_length.
    transitivity (K * (binom (b - a) (c - 1) * (c - 1) ^ L)); [apply Nat.mul_le_mono_l, unfinished_bound; lia|].
    transitivity (c ^ L); [|apply Nat.pow_le_mono_l; lia]. destruct (Nat.eq_dec c 1) as [->|C1].
    + replace ((1 - 1) ^ L) with 0 by (destruct L; [lia|reflexivity]). lia.
    + pose proof (pow_gap c L ltac:(lia)) as G. apply (Nat.mul_le_mono_pos_r _ _ (c - 1)); [lia|]. etransitivity; [|exact G]. nia.
Qed.

(** * Binomial coefficients *)
Lemma binom_zero n : forall c, n < c -> binom n c = 0.
Proof. induction n as [|n IH]; intros [|c] H; try lia; [reflexivity|]. cbn. rewrite !IH; lia. Qed.
Lemma binom_0 n : binom n 0 = 1.
Proof. now destruct n. Qed.
Lemma binom_pos n : forall c, c <= n -> 0 < binom n c.
Proof. induction n as [|n IH]; intros [|c] H; cbn; try lia. specialize (IH c ltac:(lia)). lia. Qed.
Lemma binom_step n : forall c, (c + 1) * binom n (c + 1) = (n - c) * binom n c.
Proof.
  induction n as [|n IH]; intros c.
  - replace (c + 1) with (S c) by lia. cbn. lia.
  - destruct c as [|c].
    + specialize (IH 0). cbn [binom Nat.add] in *. rewrite !binom_0 in *. lia.
    + replace (S c + 1) with (S (S c)) by lia. pose proof (IH c) as I1. pose proof (IH (S c)) as I2. replace (c + 1) with (S c) in I1 by lia. replace (S c + 1) with (S (S c)) in I2 by lia.
      change (binom (S n) (S (S c))) with (binom n (S c) + binom n (S (S c))). change (binom (S n) (S c)) with (binom n c + binom n (S c)).
      destruct (Nat.le_gt_cases (S c) n) as [LE|GT].
      * replace (S n - S c) with (n - c) by lia. replace (n - S c) with (n - c - 1) in I2 by lia. nia.
      * rewrite (binom_zero n (S c)), (binom_zero n (S (S c))) by lia. replace (S n - S c) with (n - c) by lia. destruct (Nat.eq_dec n c) as [->|]; [rewrite Nat.sub_diag; lia|]. rewrite (binom_zero n c) by lia. lia.
Qed.
Lemma binom_ratio g n : g <= n -> forall c, binom g c * n ^ c <= binom n c * g ^ c.
Proof.
  intros LE. induction c as [|c IH]; [rewrite !binom_0; reflexivity|]. destruct (Nat.le_gt_cases (S c) g) as [C|C]; [|rewrite (binom_zero g) by lia; lia].
  pose proof (binom_step g c) as G. pose proof (binom_step n c) as N. replace (c + 1) with (S c) in * by lia. cbn [Nat.pow].
  apply (Nat.mul_le_mono_pos_l _ _ (S c)); [lia|].
  rewrite (Nat.mul_assoc (S c) (binom g _)), (Nat.mul_assoc (S c) (binom n _)), G, N, (Nat.mul_shuffle1 (g - c)), (Nat.mul_shuffle1 (n - c)).
  apply Nat.mul_le_mono; [nia|exact IH].
Qed.

(** * Shares *)
Lemma accepted_share c n L good (p : list nat -> bool) : StronglySorted lt good -> Forall (fun x => x < n) good ->
  (forall w, p w = true <-> exists s, drawn c 0 n w = Some s /\ incl s good) ->
  count p (words n L) * binom n c = count (finished c 0 n) (words n L) * binom (length good) c.
Proof.
  intros SG FG P. rewrite Forall_forall in FG. set (ws := words n L).
  assert (EQ : forall A B, In A (choose c (seq 0 n)) -> In B (choose c (seq 0 n)) -> count (fun w => is_set A (drawn c 0 n w)) ws = count (fun w => is_set B (drawn c 0 n w)) ws).
  { intros A B IA IB. apply choose_In in IA as (A1 & A2 & A3), IB as (B1 & B2 & B3); try apply seq_sorted. unfold ws. pose proof (count_eq c 0 n L A B) as Q. rewrite Nat.sub_0_r in Q.
    apply Q; auto; try lia; apply Forall_forall; intros x X; [apply A3 in X|apply B3 in X]; apply in_seq in X; lia. }
  assert (SUB : forall A, In A (choose c good) -> In A (choose c (seq 0 n))).
  { intros A IA. apply choose_In in IA as (A1 & A2 & A3); auto. apply choose_In; [apply seq_sorted|]. split; [exact A1|]. split; [exact A2|]. intros x X. apply A3, FG in X. apply in_seq. lia. }
  set (K := count (fun w => is_set (match choose c (seq 0 n) with A :: _ => A | [] => [] end) (drawn c 0 n w)) ws).
  assert (HK : forall A, In A (choose c (seq 0 n)) -> count (fun w => is_set A (drawn c 0 n w)) ws = K).
  { intros A IA. unfold K. destruct (choose c (seq 0 n)) as [|B t] eqn:E; [destruct IA|]. apply EQ; [exact IA|now left]. }
  assert (C1 : count p ws = binom (length good) c * K).
  { rewrite <- choose_length, <- (count_by (drawn c 0 n) ws K) by (auto using choose_NoDup). apply count_ext. intros w _. apply Bool.eq_iff_eq_true. rewrite P, existsb_exists. split.
    - intros (s & D & I). exists s. rewrite is_set_true. split; [|exact D]. apply choose_In; auto. apply drawn_sound in D as (D1 & D2 & _). auto.
    - intros (s & I & D). apply is_set_true in D. apply choose_In in I as (_ & _ & I); eauto. }
  assert (C2 : count (finished c 0 n) ws = binom n c * K).
  { rewrite <- (seq_length n 0) at 2. rewrite <- choose_length, <- (count_by (drawn c 0 n) ws K) by (auto using choose_NoDup, seq_sorted). apply count_ext. intros w _. apply Bool.eq_iff_eq_true. rewrite existsb_exists. unfold finished. split.
    - destruct (drawn c 0 n w) as [s|] eqn:D; [|discriminate]. intros _. exists s. rewrite is_set_true. split; [|reflexivity]. apply drawn_sound in D as (D1 & D2 & D3). apply choose_In; [apply seq_sorted|].
      split; [exact D1|]. split; [exact D2|]. intros x X. rewrite Forall_forall in D3. apply D3 in X. apply in_seq. lia.
    - intros (s & I & D). apply is_set_true in D. now rewrite D. }
  rewrite C1, C2. lia.
Qed.
Lemma set_share c a b L A : a <= b -> StronglySorted lt A -> length A = c -> Forall (fun x => a <= x < b) A ->
  count (fun w => is_set A (drawn c a b w)) (words (b - a) L) * binom (b - a) c = count (finished c a b) (words (b - a) L).
Proof.
  intros AB S LE F. set (ws := words (b - a) L). set (K := count (fun w => is_set A (drawn c a b w)) ws).
  assert (IC : forall B, In B (choose c (seq a (b - a))) <-> StronglySorted lt B /\ length B = c /\ Forall (fun x => a <= x < b) B).
  { intros B. rewrite choose_In by apply seq_sorted. rewrite Forall_forall. split; intros (B1 & B2 & B3); (split; [exact B1|split; [exact B2|]]); intros x X; apply B3 in X; [apply in_seq in X|apply in_seq]; lia. }
  assert (HK : forall B, In B (choose c (seq a (b - a))) -> count (fun w => is_set B (drawn c a b w)) ws = K).
  { intros B I. apply IC in I as (B1 & B2 & B3). apply count_eq; auto. lia. }
  rewrite Nat.mul_comm. rewrite <- (seq_length (b - a) a) at 1. rewrite <- choose_length, <- (count_by (drawn c a b) ws K) by (auto using choose_NoDup, seq_sorted). apply count_ext. intros w _. apply Bool.eq_iff_eq_true. rewrite existsb_exists. unfold finished. split.
  - intros (s & I & D). apply is_set_true in D. now rewrite D.
  - destruct (drawn c a b w) as [s|] eqn:D; [|discriminate]. intros _. exists s. rewrite is_set_true. split; [|reflexivity]. apply IC. now apply drawn_sound in D.
Qed.
Lemma finished_plus c a b L : count (finished c a b) (words (b - a) L) + count (fun w => negb (finished c a b w)) (words (b - a) L) = length (words (b - a) L).
Proof. unfold count. induction (words (b - a) L) as [|w l IH]; [reflexivity|]. cbn. destruct (finished c a b w); cbn; lia. Qed.
