(** Modular arithmetic on lists of machine integers (base 2^30), used only to check
    primality certificates quickly.  The reduction step is correct (as a congruence)
    for any quotient estimate, so the estimate needs no proof. *)
From Verif Require Import Base.
From Coq Require Import Uint63 Lia.
Import ListNotations.
Local Open Scope Z_scope.

Notation limb := Uint63.int.
Definition BB : Z := 1073741824.
Definition bb : limb := 1073741824%uint63.
Notation "'ph' x" := (Uint63.to_Z x) (at level 9).

Lemma ph_bb : ph bb = BB. Proof. reflexivity. Qed.
Lemma wB_val : wB = 9223372036854775808. Proof. reflexivity. Qed.
Definition small (x : limb) : Prop := ph x < BB.
Notation wf := (Forall small).

Fixpoint val (l : list limb) : Z := match l with [] => 0 | x :: t => ph x + BB * val t end.
Lemma val_nonneg l : 0 <= val l.
Proof. induction l as [|x l IH]; cbn [val]; [lia|]. pose proof (to_Z_bounded x). unfold BB. lia. Qed.

(** Splitting a number below 2^60 + 2^31 into digit and carry. *)
Lemma split_spec t : ph (t mod bb) + BB * ph (t / bb) = ph t /\ small (t mod bb)%uint63 /\ ph (t / bb) = ph t / BB.
Proof.
  rewrite mod_spec, div_spec, ph_bb. pose proof (to_Z_bounded t). unfold small. rewrite mod_spec, ph_bb.
  pose proof (Z.mod_pos_bound (ph t) BB ltac:(reflexivity)). pose proof (Z.div_mod (ph t) BB ltac:(discriminate)). lia.
Qed.
Lemma to_Z_1 : ph 1 = 1. Proof. reflexivity. Qed.
Lemma to_Z_0' : ph 0 = 0. Proof. reflexivity. Qed.

(** acc + a * l + c, digit by digit. *)
Fixpoint addc (acc : list limb) (c : limb) : list limb :=
  match acc with
  | [] => [c]
  | y :: acc' => let t := (y + c)%uint63 in (t mod bb)%uint63 :: addc acc' (t / bb)%uint63
  end.
Fixpoint addmul1 (a : limb) (l acc : list limb) (c : limb) : list limb :=
  match l, acc with
  | [], _ => addc acc c
  | x :: l', [] => let t := (a * x + c)%uint63 in (t mod bb)%uint63 :: addmul1 a l' [] (t / bb)%uint63
  | x :: l', y :: acc' => let t := (a * x + y + c)%uint63 in (t mod bb)%uint63 :: addmul1 a l' acc' (t / bb)%uint63
  end.

Lemma add_ph x y : ph x + ph y < wB -> ph (x + y) = ph x + ph y.
Proof. intros L. rewrite add_spec. apply Z.mod_small. pose proof (to_Z_bounded x). pose proof (to_Z_bounded y). lia. Qed.
Lemma mul_ph x y : ph x * ph y < wB -> ph (x * y) = ph x * ph y.
Proof. intros L. rewrite mul_spec. apply Z.mod_small. pose proof (to_Z_bounded x). pose proof (to_Z_bounded y). nia. Qed.
Lemma mul_small x y : small x -> small y -> ph (x * y) = ph x * ph y /\ 0 <= ph x * ph y <= (BB - 1) * (BB - 1).
Proof.
  unfold small. intros X Y. pose proof (to_Z_bounded x). pose proof (to_Z_bounded y).
  assert (0 <= ph x * ph y <= (BB - 1) * (BB - 1)) by nia. split; [|exact H1]. apply mul_ph. rewrite wB_val. unfold BB in *. lia.
Qed.

Lemma addc_spec acc c : wf acc -> small c -> val (addc acc c) = val acc + ph c /\ wf (addc acc c).
Proof.
  intros R. revert c. induction R as [|y acc Y R IHa]; intros c C; cbn [addc val].
  - split; [lia|]. repeat constructor; assumption.
  - destruct (split_spec (y + c)) as (S1 & S2 & S3). pose proof (to_Z_bounded y). pose proof (to_Z_bounded c).
    unfold small in *. assert (T : ph (y + c) = ph y + ph c) by (apply add_ph; rewrite wB_val; unfold BB in *; lia).
    assert (C' : ph ((y + c) / bb) < BB).
    { rewrite S3, T. apply Z.div_lt_upper_bound; unfold BB in *; lia. }
    destruct (IHa ((y + c) / bb)%uint63 C') as (V & W). split; [|constructor; assumption].
    rewrite V. lia.
Qed.
Lemma addmul1_spec a l acc c : small a -> wf l -> wf acc -> small c ->
  val (addmul1 a l acc c) = val acc + ph a * val l + ph c /\ wf (addmul1 a l acc c).
Proof.
  intros A L. revert acc c. induction L as [|x l X L IH]; intros acc; [|destruct acc as [|y acc]];
    intros c R C; cbn [addmul1 val].
  - destruct (addc_spec acc c R C) as (V & W). split; [rewrite V; lia|exact W].
  - inversion R; subst. destruct (mul_small a x A X) as (M & MB). destruct (split_spec (a * x + c)) as (S1 & S2 & S3).
    pose proof (to_Z_bounded c). unfold small in *.
    assert (T : ph (a * x + c) = ph a * ph x + ph c) by (rewrite add_ph; rewrite M; [lia|rewrite wB_val; unfold BB in *; lia]).
    assert (C' : ph ((a * x + c) / bb) < BB).
    { rewrite S3, T. apply Z.div_lt_upper_bound; unfold BB in *; lia. }
    destruct (IH [] ((a * x + c) / bb)%uint63 (Forall_nil _) C') as (V & W). split; [|constructor; assumption].
    rewrite V. cbn [val]. nia.
  - inversion R as [|? ? Y R']; subst. destruct (mul_small a x A X) as (M & MB). destruct (split_spec (a * x + y + c)) as (S1 & S2 & S3).
    pose proof (to_Z_bounded c). pose proof (to_Z_bounded y). unfold small in *.
    assert (T1 : ph (a * x + y) = ph a * ph x + ph y) by (rewrite add_ph; rewrite M; [lia|rewrite wB_val; unfold BB in *; lia]).
    assert (T : ph (a * x + y + c) = ph a * ph x + ph y + ph c) by (rewrite add_ph; rewrite T1; [lia|rewrite wB_val; unfold BB in *; lia]).
    assert (C' : ph ((a * x + y + c) / bb) < BB).
    { rewrite S3, T. apply Z.div_lt_upper_bound; unfold BB in *; lia. }
    destruct (IH acc ((a * x + y + c) / bb)%uint63 R' C') as (V & W). split; [|constructor; assumption].
    rewrite V. cbn [val]. nia.
Qed.

Fixpoint mulL (l m : list limb) : list limb :=
  match l with [] => [] | x :: l' => addmul1 x m (0%uint63 :: mulL l' m) 0%uint63 end.
Lemma small_0 : small 0%uint63. Proof. reflexivity. Qed.
Lemma small_1 : small 1%uint63. Proof. reflexivity. Qed.
Lemma mulL_spec l m : wf l -> wf m -> val (mulL l m) = val l * val m /\ wf (mulL l m).
Proof.
  intros L M. induction L as [|x l X L (V & W)]; cbn [mulL val]; [split; [reflexivity|constructor]|].
  destruct (addmul1_spec x m (0%uint63 :: mulL l m) 0%uint63 X M (Forall_cons _ small_0 W) small_0) as (V' & W').
  split; [|exact W']. rewrite V'. cbn [val]. rewrite V, to_Z_0'. ring.
Qed.
Definition addL (l m : list limb) : list limb := addmul1 1%uint63 l m 0%uint63.
Lemma addL_spec l m : wf l -> wf m -> val (addL l m) = val l + val m /\ wf (addL l m).
Proof.
  intros L M. destruct (addmul1_spec 1%uint63 l m 0%uint63 small_1 L M small_0) as (V & W). split; [|exact W].
  unfold addL. rewrite V, to_Z_0', to_Z_1. ring.
Qed.

(** l - m - b with borrow out; [m] is implicitly extended by zeros.  [None] if the
    result would be negative. *)
Fixpoint subL (l m : list limb) (b : limb) : option (list limb) :=
  match l, m with
  | [], [] => if (b =? 0)%uint63 then Some [] else None
  | [], _ :: _ => None
  | x :: l', [] => let t := (x + bb - b)%uint63 in
      match subL l' [] (1 - t / bb)%uint63 with Some r => Some ((t mod bb)%uint63 :: r) | None => None end
  | x :: l', y :: m' => let t := (x + bb - b - y)%uint63 in
      match subL l' m' (1 - t / bb)%uint63 with Some r => Some ((t mod bb)%uint63 :: r) | None => None end
  end.
Lemma sub_ph x y : ph y <= ph x -> ph (x - y) = ph x - ph y.
Proof. intros L. rewrite sub_spec. apply Z.mod_small. pose proof (to_Z_bounded x). pose proof (to_Z_bounded y). lia. Qed.
Lemma subL_spec l m b r : wf l -> wf m -> ph b <= 1 -> subL l m b = Some r -> val r = val l - val m - ph b /\ wf r.
Proof.
  intros L. revert m b r. induction L as [|x l X L IH]; intros m b r M B; cbn [subL].
  - destruct m; [|discriminate]. destruct (b =? 0)%uint63 eqn:E; [|discriminate]. intros [= <-]. apply eqb_spec in E. subst b.
    split; [reflexivity|constructor].
  - assert (TB : forall y, small y -> ph (x + bb - b - y) = ph x + BB - ph b - ph y).
    { intros y Y. unfold small in *. pose proof (to_Z_bounded x). pose proof (to_Z_bounded y). pose proof (to_Z_bounded b).
      assert (E1 : ph (x + bb) = ph x + BB) by (apply add_ph; rewrite ph_bb, wB_val; unfold BB in *; lia).
      assert (E2 : ph (x + bb - b) = ph x + BB - ph b) by (rewrite sub_ph; rewrite E1; unfold BB in *; lia).
      rewrite sub_ph; rewrite E2; unfold BB in *; lia. }
    assert (G : forall t m' y, small y -> wf m' -> ph t = ph x + BB - ph b - ph y ->
      match subL l m' (1 - t / bb)%uint63 with Some r0 => Some ((t mod bb)%uint63 :: r0) | None => None end = Some r ->
      val r = ph x + BB * val l - (ph y + BB * val m') - ph b /\ wf r).
    { intros t m' y Y M' T. destruct (split_spec t) as (S1 & S2 & S3). unfold small in *.
      pose proof (to_Z_bounded x). pose proof (to_Z_bounded y). pose proof (to_Z_bounded b).
      assert (D : 0 <= ph (t / bb) <= 1).
      { rewrite S3, T. split; [apply Z.div_pos; unfold BB in *; lia|]. apply Z.lt_succ_r, Z.div_lt_upper_bound; unfold BB in *; lia. }
      assert (E : ph (1 - t / bb) = 1 - ph (t / bb)) by (rewrite sub_ph; rewrite to_Z_1; lia).
      destruct (subL l m' (1 - t / bb)%uint63) as [r0|] eqn:R; [|discriminate]. intros [= <-].
      apply IH in R as (V & W); [|exact M'|lia]. split; [|constructor; assumption].
      cbn [val]. rewrite V, E. lia. }
    destruct M as [|y m' Y M'].
    + assert (T0 : ph (x + bb - b) = ph x + BB - ph b - ph 0).
      { rewrite <- TB by exact small_0. f_equal. apply to_Z_inj. rewrite (sub_ph _ 0%uint63); rewrite to_Z_0'; [ring|apply to_Z_bounded]. }
      intros R. apply (G _ [] 0%uint63 small_0 (Forall_nil _) T0) in R as (R1 & R2). split; [|exact R2].
      cbn [val] in *. rewrite R1, to_Z_0'. ring.
    + intros R. apply (G _ m' y Y M') in R; [exact R|]. apply TB, Y.
Qed.

(** Removing high zero digits. *)
Fixpoint trim (l : list limb) : list limb :=
  match l with
  | [] => []
  | x :: t => match trim t with [] => if (x =? 0)%uint63 then [] else [x] | t' => x :: t' end
  end.
Lemma trim_spec l : wf l -> val (trim l) = val l /\ wf (trim l).
Proof.
  induction 1 as [|x l X L (V & W)]; cbn [trim val]; [split; [reflexivity|constructor]|].
  destruct (trim l) as [|y t].
  - destruct (x =? 0)%uint63 eqn:E.
    + apply eqb_spec in E. subst x. split; [|constructor]. rewrite <- V. reflexivity.
    + split; [rewrite <- V; reflexivity|]. repeat constructor; assumption.
  - split; [rewrite <- V; reflexivity|]. constructor; assumption.
Qed.

Lemma wf_skipn k l : wf l -> wf (skipn k l).
Proof. intros L. revert k. induction L; intros [|k]; cbn [skipn]; auto. Qed.

(** Reduction modulo N, congruence only. *)
Record modulus := { m_N : list limb; m_mu : list limb; m_k : nat }.
Definition csub (x n : list limb) : list limb := match subL x n 0%uint63 with Some r => r | None => x end.
Definition reduce (M : modulus) (x : list limb) : list limb :=
  let q := skipn (S (m_k M)) (mulL (skipn (m_k M - 1) x) (m_mu M)) in
  match subL x (trim (mulL q (m_N M))) 0%uint63 with
  | Some r => let r1 := trim r in let r2 := trim (csub r1 (m_N M)) in trim (csub r2 (m_N M))
  | None => trim x
  end.
Definition cong (n a b : Z) : Prop := (n | a - b).
Lemma cong_refl n a : cong n a a. Proof. unfold cong. rewrite Z.sub_diag. apply Z.divide_0_r. Qed.
Lemma cong_sym n a b : cong n a b -> cong n b a.
Proof. intros [k E]. exists (- k). lia. Qed.
Lemma cong_trans n a b c : cong n a b -> cong n b c -> cong n a c.
Proof. intros [k E] [j F]. exists (k + j). lia. Qed.
Lemma cong_mul n a b c d : cong n a b -> cong n c d -> cong n (a * c) (b * d).
Proof. intros [k E] [j F]. exists (k * c + b * j). replace a with (b + k * n) by lia. replace c with (d + j * n) by lia. ring. Qed.
Lemma cong_add n a b c d : cong n a b -> cong n c d -> cong n (a + c) (b + d).
Proof. intros [k E] [j F]. exists (k + j). lia. Qed.
Lemma csub_spec x n : wf x -> wf n -> cong (val n) (val (csub x n)) (val x) /\ wf (csub x n).
Proof.
  intros X N. unfold csub. destruct (subL x n 0%uint63) as [r|] eqn:E; [|split; [apply cong_refl|exact X]].
  apply subL_spec in E as (V & W); [|assumption|assumption|discriminate]. split; [|exact W]. exists (-1). rewrite V, to_Z_0'. ring.
Qed.
Lemma reduce_spec M x : wf (m_N M) -> wf (m_mu M) -> wf x ->
  cong (val (m_N M)) (val (reduce M x)) (val x) /\ wf (reduce M x).
Proof.
  intros N MU X. unfold reduce. set (q := skipn _ _).
  assert (Q : wf q) by (apply wf_skipn; apply mulL_spec; [now apply wf_skipn|exact MU]). clearbody q.
  destruct (mulL_spec q (m_N M) Q N) as (QV & QW). destruct (trim_spec _ QW) as (TV & TW).
  destruct (subL x (trim (mulL q (m_N M))) 0%uint63) as [r|] eqn:E.
  - apply subL_spec in E as (V & W); [|assumption|assumption|discriminate].
    destruct (trim_spec _ W) as (V1 & W1). destruct (csub_spec _ _ W1 N) as (C2 & W2). destruct (trim_spec _ W2) as (V3 & W3).
    destruct (csub_spec _ _ W3 N) as (C4 & W4). destruct (trim_spec _ W4) as (V5 & W5). split; [|exact W5].
    rewrite V5. apply cong_trans with (1 := C4). rewrite V3. apply cong_trans with (1 := C2). rewrite V1.
    exists (- val q). rewrite V, TV, QV, to_Z_0'. ring.
  - destruct (trim_spec _ X) as (V & W). split; [rewrite V; apply cong_refl|exact W].
Qed.

(** Conversion from Z. *)
Fixpoint ofZ (fuel : nat) (z : Z) : list limb :=
  match fuel with
  | O => []
  | S k => if z =? 0 then [] else Uint63.of_Z (z mod BB) :: ofZ k (z / BB)
  end.
Lemma ofZ_wf fuel z : wf (ofZ fuel z).
Proof.
  revert z. induction fuel as [|k IH]; intros z; cbn [ofZ]; [constructor|]. destruct (z =? 0); constructor; auto.
  unfold small. rewrite of_Z_spec. pose proof (Z.mod_pos_bound z BB ltac:(reflexivity)).
  rewrite Z.mod_small; [lia|]. rewrite wB_val. unfold BB in *. lia.
Qed.
(** A modulus for the integer n; the digits are compared with n, so no fuel lemma
    is needed. *)
Definition mk_modulus (n : Z) : modulus :=
  let k := Z.to_nat (Z.log2 n / 30 + 1) in
  {| m_N := ofZ k n; m_mu := ofZ (S k) (2 ^ (60 * Z.of_nat k) / n); m_k := k |}.
Definition good (M : modulus) (n : Z) : bool := val (m_N M) =? n.
Lemma good_wf n : wf (m_N (mk_modulus n)) /\ wf (m_mu (mk_modulus n)).
Proof. split; apply ofZ_wf. Qed.

Section Mod.
Context (n : Z) (M : modulus) (MN : wf (m_N M)) (MM : wf (m_mu M)) (VN : val (m_N M) = n).
Definition mulM (x y : list limb) : list limb := reduce M (mulL x y).
Definition addM (x y : list limb) : list limb := trim (csub (addL x y) (m_N M)).
Lemma mulM_spec x y : wf x -> wf y -> cong n (val (mulM x y)) (val x * val y) /\ wf (mulM x y).
Proof.
  intros X Y. destruct (mulL_spec x y X Y) as (V & W). destruct (reduce_spec M _ MN MM W) as (C & R).
  unfold mulM. rewrite VN, V in C. auto.
Qed.
Lemma addM_spec x y : wf x -> wf y -> cong n (val (addM x y)) (val x + val y) /\ wf (addM x y).
Proof.
  intros X Y. destruct (addL_spec x y X Y) as (V & W). destruct (csub_spec _ _ W MN) as (C & R). rewrite VN, V in C.
  destruct (trim_spec _ R) as (TV & TW). unfold addM. rewrite TV. auto.
Qed.
Fixpoint powM (x : list limb) (e : positive) : list limb :=
  match e with
  | xH => x
  | xO p => let y := powM x p in mulM y y
  | xI p => let y := powM x p in mulM (mulM y y) x
  end.
Lemma powM_spec x e : wf x -> cong n (val (powM x e)) (val x ^ Zpos e) /\ wf (powM x e).
Proof.
  intros X. induction e as [p (C & W)|p (C & W)|]; cbn [powM].
  - destruct (mulM_spec _ _ W W) as (C1 & W1). destruct (mulM_spec _ _ W1 X) as (C2 & W2). split; [|exact W2].
    apply cong_trans with (1 := C2). replace (Z.pos p~1) with (Z.pos p + Z.pos p + 1) by lia.
    rewrite !Z.pow_add_r, Z.pow_1_r by lia. apply cong_mul; [|apply cong_refl]. apply cong_trans with (1 := C1). now apply cong_mul.
  - destruct (mulM_spec _ _ W W) as (C1 & W1). split; [|exact W1].
    apply cong_trans with (1 := C1). replace (Z.pos p~0) with (Z.pos p + Z.pos p) by lia.
    rewrite !Z.pow_add_r by lia. now apply cong_mul.
  - split; [rewrite Z.pow_1_r; apply cong_refl|exact X].
Qed.

(** Z[sqrt d] modulo n: pairs of digit lists, [d] a digit list. *)
Definition mul2 (d : list limb) (u v : list limb * list limb) : list limb * list limb :=
  match u, v with
  | (a, b), (c, e) => (addM (mulM a c) (mulM d (mulM b e)), addM (mulM a e) (mulM b c))
  end.
Definition sq2 (d : list limb) (u : list limb * list limb) : list limb * list limb :=
  match u with
  | (a, b) => let ab := mulM a b in (addM (mulM a a) (mulM d (mulM b b)), addM ab ab)
  end.
Fixpoint pow2 (d : list limb) (x : list limb * list limb) (e : positive) : list limb * list limb :=
  match e with
  | xH => x
  | xO p => sq2 d (pow2 d x p)
  | xI p => mul2 d (sq2 d (pow2 d x p)) x
  end.
End Mod.

(** a^e mod n, for e > 0. *)
Definition fast_pow (a e n : Z) : option Z :=
  let M := mk_modulus n in
  match e with
  | Zpos p => if good M n then let x := ofZ (m_k M) a in if val x =? a then Some (val (powM M x p)) else None else None
  | _ => None
  end.
Theorem fast_pow_ok a e n r : fast_pow a e n = Some r -> 0 < e /\ cong n r (a ^ e).
Proof.
  unfold fast_pow. destruct e as [|p|p]; [discriminate| |discriminate]. destruct (good _ _) eqn:G; [|discriminate].
  destruct (_ =? a) eqn:A; [|discriminate]. intros [= <-]. apply Z.eqb_eq in G, A. split; [lia|].
  destruct (good_wf n) as (W1 & W2). rewrite <- A at 2. now apply powM_spec; [| | |apply ofZ_wf].
Qed.

Definition val2 (u : list limb * list limb) : Z * Z := (val (fst u), val (snd u)).
Definition wf2 (u : list limb * list limb) : Prop := wf (fst u) /\ wf (snd u).
