(** The equality circuit: what a satisfying assignment says, and which ones exist. *)
From Verif Require Import Base Field Mimc R1cs Circuits MimcFacts R1csFacts DfCircuitFacts PowCircuitFacts.

Section Equal.
Context {K : ops} (HK : is_ring K).
Add Ring kring : (HK : ring_theory f0 f1 fadd fmul fsub fopp (@eq K)).

(** A round with the two tests replaced by flags. *)
Definition equal_core (x1 x2 : option K) (fl : bool * bool) (bit_in : option Z) (st : var * option K * var * option K) : M K (var * option K * var * option K) :=
  let '(two, two_val, x, x_val) := st in
  let bit_val := u8_bit bit_in in
  let# bit := new_witness bit_val in
  let# _ := enforce [(f1, bit)] [(f1, bit)] [(f1, bit)] in
  let# tmp1_val := lift (omap bit_val (fun e => let* t := unwrap two_val in Ok (fmul e t))) in
  let# tmp1 := new_witness tmp1_val in
  let# _ := enforce [(f1, bit)] [(f1, two)] [(f1, tmp1)] in
  let# tmp2_val := lift (omap tmp1_val (fun e => let* x := unwrap x_val in Ok (fadd e x))) in
  let# tmp2 := new_witness tmp2_val in
  let# _ := enforce [(f1, tmp1); (f1, x)] [(f1, One)] [(f1, tmp2)] in
  let# _ := (if fst fl then expose tmp2 x1 else ret tt) in
  let# _ := (if snd fl then expose tmp2 x2 else ret tt) in
  let# newtwo_val := lift (omap two_val (fun e => Ok (fmul e (fadd f1 f1)))) in
  let# newtwo := new_witness newtwo_val in
  let# _ := enforce [(f1, two)] [(fadd f1 f1, One)] [(f1, newtwo)] in
  ret (newtwo, newtwo_val, tmp2, tmp2_val).
Lemma equal_round_core pr x1 x2 d d' b i st s : usz pr (d - 1) = Ok d' ->
  equal_round pr x1 x2 d b i st s = equal_core x1 x2 ((Z.of_nat i =? d')%Z, i =? EQUAL_INPUT_SIZE - 1) b st s.
Proof.
  intros U. unfold equal_round, equal_core. destruct st as [[[two tv] x] xv]. rewrite U. cbn [fst snd]. reflexivity.
Qed.

(** The state is (two, x): x + bit * two, and two doubles. *)
Definition dec_step (st : K * K) (bit : K) : K * K := (fmul (fst st) (fadd f1 f1), fadd (fmul bit (fst st)) (snd st)).
Definition dec_steps (bits : list K) (st : K * K) : K * K := fold_left dec_step bits st.
Definition outs1 (fl : bool * bool) (x1 x2 : K) : list K := (if fst fl then [x1] else []) ++ (if snd fl then [x2] else []).
(** The public values given by the caller, and those the constraints demand. *)
Definition given (fls : list (bool * bool)) (x1 x2 : K) : list K := concat (map (fun fl => outs1 fl x1 x2) fls).
Fixpoint demanded (fls : list (bool * bool)) (bits : list K) (st : K * K) : list K :=
  match fls, bits with
  | fl :: fls', bit :: bits' => let st' := dec_step st bit in outs1 fl (snd st') (snd st') ++ demanded fls' bits' st'
  | _, _ => []
  end.

Lemma equal_core_spec fl ni nw two x : in_scope ni nw two -> in_scope ni nw x -> exists new : list (r1c K),
  let ke := length (outs1 fl (f0 : K) f0) in
  scoped (ni + ke) (nw + 4) new /\ length new = 4 + ke /\
  (forall s b tv xv x1v x2v bit t0 x0 x1 x2, n_inst s = ni -> n_wit s = nw -> valued s (u8_bit b) bit -> usable s tv t0 -> usable s xv x0 -> usable s x1v x1 -> usable s x2v x2 ->
     exists vt vx ws, length ws = 4 /\
       equal_core x1v x2v fl b (two, tv, x, xv) s = Ok ((Wit (nw + 3), vt, Wit (nw + 2), vx), ext s (outs1 fl x1 x2) ws new) /\
       usable s vt (fst (dec_step (t0, x0) bit)) /\ usable s vx (snd (dec_step (t0, x0) bit)) /\
       forall a, a One = f1 -> insts a ni (outs1 fl (snd (dec_step (t0, x0) bit)) (snd (dec_step (t0, x0) bit))) -> wits a nw ws -> is_bit bit -> a two = t0 -> a x = x0 ->
         sat a new /\ a (Wit nw) = bit /\ (a (Wit (nw + 3)), a (Wit (nw + 2))) = dec_step (t0, x0) bit) /\
  (forall a, a One = f1 -> sat a new -> is_bit (a (Wit nw)) /\ (a (Wit (nw + 3)), a (Wit (nw + 2))) = dec_step (a two, a x) (a (Wit nw)) /\
     insts a ni (outs1 fl (a (Wit (nw + 2))) (a (Wit (nw + 2))))).
Proof.
  intros ST SX. set (ke := length (outs1 fl (f0 : K) f0)).
  set (pub := (if fst fl then [([(f1, Wit (nw + 2))], [(f1, One)], [(f1, Inst ni)])] else []) ++
              (if snd fl then [([(f1, Wit (nw + 2))], [(f1, One)], [(f1, Inst (ni + if fst fl then 1 else 0))])] else []) : list (r1c K)).
  exists ([([(f1, Wit nw)], [(f1, Wit nw)], [(f1, Wit nw)]); ([(f1, Wit nw)], [(f1, two)], [(f1, Wit (nw + 1))]);
          ([(f1, Wit (nw + 1)); (f1, x)], [(f1, One)], [(f1, Wit (nw + 2))])] ++ pub ++ [([(f1, two)], [(fadd f1 f1, One)], [(f1, Wit (nw + 3))])]).
  assert (LK : forall p q : K, length (outs1 fl p q) = ke) by (intros; unfold ke, outs1; destruct fl as [[] []]; reflexivity).
  assert (KE : ke = (if fst fl then 1 else 0) + (if snd fl then 1 else 0)) by (unfold ke, outs1; destruct fl as [[] []]; reflexivity).
  cbn zeta. split; [|split; [|split]].
  - unfold pub. apply scoped_app; [scope|]. apply scoped_app; [|scope]. destruct fl as [[] []]; cbn [fst snd app] in *; scope.
  - rewrite !app_length. unfold pub. destruct fl as [[] []]; cbn [fst snd app length] in *; lia.
  - intros s b tv xv x1v x2v bit t0 x0 x1 x2 <- <- VB UT UX U1 U2. unfold valued in VB. set (t1 := fmul bit t0). set (t2 := fadd t1 x0). set (nt := fmul t0 (fadd f1 f1)).
    set (vt := match tv with Some e => Some (fmul e (fadd f1 f1)) | None => None end).
    assert (VT : omap tv (fun e : K => Ok (fmul e (fadd f1 f1))) = Ok vt) by (unfold vt; destruct tv; reflexivity).
    assert (UV : usable s vt nt) by (intros SU; unfold vt; now rewrite (UT SU)).
    exists vt, (if setup s then None else Some t2), [bit; t1; t2; nt]. split; [reflexivity|]. split; [|split; [|split]].
    + unfold equal_core, bindM, lift. rewrite VT. clearbody vt. destruct (setup s) eqn:SU.
      * rewrite VB. cbn [omap bind unwrap]. wit bit. enf. wit t1. enf. wit t2. enf.
        destruct fl as [[] []]; unfold expose, bindM, ret; cbn [fst snd bind]; [inp x1; enf; inp x2; enf|inp x1; enf|inp x2; enf|]; wit nt; enf; unfold pub, outs1; cbn [fst snd app length]; rewrite ?Nat.add_0_r, <- ?Nat.add_assoc; cbn [Nat.add]; reflexivity.
      * rewrite VB, (UT SU), (UX SU). cbn [omap bind unwrap]. wit bit. enf. wit t1. enf. wit t2. enf.
        destruct fl as [[] []]; unfold expose, bindM, ret; cbn [fst snd bind]; [inp x1; enf; inp x2; enf|inp x1; enf|inp x2; enf|]; wit nt; enf; unfold pub, outs1; cbn [fst snd app length]; rewrite ?Nat.add_0_r, <- ?Nat.add_assoc; cbn [Nat.add]; reflexivity.
    + exact UV.
    + intros SU. now rewrite SU.
    + intros a A1 AI AW IB AT AX. unfold is_bit in IB. set (w := n_wit s) in *. change (snd (dec_step (t0, x0) bit)) with t2 in AI.
      assert (PU : a (Wit (w + 2)) = t2 -> sat a pub).
      { intros W2. unfold pub. apply sat_app. split.
        - destruct (fst fl) eqn:FF; goaleqs. unfold outs1 in AI. rewrite FF in AI. cbn [app] in AI. vals. rewrite W2, A1. match goal with H : a (Inst _) = _ |- _ => rewrite H end. ring.
        - destruct (snd fl) eqn:FS; goaleqs. unfold outs1 in AI. rewrite FS in AI. apply insts_app in AI. destruct AI as [_ AI]. vals. rewrite W2, A1.
          replace (length (if fst fl then [t2] else [])) with (if fst fl then 1 else 0) in * by (destruct (fst fl); reflexivity). match goal with H : a (Inst _) = _ |- _ => rewrite H end. ring. }
      vals. replace (w + 1) with (S w) by lia. replace (w + 2) with (S (S w)) in * by lia. replace (w + 3) with (S (S (S w))) by lia. split; [|split].
      * cbn [app]. apply sat_cons. split; [|apply sat_cons; split; [|apply sat_cons; split; [|apply sat_app; split; [now apply PU|]]]]; goaleqs; rewrite ?A1, ?AT, ?AX; repeat match goal with H : a (Wit _) = _ |- _ => rewrite H; clear H end; unfold nt, t2, t1; try ring. transitivity (fmul bit bit); [ring|]. rewrite IB. ring.
      * assumption.
      * unfold dec_step. cbn [fst snd]. fold t1 t2 nt. congruence.
  - intros a A1 S. cbn [app] in S. apply sat_cons in S. destruct S as [C1 S]. apply sat_cons in S. destruct S as [C2 S]. apply sat_cons in S. destruct S as [C3 S]. apply sat_app in S. destruct S as [SP S]. eqs. rewrite ?(sum1 HK), ?A1 in *.
    split; [exact C1|]. split.
    + unfold dec_step. cbn [fst snd]. rewrite <- H, <- C3, <- C2. f_equal; ring.
    + unfold outs1. apply insts_app. unfold pub in SP. apply sat_app in SP. destruct SP as [SP1 SP2]. split.
      * destruct (fst fl); [|apply insts_nil]. eqs. rewrite ?(sum1 HK), ?A1 in *. apply insts_cons. split; [|apply insts_nil]. symmetry. etransitivity; [|eassumption]. ring.
      * replace (length (if fst fl then [a (Wit (nw + 2))] else [])) with (if fst fl then 1 else 0) by (destruct (fst fl); reflexivity).
        destruct (snd fl); [|apply insts_nil]. clear SP1. eqs. rewrite ?(sum1 HK), ?A1 in *. apply insts_cons. split; [|apply insts_nil]. symmetry. etransitivity; [|eassumption]. ring.
Qed.

Lemma equal_loop : forall fls ni nw two x, in_scope ni nw two -> in_scope ni nw x -> exists new : list (r1c K),
  let ke := length (given fls (f0 : K) f0) in let N := length fls in
  scoped (ni + ke) (nw + 4 * N) new /\ length new = 4 * N + ke /\
  (forall s bs tv xv x1v x2v bits t0 x0 x1 x2, n_inst s = ni -> n_wit s = nw -> length bs = N -> Forall2 (fun b bit => valued s (u8_bit b) bit) bs bits ->
     usable s tv t0 -> usable s xv x0 -> usable s x1v x1 -> usable s x2v x2 ->
     exists st ws, length ws = 4 * N /\
       forM (fun st fb => equal_core x1v x2v (fst fb) (snd fb) st) (combine fls bs) (two, tv, x, xv) s = Ok (st, ext s (given fls x1 x2) ws new) /\
       forall a, a One = f1 -> insts a ni (demanded fls bits (t0, x0)) -> wits a nw ws -> Forall is_bit bits -> a two = t0 -> a x = x0 ->
         sat a new /\ bit_wires a nw 4 N = bits) /\
  (forall a, a One = f1 -> sat a new -> Forall is_bit (bit_wires a nw 4 N) /\ insts a ni (demanded fls (bit_wires a nw 4 N) (a two, a x))).
Proof.
  induction fls as [|fl fls IH]; intros ni nw two x ST SX.
  - exists []. cbn zeta. cbn [given demanded length map concat]. rewrite Nat.mul_0_r, !Nat.add_0_r. split; [constructor|]. split; [reflexivity|]. split.
    + intros s bs tv xv x1v x2v bits t0 x0 x1 x2 _ _ L F _ _ _ _. destruct bs; [|discriminate]. inversion F; subst. eexists. exists []. split; [reflexivity|]. split; [cbn [combine forM]; rewrite ext_nil; reflexivity|].
      intros a _ _ _ _ _ _. split; [apply sat_nil|reflexivity].
    + intros a _ _. split; [constructor|apply insts_nil].
  - destruct (equal_core_spec fl ni nw two x ST SX) as (n1 & S1 & L1 & R1 & D1). cbn zeta in *. set (k1 := length (outs1 fl (f0 : K) f0)) in *.
    assert (K1 : forall p q : K, length (outs1 fl p q) = k1) by (intros; unfold k1, outs1; destruct fl as [[] []]; reflexivity).
    destruct (IH (ni + k1) (nw + 4) (Wit (nw + 3)) (Wit (nw + 2))) as (n2 & S2 & L2 & R2 & D2); [cbn; lia|cbn; lia|]. cbn zeta in *.
    exists (n1 ++ n2). cbn [given map concat length]. fold (given fls (f0 : K) f0). rewrite app_length, K1. set (k2 := length (given fls (f0 : K) f0)) in *. set (N := length fls) in *.
    replace (nw + 4 * S N) with (nw + 4 + 4 * N) by lia. rewrite Nat.add_assoc.
    split; [apply scoped_app; [eapply scoped_mono; [| |exact S1]; lia|exact S2]|]. split; [rewrite app_length; lia|]. split.
    + intros s bs tv xv x1v x2v bits t0 x0 x1 x2 NI NW L F UT UX U1 U2. destruct bs as [|b bs]; [discriminate|]. inversion F as [|b' bit bs' bits' VB F']; subst.
      destruct (R1 s b tv xv x1v x2v bit t0 x0 x1 x2 eq_refl eq_refl VB UT UX U1 U2) as (vt & vx & w1 & LW1 & E1 & UT1 & UX1 & C1).
      destruct (R2 (ext s (outs1 fl x1 x2) w1 n1) bs vt vx x1v x2v bits' (fst (dec_step (t0, x0) bit)) (snd (dec_step (t0, x0) bit)) x1 x2) as (st & w2 & LW2 & E2 & C2).
      { rewrite ext_inst, K1. reflexivity. } { rewrite ext_wit. lia. } { now injection L. } { exact F'. } { exact UT1. } { exact UX1. } { exact U1. } { exact U2. }
      exists st, (w1 ++ w2). split; [rewrite app_length; lia|]. split.
      { cbn [combine forM]. unfold bindM. cbn [fst snd]. rewrite E1. cbn [bind]. rewrite E2, ext_ext. reflexivity. }
      intros a A1 AI AW IB AT AX. apply wits_app in AW. destruct AW as [AW1 AW2]. rewrite LW1 in AW2. cbn [demanded] in AI. apply insts_app in AI. destruct AI as [AI1 AI2]. rewrite K1 in AI2. inversion IB; subst.
      destruct (C1 a A1 AI1 AW1) as (SA1 & BI & O1); try assumption; try reflexivity. rewrite <- surjective_pairing in C2.
      destruct (C2 a A1 AI2 AW2) as (SA2 & BW); try assumption; try (rewrite <- O1; reflexivity). split; [apply sat_app; now split|]. now rewrite bit_wires_S, BI, BW.
    + intros a A1 S. apply sat_app in S. destruct S as [SA SB]. destruct (D1 a A1 SA) as (B1 & O1 & I1). destruct (D2 a A1 SB) as [B2 I2]. rewrite bit_wires_S. split; [now constructor|].
      cbn [demanded]. apply insts_app. rewrite K1. rewrite <- O1. cbn [snd]. split; [exact I1|exact I2].
Qed.

Lemma demanded_app fl1 : forall fl2 b1 b2 st, length fl1 = length b1 -> demanded (fl1 ++ fl2) (b1 ++ b2) st = demanded fl1 b1 st ++ demanded fl2 b2 (dec_steps b1 st).
Proof.
  induction fl1 as [|fl fl1 IH]; intros fl2 [|b b1] b2 st L; try discriminate; [reflexivity|]. cbn [app demanded]. rewrite IH by now injection L. now rewrite app_assoc.
Qed.
Lemma demanded_none fls : forall bits st, Forall (fun fl => fl = (false, false)) fls -> demanded fls bits st = [].
Proof. induction fls as [|fl fls IH]; intros [|b bits] st F; try reflexivity. inversion F; subst. cbn [demanded outs1 fst snd app]. now apply IH. Qed.
Lemma given_none fls (x1 x2 : K) : Forall (fun fl => fl = (false, false)) fls -> given fls x1 x2 = [].
Proof. induction 1 as [|fl fls -> F IH]; [reflexivity|]. cbn [given map concat]. exact IH. Qed.
Lemma given_app fl1 fl2 (x1 x2 : K) : given (fl1 ++ fl2) x1 x2 = given fl1 x1 x2 ++ given fl2 x1 x2.
Proof. unfold given. now rewrite map_app, concat_app. Qed.

(** The flags of the circuit: x1 at position d, x2 at the last position. *)
Definition flags (n : nat) (d : Z) : list (bool * bool) := map (fun i => ((Z.of_nat i =? d)%Z, i =? n - 1)) (seq 0 n).
Lemma flags_length n d : length (flags n d) = n.
Proof. unfold flags. now rewrite map_length, seq_length. Qed.
Lemma flags_shape n d : 0 < n -> flags n d =
  if ((0 <=? d) && (d <? Z.of_nat n - 1))%Z then repeat (false, false) (Z.to_nat d) ++ [(true, false)] ++ repeat (false, false) (n - 2 - Z.to_nat d) ++ [(false, true)]
  else repeat (false, false) (n - 1) ++ [((d =? Z.of_nat n - 1)%Z, true)].
Proof.
  intros NP. assert (REP : forall k m, (k + m <= n - 1) -> (d < Z.of_nat k \/ Z.of_nat (k + m) <= d)%Z -> map (fun i => ((Z.of_nat i =? d)%Z, i =? n - 1)) (seq k m) = repeat (false, false) m).
  { intros k m; revert k; induction m as [|m IH]; intros k L D; [reflexivity|]. cbn [seq map repeat]. rewrite IH by lia. f_equal. f_equal; [apply Z.eqb_neq|apply Nat.eqb_neq]; lia. }
  unfold flags. destruct ((0 <=? d) && (d <? Z.of_nat n - 1))%Z eqn:C.
  - apply andb_prop in C. destruct C as [C1 C2]. apply Z.leb_le in C1. apply Z.ltb_lt in C2. set (p := Z.to_nat d). assert (Z.of_nat p = d) by (unfold p; lia).
    replace (seq 0 n) with (seq 0 p ++ [p] ++ seq (S p) (n - 2 - p) ++ [n - 1]).
    2:{ transitivity (seq 0 (p + (1 + ((n - 2 - p) + 1)))); [|f_equal; lia]. rewrite !seq_app. cbn [seq Nat.add app]. replace (p + 1) with (S p) by lia. replace (S p + (n - 2 - p)) with (n - 1) by lia. reflexivity. }
    rewrite !map_app, !REP by lia. cbn [map]. replace (Z.of_nat p =? d)%Z with true by (symmetry; apply Z.eqb_eq; lia). replace (p =? n - 1) with false by (symmetry; apply Nat.eqb_neq; lia).
    replace (Z.of_nat (n - 1) =? d)%Z with false by (symmetry; apply Z.eqb_neq; lia). rewrite Nat.eqb_refl. reflexivity.
  - assert (D : ~ (0 <= d < Z.of_nat n - 1)%Z) by (intros [A B]; apply Z.leb_le in A; apply Z.ltb_lt in B; rewrite A, B in C; discriminate).
    replace (seq 0 n) with (seq 0 (n - 1) ++ [n - 1]).
    2:{ transitivity (seq 0 ((n - 1) + 1)); [|f_equal; lia]. rewrite seq_app. reflexivity. }
    rewrite map_app, REP by lia. cbn [map]. rewrite Nat.eqb_refl. replace (Z.of_nat (n - 1) =? d)%Z with (d =? Z.of_nat n - 1)%Z; [reflexivity|].
    destruct (Z.eqb_spec (Z.of_nat (n - 1)) d), (Z.eqb_spec d (Z.of_nat n - 1)); lia || reflexivity.
Qed.
Lemma Forall_rep {A} (x : A) n : Forall (fun y => y = x) (repeat x n).
Proof. induction n; constructor; auto. Qed.
(** The demanded values: the prefix of d + 1 bits and the whole. *)
Definition demand (n : nat) (d : Z) (bits : list K) (st : K * K) : list K :=
  let whole := snd (dec_steps bits st) in
  if ((0 <=? d) && (d <? Z.of_nat n))%Z then [snd (dec_steps (firstn (Z.to_nat d + 1) bits) st); whole] else [whole].
Definition give (n : nat) (d : Z) (x1 x2 : K) : list K := if ((0 <=? d) && (d <? Z.of_nat n))%Z then [x1; x2] else [x2].
Lemma dec_steps_app l m st : dec_steps (l ++ m) st = dec_steps m (dec_steps l st).
Proof. unfold dec_steps. now rewrite fold_left_app. Qed.
Lemma demanded_flags n d bits st : 0 < n -> length bits = n -> demanded (flags n d) bits st = demand n d bits st.
Proof.
  intros NP L. rewrite flags_shape by exact NP. unfold demand. destruct ((0 <=? d) && (d <? Z.of_nat n - 1))%Z eqn:C.
  - apply andb_prop in C. destruct C as [C1 C2]. apply Z.leb_le in C1. apply Z.ltb_lt in C2. rewrite (proj2 (Z.leb_le _ _) C1), (proj2 (Z.ltb_lt d (Z.of_nat n))) by lia. cbn [andb]. set (p := Z.to_nat d). assert (Z.of_nat p = d) by (unfold p; lia).
    rewrite <- (firstn_skipn p bits) at 1. destruct (skipn p bits) as [|b r] eqn:SK; [apply (f_equal (@length K)) in SK; rewrite skipn_length in SK; cbn in SK; lia|].
    assert (LR : length r = n - 1 - p) by (apply (f_equal (@length K)) in SK; rewrite skipn_length in SK; cbn in SK; lia).
    destruct (exists_last (l := r)) as (m & z & ->); [intros ->; cbn in LR; lia|]. rewrite app_length in LR. cbn [length] in LR.
    rewrite demanded_app by (rewrite repeat_length, firstn_length; lia). rewrite demanded_none by apply Forall_rep. cbn [app demanded outs1 fst snd].
    rewrite demanded_app by (rewrite repeat_length; lia). rewrite demanded_none by apply Forall_rep. cbn [app demanded outs1 fst snd]. rewrite ?app_nil_r.
    assert (BE : bits = firstn p bits ++ b :: m ++ [z]) by (rewrite <- SK; symmetry; apply firstn_skipn).
    assert (LF : length (firstn p bits) = p) by (rewrite firstn_length; lia).
    f_equal; [|f_equal].
    + pose proof (firstn_app_2 1 (firstn p bits) (b :: m ++ [z])) as FA. rewrite LF in FA. cbn [firstn] in FA. rewrite <- BE in FA. rewrite FA, dec_steps_app. reflexivity.
    + transitivity (snd (dec_steps (firstn p bits ++ [b] ++ m ++ [z]) st)); [now rewrite !dec_steps_app|]. cbn [app]. now rewrite <- BE.
  - destruct (exists_last (l := bits)) as (m & z & ->); [intros ->; cbn in L; lia|]. rewrite app_length in L. cbn [length] in L.
    rewrite demanded_app by (rewrite repeat_length; lia). rewrite demanded_none by apply Forall_rep. cbn [app demanded outs1 fst snd]. rewrite ?app_nil_r.
    assert (W : snd (dec_steps (m ++ [z]) st) = snd (dec_step (dec_steps m st) z)) by now rewrite dec_steps_app.
    destruct (Z.eqb_spec d (Z.of_nat n - 1)) as [->|ND].
    + rewrite (proj2 (Z.leb_le 0 (Z.of_nat n - 1))), (proj2 (Z.ltb_lt (Z.of_nat n - 1) (Z.of_nat n))) by lia. cbn [andb]. rewrite firstn_all2 by (rewrite app_length; cbn; lia). now rewrite W.
    + replace ((0 <=? d) && (d <? Z.of_nat n))%Z with false; [now rewrite W|]. symmetry. destruct (0 <=? d)%Z eqn:A; [|reflexivity]. cbn [andb] in *. apply Z.ltb_ge. apply Z.ltb_ge in C. lia.
Qed.
Lemma given_flags n d (x1 x2 : K) : 0 < n -> given (flags n d) x1 x2 = give n d x1 x2.
Proof.
  intros NP. rewrite flags_shape by exact NP. unfold give. destruct ((0 <=? d) && (d <? Z.of_nat n - 1))%Z eqn:C.
  - apply andb_prop in C. destruct C as [C1 C2]. apply Z.leb_le in C1. apply Z.ltb_lt in C2. rewrite (proj2 (Z.leb_le _ _) C1), (proj2 (Z.ltb_lt d (Z.of_nat n))) by lia. cbn [andb].
    rewrite !given_app. rewrite !(given_none (repeat _ _)) by apply Forall_rep. reflexivity.
  - rewrite given_app, (given_none (repeat _ _)) by apply Forall_rep. cbn [given map concat outs1 fst snd app].
    destruct (Z.eqb_spec d (Z.of_nat n - 1)) as [->|ND].
    + rewrite (proj2 (Z.leb_le 0 (Z.of_nat n - 1))), (proj2 (Z.ltb_lt (Z.of_nat n - 1) (Z.of_nat n))) by lia. reflexivity.
    + replace ((0 <=? d) && (d <? Z.of_nat n))%Z with false; [reflexivity|]. symmetry. destruct (0 <=? d)%Z eqn:A; [|reflexivity]. cbn [andb] in *. apply Z.ltb_ge. apply Z.ltb_ge in C. lia.
Qed.

(** The circuit. *)
Definition n_public (d : Z) : nat := if ((0 <=? d) && (d <? 256))%Z then 2 else 1.
Lemma equal_circuit_spec pr d d' : usz pr (d - 1) = Ok d' -> exists new,
  scoped (n_public d') 1026 new /\ length new = 1024 + n_public d' /\
  (forall s bs bits x1v x2v x1 x2, n_inst s = 0 -> n_wit s = 0 -> length bs = 256 -> Forall2 (fun b bit => valued s (u8_bit b) bit) bs bits -> usable s x1v x1 -> usable s x2v x2 ->
     exists ws, length ws = 1026 /\ equal_circuit pr x1v x2v bs d s = Ok (tt, ext s (give 256 d' x1 x2) ws new) /\
       forall a, a One = f1 -> insts a 0 (demand 256 d' bits (f1, f0)) -> wits a 0 ws -> Forall is_bit bits ->
         sat a new /\ a (Wit 0) = f1 /\ a (Wit 1) = f0 /\ bit_wires a 2 4 256 = bits) /\
  (forall a, a One = f1 -> sat a new -> Forall is_bit (bit_wires a 2 4 256) /\ insts a 0 (demand 256 d' (bit_wires a 2 4 256) (a (Wit 0), a (Wit 1)))) /\
  (forall t0 x0 bits, length bits = 256 -> (forall b, In b bits -> b = f0 \/ b = f1) -> exists a, a One = f1 /\ sat a new /\ a (Wit 0) = t0 /\ a (Wit 1) = x0 /\ bit_wires a 2 4 256 = bits).
Proof.
  intros U. assert (NP : 0 < 256) by lia. destruct (equal_loop (flags 256 d') 0 2 (Wit 0) (Wit 1)) as (new & S1 & L1 & R1 & D1); [cbn; lia|cbn; lia|]. cbn zeta in *.
  rewrite given_flags in * by exact NP. rewrite flags_length in *.
  assert (GL : forall p q : K, length (give 256 d' p q) = n_public d') by (intros; unfold give, n_public; change (Z.of_nat 256) with 256%Z; destruct ((0 <=? d') && (d' <? 256))%Z; reflexivity). rewrite GL in *.
  exists new. split; [exact S1|]. split; [exact L1|].
  assert (LBW : forall a, length (bit_wires (K := K) a 2 4 256) = 256) by (intros; unfold bit_wires; now rewrite map_length, seq_length).
  assert (F2L : forall (X Y : Type) (R : X -> Y -> Prop) l m, Forall2 R l m -> length l = length m) by (intros X Y R l m; induction 1; cbn; congruence).
  split; [|split].
  - intros s bs bits x1v x2v x1 x2 NI NW L F U1 U2.
    destruct (R1 (ext s [] [f1; f0] []) bs (Some f1) (Some f0) x1v x2v bits f1 f0 x1 x2) as (st & ws & LW & E & C).
    { rewrite ext_inst. cbn. lia. } { rewrite ext_wit. cbn. lia. } { exact L. } { exact F. } { apply usable_some. } { apply usable_some. } { exact U1. } { exact U2. }
    rewrite given_flags in E by exact NP. rewrite demanded_flags in C by (exact NP || (rewrite <- (F2L _ _ _ _ _ F); exact L)).
    exists ([f1; f0] ++ ws). split; [rewrite app_length, LW; reflexivity|]. split.
    + unfold equal_circuit. change EQUAL_INPUT_SIZE with 256. rewrite (proj2 (Nat.eqb_eq _ _) L). unfold bindM at 1 2. rewrite (new_witness_run _ _ f1) by us. cbn [bind]. rewrite (new_witness_run _ _ f0) by us. cbn [bind].
      rewrite ext_ext, ext_wit, NW. cbn [app length Nat.add]. unfold bindM at 1.
      assert (LOOP : forall st s, forM (fun st i => let# b := lift (index bs i) in equal_round pr x1v x2v d b i st) (seq 0 256) st s = forM (fun st fb => equal_core x1v x2v (fst fb) (snd fb) st) (combine (flags 256 d') bs) st s).
      { intros st' s'. rewrite <- L at 1. etransitivity; [exact (forM_index bs (fun i b => equal_round pr x1v x2v d b i) bs [] st' s' eq_refl)|]. cbn [length]. rewrite L. unfold flags. generalize (seq 0 256) as il. intros il. clear - U. revert bs st' s'.
        induction il as [|i il IH]; intros [|b bs] st' s'; try reflexivity. cbn [combine map forM]. unfold bindM. cbn [fst snd]. rewrite (equal_round_core pr x1v x2v d d' b i st' s' U). change (EQUAL_INPUT_SIZE - 1) with (256 - 1). destruct (equal_core _ _ _ _ _ _) as [[st'' s'']|]; [|reflexivity]. cbn [bind]. apply IH. }
      rewrite LOOP, E. cbn [bind]. unfold ret. rewrite ext_ext. reflexivity.
    + intros a A1 AI AW IB. apply wits_app in AW. destruct AW as [AW0 AW]. cbn [length Nat.add] in AW. pose proof (C a A1 AI AW IB) as C0. vals. destruct C0 as [SA BW]; try assumption; auto.
  - intros a A1 S. destruct (D1 a A1 S) as [B I]. rewrite demanded_flags in I by (exact NP || apply LBW). now split.
  - intros t0 x0 bits L IB. assert (BITS : exists bs, Forall2 (fun b bit => u8_bit b = Some bit) bs bits).
    { clear L. induction bits as [|b bits IH]; [now exists []|]. destruct IH as [bs F]; [intros; apply IB; now right|].
      destruct (IB b (or_introl eq_refl)) as [->| ->]; [exists (Some 0%Z :: bs)|exists (Some 1%Z :: bs)]; constructor; (reflexivity || assumption). }
    destruct BITS as [bs F]. assert (LB : length bs = 256) by (rewrite (F2L _ _ _ _ _ F); exact L).
    destruct (R1 (mkCs false 0 2 [] [] []) bs (Some t0) (Some x0) (Some f0) (Some f0) bits t0 x0 f0 f0) as (st & ws & LW & E & C); [reflexivity|reflexivity|exact LB|exact F|apply usable_some|apply usable_some|apply usable_some|apply usable_some|].
    rewrite demanded_flags in C by (exact NP || exact L).
    set (a := over (fun v => match v with One => f1 | _ => f0 end : K) 0 0 (demand 256 d' bits (t0, x0)) ([t0; x0] ++ ws)). exists a. split; [reflexivity|].
    assert (AW : wits a 0 ([t0; x0] ++ ws)) by apply over_wits. apply wits_app in AW. destruct AW as [AW0 AW]. cbn [length Nat.add] in AW. vals.
    destruct (C a) as [SA BW]; try assumption; try reflexivity; [apply over_insts| |auto].
    apply Forall_forall. intros b B. unfold is_bit. destruct (IB b B) as [-> | ->]; ring.
Qed.
Lemma equal_circuit_zero (x1 x2 : option K) bs s : equal_circuit Debug x1 x2 bs 0 s = Panic.
Proof.
  unfold equal_circuit. destruct (_ =? _); [|reflexivity]. unfold bindM at 1 2. destruct (new_witness _ s) as [[w1 s1]|]; [|reflexivity]. cbn [bind]. destruct (new_witness _ s1) as [[w2 s2]|]; [|reflexivity]. cbn [bind]. change EQUAL_INPUT_SIZE with (S 255). cbn [seq forM].
  assert (P : forall b st s, equal_round Debug x1 x2 0 b 0 st s = Panic).
  { intros b [[[two tv] x] xv] s'. unfold equal_round, bindM, lift. change (usz Debug (0 - 1)) with (@Panic Z).
    destruct (new_witness _ _) as [[w3 s3]|]; [|reflexivity]. cbn [bind]. rewrite enforce_run. cbn [bind]. destruct (omap _ _); [|reflexivity]. cbn [bind]. destruct (new_witness _ _) as [[w4 s4]|]; [|reflexivity]. cbn [bind]. rewrite enforce_run. cbn [bind].
    destruct (omap _ _); [|reflexivity]. cbn [bind]. destruct (new_witness _ _) as [[w5 s5]|]; [|reflexivity]. cbn [bind]. rewrite enforce_run. reflexivity. }
  unfold bindM, lift. destruct (index bs 0); [|reflexivity]. cbn [bind]. now rewrite P.
Qed.
End Equal.
