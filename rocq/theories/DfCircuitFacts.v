(** The delay-function circuits: every satisfying assignment carries the native value. *)
From Verif Require Import Base Field Mimc R1cs Circuits MimcFacts R1csFacts.

(** Symbolic execution of synthesis code; [x] is the value given to the new wire. *)
Ltac us := first [apply usable_some | intro; congruence | (apply valued_usable; assumption) | assumption | (unfold usable; cbn [setup ext]; intro; congruence)].
Ltac wit x := rewrite (new_witness_run _ _ x) by us; cbn [bind]; rewrite ?ext_ext, ?ext_wit, ?ext_inst.
Ltac inp x := rewrite (new_input_run _ _ x) by us; cbn [bind]; rewrite ?ext_ext, ?ext_wit, ?ext_inst.
Ltac enf := rewrite enforce_run; cbn [bind]; rewrite ?ext_ext, ?ext_wit, ?ext_inst.
(** Reading the equations off a list of constraints. *)
Ltac eqs := repeat match goal with
  | H : sat _ (_ :: _) |- _ => apply sat_cons in H; destruct H
  | H : sat _ [] |- _ => clear H
  | H : holds _ _ |- _ => unfold holds, eval in H; cbn [fold_right fst snd] in H
  end.
Ltac goaleqs := repeat match goal with
  | |- sat _ (_ :: _) => apply sat_cons; split
  | |- sat _ [] => apply sat_nil
  | |- holds _ _ => unfold holds, eval; cbn [fold_right fst snd]
  end.
Ltac vals := repeat match goal with
  | H : wits _ _ (_ :: _) |- _ => apply wits_cons in H; destruct H
  | H : wits _ _ [] |- _ => clear H
  | H : insts _ _ (_ :: _) |- _ => apply insts_cons in H; destruct H
  | H : insts _ _ [] |- _ => clear H
  end.

Section Df.
Context {K : ops} (HK : is_ring K).
Add Ring kring : (HK : ring_theory f0 f1 fadd fmul fsub fopp (@eq K)).

Definition ki (public : bool) : nat := if public then 1 else 0.
Definition kw (kt : nat) (public : bool) : nat := kt + if public then 0 else 1.
Definition kout (kt ni nw : nat) (public : bool) : var := if public then Inst ni else Wit (nw + kt).

Definition round_spec (e kt : nat) (round : bool -> K -> df_state -> M K df_state) : Prop :=
  forall public c ni nw xl xr, in_scope ni nw xl -> in_scope ni nw xr -> exists new,
  scoped (ni + ki public) (nw + kw kt public) new /\ length new = kt + 1 /\
  (forall s xlv xrv x y, n_inst s = ni -> n_wit s = nw -> valued s xlv x -> valued s xrv y ->
     exists vl is ws, length is = ki public /\ length ws = kw kt public /\
       round public c (xl, xlv, xr, xrv) s = Ok ((kout kt ni nw public, vl, xl, xlv), ext s is ws new) /\
       valued s vl (fadd (fpow (fadd x c) e) y) /\
       forall a, a One = f1 -> insts a ni is -> wits a nw ws -> a xl = x -> a xr = y -> sat a new /\ a (kout kt ni nw public) = fadd (fpow (fadd x c) e) y) /\
  (forall a, a One = f1 -> sat a new -> a (kout kt ni nw public) = fadd (fpow (fadd (a xl) c) e) (a xr)) /\
  (forall a b, a One = f1 -> sat a new -> sat b new -> agree ni nw a b -> agree (ni + ki public) (nw + kw kt public) a b).

Lemma sum1 (z : K) : fadd (fmul f1 z) f0 = z. Proof. ring. Qed.
Lemma addz (a b c : K) : fadd (fmul f1 a) (fadd (fmul (fopp f1) b) f0) = c -> a = fadd c b.
Proof. intros <-. ring. Qed.

Lemma df5_round_spec : round_spec 5 2 df5_round.
Proof.
  intros public c ni nw xl xr SL SR.
  exists [([(f1, xl); (c, One)], [(f1, xl); (c, One)], [(f1, Wit nw)]); ([(f1, Wit nw)], [(f1, Wit nw)], [(f1, Wit (nw + 1))]);
          ([(f1, Wit (nw + 1))], [(f1, xl); (c, One)], [(f1, kout 2 ni nw public); (fopp f1, xr)])].
  split; [|split; [|split; [|split]]].
  - destruct public; unfold kout, ki, kw; scope.
  - reflexivity.
  - intros s xlv xrv x y <- <- VL VR. unfold df5_round, bindM, lift, valued in *. set (t := fadd x c). set (t1 := fsquare t). set (t2 := fsquare t1). set (z := fadd (fmul t t2) y).
    exists (if setup s then None else Some z), (if public then [z] else []), ([t1; t2] ++ if public then [] else [z]).
    split; [now destruct public|]. split; [now destruct public|]. split; [|split].
    + destruct (setup s) eqn:SU; subst xlv xrv; cbn [omap bind unwrap]; wit t1; enf; cbn [bind]; wit t2; enf; cbn [bind]; destruct public.
      * inp z. enf. unfold ret, kout. cbn [app length]. now rewrite ?Nat.add_0_r, <- ?Nat.add_assoc.
      * wit z. enf. unfold ret, kout. cbn [app length]. now rewrite ?Nat.add_0_r, <- ?Nat.add_assoc.
      * inp z. enf. unfold ret, kout. cbn [app length]. now rewrite ?Nat.add_0_r, <- ?Nat.add_assoc.
      * wit z. enf. unfold ret, kout. cbn [app length]. now rewrite ?Nat.add_0_r, <- ?Nat.add_assoc.
    + destruct (setup s); [reflexivity|]. f_equal. unfold z, t2, t1, t, fsquare. cbn [fpow]. ring.
    + intros a A1 AI AW AL AR. assert (OUT : a (kout 2 (n_inst s) (n_wit s) public) = z).
      { destruct public; unfold kout; cbn [app] in AW; vals; [assumption|]. now replace (n_wit s + 2) with (S (S (n_wit s))) by lia. }
      rewrite OUT. apply wits_app in AW. destruct AW as [AW _]. vals. rewrite Nat.add_1_r. split.
      * goaleqs; rewrite ?A1, ?AL, ?AR, ?OUT, ?H, ?H0; unfold z, t2, t1, t, fsquare; ring.
      * unfold z, t2, t1, t, fsquare. cbn [fpow]. ring.
  - intros a A1 S. eqs. rewrite ?sum1, ?A1 in *. apply addz. rewrite <- H1, <- H0, <- H. cbn [fpow]. ring.
  - intros a b A1 SA SB AG. assert (B1 : b One = f1) by (rewrite <- A1; symmetry; now apply AG). pose proof (AG _ SL) as EL. pose proof (AG _ SR) as ER. eqs. rewrite ?sum1, ?A1, ?B1, ?EL, ?ER in *.
    assert (E1 : a (Wit nw) = b (Wit nw)) by congruence. rewrite E1 in *. assert (E2 : a (Wit (nw + 1)) = b (Wit (nw + 1))) by congruence. rewrite E2 in *.
    assert (E3 : a (kout 2 ni nw public) = b (kout 2 ni nw public)).
    { repeat match goal with H : _ = fadd (fmul f1 _) (fadd (fmul (fopp f1) _) f0) |- _ => symmetry in H; apply addz in H end. congruence. }
    intros v V. destruct public; unfold kout, ki, kw in *.
    + destruct v as [|i|i]; cbn [in_scope] in V; [congruence| |].
      * destruct (Nat.eq_dec i ni) as [->|]; [exact E3|]. apply AG. cbn. lia.
      * destruct (Nat.eq_dec i nw) as [->|]; [exact E1|]. destruct (Nat.eq_dec i (nw + 1)) as [->|]; [exact E2|]. apply AG. cbn. lia.
    + destruct v as [|i|i]; cbn [in_scope] in V; [congruence| |].
      * apply AG. cbn. lia.
      * destruct (Nat.eq_dec i nw) as [->|]; [exact E1|]. destruct (Nat.eq_dec i (nw + 1)) as [->|]; [exact E2|].
        destruct (Nat.eq_dec i (nw + 2)) as [->|]; [exact E3|]. apply AG. cbn. lia.
Qed.

Lemma df3_round_spec : round_spec 3 1 df3_round.
Proof.
  intros public c ni nw xl xr SL SR.
  exists [([(f1, xl); (c, One)], [(f1, xl); (c, One)], [(f1, Wit nw)]);
          ([(f1, Wit nw)], [(f1, xl); (c, One)], [(f1, kout 1 ni nw public); (fopp f1, xr)])].
  split; [|split; [|split; [|split]]].
  - destruct public; unfold kout, ki, kw; scope.
  - reflexivity.
  - intros s xlv xrv x y <- <- VL VR. unfold df3_round, bindM, lift, valued in *. set (t := fadd x c). set (t1 := fsquare t). set (z := fadd (fmul t t1) y).
    exists (if setup s then None else Some z), (if public then [z] else []), ([t1] ++ if public then [] else [z]).
    split; [now destruct public|]. split; [now destruct public|]. split; [|split].
    + destruct (setup s) eqn:SU; subst xlv xrv; cbn [omap bind unwrap]; wit t1; enf; cbn [bind]; destruct public.
      * inp z. enf. unfold ret, kout. cbn [app length]. now rewrite ?Nat.add_0_r, <- ?Nat.add_assoc.
      * wit z. enf. unfold ret, kout. cbn [app length]. now rewrite ?Nat.add_0_r, <- ?Nat.add_assoc.
      * inp z. enf. unfold ret, kout. cbn [app length]. now rewrite ?Nat.add_0_r, <- ?Nat.add_assoc.
      * wit z. enf. unfold ret, kout. cbn [app length]. now rewrite ?Nat.add_0_r, <- ?Nat.add_assoc.
    + destruct (setup s); [reflexivity|]. f_equal. unfold z, t1, t, fsquare. cbn [fpow]. ring.
    + intros a A1 AI AW AL AR. assert (OUT : a (kout 1 (n_inst s) (n_wit s) public) = z).
      { destruct public; unfold kout; cbn [app] in AW; vals; [assumption|]. now replace (n_wit s + 1) with (S (n_wit s)) by lia. }
      rewrite OUT. apply wits_app in AW. destruct AW as [AW _]. vals. split.
      * goaleqs; rewrite ?A1, ?AL, ?AR, ?OUT, ?H; unfold z, t1, t, fsquare; ring.
      * unfold z, t1, t, fsquare. cbn [fpow]. ring.
  - intros a A1 S. eqs. rewrite ?sum1, ?A1 in *. apply addz. rewrite <- H0, <- H. cbn [fpow]. ring.
  - intros a b A1 SA SB AG. assert (B1 : b One = f1) by (rewrite <- A1; symmetry; now apply AG). pose proof (AG _ SL) as EL. pose proof (AG _ SR) as ER. eqs. rewrite ?sum1, ?A1, ?B1, ?EL, ?ER in *.
    assert (E1 : a (Wit nw) = b (Wit nw)) by congruence. rewrite E1 in *.
    assert (E3 : a (kout 1 ni nw public) = b (kout 1 ni nw public)).
    { repeat match goal with H : _ = fadd (fmul f1 _) (fadd (fmul (fopp f1) _) f0) |- _ => symmetry in H; apply addz in H end. congruence. }
    intros v V. destruct public; unfold kout, ki, kw in *.
    + destruct v as [|i|i]; cbn [in_scope] in V; [congruence| |].
      * destruct (Nat.eq_dec i ni) as [->|]; [exact E3|]. apply AG. cbn. lia.
      * destruct (Nat.eq_dec i nw) as [->|]; [exact E1|]. apply AG. cbn. lia.
    + destruct v as [|i|i]; cbn [in_scope] in V; [congruence| |].
      * apply AG. cbn. lia.
      * destruct (Nat.eq_dec i nw) as [->|]; [exact E1|].
        destruct (Nat.eq_dec i (nw + 1)) as [->|]; [exact E3|]. apply AG. cbn. lia.
Qed.

(** Several rounds with private outputs. *)
Lemma df_rounds e kt round : round_spec e kt round -> forall cs ni nw xl xr, in_scope ni nw xl -> in_scope ni nw xr ->
  exists new outl outr, let k := (kt + 1) * length cs in
  scoped ni (nw + k) new /\ length new = k /\ in_scope ni (nw + k) outl /\ in_scope ni (nw + k) outr /\
  (forall s xlv xrv x y, n_inst s = ni -> n_wit s = nw -> valued s xlv x -> valued s xrv y ->
     exists vl vr ws, length ws = k /\
       forM (fun st c => round false c st) cs (xl, xlv, xr, xrv) s = Ok ((outl, vl, outr, vr), ext s [] ws new) /\
       valued s vl (fst (feistel e cs (x, y))) /\ valued s vr (snd (feistel e cs (x, y))) /\
       forall a, a One = f1 -> wits a nw ws -> a xl = x -> a xr = y -> sat a new /\ (a outl, a outr) = feistel e cs (x, y)) /\
  (forall a, a One = f1 -> sat a new -> (a outl, a outr) = feistel e cs (a xl, a xr)) /\
  (forall a b, a One = f1 -> sat a new -> sat b new -> agree ni nw a b -> agree ni (nw + k) a b).
Proof.
  intros RS. induction cs as [|c cs IH]; intros ni nw xl xr SL SR.
  - exists [], xl, xr. cbn zeta. cbn [length]. rewrite Nat.mul_0_r, Nat.add_0_r. split; [constructor|]. split; [reflexivity|]. split; [exact SL|]. split; [exact SR|]. split; [|split].
    + intros s xlv xrv x y _ _ VL VR. exists xlv, xrv, []. split; [reflexivity|]. split; [now rewrite ext_nil|]. split; [exact VL|]. split; [exact VR|].
      intros a _ _ <- <-. split; [apply sat_nil|reflexivity].
    + reflexivity.
    + auto.
  - destruct (RS false c ni nw xl xr SL SR) as (n1 & S1 & L1 & R1 & D1 & U1). unfold ki, kw, kout in *. rewrite Nat.add_0_r in *.
    destruct (IH ni (nw + (kt + 1)) (Wit (nw + kt)) xl) as (n2 & outl & outr & S2 & L2 & OL & OR & R2 & D2 & U2); [cbn; lia|eapply in_scope_mono; [| |exact SL]; lia|].
    cbn zeta in *. exists (n1 ++ n2), outl, outr. cbn [length]. replace (nw + (kt + 1) * S (length cs)) with (nw + (kt + 1) + (kt + 1) * length cs) by lia.
    split; [apply scoped_app; [eapply scoped_mono; [| |exact S1]; lia|exact S2]|]. split; [rewrite app_length; lia|]. split; [exact OL|]. split; [exact OR|]. split; [|split].
    + intros s xlv xrv x y NI NW VL VR. destruct (R1 s xlv xrv x y NI NW VL VR) as (v1 & is & w1 & LI & LW & E1 & V1 & C1). destruct is; [|discriminate].
      destruct (R2 (ext s [] w1 n1) v1 xlv (fadd (fpow (fadd x c) e) y) x) as (vl & vr & w2 & LW2 & E2 & V2L & V2R & C2).
      { rewrite ext_inst. cbn [length]. lia. } { rewrite ext_wit. lia. } { exact V1. } { exact VL. }
      exists vl, vr, (w1 ++ w2). split; [rewrite app_length; lia|]. split.
      { cbn [forM]. unfold bindM. rewrite E1. cbn [bind]. rewrite E2, ext_ext. reflexivity. }
      split; [exact V2L|]. split; [exact V2R|]. intros a A1 AW AL AR. apply wits_app in AW. destruct AW as [AW1 AW2]. rewrite LW in AW2.
      destruct (C1 a A1 (insts_nil a ni) AW1 AL AR) as [SAT1 O1]. destruct (C2 a A1 AW2 O1 AL) as [SAT2 O2]. split; [apply sat_app; now split|exact O2].
    + intros a A1 S. apply sat_app in S. destruct S as [SA SB]. rewrite (D2 a A1 SB), (D1 a A1 SA). reflexivity.
    + intros a b A1 SA SB AG. apply sat_app in SA, SB. destruct SA, SB. eapply U2; eauto.
Qed.

(** The whole circuit: two private inputs, then the rounds, the last one public. *)
Lemma df_circuit e kt round n (circuit : option K -> option K -> list K -> M K unit) : round_spec e kt round ->
  (forall xv yv cs s, length cs = n -> circuit xv yv cs s =
    (let# xl := new_witness xv in let# xr := new_witness yv in
     let# _ := forM (fun st i => let# c := lift (index cs i) in round (i =? n - 1) c st) (seq 0 n) (xl, xv, xr, yv) in ret tt) s) ->
  0 < n -> forall cs, length cs = n -> exists new,
  let k := (kt + 1) * n + 1 in
  scoped 1 k new /\ length new = (kt + 1) * n /\
  (forall s xv yv x y, n_inst s = 0 -> n_wit s = 0 -> valued s xv x -> valued s yv y -> exists ws, length ws = k /\
     circuit xv yv cs s = Ok (tt, ext s [fst (feistel e cs (x, y))] ws new) /\
     forall a, a One = f1 -> insts a 0 [fst (feistel e cs (x, y))] -> wits a 0 ws -> sat a new /\ a (Wit 0) = x /\ a (Wit 1) = y) /\
  (forall a, a One = f1 -> sat a new -> a (Inst 0) = fst (feistel e cs (a (Wit 0), a (Wit 1)))) /\
  (forall a b, a One = f1 -> b One = f1 -> sat a new -> sat b new -> a (Wit 0) = b (Wit 0) -> a (Wit 1) = b (Wit 1) -> agree 1 k a b).
Proof.
  intros RS CI NP cs LC. destruct (exists_last (l := cs)) as (l & c & EL); [intros ->; cbn in LC; lia|]. assert (LL : n = length l + 1) by (subst cs; rewrite app_length in LC; cbn in LC; lia).
  destruct (df_rounds e kt round RS l 0 2 (Wit 0) (Wit 1)) as (n1 & outl & outr & S1 & L1 & OL & OR & R1 & D1 & U1); [cbn; lia|cbn; lia|]. cbn zeta in *.
  destruct (RS true c 0 (2 + (kt + 1) * length l) outl outr OL OR) as (n2 & S2 & L2 & R2 & D2 & U2). unfold ki, kw, kout in *. rewrite Nat.add_0_r in *. cbn [Nat.add] in *.
  exists (n1 ++ n2). cbn zeta. assert (KK : (kt + 1) * n + 1 = S (S ((kt + 1) * length l + kt))) by lia. rewrite KK.
  split; [apply scoped_app; [eapply scoped_mono; [| |exact S1]; lia|exact S2]|]. split; [rewrite app_length; lia|].
  assert (FE : forall p, feistel e cs p = feistel_round e (feistel e l p) c) by (intros p; unfold feistel; rewrite EL, fold_left_app; reflexivity).
  split; [|split].
  - intros s xv yv x y NI NW VX VY. destruct (R1 (ext s [] [x; y] []) xv yv x y) as (vl & vr & w1 & LW1 & E1 & VL & VR & C1).
    { rewrite ext_inst, NI. reflexivity. } { rewrite ext_wit, NW. reflexivity. } { exact VX. } { exact VY. }
    destruct (R2 (ext s [] ([x; y] ++ w1) n1) vl vr (fst (feistel e l (x, y))) (snd (feistel e l (x, y)))) as (vz & is & w2 & LI & LW2 & E2 & VZ & C2).
    { rewrite ext_inst, NI. reflexivity. } { rewrite ext_wit, NW, app_length, LW1. cbn. lia. } { exact VL. } { exact VR. }
    assert (IS : is = [fst (feistel e cs (x, y))]).
    { destruct is as [|z [|]]; try discriminate. f_equal. rewrite FE. unfold feistel_round. cbn [fst].
      set (b := over (fun v => match v with One => f1 | _ => f0 end : K) 0 0 [z] ([x; y] ++ w1 ++ w2)).
      assert (WB : wits b 0 ([x; y] ++ w1 ++ w2)) by apply over_wits. assert (IB : insts b 0 [z]) by apply over_insts.
      apply wits_app in WB. destruct WB as [WB0 WB]. apply wits_app in WB. destruct WB as [WB1 WB2]. cbn [length] in *. vals. cbn [Nat.add] in *. rewrite LW1 in WB2.
      destruct (C1 b) as [_ OE]; try assumption; try reflexivity. destruct (C2 b) as [_ OZ]; try assumption; try reflexivity.
      { apply insts_cons; split; [assumption|apply insts_nil]. } { now rewrite <- OE. } { now rewrite <- OE. } }
    exists ([x; y] ++ w1 ++ w2). split; [rewrite !app_length, LW1, LW2; cbn; lia|]. split.
    + rewrite CI by exact LC. unfold bindM at 1 2. rewrite (new_witness_run _ _ x) by now apply valued_usable. cbn [bind]. rewrite (new_witness_run _ _ y) by now apply (valued_usable (ext s [] [x] [])). cbn [bind]. rewrite ext_ext, ext_wit, NW. cbn [app length Nat.add].
      unfold bindM at 1. rewrite (forM_last cs n l c round) by (assumption || now symmetry). unfold bindM. rewrite E1, ext_ext. cbn [bind app]. cbn [app] in E2. rewrite E2. cbn [bind]. unfold ret. rewrite ext_ext, IS. reflexivity.
    + intros a A1 AI AW. apply wits_app in AW. destruct AW as [AW0 AW]. apply wits_app in AW. destruct AW as [AW1 AW2]. rewrite LW1 in AW2. cbn [length Nat.add] in *. apply wits_cons in AW0. destruct AW0 as [W0 AW0]. apply wits_cons in AW0. destruct AW0 as [W1 _].
      destruct (C1 a A1 AW1 W0 W1) as [SAT1 OE]. rewrite IS in C2. destruct (C2 a A1 AI AW2) as [SAT2 OZ]; [now rewrite <- OE|now rewrite <- OE|].
      split; [apply sat_app; now split|]. now split.
  - intros a A1 S. apply sat_app in S. destruct S as [SA SB]. rewrite FE, <- (D1 a A1 SA). unfold feistel_round. cbn [fst snd]. now apply D2.
  - intros a b A1 B1 SA SB E0 E1. apply sat_app in SA, SB. destruct SA, SB. eapply U2; eauto. eapply U1; eauto. intros [|i|i] V; cbn in V; [congruence|lia|]. destruct i as [|[|i]]; [exact E0|exact E1|lia].
Qed.
End Df.
