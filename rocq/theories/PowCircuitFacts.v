(** The exponentiation circuit: what a satisfying assignment says, and which ones exist. *)
From Verif Require Import Base Field Mimc R1cs Circuits MimcFacts R1csFacts DfCircuitFacts.

Section Pow.
Context {K : ops} (HK : is_ring K).
Add Ring kring : (HK : ring_theory f0 f1 fadd fmul fsub fopp (@eq K)).

(** Square and multiply, the exponent given by its little-endian bits (0 or 1). *)
Definition pow_step (st : K * K) (bit : K) : K * K :=
  (fmul (fsub (fadd (fmul (snd st) bit) f1) bit) (fst st), fmul (snd st) (snd st)).
Definition pow_steps (bits : list K) (st : K * K) : K * K := fold_left pow_step bits st.
Definition is_bit (b : K) : Prop := fmul b b = b.

(** Wires of a round: bit = Wit nw, ..., newy = Inst ni or Wit (nw + 3), newg last. *)
Definition py (ni nw : nat) (public : bool) : var := if public then Inst ni else Wit (nw + 3).
Definition pw (public : bool) : nat := if public then 4 else 5.
Definition pg (nw : nat) (public : bool) : var := Wit (nw + if public then 3 else 4).

Lemma pow_round_spec public ni nw y g : in_scope ni nw y -> in_scope ni nw g -> exists new : list (r1c K),
  scoped (ni + ki public) (nw + pw public) new /\ length new = 5 /\
  (forall s b yv gv bit y0 g0, n_inst s = ni -> n_wit s = nw -> valued s (u8_bit b) bit -> usable s yv y0 -> valued s gv g0 ->
     exists vy vg is ws, length is = ki public /\ length ws = pw public /\ (public = true -> is = [fst (pow_step (y0, g0) bit)]) /\
       pow_round public b (y, yv, g, gv) s = Ok ((py ni nw public, vy, pg nw public, vg), ext s is ws new) /\
       valued s vy (fst (pow_step (y0, g0) bit)) /\ valued s vg (snd (pow_step (y0, g0) bit)) /\
       forall a, a One = f1 -> insts a ni is -> wits a nw ws -> is_bit bit -> a y = y0 -> a g = g0 ->
         sat a new /\ a (Wit nw) = bit /\ (a (py ni nw public), a (pg nw public)) = pow_step (y0, g0) bit) /\
  (forall a, a One = f1 -> sat a new -> is_bit (a (Wit nw)) /\ (a (py ni nw public), a (pg nw public)) = pow_step (a y, a g) (a (Wit nw))).
Proof.
  intros SY SG.
  exists [([(f1, Wit nw)], [(f1, Wit nw)], [(f1, Wit nw)]); ([(f1, g)], [(f1, Wit nw)], [(f1, Wit (nw + 1))]);
          ([(f1, Wit (nw + 1)); (f1, One)], [(f1, One)], [(f1, Wit (nw + 2)); (f1, Wit nw)]);
          ([(f1, y)], [(f1, Wit (nw + 2))], [(f1, py ni nw public)]); ([(f1, g)], [(f1, g)], [(f1, pg nw public)])].
  split; [destruct public; unfold py, pg, pw, ki; scope|]. split; [reflexivity|]. split.
  - intros s b yv gv bit y0 g0 <- <- VB VY VG. unfold valued in VB, VG. set (t1 := fmul g0 bit). set (t2 := fsub (fadd t1 f1) bit). set (ny := fmul t2 y0). set (ng := fmul g0 g0).
    exists (if setup s then None else Some ny), (if setup s then None else Some ng), (if public then [ny] else []), ([bit; t1; t2] ++ if public then [ng] else [ny; ng]).
    split; [now destruct public|]. split; [now destruct public|]. split; [now intros ->|]. split; [|split; [|split]].
    + unfold pow_round, bindM, lift. destruct (setup s) eqn:SU.
      * rewrite VB. subst gv. cbn [omap bind unwrap]. wit bit. enf. wit t1. enf. wit t2. enf. destruct public.
        -- inp ny. enf. wit ng. enf. unfold ret, py, pg. cbn [app length]. now rewrite ?Nat.add_0_r, <- ?Nat.add_assoc.
        -- wit ny. enf. wit ng. enf. unfold ret, py, pg. cbn [app length]. now rewrite ?Nat.add_0_r, <- ?Nat.add_assoc.
      * rewrite VB, (VY SU). subst gv. cbn [omap bind unwrap]. wit bit. enf. wit t1. enf. wit t2. enf. destruct public.
        -- inp ny. enf. wit ng. enf. unfold ret, py, pg. cbn [app length]. now rewrite ?Nat.add_0_r, <- ?Nat.add_assoc.
        -- wit ny. enf. wit ng. enf. unfold ret, py, pg. cbn [app length]. now rewrite ?Nat.add_0_r, <- ?Nat.add_assoc.
    + unfold valued. now destruct (setup s).
    + unfold valued. now destruct (setup s).
    + intros a A1 AI AW IB AY AG. unfold is_bit in IB. set (w := n_wit s) in *.
      assert (OY : a (py (n_inst s) w public) = ny /\ a (pg w public) = ng).
      { unfold py, pg. destruct public; cbn [app] in AW; vals; replace (w + 3) with (S (S (S w))) by lia; replace (w + 4) with (S (S (S (S w)))) by lia; now split. }
      destruct OY as [OY OG]. apply wits_app in AW. destruct AW as [AW _]. vals. replace (w + 1) with (S w) by lia. replace (w + 2) with (S (S w)) by lia. split; [|split].
      * goaleqs; rewrite ?OY, ?OG, ?A1, ?AY, ?AG; repeat match goal with H : a (Wit _) = _ |- _ => rewrite H; clear H end; unfold ny, ng, t2, t1; try ring. transitivity (fmul bit bit); [ring|]. rewrite IB. ring.
      * assumption.
      * rewrite OY, OG. reflexivity.
  - intros a A1 S. eqs. rewrite ?(sum1 HK), ?A1 in *. split; [exact H|]. unfold pow_step. cbn [fst snd]. rewrite <- H3, <- H2. f_equal. rewrite H0.
    transitivity (fmul (fsub (fadd (fmul f1 (a (Wit (nw + 2)))) (a (Wit nw))) (a (Wit nw))) (a y)); [ring|]. rewrite <- H1. ring.
Qed.

(** The bits of the rounds. *)
Definition bit_wires (a : var -> K) (nw B n : nat) : list K := map (fun i => a (Wit (nw + B * i))) (seq 0 n).
Lemma bit_wires_S a nw B n : bit_wires a nw B (S n) = a (Wit nw) :: bit_wires a (nw + B) B n.
Proof.
  unfold bit_wires. cbn [seq map]. rewrite Nat.mul_0_r, Nat.add_0_r. f_equal. rewrite <- seq_shift, map_map. apply map_ext. intros i. f_equal. f_equal. lia.
Qed.
Lemma bit_wires_snoc a nw B n : bit_wires a nw B (n + 1) = bit_wires a nw B n ++ [a (Wit (nw + B * n))].
Proof. unfold bit_wires. rewrite seq_app, map_app. reflexivity. Qed.

Lemma pow_private : forall N ni nw y g, in_scope ni nw y -> in_scope ni nw g -> exists new outy outg,
  scoped ni (nw + 5 * N) new /\ length new = 5 * N /\ in_scope ni (nw + 5 * N) outy /\ in_scope ni (nw + 5 * N) outg /\
  (forall s bs yv gv bits y0 g0, n_inst s = ni -> n_wit s = nw -> length bs = N -> Forall2 (fun b bit => valued s (u8_bit b) bit) bs bits -> usable s yv y0 -> valued s gv g0 ->
     exists vy vg ws, length ws = 5 * N /\
       forM (fun st b => pow_round false b st) bs (y, yv, g, gv) s = Ok ((outy, vy, outg, vg), ext s [] ws new) /\
       usable s vy (fst (pow_steps bits (y0, g0))) /\ valued s vg (snd (pow_steps bits (y0, g0))) /\
       forall a, a One = f1 -> wits a nw ws -> Forall is_bit bits -> a y = y0 -> a g = g0 ->
         sat a new /\ bit_wires a nw 5 N = bits /\ (a outy, a outg) = pow_steps bits (y0, g0)) /\
  (forall a, a One = f1 -> sat a new -> Forall is_bit (bit_wires a nw 5 N) /\ (a outy, a outg) = pow_steps (bit_wires a nw 5 N) (a y, a g)).
Proof.
  induction N as [|N IH]; intros ni nw y g SY SG.
  - exists [], y, g. rewrite Nat.mul_0_r, Nat.add_0_r. split; [constructor|]. split; [reflexivity|]. split; [exact SY|]. split; [exact SG|]. split.
    + intros s bs yv gv bits y0 g0 _ _ L F UY VG. destruct bs; [|discriminate]. inversion F; subst. exists yv, gv, []. split; [reflexivity|]. split; [now rewrite ext_nil|]. split; [exact UY|]. split; [exact VG|].
      intros a _ _ _ <- <-. split; [apply sat_nil|]. split; reflexivity.
    + intros a _ _. split; [constructor|reflexivity].
  - destruct (pow_round_spec false ni nw y g SY SG) as (n1 & S1 & L1 & R1 & D1). unfold ki, pw, py, pg in *. rewrite Nat.add_0_r in *.
    destruct (IH ni (nw + 5) (Wit (nw + 3)) (Wit (nw + 4))) as (n2 & oy & og & S2 & L2 & OY & OG & R2 & D2); [cbn; lia|cbn; lia|].
    exists (n1 ++ n2), oy, og. replace (nw + 5 * S N) with (nw + 5 + 5 * N) by lia.
    split; [apply scoped_app; [eapply scoped_mono; [| |exact S1]; lia|exact S2]|]. split; [rewrite app_length; lia|]. split; [exact OY|]. split; [exact OG|]. split.
    + intros s bs yv gv bits y0 g0 NI NW L F UY VG. destruct bs as [|b bs]; [discriminate|]. inversion F as [|b' bit bs' bits' VB F']; subst.
      destruct (R1 s b yv gv bit y0 g0 eq_refl eq_refl VB UY VG) as (vy & vg & is & w1 & LI & LW1 & _ & E1 & VY1 & VG1 & C1). destruct is; [|discriminate].
      destruct (R2 (ext s [] w1 n1) bs vy vg bits' (fst (pow_step (y0, g0) bit)) (snd (pow_step (y0, g0) bit))) as (vy2 & vg2 & w2 & LW2 & E2 & VY2 & VG2 & C2).
      { rewrite ext_inst. cbn. lia. } { rewrite ext_wit. lia. } { now injection L. } { exact F'. } { apply (valued_usable s). exact VY1. } { exact VG1. }
      exists vy2, vg2, (w1 ++ w2). split; [rewrite app_length; lia|]. split.
      { cbn [forM]. unfold bindM. rewrite E1. cbn [bind]. rewrite E2, ext_ext. reflexivity. }
      split; [exact VY2|]. split; [exact VG2|]. intros a A1 AW IB AY AG. apply wits_app in AW. destruct AW as [AW1 AW2]. rewrite LW1 in AW2. inversion IB; subst.
      destruct (C1 a A1 (insts_nil _ _) AW1) as (SA1 & BI & O1); try assumption; try reflexivity. rewrite <- O1 in C2. cbn [fst snd] in C2.
      destruct (C2 a A1 AW2) as (SA2 & BW & O2); try assumption; try reflexivity. split; [apply sat_app; now split|]. split; [now rewrite bit_wires_S, BI, BW|].
      rewrite O2. cbn [pow_steps fold_left]. unfold pow_steps. now rewrite O1.
    + intros a A1 S. apply sat_app in S. destruct S as [SA SB]. destruct (D1 a A1 SA) as [B1 O1]. destruct (D2 a A1 SB) as [B2 O2]. rewrite bit_wires_S. split; [now constructor|].
      rewrite O2, O1. reflexivity.
Qed.

(** The loop of the circuit, from any values of the two starting wires. *)
Lemma pow_loop N ni nw y g : in_scope ni nw y -> in_scope ni nw g -> exists new,
  scoped (ni + 1) (nw + (5 * N + 4)) new /\ length new = 5 * (N + 1) /\
  (forall s bs yv gv bits y0 g0, n_inst s = ni -> n_wit s = nw -> length bs = N + 1 -> Forall2 (fun b bit => valued s (u8_bit b) bit) bs bits -> usable s yv y0 -> valued s gv g0 ->
     exists st ws, length ws = 5 * N + 4 /\
       forM (fun st i => let# b := lift (index bs i) in pow_round (i =? length bs - 1) b st) (seq 0 (length bs)) (y, yv, g, gv) s = Ok (st, ext s [fst (pow_steps bits (y0, g0))] ws new) /\
       forall a, a One = f1 -> insts a ni [fst (pow_steps bits (y0, g0))] -> wits a nw ws -> Forall is_bit bits -> a y = y0 -> a g = g0 ->
         sat a new /\ bit_wires a nw 5 (N + 1) = bits) /\
  (forall a, a One = f1 -> sat a new -> Forall is_bit (bit_wires a nw 5 (N + 1)) /\ a (Inst ni) = fst (pow_steps (bit_wires a nw 5 (N + 1)) (a y, a g))).
Proof.
  intros SY SG. destruct (pow_private N ni nw y g SY SG) as (n1 & oy & og & S1 & L1 & OY & OG & R1 & D1).
  destruct (pow_round_spec true ni (nw + 5 * N) oy og OY OG) as (n2 & S2 & L2 & R2 & D2). unfold ki, pw, py, pg in *.
  exists (n1 ++ n2). split; [apply scoped_app; [eapply scoped_mono; [| |exact S1]; lia|eapply scoped_mono; [| |exact S2]; lia]|]. split; [rewrite app_length; lia|].
  assert (PS : forall l b st, pow_steps (l ++ [b]) st = pow_step (pow_steps l st) b) by (intros; unfold pow_steps; now rewrite fold_left_app).
  split.
  - intros s bs yv gv bits y0 g0 NI NW L F UY VG. destruct (exists_last (l := bs)) as (bl & bz & EB); [intros ->; cbn in L; lia|]. subst bs. rewrite app_length in L. cbn [length] in L.
    apply Forall2_app_inv_l in F. destruct F as (l1 & l2 & F1 & F2 & ->). inversion F2 as [|? z ? ? VZ F2']; subst. inversion F2'; subst. rewrite PS.
    destruct (R1 s bl yv gv l1 y0 g0) as (vy & vg & w1 & LW1 & E1 & VY1 & VG1 & C1); try assumption; try reflexivity; [lia|].
    destruct (R2 (ext s [] w1 n1) bz vy vg z (fst (pow_steps l1 (y0, g0))) (snd (pow_steps l1 (y0, g0)))) as (vy2 & vg2 & is & w2 & LI & LW2 & IS & E2 & _ & _ & C2).
    { rewrite ext_inst. cbn. lia. } { rewrite ext_wit. lia. } { exact VZ. } { exact VY1. } { exact VG1. }
    rewrite <- surjective_pairing in IS, C2. specialize (IS eq_refl). subst is. eexists. exists (w1 ++ w2). split; [rewrite app_length; lia|]. split.
    + rewrite (forM_last (bl ++ [bz]) (length (bl ++ [bz])) bl bz pow_round) by reflexivity. unfold bindM. rewrite E1. cbn [bind]. rewrite E2, ext_ext. cbn [app]. reflexivity.
    + intros a A1 AI AW IB AY AG. apply wits_app in AW. destruct AW as [AW1 AW2]. rewrite LW1 in AW2. apply Forall_app in IB. destruct IB as [IB1 IB2]. inversion IB2; subst.
      destruct (C1 a A1 AW1) as (SA1 & BW & O1); try assumption; try reflexivity.
      destruct (C2 a A1 AI AW2) as (SA2 & BI & O2); try assumption; try (rewrite <- O1; reflexivity). split; [apply sat_app; now split|]. now rewrite bit_wires_snoc, BW, BI.
  - intros a A1 S. apply sat_app in S. destruct S as [SA SB]. destruct (D1 a A1 SA) as [B1 O1]. destruct (D2 a A1 SB) as [B2 O2]. rewrite bit_wires_snoc. split; [apply Forall_app; split; [exact B1|now constructor]|].
    rewrite PS, <- O1, <- O2. reflexivity.
Qed.

(** The circuit. *)
Lemma pow_circuit_spec : exists new,
  scoped 1 101 new /\ length new = 100 /\
  (forall s bs gv bits g0, n_inst s = 0 -> n_wit s = 0 -> length bs = 20 -> Forall2 (fun b bit => valued s (u8_bit b) bit) bs bits -> valued s gv g0 ->
     exists ws, length ws = 101 /\ pow_circuit gv bs s = Ok (tt, ext s [fst (pow_steps bits (f1, g0))] ws new) /\
       forall a, a One = f1 -> insts a 0 [fst (pow_steps bits (f1, g0))] -> wits a 0 ws -> Forall is_bit bits ->
         sat a new /\ a (Wit 0) = f1 /\ a (Wit 1) = g0 /\ bit_wires a 2 5 20 = bits) /\
  (forall a, a One = f1 -> sat a new -> Forall is_bit (bit_wires a 2 5 20) /\ a (Inst 0) = fst (pow_steps (bit_wires a 2 5 20) (a (Wit 0), a (Wit 1)))) /\
  (forall y0 g0 bits, length bits = 20 -> (forall b, In b bits -> b = f0 \/ b = f1) -> exists a, a One = f1 /\ sat a new /\ a (Wit 0) = y0 /\ a (Wit 1) = g0 /\ bit_wires a 2 5 20 = bits).
Proof.
  destruct (pow_loop 19 0 2 (Wit 0) (Wit 1)) as (new & S1 & L1 & R1 & D1); [cbn; lia|cbn; lia|]. exists new. split; [exact S1|]. split; [exact L1|].
  assert (BITS : forall bits : list K, (forall b, In b bits -> b = f0 \/ b = f1) -> exists bs, Forall2 (fun b bit => u8_bit b = Some bit) bs bits).
  { induction bits as [|b bits IH]; intros H; [now exists []|]. destruct IH as [bs F]; [intros; apply H; now right|].
    destruct (H b (or_introl eq_refl)) as [->| ->]; [exists (Some 0%Z :: bs)|exists (Some 1%Z :: bs)]; constructor; (reflexivity || assumption). }
  split; [|split].
  - intros s bs gv bits g0 NI NW L F VG.
    destruct (R1 (ext s [] [f1; g0] []) bs (Some f1) gv bits f1 g0) as (st & ws & LW & E & C).
    { rewrite ext_inst. cbn. lia. } { rewrite ext_wit. cbn. lia. } { exact L. } { exact F. } { apply usable_some. } { exact VG. }
    exists ([f1; g0] ++ ws). split; [rewrite app_length, LW; reflexivity|]. split.
    + unfold pow_circuit. change POW_INPUT_SIZE with 20. rewrite (proj2 (Nat.eqb_eq _ _) L). unfold bindM at 1 2. rewrite (new_witness_run _ _ f1) by us. cbn [bind]. rewrite (new_witness_run _ _ g0) by now apply (valued_usable (ext s [] [f1] [])). cbn [bind].
      rewrite ext_ext, ext_wit, NW. cbn [app length Nat.add]. unfold bindM at 1. rewrite L in E. change POW_INPUT_SIZE with 20. rewrite E. cbn [bind]. unfold ret. rewrite ext_ext. reflexivity.
    + intros a A1 AI AW IB. apply wits_app in AW. destruct AW as [AW0 AW]. cbn [length Nat.add] in AW. pose proof (C a A1 AI AW IB) as C0. vals. destruct C0 as [SA BW]; try assumption; auto.
  - exact D1.
  - intros y0 g0 bits L IB. destruct (BITS bits IB) as [bs F]. assert (LB : length bs = 20) by (rewrite <- L; clear -F; induction F; cbn; congruence).
    destruct (R1 (mkCs false 0 2 [] [] []) bs (Some y0) (Some g0) bits y0 g0) as (st & ws & LW & E & C); [reflexivity|reflexivity|exact LB|exact F|apply usable_some|reflexivity|].
    set (a := over (fun v => match v with One => f1 | _ => f0 end : K) 0 0 [fst (pow_steps bits (y0, g0))] ([y0; g0] ++ ws)). exists a. split; [reflexivity|].
    assert (AW : wits a 0 ([y0; g0] ++ ws)) by apply over_wits. apply wits_app in AW. destruct AW as [AW0 AW]. cbn [length Nat.add] in AW. vals.
    destruct (C a) as [SA BW]; try assumption; try reflexivity; [apply over_insts| |auto].
    apply Forall_forall. intros b B. unfold is_bit. destruct (IB b B) as [-> | ->]; ring.
Qed.
End Pow.
