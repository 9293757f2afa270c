(** The proof-of-space circuit: honest assignments, and satisfying assignments for every
    public statement. *)
From Verif Require Import Base Field Mimc R1cs Circuits MimcFacts R1csFacts DfCircuitFacts HashCircuitFacts PowCircuitFacts EqualCircuitFacts.

Section Pospace.
Context {K : prime_ops} (PF : is_prime_field K).
Let HK : is_ring K := F_R (pf_field K PF).
Add Ring kring : (HK : ring_theory f0 f1 fadd fmul fsub fopp (@eq K)).

Definition fb (b : bool) : K := if b then f1 else f0.
Definition bits_of (z : Z) (n : nat) : list bool := map (fun i => Z.testbit z (Z.of_nat i)) (seq 0 n).
Definition bits_for (s : cs K) (bs : list (option bool)) (bits : list K) : Prop := Forall2 (fun b bit => valued s (bit_value b) bit) bs bits.

Lemma value_bits_run s v x size : size <= 256 -> valued s v x -> exists bs, value_bits size v = Ok bs /\ length bs = size /\ bits_for s bs (map fb (bits_of (repr x) size)).
Proof.
  intros LS V. unfold valued in V. unfold value_bits, bits_for, valued. destruct (setup s) eqn:SU; subst v.
  - exists (repeat None size). split; [reflexivity|]. split; [apply repeat_length|]. unfold bits_of. generalize 0 as k. clear LS. induction size as [|size IH]; intros k; cbn [repeat seq map]; constructor; [reflexivity|apply IH].
  - exists (map Some (bits_of (repr x) size)). split; [|split].
    + assert (IX : forall i, i < 256 -> index (map (fun i => Z.testbit (repr x) (Z.of_nat i)) (seq 0 256)) i = Ok (Z.testbit (repr x) (Z.of_nat i))).
      { intros i I. unfold index. rewrite nth_error_map, (nth_error_nth' _ 0) by (rewrite seq_length; lia). rewrite seq_nth by lia. reflexivity. }
      remember (map (fun i => Z.testbit (repr x) (Z.of_nat i)) (seq 0 256)) as L256 eqn:EL. clear EL. cbn zeta.
      unfold bits_of. rewrite map_map. assert (G : forall k, k + size <= 256 -> mapM (fun i => let* b := index L256 i in Ok (Some b)) (seq k size) = Ok (map (fun i => Some (Z.testbit (repr x) (Z.of_nat i))) (seq k size))); [|now apply G].
      clear LS. induction size as [|size IH]; intros k L; [reflexivity|]. cbn [seq mapM map]. rewrite IX by lia. cbn [bind]. rewrite IH by lia. reflexivity.
    + unfold bits_of. now rewrite !map_length, seq_length.
    + generalize (bits_of (repr x) size) as l. induction l as [|b l IH]; cbn [map]; constructor; [destruct b; reflexivity|exact IH].
Qed.
Lemma fb_bit b : is_bit (fb b).
Proof. unfold is_bit. destruct b; cbn [fb]; ring. Qed.
Lemma fb_bits l : Forall is_bit (map fb l).
Proof. apply Forall_forall. intros x X. apply in_map_iff in X. destruct X as (b & <- & _). apply fb_bit. Qed.

(** Recomposition of the low bits of an integer. *)
Lemma dec_bits n : forall z t y, (0 <= z)%Z ->
  dec_steps (map fb (bits_of z n)) (of_Z t, of_Z y) = (of_Z (t * 2 ^ Z.of_nat n), of_Z (y + t * (z mod 2 ^ Z.of_nat n))).
Proof.
  induction n as [|n IH]; intros z t y Z0.
  - cbn [bits_of seq map dec_steps fold_left]. change (Z.of_nat 0) with 0%Z. rewrite Z.pow_0_r, Z.mod_1_r, Z.mul_1_r, Z.mul_0_r, Z.add_0_r. reflexivity.
  - assert (EB : bits_of z (S n) = Z.testbit z 0 :: bits_of (z / 2) n).
    { unfold bits_of. cbn [seq map]. f_equal. rewrite <- seq_shift, map_map. apply map_ext. intros i. rewrite Z.div2_bits by lia. f_equal. lia. }
    rewrite EB. cbn [map]. change (dec_steps (fb (Z.testbit z 0) :: map fb (bits_of (z / 2) n)) (of_Z t, of_Z y)) with (dec_steps (map fb (bits_of (z / 2) n)) (dec_step (of_Z t, of_Z y) (fb (Z.testbit z 0)))).
    assert (TW : fadd f1 f1 = of_Z 2 :> K) by (change 2%Z with (1 + 1)%Z; rewrite (pf_add K PF), (pf_1 K PF); reflexivity).
    assert (BB : fb (Z.testbit z 0) = of_Z (z mod 2)).
    { rewrite Z.bit0_odd. rewrite Zmod_odd. destruct (Z.odd z); cbn [fb]; symmetry; [apply pf_1|apply pf_0]; exact PF. }
    unfold dec_step. cbn [fst snd]. rewrite TW, BB, <- !(pf_mul K PF), <- (pf_add K PF). rewrite IH by (apply Z.div_pos; lia).
    rewrite Nat2Z.inj_succ, Z.pow_succ_r by lia. f_equal; [f_equal; ring|f_equal].
    rewrite Z.rem_mul_r by (try apply Z.pow_nonzero; lia || (apply Z.pow_pos_nonneg; lia)). ring.
Qed.
Lemma dec_low z n : (0 <= z)%Z -> snd (dec_steps (map fb (bits_of z n)) (f1, f0)) = of_Z (z mod 2 ^ Z.of_nat n).
Proof.
  intros Z0. rewrite <- (pf_1 K PF), <- (pf_0 K PF), dec_bits by exact Z0. cbn [snd]. f_equal. ring.
Qed.
Lemma dec_zero n : forall t y : K, snd (dec_steps (repeat f0 n) (t, y)) = y.
Proof.
  induction n as [|n IH]; intros t y; [reflexivity|]. cbn [repeat]. change (snd (dec_steps (repeat f0 n) (dec_step (t, y) f0)) = y). unfold dec_step. cbn [fst snd]. rewrite IH. ring.
Qed.
Lemma zero_bits n : Forall (is_bit (K := K)) (repeat f0 n).
Proof. apply Forall_forall. intros x X. apply repeat_spec in X. subst. unfold is_bit. ring. Qed.

(** One bit: bit = Wit nw, tmp = Wit (nw + 1), newtwo = Wit (nw + 2). *)
Lemma bit_step_spec ni nw y two : in_scope ni nw y -> in_scope ni nw two -> exists new : list (r1c K),
  scoped ni (nw + 3) new /\ length new = 3 /\
  (forall s b yv tv bit y0 t0, n_inst s = ni -> n_wit s = nw -> valued s (bit_value b) bit -> usable s yv y0 -> usable s tv t0 ->
     exists vy vt ws, length ws = 3 /\
       bit_step b (y, yv, two, tv) s = Ok ((Wit (nw + 1), vy, Wit (nw + 2), vt), ext s [] ws new) /\
       usable s vy (snd (dec_step (t0, y0) bit)) /\ usable s vt (fst (dec_step (t0, y0) bit)) /\
       forall a, a One = f1 -> wits a nw ws -> is_bit bit -> a y = y0 -> a two = t0 ->
         sat a new /\ a (Wit nw) = bit /\ (a (Wit (nw + 2)), a (Wit (nw + 1))) = dec_step (t0, y0) bit).
Proof.
  intros SY ST.
  exists [([(f1, Wit nw)], [(f1, Wit nw)], [(f1, Wit nw)]); ([(f1, Wit nw)], [(f1, two)], [(f1, Wit (nw + 1)); (fopp f1, y)]); ([(f1, two)], [(fadd f1 f1, One)], [(f1, Wit (nw + 2))])].
  split; [scope|]. split; [reflexivity|].
  intros s b yv tv bit y0 t0 <- <- VB UY UT. unfold valued in VB. set (t1 := fadd (fmul bit t0) y0). set (nt := fmul t0 (fadd f1 f1)).
  set (vt := match tv with Some e => Some (fmul e (fadd f1 f1)) | None => None end).
  assert (VT : omap tv (fun e : K => Ok (fmul e (fadd f1 f1))) = Ok vt) by (unfold vt; destruct tv; reflexivity).
  assert (UV : usable s vt nt) by (intros SU; unfold vt; now rewrite (UT SU)).
  exists (if setup s then None else Some t1), vt, [bit; t1; nt]. split; [reflexivity|]. split; [|split; [|split]].
  - unfold bit_step, bindM, lift. rewrite VT. clearbody vt. destruct (setup s) eqn:SU.
    + rewrite VB. cbn [omap bind unwrap]. wit bit. enf. wit t1. enf. wit nt. enf. unfold ret. cbn [app length]. now rewrite ?Nat.add_0_r, <- ?Nat.add_assoc.
    + rewrite VB, (UT SU), (UY SU). cbn [omap bind unwrap]. wit bit. enf. wit t1. enf. wit nt. enf. unfold ret. cbn [app length]. now rewrite ?Nat.add_0_r, <- ?Nat.add_assoc.
  - intros SU. now rewrite SU.
  - exact UV.
  - intros a A1 AW IB AY AT. unfold is_bit in IB. set (w := n_wit s) in *. vals. replace (w + 1) with (S w) by lia. replace (w + 2) with (S (S w)) by lia. split; [|split].
    + goaleqs; rewrite ?A1, ?AT, ?AY; repeat match goal with H : a (Wit _) = _ |- _ => rewrite H; clear H end; unfold nt, t1; try ring. transitivity (fmul bit bit); [ring|]. rewrite IB. ring.
    + assumption.
    + unfold dec_step. cbn [fst snd]. fold t1 nt. congruence.
Qed.

Lemma bits_loop : forall N ni nw y two, in_scope ni nw y -> in_scope ni nw two -> exists (new : list (r1c K)) outy outt,
  scoped ni (nw + 3 * N) new /\ length new = 3 * N /\ in_scope ni (nw + 3 * N) outy /\ in_scope ni (nw + 3 * N) outt /\
  (forall s bs yv tv bits y0 t0, n_inst s = ni -> n_wit s = nw -> length bs = N -> bits_for s bs bits -> usable s yv y0 -> usable s tv t0 ->
     exists vy vt ws, length ws = 3 * N /\
       forM (fun st b => bit_step b st) bs (y, yv, two, tv) s = Ok ((outy, vy, outt, vt), ext s [] ws new) /\
       usable s vy (snd (dec_steps bits (t0, y0))) /\ usable s vt (fst (dec_steps bits (t0, y0))) /\
       forall a, a One = f1 -> wits a nw ws -> Forall is_bit bits -> a y = y0 -> a two = t0 ->
         sat a new /\ a outy = snd (dec_steps bits (t0, y0)) /\ a outt = fst (dec_steps bits (t0, y0))).
Proof.
  induction N as [|N IH]; intros ni nw y two SY ST.
  - exists [], y, two. rewrite Nat.mul_0_r, Nat.add_0_r. split; [constructor|]. split; [reflexivity|]. split; [exact SY|]. split; [exact ST|].
    intros s bs yv tv bits y0 t0 _ _ L F UY UT. destruct bs; [|discriminate]. inversion F; subst. exists yv, tv, []. split; [reflexivity|]. split; [cbn [forM]; rewrite ext_nil; reflexivity|]. split; [exact UY|]. split; [exact UT|].
    intros a _ _ _ AY AT. split; [apply sat_nil|]. split; assumption.
  - destruct (bit_step_spec ni nw y two SY ST) as (n1 & S1 & L1 & R1).
    destruct (IH ni (nw + 3) (Wit (nw + 1)) (Wit (nw + 2))) as (n2 & oy & ot & S2 & L2 & OY & OT & R2); [cbn; lia|cbn; lia|].
    exists (n1 ++ n2), oy, ot. replace (nw + 3 * S N) with (nw + 3 + 3 * N) by lia.
    split; [apply scoped_app; [eapply scoped_mono; [| |exact S1]; lia|exact S2]|]. split; [rewrite app_length; lia|]. split; [exact OY|]. split; [exact OT|].
    intros s bs yv tv bits y0 t0 NI NW L F UY UT. destruct bs as [|b bs]; [discriminate|]. inversion F as [|b' bit bs' bits' VB F']; subst.
    destruct (R1 s b yv tv bit y0 t0 eq_refl eq_refl VB UY UT) as (vy & vt & w1 & LW1 & E1 & UY1 & UT1 & C1).
    destruct (R2 (ext s [] w1 n1) bs vy vt bits' (snd (dec_step (t0, y0) bit)) (fst (dec_step (t0, y0) bit))) as (vy2 & vt2 & w2 & LW2 & E2 & UY2 & UT2 & C2).
    { rewrite ext_inst. cbn. lia. } { rewrite ext_wit. lia. } { now injection L. } { exact F'. } { exact UY1. } { exact UT1. }
    rewrite <- surjective_pairing in UY2, UT2, C2.
    exists vy2, vt2, (w1 ++ w2). split; [rewrite app_length; lia|]. split.
    { cbn [forM]. unfold bindM. rewrite E1. cbn [bind]. rewrite E2, ext_ext. reflexivity. }
    split; [exact UY2|]. split; [exact UT2|]. intros a A1 AW IB AY AT. apply wits_app in AW. destruct AW as [AW1 AW2]. rewrite LW1 in AW2. inversion IB; subst.
    destruct (C1 a A1 AW1) as (SA1 & BI & O1); try assumption; try reflexivity.
    destruct (C2 a A1 AW2) as (SA2 & OO & OT'); try assumption; try (rewrite <- O1; reflexivity). split; [apply sat_app; now split|]. now split.
Qed.

Lemma zero_run s n : setup s = false -> exists bs, length bs = n /\ bits_for s bs (repeat f0 n).
Proof.
  intros SU. exists (repeat (Some false) n). split; [apply repeat_length|]. unfold bits_for, valued. rewrite SU. induction n; cbn [repeat]; constructor; (reflexivity || assumption).
Qed.
Lemma bit_step_eta {A} b st s (k : var * option K * var * option K -> M K A) :
  bindM (bit_step b st) (fun r => let '(y, yv, t, tv) := r in k (y, yv, t, tv)) s = bindM (bit_step b st) k s.
Proof. unfold bindM. destruct (bit_step b st s) as [[[[[y yv] t] tv] s']|]; reflexivity. Qed.

(** ** The part that publishes yn (from the wire y) *)
Lemma yn_part_spec ni nw y : in_scope ni nw y -> exists new : list (r1c K),
  scoped (ni + 1) (nw + 62) new /\ length new = 62 /\
  (forall s ynv yn, n_inst s = ni -> n_wit s = nw -> valued s ynv yn -> exists ws, length ws = 62 /\
     yn_part ynv y s = Ok (tt, ext s [yn] ws new) /\
     forall a, a One = f1 -> insts a ni [yn] -> wits a nw ws -> a y = yn -> (repr yn < 2 ^ 20)%Z -> sat a new) /\
  (forall a, a One = f1 -> sat a new -> a (Inst ni) = a y) /\
  (forall a, a One = f1 -> exists b, agree ni nw a b /\ b One = f1 /\ sat b new).
Proof.
  intros SY. destruct (bits_loop 19 ni (nw + 2) (Wit nw) (Wit (nw + 1))) as (n1 & oy & ot & S1 & L1 & OY & OT & R1); [cbn; lia|cbn; lia|].
  destruct (bit_step_spec ni (nw + 2 + 57) oy ot OY OT) as (n2 & S2 & L2 & R2).
  set (w := nw + 60) in *. set (n3 := [([(f1, Inst ni)], [(f1, One)], [(f1, Wit w)]); ([(f1, Wit w)], [(f1, One)], [(f1, y)])] : list (r1c K)).
  exists (n1 ++ n2 ++ n3). replace (nw + 2 + 57 + 1) with w in R2 by (unfold w; lia).
  assert (D3 : forall a, a One = f1 -> sat a n3 <-> a (Inst ni) = a (Wit w) /\ a (Wit w) = a y).
  { intros a A1. unfold n3. split.
    - intros S. eqs. rewrite ?A1, ?(sum1 HK) in *. split; [symmetry; etransitivity; [symmetry; eassumption|ring]|symmetry; etransitivity; [symmetry; eassumption|ring]].
    - intros [E1 E2]. goaleqs; rewrite A1, ?E1, ?E2; ring. }
  split; [|split; [|split; [|split]]].
  - apply scoped_app; [eapply scoped_mono; [| |exact S1]; lia|]. apply scoped_app; [eapply scoped_mono; [| |exact S2]; lia|]. unfold n3, w. scope.
  - rewrite !app_length, L1, L2. reflexivity.
  - intros s ynv yn NI NW VY. destruct (value_bits_run s ynv yn YN_SIZE) as (bs & EB & LB & BF); [unfold YN_SIZE; lia|exact VY|]. change YN_SIZE with 20 in LB, BF.
    destruct (exists_last (l := bs)) as (bl & bz & EZ); [intros ->; discriminate|]. subst bs. rewrite app_length in LB. cbn [length] in LB.
    apply Forall2_app_inv_l in BF. destruct BF as (l1 & l2 & F1 & F2 & EL). inversion F2 as [|? z ? ? VZ F2']; subst l2. inversion F2'; subst.
    destruct (R1 (ext s [] [f0; f1] []) bl (Some f0) (Some f1) l1 f0 f1) as (vy & vt & w1 & LW1 & E1 & UY & UT & C1).
    { rewrite ext_inst. cbn. lia. } { rewrite ext_wit. cbn. lia. } { lia. } { exact F1. } { apply usable_some. } { apply usable_some. }
    destruct (R2 (ext s [] ([f0; f1] ++ w1) n1) bz vy vt z (snd (dec_steps l1 (f1, f0))) (fst (dec_steps l1 (f1, f0)))) as (vy2 & vt2 & w2 & LW2 & E2 & UY2 & UT2 & C2).
    { rewrite ext_inst. cbn. lia. } { rewrite ext_wit, app_length, LW1. cbn [length]. lia. } { exact VZ. } { exact UY. } { exact UT. }
    rewrite <- surjective_pairing in UY2, UT2, C2.
    exists ([f0; f1] ++ w1 ++ w2). split; [rewrite !app_length, LW1, LW2; reflexivity|]. split.
    + unfold yn_part. unfold bindM at 1, lift at 1. rewrite EB. cbn [bind]. unfold bindM at 1 2. rewrite (new_witness_run _ _ f0) by us. cbn [bind]. rewrite (new_witness_run _ _ f1) by us. cbn [bind]. rewrite ext_ext, ext_wit. cbn [app length].
      unfold bindM at 1.
      rewrite (forM_last (bl ++ [bz]) (length (bl ++ [bz])) bl bz (fun fl b st => let# (yn, yn_val, two, two_val) := bit_step b st in
        let# _ := (if fl then let# yyn := new_input ynv in let# _ := enforce [(f1, yyn)] [(f1, One)] [(f1, yn)] in enforce [(f1, yn)] [(f1, One)] [(f1, y)] else ret tt) in
        ret (yn, yn_val, two, two_val))) by reflexivity.
      unfold bindM at 1.
      assert (PL : forall l st s, forM (fun st d => let# (yn, yn_val, two, two_val) := bit_step d st in let# _ := ret tt in ret (yn, yn_val, two, two_val)) l st s = forM (fun st b => bit_step (K := K) b st) l st s).
      { clear. induction l as [|b l IH]; intros st s; [reflexivity|]. cbn [forM]. unfold bindM, ret. destruct (bit_step b st s) as [[[[[p q] r] t] s']|]; [|reflexivity]. cbn [bind]. apply IH. }
      rewrite PL. cbn [Nat.add] in *. rewrite E1. cbn [bind]. rewrite ext_ext. cbn [app] in *. unfold bindM at 1. rewrite E2. cbn [bind]. rewrite ext_ext. unfold bindM, ret. cbn [bind]. inp yn. enf. cbn [bind]. enf. cbn [bind app]. rewrite ?app_nil_r, <- ?app_assoc. cbn [app length]. rewrite ?Nat.add_0_r. reflexivity.
    + intros a A1 AI AW AY LT. apply wits_app in AW. destruct AW as [AW0 AW]. apply wits_app in AW. destruct AW as [AW1 AW2]. rewrite LW1 in AW2. cbn [length] in *.
      assert (IB : Forall is_bit (l1 ++ [z])) by (rewrite <- EL; apply fb_bits). apply Forall_app in IB. destruct IB as [IB1 IB2]. apply Forall_inv in IB2.
      destruct (C1 a A1 AW1 IB1) as (SA1 & O1 & O2); [vals; assumption|vals; rewrite Nat.add_1_r; assumption|].
      destruct (C2 a A1) as (SA2 & _ & O3); try assumption.
      assert (OW : a (Wit w) = yn).
      { transitivity (snd (dec_steps (l1 ++ [z]) (f1, f0))); [rewrite dec_steps_app; change (dec_steps [z] (dec_steps l1 (f1, f0))) with (dec_step (dec_steps l1 (f1, f0)) z); rewrite <- O3; reflexivity|].
        rewrite <- EL, dec_low by apply (pf_repr K PF). rewrite Z.mod_small by (pose proof (pf_repr K PF yn); lia). apply (pf_of_repr K PF). }
      apply sat_app. split; [exact SA1|]. apply sat_app. split; [exact SA2|]. apply D3; [exact A1|]. vals. split; congruence.
  - intros a A1 S. apply sat_app in S. destruct S as [_ S]. apply sat_app in S. destruct S as [_ S]. apply D3 in S; [|exact A1]. destruct S. congruence.
  - intros a A1. set (v := a y). destruct (zero_run (mkCs false ni (nw + 2) [] [] []) 19 eq_refl) as (bl & LB & BF).
    destruct (R1 (mkCs false ni (nw + 2) [] [] []) bl (Some v) (Some f0) (repeat f0 19) v f0) as (vy & vt & w1 & LW1 & _ & _ & _ & C1); [reflexivity|reflexivity|exact LB|exact BF|apply usable_some|apply usable_some|].
    destruct (R2 (mkCs false ni (nw + 2 + 57) [] [] []) (Some false) (Some (snd (dec_steps (repeat f0 19) (f0, v)))) (Some (fst (dec_steps (repeat f0 19) (f0, v)))) f0 (snd (dec_steps (repeat f0 19) (f0, v))) (fst (dec_steps (repeat f0 19) (f0, v)))) as (_ & _ & w2 & LW2 & _ & _ & _ & C2); [reflexivity|reflexivity|reflexivity|apply usable_some|apply usable_some|].
    rewrite <- surjective_pairing in C2.
    set (b := over a ni nw [v] ([v; f0] ++ w1 ++ w2)). exists b. assert (AG : agree ni nw a b) by apply over_agree. split; [exact AG|]. assert (B1 : b One = f1) by exact A1. split; [exact B1|].
    assert (AW : wits b nw ([v; f0] ++ w1 ++ w2)) by apply over_wits. assert (AI : insts b ni [v]) by apply over_insts.
    apply wits_app in AW. destruct AW as [AW0 AW]. apply wits_app in AW. destruct AW as [AW1 AW2]. rewrite LW1 in AW2. cbn [length] in *. pose proof (zero_bits 19) as ZB.
    destruct (C1 b B1 AW1 ZB) as (SA1 & O1 & O2); [vals; assumption|vals; rewrite Nat.add_1_r; assumption|].
    destruct (C2 b B1 AW2) as (SA2 & _ & O3); [unfold is_bit; ring|exact O1|exact O2|].
    apply sat_app. split; [exact SA1|]. apply sat_app. split; [exact SA2|]. apply D3; [exact B1|].
    assert (OW : b (Wit w) = v).
    { transitivity (snd (dec_steps (repeat f0 20) (f0, v))); [|apply dec_zero]. change (repeat (f0 : K) 20) with (repeat (f0 : K) 19 ++ [f0]). rewrite dec_steps_app. change (dec_steps [f0] (dec_steps (repeat f0 19) (f0, v))) with (dec_step (dec_steps (repeat f0 19) (f0, v)) f0). rewrite <- O3. reflexivity. }
    vals. split; [congruence|]. rewrite <- (AG _ SY). exact OW.
Qed.

(** ** The part about the output of the delay function *)
Definition y_body (n : nat) (xl_val yn_in : option K) (k : nat) (b : option bool) (st : var * option K * var * option K) : M K (var * option K * var * option K) :=
  let# (y, y_val, two, two_val) := bit_step b st in
  let# _ := (if k =? n - 1 then
    let# yy := new_witness xl_val in
    enforce [(f1, y)] [(f1, One)] [(f1, yy)] else ret tt) in
  let# _ := (if k =? YN_SIZE - 1 then yn_part yn_in y else ret tt) in
  ret (y, y_val, two, two_val).
Lemma combine_seq_app {A} (l m : list A) : forall k, combine (seq k (length (l ++ m))) (l ++ m) = combine (seq k (length l)) l ++ combine (seq (k + length l) (length m)) m.
Proof.
  induction l as [|x l IH]; intros k; cbn [app length seq combine]; [now rewrite Nat.add_0_r|]. rewrite IH. now rewrite <- Nat.add_succ_comm.
Qed.
Lemma y_plain n xv ynv : forall l k st s, (forall i, k <= i < k + length l -> i <> n - 1 /\ i <> 19) ->
  forM (fun st ic => y_body n xv ynv (fst ic) (snd ic) st) (combine (seq k (length l)) l) st s = forM (fun st b => bit_step (K := K) b st) l st s.
Proof.
  induction l as [|b l IH]; intros k st s H; [reflexivity|]. cbn [length seq combine forM]. unfold bindM. cbn [fst snd]. destruct (H k) as [H1 H2]; [cbn; lia|].
  unfold y_body at 1. rewrite (proj2 (Nat.eqb_neq _ _) H1). change (YN_SIZE - 1) with 19. rewrite (proj2 (Nat.eqb_neq _ _) H2). unfold bindM, ret. destruct (bit_step b st s) as [[[[[y yv] t] tv] s']|]; [|reflexivity]. cbn [bind]. apply IH. intros i I. apply H. cbn [length]. lia.
Qed.
Lemma y_part_eq xv ynv s l1 l2 : value_bits Y_SIZE xv = Ok (l1 ++ l2) -> length l1 = 20 -> length l2 = 236 ->
  y_part xv ynv s =
  (let# y := new_witness (Some f0) in
   let# two := new_witness (Some f1) in
   let# st1 := forM (fun st b => bit_step (K := K) b st) l1 (y, Some f0, two, Some f1) in
   let# _ := yn_part ynv (fst (fst (fst st1))) in
   let# st2 := forM (fun st b => bit_step (K := K) b st) l2 st1 in
   let# yy := new_witness xv in
   enforce [(f1, fst (fst (fst st2)))] [(f1, One)] [(f1, yy)]) s.
Proof.
  intros EB L1 L2. unfold y_part. rewrite ?bindM_run. unfold lift at 1. rewrite EB. cbn [bind fst snd]. rewrite ?bindM_run. destruct (new_witness (Some f0) s) as [[y s1]|]; [|reflexivity]. cbn [bind fst snd].
  rewrite ?bindM_run. destruct (new_witness (Some f1) s1) as [[two s2]|]; [|reflexivity]. cbn [bind fst snd].
  set (st := (y, Some f0, two, Some f1)). rewrite ?bindM_run.
  pose proof (forM_index (l1 ++ l2) (y_body (length (l1 ++ l2)) xv ynv) (l1 ++ l2) [] st s2 eq_refl) as FI. cbn [length] in FI. unfold y_body at 1 in FI. rewrite FI. clear FI.
  destruct (exists_last (l := l1)) as (m1 & b1 & E1); [intros ->; discriminate|]. destruct (exists_last (l := l2)) as (m2 & b2 & E2); [intros ->; discriminate|].
  assert (M1 : length m1 = 19) by (subst l1; rewrite app_length in L1; cbn in L1; lia). assert (M2 : length m2 = 235) by (subst l2; rewrite app_length in L2; cbn in L2; lia).
  assert (LN : length (l1 ++ l2) = 256) by (rewrite app_length, L1, L2; reflexivity).
  assert (CS : combine (seq 0 (length (l1 ++ l2))) (l1 ++ l2) = combine (seq 0 19) m1 ++ [(19, b1)] ++ combine (seq 20 235) m2 ++ [(255, b2)]).
  { rewrite combine_seq_app. rewrite L1. subst l1 l2. rewrite <- L1 at 1. rewrite !combine_seq_app, M1, M2. cbn [length Nat.add seq combine]. now rewrite <- !app_assoc. }
  rewrite CS, LN. clear CS LN. remember 256 as n256 eqn:E256. subst l1 l2. remember (combine (seq 0 19) m1) as c1 eqn:EC1. remember (combine (seq 20 235) m2) as c2 eqn:EC2.
  rewrite !forM_app, !bindM_run. pose proof (y_plain n256 xv ynv m1 0 st s2) as YP. rewrite M1, <- EC1 in YP. rewrite YP by (intros; lia). clear YP.
  destruct (forM (fun st b => bit_step (K := K) b st) m1 st s2) as [[st1 s3]|]; [|reflexivity]. cbn [bind fst snd]. rewrite !forM_app, !bindM_run. cbn [forM]. rewrite ?bindM_run. cbn [fst snd].
  unfold y_body at 1. rewrite ?bindM_run. destruct (bit_step b1 st1 s3) as [[[[[y1 yv1] t1] tv1] s4]|]; [|reflexivity]. cbn [bind fst snd]. replace (19 =? n256 - 1) with false by (subst; reflexivity). change (19 =? YN_SIZE - 1) with true. cbn iota. rewrite ?bindM_run. unfold ret. cbn [bind fst snd]. rewrite ?bindM_run. cbn [bind fst snd]. rewrite ?bindM_run. unfold ret. cbn [bind fst snd]. rewrite ?bindM_run. cbn [bind fst snd].
  destruct (yn_part ynv y1 s4) as [[u s5]|]; [|reflexivity]. cbn [bind fst snd]. unfold ret. cbn [bind fst snd]. rewrite ?bindM_run. cbn [bind fst snd]. rewrite !forM_app, !bindM_run.
  pose proof (y_plain n256 xv ynv m2 20 (y1, yv1, t1, tv1) s5) as YP. rewrite M2, <- EC2 in YP. rewrite YP by (intros; lia). clear YP.
  destruct (forM (fun st b => bit_step (K := K) b st) m2 (y1, yv1, t1, tv1) s5) as [[st2 s6]|]; [|reflexivity]. cbn [bind fst snd forM]. rewrite ?bindM_run. cbn [fst snd]. unfold y_body at 1. rewrite ?bindM_run.
  destruct (bit_step b2 st2 s6) as [[[[[y2 yv2] t2] tv2] s7]|]; [|reflexivity]. cbn [bind fst snd]. cbn [Nat.add]. replace (255 =? n256 - 1) with true by (subst; reflexivity). change (255 =? YN_SIZE - 1) with false. cbn iota. unfold ret. rewrite ?bindM_run. cbn [bind fst snd]. rewrite ?bindM_run.
  destruct (new_witness xv s7) as [[yy s8]|]; [|reflexivity]. cbn [bind fst snd]. rewrite enforce_run. reflexivity.
Qed.

Lemma y_part_spec ni nw : exists new : list (r1c K),
  scoped (ni + 1) (nw + 833) new /\ length new = 831 /\
  (forall s xv ynv x yn, n_inst s = ni -> n_wit s = nw -> valued s xv x -> valued s ynv yn -> exists ws, length ws = 833 /\
     y_part xv ynv s = Ok (tt, ext s [yn] ws new) /\
     forall a, a One = f1 -> insts a ni [yn] -> wits a nw ws -> (sat a new <-> yn = of_Z (repr x mod 2 ^ 20))) /\
  (forall a yn, a One = f1 -> exists b, agree ni nw a b /\ b One = f1 /\ sat b new /\ b (Inst ni) = yn).
Proof.
  destruct (bits_loop 20 ni (nw + 2) (Wit nw) (Wit (nw + 1))) as (n1 & oy & ot & S1 & L1 & OY & OT & R1); [cbn; lia|cbn; lia|]. replace (nw + 2 + 3 * 20) with (nw + 62) in * by lia.
  destruct (yn_part_spec ni (nw + 62) oy) as (n2 & S2 & L2 & R2 & D2 & X2); [exact OY|].
  destruct (bits_loop 236 (ni + 1) (nw + 124) oy ot) as (n3 & oy' & ot' & S3 & L3 & OY' & OT' & R3); [scope|scope|].
  set (n4 := [([(f1, oy')], [(f1, One)], [(f1, Wit (nw + 832))])] : list (r1c K)).
  assert (D4 : forall a, a One = f1 -> sat a n4 <-> a oy' = a (Wit (nw + 832))).
  { intros a A1. unfold n4. split.
    - intros S. eqs. rewrite ?A1, ?(sum1 HK) in *. etransitivity; [|eassumption]. ring.
    - intros E. goaleqs. rewrite A1, E. ring. }
  change (3 * 20) with 60 in *. change (3 * 236) with 708 in *. replace (nw + 124 + 708) with (nw + 832) in * by lia.
  exists (n1 ++ n2 ++ n3 ++ n4). split; [|split; [|split]].
  - apply scoped_app; [eapply scoped_mono; [| |exact S1]; lia|]. apply scoped_app; [eapply scoped_mono; [| |exact S2]; lia|]. apply scoped_app; [eapply scoped_mono; [| |exact S3]; lia|]. unfold n4. scope.
  - rewrite !app_length, L1, L2, L3. reflexivity.
  - intros s xv ynv x yn NI NW VX VY. destruct (value_bits_run s xv x Y_SIZE) as (bs & EB & LB & BF); [unfold Y_SIZE; lia|exact VX|]. change Y_SIZE with 256 in LB, BF.
    rewrite <- (firstn_skipn 20 bs) in EB, BF. set (b1 := firstn 20 bs) in *. set (b2 := skipn 20 bs) in *.
    assert (LB1 : length b1 = 20). { unfold b1. rewrite firstn_length, LB. reflexivity. } assert (LB2 : length b2 = 236) by (unfold b2; rewrite skipn_length, LB; reflexivity).
    apply Forall2_app_inv_l in BF. destruct BF as (l1 & l2 & F1 & F2 & EL).
    assert (LL1 : length l1 = 20) by (rewrite <- LB1; clear -F1; induction F1; cbn; congruence).
    assert (EL1 : l1 = map fb (bits_of (repr x) 20)).
    { assert (SP : bits_of (repr x) 256 = bits_of (repr x) 20 ++ map (fun i => Z.testbit (repr x) (Z.of_nat i)) (seq 20 236)) by (unfold bits_of; rewrite <- map_app; f_equal; apply (seq_app 20 236 0)).
      rewrite SP, map_app in EL. apply (f_equal (firstn (length l1))) in EL. rewrite LL1 in EL at 1. replace 20 with (length (map fb (bits_of (repr x) 20))) in EL at 1 by (unfold bits_of; rewrite !map_length, seq_length; reflexivity).
      rewrite !firstn_app, !Nat.sub_diag, !firstn_O, !app_nil_r, !firstn_all in EL. symmetry. exact EL. }
    assert (IB : Forall is_bit (l1 ++ l2)) by (rewrite <- EL; apply fb_bits). apply Forall_app in IB. destruct IB as [IB1 IB2].
    assert (TOT : snd (dec_steps (l1 ++ l2) (f1, f0)) = x).
    { rewrite <- EL, dec_low by apply (pf_repr K PF). rewrite Z.mod_small; [apply (pf_of_repr K PF)|]. pose proof (pf_repr K PF x). pose proof (pf_modulus K PF). change (Z.of_nat 256) with 256%Z. lia. }
    assert (LOW : snd (dec_steps l1 (f1, f0)) = of_Z (repr x mod 2 ^ 20)) by (rewrite EL1, dec_low by apply (pf_repr K PF); reflexivity).
    destruct (R1 (ext s [] [f0; f1] []) b1 (Some f0) (Some f1) l1 f0 f1) as (vy & vt & w1 & LW1 & E1 & UY & UT & C1).
    { rewrite ext_inst. cbn. lia. } { rewrite ext_wit. cbn. lia. } { exact LB1. } { exact F1. } { apply usable_some. } { apply usable_some. }
    destruct (R2 (ext s [] ([f0; f1] ++ w1) n1) ynv yn) as (w2 & LW2 & E2 & C2).
    { rewrite ext_inst. cbn. lia. } { rewrite ext_wit, app_length, LW1. cbn [length]. lia. } { exact VY. }
    destruct (R3 (ext s [yn] (([f0; f1] ++ w1) ++ w2) (n1 ++ n2)) b2 vy vt l2 (snd (dec_steps l1 (f1, f0))) (fst (dec_steps l1 (f1, f0)))) as (vy3 & vt3 & w3 & LW3 & E3 & UY3 & UT3 & C3).
    { rewrite ext_inst. cbn. lia. } { rewrite ext_wit, !app_length, LW1, LW2. cbn [length]. lia. } { exact LB2. } { exact F2. } { exact UY. } { exact UT. }
    rewrite <- surjective_pairing in UY3, UT3, C3. rewrite <- dec_steps_app in UY3, UT3, C3.
    exists ((([f0; f1] ++ w1) ++ w2) ++ w3 ++ [x]). split; [rewrite !app_length, LW1, LW2, LW3; reflexivity|]. split.
    + rewrite (y_part_eq xv ynv s b1 b2 EB LB1 LB2). unfold bindM at 1 2. rewrite (new_witness_run _ _ f0) by us. cbn [bind]. rewrite (new_witness_run _ _ f1) by us. cbn [bind]. rewrite ext_ext, ext_wit. cbn [app length]. rewrite NW.
      unfold bindM at 1. rewrite E1. cbn [bind fst]. rewrite ext_ext. unfold bindM at 1. cbn [app] in *. rewrite E2. cbn [bind]. rewrite ext_ext. unfold bindM at 1. cbn [app] in *. rewrite E3. cbn [bind]. rewrite ext_ext. cbn [app fst] in *. unfold bindM.
      rewrite (new_witness_run _ _ x) by (unfold usable; cbn [setup ext]; intro SU; unfold valued in VX; now rewrite SU in VX). cbn [bind]. rewrite ext_ext, ext_wit. enf. cbn [app]. rewrite ?app_nil_r, <- ?app_assoc. cbn [app]. rewrite <- ?app_assoc. unfold n4. replace (n_wit s + _) with (nw + 832); [reflexivity|]. cbn [length]. rewrite !app_length, LW1, LW2, LW3, NW. lia.
    + intros a A1 AI AW. apply wits_app in AW. destruct AW as [AW AW3]. apply wits_app in AW3. destruct AW3 as [AW3 AW4]. apply wits_app in AW. destruct AW as [AW AW2]. apply wits_app in AW. destruct AW as [AW0 AW1]. rewrite !app_length, ?LW1, ?LW2, ?LW3 in *. cbn [length] in *.
      destruct (C1 a A1 AW1 IB1) as (SA1 & O1 & O2); [vals; assumption|vals; rewrite Nat.add_1_r; assumption|].
      replace (nw + (2 + 60 + 62)) with (nw + 124) in * by lia. replace (nw + 124 + 708) with (nw + 832) in * by lia.
      destruct (C3 a A1 AW3 IB2 O1 O2) as (SA3 & O3 & _). rewrite TOT in O3.
      assert (SA4 : sat a n4) by (apply D4; [exact A1|]; rewrite O3; vals; symmetry; assumption).
      rewrite LOW in O1. split.
      * intros S. apply sat_app in S. destruct S as [_ S]. apply sat_app in S. destruct S as [S _]. pose proof (D2 a A1 S) as DD. vals. congruence.
      * intros EY. apply sat_app. split; [exact SA1|]. apply sat_app. split; [|apply sat_app; now split].
        replace (nw + (2 + 60)) with (nw + 62) in AW2 by lia. apply (C2 a A1 AI AW2); [congruence|]. rewrite EY, (pf_repr_of K PF).
        pose proof (pf_modulus K PF). assert (0 <= repr x mod 2 ^ 20 < 2 ^ 20)%Z by (apply Z.mod_pos_bound; lia). eapply Z.le_lt_trans; [apply Z.mod_le; lia|lia].
  - intros a yn A1. destruct (zero_run (mkCs false ni (nw + 2) [] [] []) 20 eq_refl) as (bl & LB & BF). destruct (zero_run (mkCs false (ni + 1) (nw + 124) [] [] []) 236 eq_refl) as (bl3 & LB3 & BF3).
    destruct (R1 (mkCs false ni (nw + 2) [] [] []) bl (Some yn) (Some f0) (repeat f0 20) yn f0) as (vy & vt & w1 & LW1 & _ & _ & _ & C1); [reflexivity|reflexivity|exact LB|exact BF|apply usable_some|apply usable_some|].
    set (st1 := dec_steps (repeat f0 20) (f0, yn)) in *.
    destruct (R3 (mkCs false (ni + 1) (nw + 124) [] [] []) bl3 (Some (snd st1)) (Some (fst st1)) (repeat f0 236) (snd st1) (fst st1)) as (_ & _ & w3 & LW3 & _ & _ & _ & C3); [reflexivity|reflexivity|exact LB3|exact BF3|apply usable_some|apply usable_some|].
    assert (YY : snd st1 = yn) by apply dec_zero.
    set (a0 := over a ni nw [] ([yn; f0] ++ w1)). assert (AG0 : agree ni nw a a0) by apply over_agree. assert (A01 : a0 One = f1) by exact A1.
    assert (AW : wits a0 nw ([yn; f0] ++ w1)) by apply over_wits. apply wits_app in AW. destruct AW as [AW0 AW1]. cbn [length] in *.
    destruct (C1 a0 A01 AW1 (zero_bits 20)) as (SA1 & O1 & O2); [vals; assumption|vals; rewrite Nat.add_1_r; assumption|].
    destruct (X2 a0 A01) as (b0 & AG1 & B01 & SA2). pose proof (D2 b0 B01 SA2) as IY. rewrite <- (AG1 oy) in IY by scope. rewrite O1, YY in IY.
    set (b := over b0 (ni + 1) (nw + 124) [] (w3 ++ [yn])). assert (AG2 : agree (ni + 1) (nw + 124) b0 b) by apply over_agree. assert (B1 : b One = f1) by exact B01.
    assert (BW : wits b (nw + 124) (w3 ++ [yn])) by apply over_wits. apply wits_app in BW. destruct BW as [BW3 BW4]. rewrite LW3 in BW4.
    exists b. split; [|split; [exact B1|split]].
    + eapply agree_trans; [exact AG0|]. eapply agree_trans; [eapply agree_mono; [| |exact AG1]; lia|]. eapply agree_mono; [| |exact AG2]; lia.
    + assert (AO : agree ni (nw + 62) a0 b) by (eapply agree_trans; [exact AG1|]; eapply agree_mono; [| |exact AG2]; lia).
      assert (BY : b oy = snd st1) by (rewrite <- (AO oy) by scope; exact O1). assert (BT : b ot = fst st1) by (rewrite <- (AO ot) by scope; exact O2).
      destruct (C3 b B1 BW3 (zero_bits 236) BY BT) as (SA3 & O3 & _).
      apply sat_app. split; [eapply sat_agree; [|exact AO|exact SA1]; eapply scoped_mono; [| |exact S1]; lia|].
      apply sat_app. split; [eapply sat_agree; [|exact AG2|exact SA2]; eapply scoped_mono; [| |exact S2]; lia|].
      apply sat_app. split; [exact SA3|]. apply D4; [exact B1|]. rewrite O3, <- surjective_pairing. unfold st1. rewrite <- dec_steps_app. rewrite <- repeat_app, dec_zero.
      replace (nw + 124 + 708) with (nw + 832) in BW4 by lia. vals. symmetry. assumption.
    + rewrite <- (AG2 (Inst ni)) by scope. exact IY.
Qed.
End Pospace.
