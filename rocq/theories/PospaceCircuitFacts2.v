(** The proof-of-space circuit as a whole. *)
From Verif Require Import Base Field Mimc R1cs Circuits MimcFacts R1csFacts DfCircuitFacts HashCircuitFacts PowCircuitFacts EqualCircuitFacts PospaceCircuitFacts.

Section Pospace.
Context {K : prime_ops} (PF : is_prime_field K).
Let HK : is_ring K := F_R (pf_field K PF).
Add Ring kring : (HK : ring_theory f0 f1 fadd fmul fsub fopp (@eq K)).

(** The truncated output of the delay function. *)
Definition df_low (cs : list K) (k x m : K) : K := of_Z (repr (fst (feistel 5 cs (fadd k x, m))) mod 2 ^ 20).

Lemma response_spec cs ni nw key : length cs = MIMC5_DF_ROUNDS -> in_scope ni nw key -> exists new : list (r1c K),
  scoped (ni + 1) (nw + 866) new /\ length new = 862 /\
  (forall s kv mv yns xv i ynv k m x yn, n_inst s = ni -> n_wit s = nw -> nth_error yns i = Some ynv -> valued s kv k -> valued s mv m -> valued s xv x -> valued s ynv yn ->
     exists ws, length ws = 866 /\ response_part key kv mv cs yns xv i s = Ok (tt, ext s [yn] ws new) /\
     forall a, a One = f1 -> insts a ni [yn] -> wits a nw ws -> a key = k -> (sat a new <-> yn = df_low cs k x m) /\ a (Wit nw) = x) /\
  (forall a x yn, a One = f1 -> exists b, agree ni nw a b /\ b One = f1 /\ sat b new /\ b (Inst ni) = yn /\ b (Wit nw) = x).
Proof.
  intros LC SK. destruct (df_rounds 5 2 df5_round (df5_round_spec HK) cs ni (nw + 3) (Wit (nw + 1)) (Wit (nw + 2))) as (n2 & ol & or & S2 & L2 & OL & OR & R2 & _); [cbn; lia|cbn; lia|]. cbn zeta in *.
  change ((2 + 1) * length cs) with (3 * length cs) in *. rewrite LC in *. change (3 * MIMC5_DF_ROUNDS) with 30 in *.
  destruct (y_part_spec PF ni (nw + 33)) as (n3 & S3 & L3 & R3 & X3). replace (nw + 3 + 30) with (nw + 33) in * by lia. replace (nw + 33 + 833) with (nw + 866) in * by lia.
  set (n1 := [([(f1, key); (f1, Wit nw)], [(f1, One)], [(f1, Wit (nw + 1))])] : list (r1c K)).
  assert (D1 : forall a, a One = f1 -> sat a n1 <-> a (Wit (nw + 1)) = fadd (a key) (a (Wit nw))).
  { intros a A1. unfold n1. split.
    - intros S. eqs. rewrite ?A1, ?(sum1 HK) in *. etransitivity; [symmetry; eassumption|]. ring.
    - intros E. goaleqs. rewrite A1, E. ring. }
  exists (n1 ++ n2 ++ n3). split; [|split; [|split]].
  - apply scoped_app; [unfold n1; scope|]. apply scoped_app; [eapply scoped_mono; [| |exact S2]; lia|exact S3].
  - rewrite !app_length, L2, L3. reflexivity.
  - intros s kv mv yns xv i ynv k m x yn NI NW IY VK VM VX VY.
    assert (OM : exists xlv, omap kv (fun e => let* x := unwrap xv in Ok (fadd e x)) = Ok xlv /\ valued s xlv (fadd k x)).
    { unfold valued in *. destruct (setup s); subst kv xv; [now exists None|now exists (Some (fadd k x))]. }
    destruct OM as (xlv & EO & VL).
    destruct (R2 (ext s [] [x; fadd k x; m] n1) xlv mv (fadd k x) m) as (vl & vr & w2 & LW2 & E2 & V2 & _ & C2); [rewrite ext_inst; cbn; lia|rewrite ext_wit; cbn; lia|exact VL|exact VM|].
    destruct (R3 (ext s [] ([x; fadd k x; m] ++ w2) (n1 ++ n2)) vl ynv (fst (feistel 5 cs (fadd k x, m))) yn) as (w3 & LW3 & E3 & C3); [rewrite ext_inst; cbn; lia|rewrite ext_wit, app_length, LW2; cbn [length]; lia|exact V2|exact VY|].
    exists ([x; fadd k x; m] ++ w2 ++ w3). split; [rewrite !app_length, LW2, LW3; reflexivity|]. split.
    + unfold response_part. rewrite bindM_run. rewrite (new_witness_run _ _ x) by us. cbn [bind fst snd]. rewrite bindM_run. unfold lift at 1. rewrite EO. cbn [bind fst snd]. rewrite bindM_run.
      rewrite (new_witness_run _ _ (fadd k x)) by (unfold usable; cbn [setup ext]; intro SU; unfold valued in VL; now rewrite SU in VL). cbn [bind fst snd]. rewrite bindM_run, enforce_run. cbn [bind fst snd]. rewrite bindM_run.
      rewrite (new_witness_run _ _ m) by (unfold usable; cbn [setup ext]; intro SU; unfold valued in VM; now rewrite SU in VM). cbn [bind fst snd]. rewrite !ext_ext, !ext_wit, NW. cbn [app length]. change (ext s [] [x; fadd k x; m] _) with (ext s [] [x; fadd k x; m] n1). rewrite bindM_run.
      pose proof (forM_elements cs (df5_round false) (Wit (nw + 1), xlv, Wit (nw + 2), mv) (ext s [] [x; fadd k x; m] n1)) as FE. rewrite LC in FE. rewrite FE, E2. cbn [bind fst snd]. rewrite ext_ext. rewrite bindM_run. unfold lift, index. rewrite IY. cbn [bind fst snd]. cbn [app] in *. rewrite E3, ext_ext. cbn [app]. now rewrite <- ?app_assoc.
    + intros a A1 AI AW AK. apply wits_app in AW. destruct AW as [AW0 AW]. apply wits_app in AW. destruct AW as [AW2 AW3]. rewrite LW2 in AW3. cbn [length] in *. replace (nw + 3 + 30) with (nw + 33) in AW3 by lia.
      apply wits_cons in AW0. destruct AW0 as [W0 AW0]. apply wits_cons in AW0. destruct AW0 as [W1 AW0]. apply wits_cons in AW0. destruct AW0 as [W2 _]. replace (S (S nw)) with (nw + 2) in * by lia. replace (S nw) with (nw + 1) in * by lia.
      destruct (C2 a A1 AW2 W1 W2) as [SA2 _]. split; [|exact W0]. pose proof (C3 a A1 AI AW3) as IFF. fold (df_low cs k x m) in IFF. rewrite <- IFF. split.
      * intros S. apply sat_app in S. destruct S as [_ S]. apply sat_app in S. apply S.
      * intros S. apply sat_app. split; [apply D1; [exact A1|congruence]|]. apply sat_app. now split.
  - intros a x yn A1. set (l := fadd (a key) x).
    destruct (R2 (mkCs false ni (nw + 3) [] [] []) (Some l) (Some f0) l f0) as (_ & _ & w2 & LW2 & _ & _ & _ & C2); [reflexivity|reflexivity|reflexivity|reflexivity|].
    set (a0 := over a ni nw [] ([x; l; f0] ++ w2)). assert (AG0 : agree ni nw a a0) by apply over_agree. assert (A01 : a0 One = f1) by exact A1.
    assert (AW : wits a0 nw ([x; l; f0] ++ w2)) by apply over_wits. apply wits_app in AW. destruct AW as [AW0 AW2]. cbn [length] in *.
    apply wits_cons in AW0. destruct AW0 as [W0 AW0]. apply wits_cons in AW0. destruct AW0 as [W1 AW0]. apply wits_cons in AW0. destruct AW0 as [W2 _]. replace (S (S nw)) with (nw + 2) in * by lia. replace (S nw) with (nw + 1) in * by lia.
    destruct (C2 a0 A01 AW2 W1 W2) as [SA2 _]. destruct (X3 a0 yn A01) as (b & AG1 & B1 & SA3 & BY). exists b. split; [|split; [exact B1|split; [|split; [exact BY|]]]].
    + eapply agree_trans; [exact AG0|]. eapply agree_mono; [| |exact AG1]; lia.
    + apply sat_app. split.
      * apply (sat_agree ni (nw + 33) a0 b); [unfold n1; scope|exact AG1|]. apply D1; [exact A01|]. rewrite W1, W0. unfold l. now rewrite <- (AG0 key SK).
      * apply sat_app. split; [|exact SA3]. eapply sat_agree; [exact S2|exact AG1|exact SA2].
    + rewrite <- (AG1 (Wit nw)) by scope. exact W0.
Qed.

(** All responses, from response number [k0] on. *)
Lemma responses_spec cs key : length cs = MIMC5_DF_ROUNDS -> forall N ni nw, in_scope ni nw key -> exists new : list (r1c K),
  scoped (ni + N) (nw + 866 * N) new /\ length new = 862 * N /\
  (forall s kv mv yns xvs k0 ynvs k m xs yn, n_inst s = ni -> n_wit s = nw -> length xvs = N -> (exists pre post, yns = pre ++ ynvs ++ post /\ length pre = k0) ->
     valued s kv k -> valued s mv m -> Forall2 (valued s) xvs xs -> Forall2 (valued s) ynvs yn -> length ynvs = N ->
     exists ws, length ws = 866 * N /\ forM (fun (_ : unit) ix => response_part key kv mv cs yns (snd ix) (fst ix)) (combine (seq k0 N) xvs) tt s = Ok (tt, ext s yn ws new) /\
     forall a, a One = f1 -> insts a ni yn -> wits a nw ws -> a key = k -> (sat a new <-> yn = map (fun x => df_low cs k x m) xs) /\ bit_wires a nw 866 N = xs) /\
  (forall a xs yn, a One = f1 -> length xs = N -> length yn = N -> exists b, agree ni nw a b /\ b One = f1 /\ sat b new /\ insts b ni yn /\ bit_wires b nw 866 N = xs).
Proof.
  intros LC. induction N as [|N IH]; intros ni nw SK.
  - exists []. rewrite !Nat.mul_0_r, !Nat.add_0_r. split; [constructor|]. split; [reflexivity|]. split.
    + intros s kv mv yns xvs k0 ynvs k m xs yn _ _ LX _ _ _ FX FY LY. destruct xvs; [|discriminate]. destruct ynvs; [|discriminate]. inversion FX; inversion FY; subst. exists []. split; [reflexivity|]. split; [cbn [seq combine forM]; rewrite ext_nil; reflexivity|].
      intros a _ _ _ _. split; [split; [reflexivity|intros; apply sat_nil]|reflexivity].
    + intros a xs yn A1 LX LY. destruct xs; [|discriminate]. destruct yn; [|discriminate]. exists a. split; [apply agree_refl|]. split; [exact A1|]. split; [apply sat_nil|]. split; [apply insts_nil|reflexivity].
  - destruct (response_spec cs ni nw key LC SK) as (n1 & S1 & L1 & R1 & X1). destruct (IH (ni + 1) (nw + 866)) as (n2 & S2 & L2 & R2 & X2); [eapply in_scope_mono; [| |exact SK]; lia|]. clear IH.
    exists (n1 ++ n2). replace (ni + S N) with (ni + 1 + N) by lia. replace (nw + 866 * S N) with (nw + 866 + 866 * N) by lia.
    split; [apply scoped_app; [eapply scoped_mono; [| |exact S1]; lia|exact S2]|]. split; [rewrite app_length, L1, L2; lia|]. split.
    + intros s kv mv yns xvs k0 ynvs k m xs yn NI NW LX (pre & post & EY & LP) VK VM FX FY LY.
      destruct xvs as [|xv xvs]; [discriminate|]. destruct ynvs as [|ynv ynvs]; [discriminate|]. inversion FX as [|? x ? xs' VX FX']; subst. inversion FY as [|? y ? yn' VY FY']; subst.
      destruct (R1 s kv mv (pre ++ (ynv :: ynvs) ++ post) xv (length pre) ynv k m x y) as (w1 & LW1 & E1 & C1); try assumption; try reflexivity.
      { rewrite nth_error_app2, Nat.sub_diag by lia. reflexivity. }
      destruct (R2 (ext s [y] w1 n1) kv mv (pre ++ (ynv :: ynvs) ++ post) xvs (S (length pre)) ynvs k m xs' yn') as (w2 & LW2 & E2 & C2); try assumption.
      { rewrite ext_inst. reflexivity. } { rewrite ext_wit. lia. } { now injection LX. } { exists (pre ++ [ynv]), post. split; [now rewrite <- app_assoc|rewrite app_length; cbn; lia]. } { now injection LY. }
      exists (w1 ++ w2). split; [rewrite app_length; lia|]. split.
      { cbn [seq combine forM]. rewrite bindM_run. cbn [fst snd]. rewrite E1. cbn [bind fst snd]. rewrite E2, ext_ext. reflexivity. }
      intros a A1 AI AW AK. apply insts_cons in AI. destruct AI as [I0 AI]. rewrite <- Nat.add_1_r in AI. apply wits_app in AW. destruct AW as [AW1 AW2]. rewrite LW1 in AW2.
      destruct (C1 a A1) as [IFF1 X0]; try assumption. { apply insts_cons. split; [exact I0|apply insts_nil]. }
      destruct (C2 a A1 AI AW2 AK) as [IFF2 XX]. split.
      * rewrite sat_app, IFF1, IFF2. cbn [map]. split; [intros [-> ->]; reflexivity|intros E; injection E; auto].
      * rewrite bit_wires_S. now rewrite X0, XX.
    + intros a xs yn A1 LX LY. destruct xs as [|x xs]; [discriminate|]. destruct yn as [|y yn]; [discriminate|]. destruct (X1 a x y A1) as (b & AG & B1 & SA & BY & BX).
      destruct (X2 b xs yn B1) as (b' & AG' & B1' & SA' & BI & BW); [now injection LX|now injection LY|]. exists b'. split; [|split; [exact B1'|split; [|split]]].
      * eapply agree_trans; [exact AG|]. eapply agree_mono; [| |exact AG']; lia.
      * apply sat_app. split; [|exact SA']. eapply sat_agree; [exact S1|exact AG'|exact SA].
      * apply insts_cons. split; [rewrite <- (AG' (Inst ni)) by (cbn; lia); exact BY|now rewrite <- Nat.add_1_r].
      * rewrite bit_wires_S, BW. f_equal. rewrite <- (AG' (Wit nw)) by (cbn; lia). exact BX.
Qed.

(** The circuit with at least one response. *)
Lemma pospace_spec cs hc : length cs = MIMC5_DF_ROUNDS -> length hc = MIMC5_HASH_ROUNDS -> forall N', let N := S N' in exists new : list (r1c K),
  scoped (3 + N) (911 * N) new /\ length new = 904 * N /\
  (forall s kv mv xvs ynvs post k m xs yn, n_inst s = 0 -> n_wit s = 0 -> length xvs = N -> length ynvs = N ->
     valued s kv k -> valued s mv m -> Forall2 (valued s) xvs xs -> Forall2 (valued s) ynvs yn ->
     exists ws, length ws = 911 * N /\ pospace_circuit kv xvs mv cs (ynvs ++ post) hc s = Ok (tt, ext s ([k; m] ++ yn ++ [mimc_chain 5 hc k xs]) ws new) /\
     forall a, a One = f1 -> insts a 0 ([k; m] ++ yn ++ [mimc_chain 5 hc k xs]) -> wits a 0 ws -> (sat a new <-> yn = map (fun x => df_low cs k x m) xs)) /\
  (forall k m xs yn h xs', length xs = N -> length yn = N -> length xs' = N -> exists a, a One = f1 /\ insts a 0 ([k; m] ++ yn ++ [h]) /\ sat a new /\ bit_wires a 0 866 N = xs /\ bit_wires a (866 * N + 1) 45 N = xs').
Proof.
  intros LC LH N' N. destruct (responses_spec cs (Inst 0) LC N 2 0) as (n1 & S1 & L1 & R1 & X1); [cbn; lia|].
  destruct (hash_blocks_spec HK 5 4 hc (hash5_round hc) MIMC5_HASH_ROUNDS (hash5_spec HK hc) LH ltac:(unfold MIMC5_HASH_ROUNDS; lia) N' (2 + N) (866 * N)) as (n2 & S2 & L2 & R2 & D2 & X2).
  change (bw 4 MIMC5_HASH_ROUNDS false) with 45 in *. change (4 * MIMC5_HASH_ROUNDS + 2) with 42 in *. fold N in S2, L2, R2, D2, X2. cbn zeta in *.
  assert (W911 : 911 * N = 866 * N + 45 * N) by lia. exists (n1 ++ n2).
  split; [apply scoped_app; [eapply scoped_mono; [| |exact S1]; lia|eapply scoped_mono; [| |exact S2]; lia]|]. split; [rewrite app_length, L1, L2; lia|]. split.
  - intros s kv mv xvs ynvs post k m xs yn NI NW LX LY VK VM FX FY.
    destruct (R1 (ext s [k; m] [] []) kv mv (ynvs ++ post) xvs 0 ynvs k m xs yn) as (w1 & LW1 & E1 & C1); try assumption.
    { rewrite ext_inst, NI. reflexivity. } { rewrite ext_wit, NW. reflexivity. } { exists [], post. split; reflexivity. }
    assert (LN : length yn = N) by (rewrite <- LY; clear -FY; induction FY; cbn; congruence).
    destruct (R2 (ext s ([k; m] ++ yn) w1 n1) kv xvs k xs) as (w2 & LW2 & E2 & C2); try assumption.
    { rewrite ext_inst, NI, app_length, LN. reflexivity. } { rewrite ext_wit, NW, LW1. reflexivity. }
    exists (w1 ++ w2). split; [rewrite app_length, LW1, LW2; lia|]. split.
    + unfold pospace_circuit. rewrite (proj2 (Nat.eqb_eq _ _) LC), (proj2 (Nat.eqb_eq _ _) LH). cbn [andb]. rewrite bindM_run. rewrite (new_input_run _ _ k) by us. cbn [bind fst snd]. rewrite bindM_run.
      rewrite (new_input_run _ _ m) by (unfold usable; cbn [setup ext]; intro SU; unfold valued in VM; now rewrite SU in VM). cbn [bind fst snd]. rewrite ext_ext, NI. cbn [app]. rewrite bindM_run.
      pose proof (forM_index xvs (fun i x (_ : unit) => response_part (Inst 0) kv mv cs (ynvs ++ post) x i) xvs [] tt (ext s [k; m] [] []) eq_refl) as FI. cbn [length] in FI. rewrite FI, LX, E1. cbn [bind fst snd]. rewrite ext_ext. cbn [app] in *. rewrite E2, ext_ext. cbn [app]. reflexivity.
    + intros a A1 AI AW. apply wits_app in AW. destruct AW as [AW1 AW2]. rewrite LW1 in AW2. rewrite app_assoc in AI. apply insts_app in AI. destruct AI as [AI AIH]. apply insts_app in AI. destruct AI as [AI0 AI1]. rewrite app_length, LN in AIH. cbn [length Nat.add] in *.
      destruct (C1 a A1 AI1 AW1) as [IFF _]; [vals; assumption|]. destruct (C2 a A1 AIH AW2) as (SA2 & _). rewrite sat_app, IFF. tauto.
  - intros k m xs yn h xs' LX LY LX'. set (a := over (fun v => match v with One => f1 | _ => f0 end : K) 0 0 [k; m] []).
    assert (AI : insts a 0 [k; m]) by apply over_insts. destruct (X1 a xs yn eq_refl LX LY) as (b & AG & B1 & SA & BI & BW).
    set (xks := map (fun x => (x, f0 : K)) xs'). set (r := fsub h (hash_sum 5 hc f0 xks)).
    destruct (X2 b r xks B1) as (b' & AG' & B1' & SA' & BR & BW'). { unfold xks. now rewrite map_length. }
    assert (HS : forall l r, hash_sum 5 hc r l = fadd r (hash_sum 5 hc f0 l)).
    { clear - HK. induction l as [|[x k] l IH]; intros r; [unfold hash_sum; cbn [fold_left]; ring|].
      assert (ST : forall r, hash_sum 5 hc r ((x, k) :: l) = hash_sum 5 hc (fadd (fadd r x) (mimc_perm 5 hc x k)) l) by reflexivity. rewrite (ST r), (ST f0). rewrite IH, (IH (fadd (fadd f0 x) _)). ring. }
    exists b'. split; [exact B1'|]. split; [|split; [|split]].
    + apply insts_app. split; [|apply insts_app; split].
      * eapply insts_agree; [|exact AG'|]; [cbn; lia|]. eapply insts_agree; [|exact AG|exact AI]. cbn; lia.
      * cbn [length]. eapply insts_agree; [|exact AG'|exact BI]. lia.
      * cbn [length]. rewrite LY. apply insts_cons. split; [|apply insts_nil]. change (b' (Inst (2 + N)) = h). rewrite (D2 b' B1' SA'), BR, BW', HS. unfold r. ring.
    + apply sat_app. split; [eapply sat_agree; [exact S1|exact AG'|exact SA]|exact SA'].
    + rewrite <- BW. unfold bit_wires. apply map_ext_in. intros i I. apply in_seq in I. symmetry. apply AG'. cbn [in_scope Nat.add]. assert (866 * (i + 1) <= 866 * N) by (apply Nat.mul_le_mono_l; lia). lia.
    + transitivity (map fst (block_wires b' (866 * N + 1) 45 N)).
      * unfold bit_wires, block_wires. rewrite map_map. apply map_ext. reflexivity.
      * rewrite BW'. unfold xks. rewrite map_map. apply map_id.
Qed.
(** Without responses there are no constraints. *)
Lemma pospace_empty (cs hc : list K) s (kv mv : option K) yns (k m : K) : length cs = MIMC5_DF_ROUNDS -> length hc = MIMC5_HASH_ROUNDS -> n_inst s = 0 -> n_wit s = 0 -> valued s kv k -> valued s mv m ->
  pospace_circuit kv [] mv cs yns hc s = Ok (tt, ext s [k; m] [k] []).
Proof.
  intros LC LH NI NW VK VM. unfold pospace_circuit. rewrite (proj2 (Nat.eqb_eq _ _) LC), (proj2 (Nat.eqb_eq _ _) LH). cbn [andb]. rewrite bindM_run. rewrite (new_input_run _ _ k) by us. cbn [bind fst snd]. rewrite bindM_run.
  rewrite (new_input_run _ _ m) by (unfold usable; cbn [setup ext]; intro SU; unfold valued in VM; now rewrite SU in VM). cbn [bind fst snd length seq forM]. rewrite bindM_run. unfold ret. cbn [bind fst snd]. rewrite ext_ext.
  rewrite (hash_blocks_nil _ _ kv k); [|unfold usable; cbn [setup ext]; intro SU; unfold valued in VK; now rewrite SU in VK]. rewrite ext_ext. reflexivity.
Qed.
End Pospace.
