(** The hash circuits: what a satisfying assignment says, and which ones exist. *)
From Verif Require Import Base Field Mimc R1cs Circuits MimcFacts R1csFacts DfCircuitFacts.

Section Hash.
Context {K : ops} (HK : is_ring K).
Add Ring kring : (HK : ring_theory f0 f1 fadd fmul fsub fopp (@eq K)).

Definition round_type : Type := var -> option K -> var -> option K -> var * option K -> nat -> M K (var * option K).
(** The input of round j. *)
Definition round_in (constants : list K) (j : nat) (x k h : K) : K :=
  if j =? 0 then fadd x k else fadd (fadd h k) (nth j constants f0).

Definition hround_spec (e kt : nat) (constants : list K) (round : round_type) : Prop :=
  forall j ni nw x_in key h, j < length constants -> in_scope ni nw x_in -> in_scope ni nw key -> in_scope ni nw h -> exists new,
  scoped ni (nw + kt) new /\ length new = kt /\ 0 < kt /\
  (forall s xv kv hv x k y, n_inst s = ni -> n_wit s = nw -> valued s xv x -> valued s kv k -> (j <> 0 -> valued s hv y) ->
     exists v ws, length ws = kt /\ round x_in xv key kv (h, hv) j s = Ok ((Wit (nw + (kt - 1)), v), ext s [] ws new) /\
       valued s v (fpow (round_in constants j x k y) e) /\
       forall a, a One = f1 -> wits a nw ws -> a x_in = x -> a key = k -> a h = y -> sat a new /\ a (Wit (nw + (kt - 1))) = fpow (round_in constants j x k y) e) /\
  (forall a, a One = f1 -> sat a new -> a (Wit (nw + (kt - 1))) = fpow (round_in constants j (a x_in) (a key) (a h)) e).

Lemma nth_some (l : list K) j c : nth_error l j = Some c -> nth j l f0 = c.
Proof. apply nth_error_nth. Qed.

Lemma hash_t_run constants x_in xv key kv h hv j s x k y : j < length constants ->
  valued s xv x -> valued s kv k -> (j <> 0 -> valued s hv y) -> exists tv, valued s tv (round_in constants j x k y) /\
  hash_t constants x_in xv key kv h hv j s = Ok ((Wit (n_wit s), tv), ext s [] [round_in constants j x k y]
    [(if j =? 0 then [(f1, x_in); (f1, key)] else [(f1, h); (f1, key); (nth j constants f0, One)], [(f1, One)], [(f1, Wit (n_wit s))])]).
Proof.
  intros J VX VK VH. exists (if setup s then None else Some (round_in constants j x k y)). split; [unfold valued; now destruct (setup s)|].
  assert (IX : index constants j = Ok (nth j constants f0)) by (unfold index; rewrite (nth_error_nth' constants f0 J); reflexivity).
  unfold hash_t, round_in, bindM, lift. destruct (Nat.eqb_spec j 0) as [->|NJ]; unfold valued in *.
  - destruct (setup s) eqn:SU; subst xv kv; cbn [omap bind unwrap]; wit (fadd x k); enf; reflexivity.
  - rewrite IX. cbn [bind]. specialize (VH NJ). set (c := nth j constants f0) in *. destruct (setup s) eqn:SU; subst hv kv; cbn [omap bind unwrap]; wit (fadd (fadd y k) c); enf; reflexivity.
Qed.
Lemma hash_t_holds (constants : list K) j x_in key h nw (a : var -> K) : a One = f1 ->
  holds a (if j =? 0 then [(f1, x_in); (f1, key)] else [(f1, h); (f1, key); (nth j constants f0, One)], [(f1, One)], [(f1, Wit nw)]) <->
  a (Wit nw) = round_in constants j (a x_in) (a key) (a h).
Proof.
  intros A1. unfold holds, eval, round_in. destruct (j =? 0); cbn [fold_right fst snd]; rewrite A1.
  - split; intros E; [|rewrite E; ring]. transitivity (fadd (fmul f1 (a (Wit nw))) f0); [ring|rewrite <- E; ring].
  - split; intros E; [|rewrite E; ring]. transitivity (fadd (fmul f1 (a (Wit nw))) f0); [ring|rewrite <- E; ring].
Qed.
Lemma hash5_spec constants : hround_spec 5 4 constants (hash5_round constants).
Proof.
  intros j ni nw x_in key h J SX SK SH.
  exists ((if j =? 0 then [(f1, x_in); (f1, key)] else [(f1, h); (f1, key); (nth j constants f0, One)], [(f1, One)], [(f1, Wit nw)]) ::
          [([(f1, Wit nw)], [(f1, Wit nw)], [(f1, Wit (nw + 1))]); ([(f1, Wit (nw + 1))], [(f1, Wit (nw + 1))], [(f1, Wit (nw + 2))]); ([(f1, Wit (nw + 2))], [(f1, Wit nw)], [(f1, Wit (nw + 3))])]).
  split; [destruct (j =? 0); scope|]. split; [reflexivity|]. split; [lia|]. cbn [Nat.sub]. split.
  - intros s xv kv hv x k y <- <- VX VK VH. destruct (hash_t_run constants x_in xv key kv h hv j s x k y J VX VK VH) as (tv & TV & TE).
    unfold valued in TV. remember (round_in constants j x k y) as t eqn:Et. set (t2 := fsquare t). set (t4 := fsquare t2). set (t5 := fmul t4 t).
    exists (if setup s then None else Some t5), [t; t2; t4; t5]. split; [reflexivity|]. split; [|split].
    + unfold hash5_round, bindM, lift in *. rewrite TE. cbn [bind]. destruct (setup s) eqn:SU; subst tv; cbn [omap bind unwrap]; rewrite (new_witness_run _ _ t2) by us; cbn [bind]; rewrite ?ext_ext, ?ext_wit, ?ext_inst; enf; cbn [omap bind unwrap]; rewrite (new_witness_run _ _ t4) by us; cbn [bind]; rewrite ?ext_ext, ?ext_wit, ?ext_inst; enf; cbn [omap bind unwrap]; rewrite (new_witness_run _ _ t5) by us; cbn [bind]; rewrite ?ext_ext, ?ext_wit, ?ext_inst; enf; cbn [omap bind unwrap]; cbn [app length]; unfold ret; now rewrite ?Nat.add_0_r, <- ?Nat.add_assoc.
    + unfold valued. destruct (setup s); [reflexivity|]. f_equal. unfold t5, t4, t2, fsquare. cbn [fpow]. ring.
    + intros a A1 AW AX AK AH. vals. replace (n_wit s + 1) with (S (n_wit s)) by lia. replace (n_wit s + 2) with (S (S (n_wit s))) by lia. replace (n_wit s + 3) with (S (S (S (n_wit s)))) by lia. split.
      * apply sat_cons. split; [apply hash_t_holds; [exact A1|congruence]|]. goaleqs; repeat match goal with H : a (Wit _) = _ |- _ => rewrite H; clear H end; unfold t5, t4, t2, fsquare; ring.
      * repeat match goal with H : a (Wit _) = _ |- _ => rewrite H; clear H end. unfold t5, t4, t2, fsquare. cbn [fpow]. ring.
  - intros a A1 S. apply sat_cons in S. destruct S as [T S]. apply (hash_t_holds constants) in T; [|exact A1]. eqs. rewrite ?(sum1 HK) in *. rewrite <- T.
    rewrite <- H1, <- H0, <- H. cbn [fpow]. ring.
Qed.
Lemma hash7_spec constants : hround_spec 7 5 constants (hash7_round constants).
Proof.
  intros j ni nw x_in key h J SX SK SH.
  exists ((if j =? 0 then [(f1, x_in); (f1, key)] else [(f1, h); (f1, key); (nth j constants f0, One)], [(f1, One)], [(f1, Wit nw)]) ::
          [([(f1, Wit nw)], [(f1, Wit nw)], [(f1, Wit (nw + 1))]); ([(f1, Wit (nw + 1))], [(f1, Wit (nw + 1))], [(f1, Wit (nw + 2))]); ([(f1, Wit (nw + 2))], [(f1, Wit (nw + 1))], [(f1, Wit (nw + 3))]); ([(f1, Wit (nw + 3))], [(f1, Wit nw)], [(f1, Wit (nw + 4))])]).
  split; [destruct (j =? 0); scope|]. split; [reflexivity|]. split; [lia|]. cbn [Nat.sub]. split.
  - intros s xv kv hv x k y <- <- VX VK VH. destruct (hash_t_run constants x_in xv key kv h hv j s x k y J VX VK VH) as (tv & TV & TE).
    unfold valued in TV. remember (round_in constants j x k y) as t eqn:Et. set (t2 := fsquare t). set (t4 := fsquare t2). set (t6 := fmul t4 t2). set (t7 := fmul t6 t).
    exists (if setup s then None else Some t7), [t; t2; t4; t6; t7]. split; [reflexivity|]. split; [|split].
    + unfold hash7_round, bindM, lift in *. rewrite TE. cbn [bind]. destruct (setup s) eqn:SU; subst tv; cbn [omap bind unwrap]; rewrite (new_witness_run _ _ t2) by us; cbn [bind]; rewrite ?ext_ext, ?ext_wit, ?ext_inst; enf; cbn [omap bind unwrap]; rewrite (new_witness_run _ _ t4) by us; cbn [bind]; rewrite ?ext_ext, ?ext_wit, ?ext_inst; enf; cbn [omap bind unwrap]; rewrite (new_witness_run _ _ t6) by us; cbn [bind]; rewrite ?ext_ext, ?ext_wit, ?ext_inst; enf; cbn [omap bind unwrap]; rewrite (new_witness_run _ _ t7) by us; cbn [bind]; rewrite ?ext_ext, ?ext_wit, ?ext_inst; enf; cbn [omap bind unwrap]; cbn [app length]; unfold ret; now rewrite ?Nat.add_0_r, <- ?Nat.add_assoc.
    + unfold valued. destruct (setup s); [reflexivity|]. f_equal. unfold t7, t6, t4, t2, fsquare. cbn [fpow]. ring.
    + intros a A1 AW AX AK AH. vals. replace (n_wit s + 1) with (S (n_wit s)) by lia. replace (n_wit s + 2) with (S (S (n_wit s))) by lia. replace (n_wit s + 3) with (S (S (S (n_wit s)))) by lia. replace (n_wit s + 4) with (S (S (S (S (n_wit s))))) by lia. split.
      * apply sat_cons. split; [apply hash_t_holds; [exact A1|congruence]|]. goaleqs; repeat match goal with H : a (Wit _) = _ |- _ => rewrite H; clear H end; unfold t7, t6, t4, t2, fsquare; ring.
      * repeat match goal with H : a (Wit _) = _ |- _ => rewrite H; clear H end. unfold t7, t6, t4, t2, fsquare. cbn [fpow]. ring.
  - intros a A1 S. apply sat_cons in S. destruct S as [T S]. apply (hash_t_holds constants) in T; [|exact A1]. eqs. rewrite ?(sum1 HK) in *. rewrite <- T.
    rewrite <- H2, <- H1, <- H0, <- H. cbn [fpow]. ring.
Qed.

(** The rounds after the first. *)
Definition rounds_out (e : nat) (k : K) (cs : list K) (y : K) : K := fold_left (fun h c => fpow (fadd (fadd h k) c) e) cs y.
Lemma hash_rounds e kt constants round x_in key : hround_spec e kt constants round -> forall post pre ni nw h, constants = pre ++ post -> pre <> [] ->
  in_scope ni nw x_in -> in_scope ni nw key -> in_scope ni nw h -> exists new out,
  let kn := kt * length post in
  scoped ni (nw + kn) new /\ length new = kn /\ in_scope ni (nw + kn) out /\
  (forall s xv kv hv x k y, n_inst s = ni -> n_wit s = nw -> valued s xv x -> valued s kv k -> valued s hv y -> exists v ws, length ws = kn /\
     forM (round x_in xv key kv) (seq (length pre) (length post)) (h, hv) s = Ok ((out, v), ext s [] ws new) /\
     valued s v (rounds_out e k post y) /\
     forall a, a One = f1 -> wits a nw ws -> a x_in = x -> a key = k -> a h = y -> sat a new /\ a out = rounds_out e k post y) /\
  (forall a, a One = f1 -> sat a new -> a out = rounds_out e (a key) post (a h)).
Proof.
  intros HR. induction post as [|c post IH]; intros pre ni nw h E NE SX SK SH.
  - exists [], h. cbn zeta. cbn [length]. rewrite Nat.mul_0_r, Nat.add_0_r. split; [constructor|]. split; [reflexivity|]. split; [exact SH|]. split.
    + intros s xv kv hv x k y _ _ VX VK VH. exists hv, []. split; [reflexivity|]. split; [now rewrite ext_nil|]. split; [exact VH|]. intros a _ _ _ _ <-. split; [apply sat_nil|reflexivity].
    + reflexivity.
  - assert (LP : 0 < length pre) by (destruct pre; [congruence|cbn; lia]).
    assert (RI : forall x k y, round_in constants (length pre) x k y = fadd (fadd y k) c).
    { intros x k y. unfold round_in. rewrite (proj2 (Nat.eqb_neq _ _)) by lia. rewrite E, app_nth2, Nat.sub_diag by lia. reflexivity. }
    destruct (HR (length pre) ni nw x_in key h) as (n1 & S1 & L1 & P1 & R1 & D1); [rewrite E, app_length; cbn; lia|assumption|assumption|assumption|].
    destruct (IH (pre ++ [c]) ni (nw + kt) (Wit (nw + (kt - 1)))) as (n2 & out & S2 & L2 & O2 & R2 & D2).
    { now rewrite <- app_assoc. } { now destruct pre. } { scope. } { scope. } { cbn. lia. }
    cbn zeta in *. rewrite app_length, Nat.add_1_r in R2.
    exists (n1 ++ n2), out. cbn [length]. replace (nw + kt * S (length post)) with (nw + kt + kt * length post) by lia.
    split; [apply scoped_app; [eapply scoped_mono; [| |exact S1]; lia|exact S2]|]. split; [rewrite app_length; lia|]. split; [exact O2|]. split.
    + intros s xv kv hv x k y NI NW VX VK VH. destruct (R1 s xv kv hv x k y NI NW VX VK (fun _ => VH)) as (v1 & w1 & LW1 & E1 & V1 & C1). rewrite RI in *.
      destruct (R2 (ext s [] w1 n1) xv kv v1 x k (fpow (fadd (fadd y k) c) e)) as (v2 & w2 & LW2 & E2 & V2 & C2); [rewrite ext_inst; cbn; lia|rewrite ext_wit; lia|exact VX|exact VK|exact V1|].
      exists v2, (w1 ++ w2). split; [rewrite app_length; lia|]. split.
      { cbn [seq forM]. unfold bindM. rewrite E1. cbn [bind length] in *. rewrite E2, ext_ext. reflexivity. }
      split; [exact V2|]. intros a A1 AW AX AK AH. apply wits_app in AW. destruct AW as [AW1 AW2]. rewrite LW1 in AW2.
      destruct (C1 a A1 AW1 AX AK AH) as [SA1 O1]. destruct (C2 a A1 AW2 AX AK O1) as [SA2 OO]. split; [apply sat_app; now split|exact OO].
    + intros a A1 S. apply sat_app in S. destruct S as [SA SB]. rewrite (D2 a A1 SB), (D1 a A1 SA), RI. reflexivity.
Qed.
(** All the rounds: the permutation without its final key addition. *)
Definition perm_rounds (e : nat) (cs : list K) (x k : K) : K := rounds_out e k (tl cs) (fpow (fadd x k) e).
Lemma hash_all_rounds e kt constants round n x_in key : hround_spec e kt constants round -> length constants = n -> 0 < n -> forall ni nw h,
  in_scope ni nw x_in -> in_scope ni nw key -> in_scope ni nw h -> exists new out,
  let kn := kt * n in
  scoped ni (nw + kn) new /\ length new = kn /\ in_scope ni (nw + kn) out /\
  (forall s xv kv hv x k y, n_inst s = ni -> n_wit s = nw -> valued s xv x -> valued s kv k -> exists v ws, length ws = kn /\
     forM (round x_in xv key kv) (seq 0 n) (h, hv) s = Ok ((out, v), ext s [] ws new) /\
     valued s v (perm_rounds e constants x k) /\
     forall a, a One = f1 -> wits a nw ws -> a x_in = x -> a key = k -> a h = y -> sat a new /\ a out = perm_rounds e constants x k) /\
  (forall a, a One = f1 -> sat a new -> a out = perm_rounds e constants (a x_in) (a key)).
Proof.
  intros HR LC NP ni nw h SX SK SH. destruct constants as [|c post]; [cbn in LC; lia|]. cbn [length] in LC. subst n.
  destruct (HR 0 ni nw x_in key h) as (n1 & S1 & L1 & P1 & R1 & D1); [cbn; lia|assumption|assumption|assumption|].
  destruct (hash_rounds e kt (c :: post) round x_in key HR post [c] ni (nw + kt) (Wit (nw + (kt - 1)))) as (n2 & out & S2 & L2 & O2 & R2 & D2).
  { reflexivity. } { discriminate. } { scope. } { scope. } { cbn. lia. }
  cbn zeta in *. cbn [length] in R2.
  exists (n1 ++ n2), out. replace (nw + kt * S (length post)) with (nw + kt + kt * length post) by lia.
  split; [apply scoped_app; [eapply scoped_mono; [| |exact S1]; lia|exact S2]|]. split; [rewrite app_length; lia|]. split; [exact O2|]. split.
  + intros s xv kv hv x k y NI NW VX VK. destruct (R1 s xv kv hv x k y NI NW VX VK) as (v1 & w1 & LW1 & E1 & V1 & C1); [lia|]. unfold round_in in *. cbn [Nat.eqb] in *.
    destruct (R2 (ext s [] w1 n1) xv kv v1 x k (fpow (fadd x k) e)) as (v2 & w2 & LW2 & E2 & V2 & C2); [rewrite ext_inst; cbn; lia|rewrite ext_wit; lia|exact VX|exact VK|exact V1|].
    exists v2, (w1 ++ w2). split; [rewrite app_length; lia|]. split.
    { cbn [seq forM]. unfold bindM. rewrite E1. cbn [bind length] in *. rewrite E2, ext_ext. reflexivity. }
    split; [exact V2|]. intros a A1 AW AX AK AH. apply wits_app in AW. destruct AW as [AW1 AW2]. rewrite LW1 in AW2.
    destruct (C1 a A1 AW1 AX AK AH) as [SA1 O1]. destruct (C2 a A1 AW2 AX AK O1) as [SA2 OO]. split; [apply sat_app; now split|exact OO].
  + intros a A1 S. apply sat_app in S. destruct S as [SA SB]. rewrite (D2 a A1 SB), (D1 a A1 SA). reflexivity.
Qed.

(** One input of the hash.  Wires: x_in = Wit nw, key = Wit (nw + 1), h = Wit (nw + 2),
    the rounds, new_h, new_res (public for the last input). *)
Definition bw (kt n : nat) (public : bool) : nat := 3 + kt * n + 1 + (if public then 0 else 1).
Definition bout (kt n ni nw : nat) (public : bool) : var := if public then Inst ni else Wit (nw + (3 + kt * n + 1)).
Lemma hash_block_spec e kt constants round n : hround_spec e kt constants round -> length constants = n -> 0 < n -> forall public ni nw res,
  in_scope ni nw res -> exists new,
  scoped (ni + ki public) (nw + bw kt n public) new /\ length new = kt * n + 2 /\
  (forall s rv xv r x, n_inst s = ni -> n_wit s = nw -> valued s rv r -> valued s xv x -> exists v is ws, length is = ki public /\ length ws = bw kt n public /\
     hash_block round n public (res, rv) xv s = Ok ((bout kt n ni nw public, v), ext s is ws new) /\
     valued s v (fadd (fadd r x) (mimc_perm e constants x r)) /\ (public = true -> is = [fadd (fadd r x) (mimc_perm e constants x r)]) /\
     forall a, a One = f1 -> insts a ni is -> wits a nw ws -> a res = r -> sat a new /\ a (Wit nw) = x /\ a (Wit (nw + 1)) = r /\ a (bout kt n ni nw public) = fadd (fadd r x) (mimc_perm e constants x r)) /\
  (forall a, a One = f1 -> sat a new -> a (bout kt n ni nw public) = fadd (fadd (a res) (a (Wit nw))) (mimc_perm e constants (a (Wit nw)) (a (Wit (nw + 1))))) /\
  (forall a x k, a One = f1 -> exists b, agree ni nw a b /\ b One = f1 /\ sat b new /\ b (Wit nw) = x /\ b (Wit (nw + 1)) = k).
Proof.
  intros HR LC NP public ni nw res SR.
  destruct (hash_all_rounds e kt constants round n (Wit nw) (Wit (nw + 1)) HR LC NP ni (nw + 3) (Wit (nw + 2))) as (n1 & out & S1 & L1 & O1 & R1 & D1); [cbn; lia|cbn; lia|cbn; lia|].
  cbn zeta in *. set (m := nw + 3 + kt * n) in *.
  assert (PR : forall x k, mimc_perm e constants x k = fadd (perm_rounds e constants x k) k) by reflexivity.
  set (new2 := [([(f1, out); (f1, Wit (nw + 1))], [(f1, One)], [(f1, Wit m)]); ([(f1, res); (f1, Wit nw); (f1, Wit m)], [(f1, One)], [(f1, bout kt n ni nw public)])] : list (r1c K)).
  exists (n1 ++ new2).
  assert (BI : bw kt n public = 3 + kt * n + 1 + (if public then 0 else 1)) by reflexivity.
  split; [|split; [|split; [|split]]].
  - apply scoped_app; [eapply scoped_mono; [| |exact S1]; unfold ki; destruct public; lia|]. unfold new2, bout, ki. destruct public; scope.
  - rewrite app_length, L1. unfold new2. cbn. lia.
  - intros s rv xv r x NI NW VR VX. set (nh := mimc_perm e constants x r). set (z := fadd (fadd r x) nh).
    destruct (R1 (ext s [] [x; r; f0] []) xv rv (Some f0) x r f0) as (v & w & LW & E & V & C); [rewrite ext_inst; cbn; lia|rewrite ext_wit; cbn; lia|exact VX|exact VR|].
    exists (if setup s then None else Some z), (if public then [z] else []), (([x; r; f0] ++ w ++ [nh]) ++ if public then [] else [z]).
    split; [now destruct public|]. split; [rewrite !app_length, LW, BI; destruct public; cbn [length]; lia|]. split; [|split; [|split]].
    + unfold hash_block. unfold bindM at 1 2 3. rewrite (new_witness_run _ _ x) by us. cbn [bind]. rewrite (new_witness_run _ _ r) by (unfold usable; cbn [setup ext]; intro SU; unfold valued in VR; now rewrite SU in VR). cbn [bind]. rewrite (new_witness_run _ _ f0) by us. cbn [bind]. rewrite !ext_ext, !ext_wit, NW. cbn [app length]. idtac.
      unfold bindM at 1. rewrite E. cbn [bind]. rewrite ext_ext. unfold lift, bindM. cbn [app].
      assert (NH : exists nv, omap v (fun e0 : K => let* k := unwrap rv in Ok (fadd e0 k)) = Ok nv /\ valued s nv nh).
      { unfold valued in *. rewrite ext_setup in V. destruct (setup s); subst v rv; [now exists None|]. now exists (Some nh). }
      destruct NH as (nv & -> & NV). cbn [bind].
      assert (NZ : omap rv (fun e0 : K => let* x0 := unwrap xv in let* nh0 := unwrap nv in Ok (fadd (fadd e0 x0) nh0)) = Ok (if setup s then None else Some z)).
      { unfold valued in *. destruct (setup s); subst rv xv nv; reflexivity. }
      rewrite (new_witness_run _ nv nh) by (unfold usable; cbn [setup ext]; intro SU; unfold valued in NV; now rewrite SU in NV). cbn [bind]. rewrite ?ext_ext, ?ext_wit, ?ext_inst, NW. cbn [app length]. enf. rewrite NZ. cbn [bind].
      replace (nw + S (S (S (length w)))) with m by (unfold m; lia).
      destruct public.
      * rewrite (new_input_run _ _ z) by (unfold usable; cbn [setup ext]; intros ->; reflexivity). cbn [bind]. rewrite ?ext_ext, ?ext_wit, ?ext_inst, NI. cbn [app length]. enf. unfold ret. cbn [app]. rewrite <- ?app_assoc. cbn [app]. rewrite ?app_nil_r, ?Nat.add_0_r. unfold new2, bout. reflexivity.
      * rewrite (new_witness_run _ _ z) by (unfold usable; cbn [setup ext]; intros ->; reflexivity). cbn [bind]. rewrite ?ext_ext, ?ext_wit, ?ext_inst, NW. cbn [app length]. enf. unfold ret. cbn [app]. rewrite <- !app_assoc. cbn [app]. rewrite ?app_nil_r. unfold new2, bout. rewrite app_length. cbn [length]. replace (nw + S (S (S (length w + 1)))) with (nw + (3 + kt * n + 1)) by lia. reflexivity.
    + unfold valued. destruct (setup s); reflexivity.
    + intros ->. reflexivity.
    + intros a A1 AI AW AR. apply wits_app in AW. destruct AW as [AW AZ]. apply wits_app in AW. destruct AW as [AW0 AW]. apply wits_app in AW. destruct AW as [AW1 AW2]. rewrite LW in AW2. cbn [length] in *. fold m in AW2.
      rewrite !app_length, LW in AZ. cbn [length] in AZ.
      assert (OZ : a (bout kt n ni nw public) = z).
      { unfold bout. destruct public; vals; [assumption|]. now replace (nw + (3 + kt * n + 1)) with (nw + (3 + (kt * n + 1))) by lia. }
      clear AZ AI. vals. replace (S (S nw)) with (nw + 2) in * by lia. replace (S nw) with (nw + 1) in * by lia.
      destruct (C a A1 AW1) as [SA OA]; [assumption|assumption|assumption|]. rewrite OZ. split; [|auto].
      apply sat_app. split; [exact SA|]. unfold new2. goaleqs; rewrite ?OZ, ?OA, ?A1, ?AR; repeat match goal with H : a (Wit _) = _ |- _ => rewrite H; clear H end; unfold z; fold nh; [unfold nh; rewrite PR|]; ring.
  - intros a A1 S. apply sat_app in S. destruct S as [SA SB]. pose proof (D1 a A1 SA) as OA. unfold new2 in SB. eqs. rewrite ?(sum1 HK), ?A1, ?OA in *. rewrite PR. rewrite <- H0, <- H. ring.
  - intros a x k A1.
    destruct (R1 (mkCs false ni (nw + 3) [] [] []) (Some x) (Some k) (Some f0) x k f0) as (v & w & LW & E & V & C); try reflexivity.
    set (nh := mimc_perm e constants x k). set (z := fadd (fadd (a res) x) nh).
    set (b := over a ni nw (if public then [z] else []) (([x; k; f0] ++ w ++ [nh]) ++ if public then [] else [z])). exists b.
    assert (AG : agree ni nw a b) by apply over_agree. split; [exact AG|]. assert (B1 : b One = f1) by now rewrite <- A1. split; [exact B1|].
    assert (AW : wits b nw (([x; k; f0] ++ w ++ [nh]) ++ if public then [] else [z])) by apply over_wits.
    assert (AI : insts b ni (if public then [z] else [])) by apply over_insts. pose proof (AG _ SR) as AR.
    apply wits_app in AW. destruct AW as [AW AZ]. apply wits_app in AW. destruct AW as [AW0 AW]. apply wits_app in AW. destruct AW as [AW1 AW2]. rewrite LW in AW2. cbn [length] in *. fold m in AW2.
    rewrite !app_length, LW in AZ. cbn [length] in AZ.
    assert (OZ : b (bout kt n ni nw public) = z).
    { unfold bout. destruct public; vals; [assumption|]. now replace (nw + (3 + kt * n + 1)) with (nw + (3 + (kt * n + 1))) by lia. }
    clear AZ AI. vals. replace (S (S nw)) with (nw + 2) in * by lia. replace (S nw) with (nw + 1) in * by lia.
    destruct (C b B1 AW1) as [SA OA]; [assumption|assumption|assumption|]. split; [|auto].
    apply sat_app. split; [exact SA|]. unfold new2. goaleqs; rewrite ?OZ, ?OA, ?B1, <- ?AR; repeat match goal with H : b (Wit _) = _ |- _ => rewrite H; clear H end; unfold z; fold nh; [unfold nh; rewrite PR|]; ring.
Qed.

(** What the constraints say: the sum over the inputs of x + E(x, k), the k unrelated. *)
Definition hash_sum (e : nat) (cs : list K) (r : K) (l : list (K * K)) : K :=
  fold_left (fun r xk => fadd (fadd r (fst xk)) (mimc_perm e cs (fst xk) (snd xk))) l r.
(** The wires (x_in, key) of n inputs of B wires each, from nw on. *)
Definition block_wires (a : var -> K) (nw B n : nat) : list (K * K) := map (fun i => (a (Wit (nw + B * i)), a (Wit (nw + B * i + 1)))) (seq 0 n).
Lemma block_wires_S a nw B n : block_wires a nw B (S n) = (a (Wit nw), a (Wit (nw + 1))) :: block_wires a (nw + B) B n.
Proof.
  unfold block_wires. cbn [seq map]. rewrite Nat.mul_0_r, Nat.add_0_r. f_equal. rewrite <- seq_shift, map_map. apply map_ext. intros i.
  replace (nw + B * S i) with (nw + B + B * i) by lia. reflexivity.
Qed.
Lemma block_wires_snoc a nw B n : block_wires a nw B (n + 1) = block_wires a nw B n ++ [(a (Wit (nw + B * n)), a (Wit (nw + B * n + 1)))].
Proof. unfold block_wires. rewrite seq_app, map_app. reflexivity. Qed.
Lemma block_wires_agree a b ni nw B n nw' : agree ni nw a b -> nw' + B * n <= nw -> 2 <= B -> block_wires a nw' B n = block_wires b nw' B n.
Proof.
  intros AG L BB. unfold block_wires. apply map_ext_in. intros i I. apply in_seq in I. assert (i + 1 <= n) by lia. assert (B * (i + 1) <= B * n) by now apply Nat.mul_le_mono_l.
  f_equal; apply AG; cbn; lia.
Qed.

Lemma hash_private e kt constants round n : hround_spec e kt constants round -> length constants = n -> 0 < n -> forall N ni nw res,
  in_scope ni nw res -> exists new out, let B := bw kt n false in
  scoped ni (nw + B * N) new /\ length new = (kt * n + 2) * N /\ in_scope ni (nw + B * N) out /\
  (forall s rv xvs r xs, n_inst s = ni -> n_wit s = nw -> length xvs = N -> valued s rv r -> Forall2 (valued s) xvs xs -> exists v ws, length ws = B * N /\
     forM (fun st xv => hash_block round n false st xv) xvs (res, rv) s = Ok ((out, v), ext s [] ws new) /\
     valued s v (mimc_chain e constants r xs) /\
     forall a, a One = f1 -> wits a nw ws -> a res = r -> sat a new /\ a out = mimc_chain e constants r xs /\ map fst (block_wires a nw B N) = xs) /\
  (forall a, a One = f1 -> sat a new -> a out = hash_sum e constants (a res) (block_wires a nw B N)) /\
  (forall a xks, a One = f1 -> length xks = N -> exists b, agree ni nw a b /\ b One = f1 /\ sat b new /\ block_wires b nw B N = xks).
Proof.
  intros HR LC NP. induction N as [|N IH]; intros ni nw res SR.
  - exists [], res. cbn zeta. rewrite !Nat.mul_0_r, Nat.add_0_r. split; [constructor|]. split; [reflexivity|]. split; [exact SR|]. split; [|split].
    + intros s rv xvs r xs _ _ L VR F. destruct xvs; [|discriminate]. inversion F; subst. exists rv, []. split; [reflexivity|]. split; [now rewrite ext_nil|]. split; [exact VR|]. intros a A1 _ <-. split; [apply sat_nil|]. split; reflexivity.
    + intros a A1 _. reflexivity.
    + intros a xks A1 L. destruct xks; [|discriminate]. exists a. split; [apply agree_refl|]. split; [exact A1|]. split; [apply sat_nil|reflexivity].
  - destruct (hash_block_spec e kt constants round n HR LC NP false ni nw res SR) as (n1 & S1 & L1 & R1 & D1 & X1). unfold ki, bout in *. rewrite Nat.add_0_r in *.
    set (B := bw kt n false) in *. assert (BB : B = 3 + kt * n + 1 + 1) by reflexivity.
    destruct (IH ni (nw + B) (Wit (nw + (3 + kt * n + 1)))) as (n2 & out & S2 & L2 & O2 & R2 & D2 & X2); [cbn; lia|]. cbn zeta in *. fold B in S2, O2, R2, D2, X2.
    exists (n1 ++ n2), out. replace (nw + B * S N) with (nw + B + B * N) by lia.
    split; [apply scoped_app; [eapply scoped_mono; [| |exact S1]; lia|exact S2]|]. split; [rewrite app_length; lia|]. split; [exact O2|]. split; [|split].
    + intros s rv xvs r xs NI NW L VR F. destruct xvs as [|xv xvs]; [discriminate|]. inversion F as [|xv' x xvs' xs' VX F']; subst.
      destruct (R1 s rv xv r x eq_refl eq_refl VR VX) as (v1 & is & w1 & LI & LW1 & E1 & V1 & _ & C1). destruct is; [|discriminate].
      destruct (R2 (ext s [] w1 n1) v1 xvs (fadd (fadd r x) (mimc_perm e constants x r)) xs') as (v2 & w2 & LW2 & E2 & V2 & C2); [rewrite ext_inst; cbn; lia|rewrite ext_wit; lia|now injection L|exact V1|exact F'|].
      exists v2, (w1 ++ w2). split; [rewrite app_length; lia|]. split.
      { cbn [forM]. unfold bindM. rewrite E1. cbn [bind]. rewrite E2, ext_ext. reflexivity. }
      split; [exact V2|]. intros a A1 AW AR. apply wits_app in AW. destruct AW as [AW1 AW2]. rewrite LW1 in AW2.
      destruct (C1 a A1 (insts_nil _ _) AW1 AR) as (SA1 & AX & AK & O1). destruct (C2 a A1 AW2 O1) as (SA2 & OO & MX). split; [apply sat_app; now split|]. split; [exact OO|].
      rewrite block_wires_S. cbn [map fst]. now rewrite AX, MX.
    + intros a A1 S. apply sat_app in S. destruct S as [SA SB]. rewrite block_wires_S. rewrite (D2 a A1 SB), (D1 a A1 SA). reflexivity.
    + intros a xks A1 L. destruct xks as [|[x k] xks]; [discriminate|]. destruct (X1 a x k A1) as (b & AG & B1 & SA & BX & BK).
      destruct (X2 b xks B1) as (b' & AG' & B1' & SA' & BW); [now injection L|]. exists b'. split; [|split; [exact B1'|split]].
      * eapply agree_trans; [exact AG|]. eapply agree_mono; [| |exact AG']; lia.
      * apply sat_app. split; [|exact SA']. eapply sat_agree; [exact S1|exact AG'|exact SA].
      * rewrite block_wires_S, BW. rewrite <- (AG' (Wit nw)), <- (AG' (Wit (nw + 1))) by (cbn; lia). now rewrite BX, BK.
Qed.

(** The whole hash of a non-empty list of inputs. *)
Lemma hash_blocks_spec e kt constants round n : hround_spec e kt constants round -> length constants = n -> 0 < n -> forall N ni nw, exists new, let B := bw kt n false in
  let N' := S N in
  scoped (ni + 1) (nw + B * N') new /\ length new = (kt * n + 2) * N' /\
  (forall s kv xvs k xs, n_inst s = ni -> n_wit s = nw -> length xvs = N' -> valued s kv k -> Forall2 (valued s) xvs xs -> exists ws, length ws = B * N' /\
     hash_blocks round n kv xvs s = Ok (tt, ext s [mimc_chain e constants k xs] ws new) /\
     forall a, a One = f1 -> insts a ni [mimc_chain e constants k xs] -> wits a nw ws -> sat a new /\ a (Wit nw) = k /\ map fst (block_wires a (nw + 1) B N') = xs) /\
  (forall a, a One = f1 -> sat a new -> a (Inst ni) = hash_sum e constants (a (Wit nw)) (block_wires a (nw + 1) B N')) /\
  (forall a r xks, a One = f1 -> length xks = N' -> exists b, agree ni nw a b /\ b One = f1 /\ sat b new /\ b (Wit nw) = r /\ block_wires b (nw + 1) B N' = xks).
Proof.
  intros HR LC NP N ni nw. cbn zeta. set (B := bw kt n false). assert (BB : B = 3 + kt * n + 1 + 1) by reflexivity.
  destruct (hash_private e kt constants round n HR LC NP N ni (nw + 1) (Wit nw)) as (n1 & out & S1 & L1 & O1 & R1 & D1 & X1); [cbn; lia|]. cbn zeta in *. fold B in S1, O1, R1, D1, X1.
  destruct (hash_block_spec e kt constants round n HR LC NP true ni (nw + 1 + B * N) out O1) as (n2 & S2 & L2 & R2 & D2 & X2). unfold ki, bout in *.
  assert (BT : bw kt n true = 3 + kt * n + 1) by (unfold bw; lia). clear LC.
  exists (n1 ++ n2). split; [apply scoped_app; [eapply scoped_mono; [| |exact S1]; lia|eapply scoped_mono; [| |exact S2]; lia]|]. split; [rewrite app_length; lia|].
  assert (MC : forall k xs x, mimc_chain e constants k (xs ++ [x]) = fadd (fadd (mimc_chain e constants k xs) x) (mimc_perm e constants x (mimc_chain e constants k xs))).
  { intros k xs x. unfold mimc_chain. now rewrite fold_left_app. }
  split; [|split].
  - intros s kv xvs k xs NI NW L VK F.
    destruct (exists_last (l := xvs)) as (xl & xz & EX); [intros ->; discriminate|]. subst xvs. rewrite app_length in L. cbn [length] in L.
    apply Forall2_app_inv_l in F. destruct F as (xs1 & xs2 & F1 & F2 & ->). inversion F2 as [|? z ? ? VZ F2']; subst. inversion F2'; subst. rewrite MC.
    destruct (R1 (ext s [] [k] []) kv xl k xs1) as (v1 & w1 & LW1 & E1 & V1 & C1); [rewrite ext_inst; cbn; lia|rewrite ext_wit; cbn; lia|lia|exact VK|exact F1|].
    destruct (R2 (ext s [] ([k] ++ w1) n1) v1 xz (mimc_chain e constants k xs1) z) as (v2 & is & w2 & LI & LW2 & E2 & V2 & IS & C2); [rewrite ext_inst; cbn; lia|rewrite ext_wit, app_length; cbn [length]; lia|exact V1|exact VZ|].
    specialize (IS eq_refl). subst is. exists ([k] ++ w1 ++ w2). split; [rewrite !app_length; cbn [length]; lia|]. split.
    + unfold hash_blocks. unfold bindM at 1. rewrite (new_witness_run _ _ k) by us. cbn [bind]. unfold bindM at 1.
      rewrite (forM_last (xl ++ [xz]) (length (xl ++ [xz])) xl xz (fun b d st => hash_block round n b st d)) by reflexivity. unfold bindM. rewrite E1. cbn [bind]. rewrite ext_ext. cbn [app] in *. rewrite E2. cbn [bind]. unfold ret. rewrite ext_ext. reflexivity.
    + intros a A1 AI AW. apply wits_app in AW. destruct AW as [AW0 AW]. apply wits_app in AW. destruct AW as [AW1 AW2]. apply wits_cons in AW0. destruct AW0 as [W0 _]. cbn [length] in *. rewrite LW1 in AW2.
      destruct (C1 a A1 AW1 W0) as (SA1 & OO & MX). destruct (C2 a A1 AI AW2 OO) as (SA2 & AX & _). split; [apply sat_app; now split|]. split; [exact W0|].
      replace (S N) with (N + 1) by lia; rewrite block_wires_snoc, map_app, MX. cbn [map fst]. now rewrite AX.
  - intros a A1 S. apply sat_app in S. destruct S as [SA SB]. replace (S N) with (N + 1) by lia; rewrite block_wires_snoc. unfold hash_sum. rewrite fold_left_app. fold (hash_sum e constants (a (Wit nw)) (block_wires a (nw + 1) B N)). rewrite <- (D1 a A1 SA). cbn [fold_left fst snd]. now apply D2.
  - intros a r xks A1 L. destruct (exists_last (l := xks)) as (xl & [x k] & EX); [intros ->; discriminate|]. subst xks. rewrite app_length in L. cbn [length] in L.
    pose (a0 := over a ni nw [] [r]). assert (AG0 : agree ni nw a a0) by apply over_agree.
    assert (W0 : a0 (Wit nw) = r) by (pose proof (over_wits a ni nw [] [r]) as W; apply wits_cons in W; apply W).
    destruct (X1 a0 xl) as (b & AG & B1 & SA & BW); [now rewrite <- A1|lia|].
    destruct (X2 b x k B1) as (b' & AG' & B1' & SA' & BX & BK). exists b'. split; [|split; [exact B1'|split; [|split]]].
    + eapply agree_trans; [exact AG0|]. eapply agree_trans; [eapply agree_mono; [| |exact AG]; lia|]. eapply agree_mono; [| |exact AG']; lia.
    + apply sat_app. split; [|exact SA']. eapply sat_agree; [exact S1|exact AG'|exact SA].
    + rewrite <- (AG' (Wit nw)) by (cbn; lia). rewrite <- (AG (Wit nw)) by (cbn; lia). exact W0.
    + replace (S N) with (N + 1) by lia; rewrite block_wires_snoc, BX, BK. f_equal. rewrite <- BW. symmetry. eapply block_wires_agree; [exact AG'|lia|lia].
Qed.
Lemma hash_blocks_nil (round : round_type) n kv k (s : cs K) : usable s kv k -> hash_blocks round n kv [] s = Ok (tt, ext s [] [k] []).
Proof. intros U. unfold hash_blocks, bindM. rewrite (new_witness_run _ _ k) by exact U. reflexivity. Qed.
End Hash.
