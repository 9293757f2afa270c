(** Properties C56-C59 and C66: the component circuits. *)
From Coq Require Import Ring.
From Verif Require Import Base Field Mimc R1cs Circuits CircuitSpec MimcFacts R1csFacts DfCircuitFacts HashCircuitFacts PowCircuitFacts EqualCircuitFacts FrField FrFacts.

Lemma valued_None (K : ops) (x : K) : valued (new_cs true) None x. Proof. reflexivity. Qed.
Lemma valued_Some (K : ops) (x : K) : valued (new_cs false) (Some x) x. Proof. reflexivity. Qed.

(** * C56: the delay-function circuits *)
Definition df_circuit_exact (K : ops) (circuit : option K -> option K -> list K -> M K unit) (native : K -> K -> list K -> res K) (rounds : nat) : Prop :=
  forall consts, length consts = rounds -> exists l, params (circuit None None consts) 1 l /\
  forall x y, exists out s, native x y consts = Ok out /\
    circuit (Some x) (Some y) consts (new_cs false) = Ok (tt, s) /\ cons s = l /\ inst_val s = [out] /\
    sat (asg s) l /\ asg s (Wit 0) = x /\ asg s (Wit 1) = y /\
    forall a : var -> K, a One = f1 -> a (Wit 0) = x -> a (Wit 1) = y ->
      (sat a l <-> (a (Inst 0) = out /\ forall i w, nth_error (wit_val s) i = Some w -> a (Wit i) = w)).

Lemma df_exact (K : ops) (e kt n : nat) round circuit native : round_spec e kt round ->
  (forall xv yv cs s, length cs = n -> circuit xv yv cs s =
    (let# xl := new_witness xv in let# xr := new_witness yv in
     let# _ := forM (fun st i => let# c := lift (index cs i) in round (i =? n - 1) c st) (seq 0 n) (xl, xv, xr, yv) in ret tt) s) ->
  0 < n -> (forall x y cs, length cs = n -> native x y cs = Ok (fst (feistel e cs (x, y)))) -> df_circuit_exact K circuit native n.
Proof.
  intros RS CI NP NA consts LC. destruct (df_circuit e kt round n circuit RS CI NP consts LC) as (l & SC & LL & R & D & U). cbn zeta in *. exists l. split.
  - destruct (R (new_cs true) None None f0 f0) as (ws & LW & E & _); try reflexivity. exists (ext (new_cs true) [fst (feistel e consts (f0, f0))] ws l). split; [exact E|]. split; reflexivity.
  - intros x y. destruct (R (new_cs false) (Some x) (Some y) x y) as (ws & LW & E & C); try reflexivity.
    set (s := ext (new_cs false) [fst (feistel e consts (x, y))] ws l) in *. exists (fst (feistel e consts (x, y))), s.
    assert (HO : insts (asg s) 0 [fst (feistel e consts (x, y))]) by apply (asg_insts s). assert (HW : wits (asg s) 0 ws) by apply (asg_wits s).
    destruct (C (asg s) eq_refl HO HW) as (SA & W0 & W1).
    split; [now apply NA|]. split; [exact E|]. split; [reflexivity|]. split; [reflexivity|]. split; [exact SA|]. split; [exact W0|]. split; [exact W1|].
    intros a A1 A0 AY. split.
    + intros S. assert (AG : agree 1 ((kt + 1) * n + 1) a (asg s)) by (apply U; try assumption; try reflexivity; congruence). split.
      * rewrite (AG (Inst 0)) by (cbn; lia). reflexivity.
      * intros i w I. rewrite (AG (Wit i)); [now apply HW|]. cbn. change (wit_val s) with ws in I. rewrite <- LW. apply nth_error_Some. congruence.
    + intros [AI AW]. apply C; [exact A1| |exact AW]. apply insts_cons. split; [exact AI|apply insts_nil].
Qed.

Theorem C56_mimc5 : forall K : ops, is_ring K -> df_circuit_exact K mimc5_df_circuit mimc5_df MIMC5_DF_ROUNDS.
Proof.
  intros K HK. apply (df_exact K 5 2 MIMC5_DF_ROUNDS df5_round); [exact (df5_round_spec HK)| |unfold MIMC5_DF_ROUNDS; lia|].
  - intros xv yv cs s L. unfold mimc5_df_circuit. now rewrite (proj2 (Nat.eqb_eq _ _) L).
  - intros x y cs L. now apply mimc5_df_ok.
Qed.
Print Assumptions C56_mimc5.
Theorem C56_mimc3 : forall K : ops, is_ring K -> df_circuit_exact K mimc3_df_circuit mimc3_df MIMC3_DF_ROUNDS.
Proof.
  intros K HK. apply (df_exact K 3 1 MIMC3_DF_ROUNDS df3_round); [exact (df3_round_spec HK)| |unfold MIMC3_DF_ROUNDS; lia|].
  - intros xv yv cs s L. unfold mimc3_df_circuit. now rewrite (proj2 (Nat.eqb_eq _ _) L).
  - intros x y cs L. now apply mimc3_df_ok.
Qed.
Print Assumptions C56_mimc3.
(** Any other number of constants: both synthesis and the native function panic. *)
Theorem C56_wrong_constants : forall (K : ops) (xv yv : option K) (x y : K) consts s,
  (length consts <> MIMC5_DF_ROUNDS -> mimc5_df_circuit xv yv consts s = Panic /\ mimc5_df x y consts = Panic) /\
  (length consts <> MIMC3_DF_ROUNDS -> mimc3_df_circuit xv yv consts s = Panic /\ mimc3_df x y consts = Panic).
Proof.
  intros K xv yv x y consts s. split; intros L.
  - split; [|now apply mimc5_df_panic]. unfold mimc5_df_circuit. now rewrite (proj2 (Nat.eqb_neq _ _) L).
  - split; [|now apply mimc3_df_panic]. unfold mimc3_df_circuit. now rewrite (proj2 (Nat.eqb_neq _ _) L).
Qed.
Print Assumptions C56_wrong_constants.
(** The hypotheses are met by the scalar field the code uses, with 10 (322) constants. *)
Example C56_example : is_ring FrBls /\ length (map (fun i => fr (Z.of_nat i)) (seq 0 10)) = MIMC5_DF_ROUNDS /\ length (map (fun i => fr (Z.of_nat i)) (seq 0 322)) = MIMC3_DF_ROUNDS.
Proof. split; [exact FrBls_ring|]. now rewrite !map_length, !seq_length. Qed.

(** * C57: the hash circuits *)
(** Completeness, for a list of at least one input: the honest values satisfy the
    constraints of the parameters and the public input is the hash. *)
Definition hash_complete (K : ops) (circuit : list (option K) -> option K -> list K -> M K unit) (native : list K -> K -> list K -> res K) (rounds : nat) : Prop :=
  forall consts, length consts = rounds -> forall (xs : list K) key, xs <> [] -> exists l h,
    params (circuit (repeat None (length xs)) None consts) 1 l /\ native xs key consts = Ok h /\
    proves (circuit (map Some xs) (Some key) consts) l [h].
(** The defect: whatever the inputs, any public output is accepted.  [stride] is the
    number of wires per input; the i-th input is wire 1 + stride * i. *)
Definition hash_unbound (K : ops) (circuit : list (option K) -> option K -> list K -> M K unit) (rounds stride : nat) : Prop :=
  forall consts, length consts = rounds -> forall (xs : list K) key out, xs <> [] -> exists s,
    circuit (map Some xs) (Some key) consts (new_cs false) = Ok (tt, s) /\
    exists a : var -> K, a One = f1 /\ a (Inst 0) = out /\ sat a (cons s) /\
      forall i x, nth_error xs i = Some x -> asg s (Wit (1 + stride * i)) = x /\ a (Wit (1 + stride * i)) = x.

Lemma forall2_None (K : ops) (xs : list K) : Forall2 (valued (new_cs true)) (repeat None (length xs)) xs.
Proof. induction xs; cbn; constructor; [reflexivity|assumption]. Qed.
Lemma forall2_Some (K : ops) (xs : list K) : Forall2 (valued (new_cs false)) (map Some xs) xs.
Proof. induction xs; cbn; constructor; [reflexivity|assumption]. Qed.
Lemma hash_sum_start (K : ops) (HK : is_ring K) e cs l : forall r : K, hash_sum e cs r l = fadd r (hash_sum e cs f0 l).
Proof.
  pose proof (HK : ring_theory f0 f1 fadd fmul fsub fopp (@eq K)) as R.
  assert (A0 : forall a : K, fadd a f0 = a) by (intros a; rewrite (Radd_comm R); apply (Radd_0_l R)).
  induction l as [|[x k] l IH]; intros r; [symmetry; apply A0|].
  assert (ST : forall r, hash_sum e cs r ((x, k) :: l) = hash_sum e cs (fadd (fadd r x) (mimc_perm e cs x k)) l) by reflexivity.
  rewrite (ST r), (ST f0), IH, (IH (fadd (fadd f0 x) _)), (Radd_0_l R), <- !(Radd_assoc R). reflexivity.
Qed.
Lemma block_wire (K : ops) (a : var -> K) nw B n xs i x : map fst (block_wires a nw B n) = xs -> nth_error xs i = Some x -> a (Wit (nw + B * i)) = x.
Proof.
  intros E I. assert (L : i < n). { assert (i < length xs) by (apply nth_error_Some; congruence). rewrite <- E, map_length in H. unfold block_wires in H. now rewrite map_length, seq_length in H. }
  subst xs. unfold block_wires in I. rewrite map_map in I. erewrite map_nth_error in I; [injection I as <-; reflexivity|]. rewrite nth_error_nth' with (d := 0) by (rewrite seq_length; lia). now rewrite seq_nth by lia.
Qed.

Lemma hash_props (K : ops) (HK : is_ring K) e kt n round circuit native :
  (forall cs, hround_spec e kt cs (round cs)) -> 0 < n ->
  (forall xs k cs, length cs = n -> circuit xs k cs = hash_blocks (round cs) n k xs) ->
  (forall xs k cs, length cs = n -> native xs k cs = Ok (mimc_chain e cs k xs)) ->
  hash_complete K circuit native n /\ hash_unbound K circuit n (bw kt n false).
Proof.
  intros HR NP CI NA.
  assert (SP : forall (consts : list K), length consts = n -> forall xs : list K, xs <> [] -> exists N, length xs = S N) by (intros ? _ [|x xs] X; [easy|now exists (length xs)]).
  split.
  - intros consts LC xs key XN. destruct (SP consts LC xs XN) as [N LX]. destruct (hash_blocks_spec HK e kt consts (round consts) n (HR consts) LC NP N 0 0) as (l & SC & LL & R & _). cbn zeta in *.
    exists l, (mimc_chain e consts key xs). split; [|split; [now apply NA|]].
    + destruct (R (new_cs true) None (repeat None (length xs)) key xs) as (ws & _ & E & _); try reflexivity; [now rewrite repeat_length|apply forall2_None|]. rewrite <- CI in E by exact LC.
      eexists. split; [exact E|]. split; reflexivity.
    + destruct (R (new_cs false) (Some key) (map Some xs) key xs) as (ws & _ & E & C); try reflexivity; [now rewrite map_length|apply forall2_Some|]. rewrite <- CI in E by exact LC.
      eexists. split; [exact E|]. split; [reflexivity|]. split; [reflexivity|]. apply C; [reflexivity|apply (asg_insts (ext (new_cs false) _ _ _))|apply (asg_wits (ext (new_cs false) _ ws _))].
  - intros consts LC xs key out XN. destruct (SP consts LC xs XN) as [N LX]. destruct (hash_blocks_spec HK e kt consts (round consts) n (HR consts) LC NP N 0 0) as (l & SC & LL & R & D & X). cbn zeta in *.
    destruct (R (new_cs false) (Some key) (map Some xs) key xs) as (ws & _ & E & C); try reflexivity; [now rewrite map_length|apply forall2_Some|]. rewrite <- CI in E by exact LC.
    eexists. split; [exact E|]. set (s := ext _ _ _ _) in *. destruct (C (asg s) eq_refl (asg_insts s) (asg_wits s)) as (_ & _ & HX).
    set (xks := map (fun x => (x, f0 : K)) xs).
    destruct (X (fun v => match v with One => f1 | _ => f0 end : K) (fsub out (hash_sum e consts f0 xks)) xks) as (a & _ & A1 & SA & AR & AW); [reflexivity|unfold xks; now rewrite map_length|].
    exists a. split; [exact A1|]. split; [|split; [exact SA|]].
    + rewrite (D a A1 SA), AR, AW, (hash_sum_start K HK). pose proof (HK : ring_theory f0 f1 fadd fmul fsub fopp (@eq K)) as RT.
      rewrite (Rsub_def RT), <- (Radd_assoc RT), (Radd_comm RT (fopp _)), (Ropp_def RT), (Radd_comm RT), (Radd_0_l RT). reflexivity.
    + intros i x I. split; [exact (block_wire K (asg s) _ _ _ xs i x HX I)|]. apply (block_wire K a _ _ (S N) xs i x); [|exact I]. change 1 with (0 + 1). rewrite AW. unfold xks. rewrite map_map. apply map_id.
Qed.
Lemma hash5_props (K : ops) (HK : is_ring K) : hash_complete K mimc5_hash_circuit multi_mimc5_hash MIMC5_HASH_ROUNDS /\ hash_unbound K mimc5_hash_circuit MIMC5_HASH_ROUNDS 45.
Proof.
  apply (hash_props K HK 5 4 MIMC5_HASH_ROUNDS (fun cs => hash5_round cs)); [exact (hash5_spec HK)|unfold MIMC5_HASH_ROUNDS; lia| |].
  - intros xs k cs L. unfold mimc5_hash_circuit. now rewrite (proj2 (Nat.eqb_eq _ _) L).
  - intros xs k cs L. now apply multi_mimc5_ok.
Qed.
Lemma hash7_props (K : ops) (HK : is_ring K) : hash_complete K mimc7_hash_circuit multi_mimc7_hash MIMC7_HASH_ROUNDS /\ hash_unbound K mimc7_hash_circuit MIMC7_HASH_ROUNDS 460.
Proof.
  apply (hash_props K HK 7 5 MIMC7_HASH_ROUNDS (fun cs => hash7_round cs)); [exact (hash7_spec HK)|unfold MIMC7_HASH_ROUNDS; lia| |].
  - intros xs k cs L. unfold mimc7_hash_circuit. now rewrite (proj2 (Nat.eqb_eq _ _) L).
  - intros xs k cs L. now apply multi_mimc7_ok.
Qed.
Theorem C57_mimc5_complete : forall K : ops, is_ring K -> hash_complete K mimc5_hash_circuit multi_mimc5_hash MIMC5_HASH_ROUNDS.
Proof. intros K HK. apply hash5_props. exact HK. Qed.
Print Assumptions C57_mimc5_complete.
Theorem C57_mimc7_complete : forall K : ops, is_ring K -> hash_complete K mimc7_hash_circuit multi_mimc7_hash MIMC7_HASH_ROUNDS.
Proof. intros K HK. apply hash7_props. exact HK. Qed.
Print Assumptions C57_mimc7_complete.
Theorem C57_mimc5_any_output : forall K : ops, is_ring K -> hash_unbound K mimc5_hash_circuit MIMC5_HASH_ROUNDS 45.
Proof. intros K HK. apply hash5_props. exact HK. Qed.
Print Assumptions C57_mimc5_any_output.
Theorem C57_mimc7_any_output : forall K : ops, is_ring K -> hash_unbound K mimc7_hash_circuit MIMC7_HASH_ROUNDS 460.
Proof. intros K HK. apply hash7_props. exact HK. Qed.
Print Assumptions C57_mimc7_any_output.
(** Without inputs there is neither a public input nor a constraint. *)
Theorem C57_no_inputs : forall (K : ops) (key : K) consts, length consts = MIMC5_HASH_ROUNDS ->
  proves (mimc5_hash_circuit [] (Some key) consts) [] [] /\ multi_mimc5_hash [] key consts = Ok key.
Proof.
  intros K key consts LC. split; [|reflexivity]. unfold proves, mimc5_hash_circuit. rewrite (proj2 (Nat.eqb_eq _ _) LC). eexists. split; [apply (hash_blocks_nil _ _ (Some key) key), usable_some|].
  split; [reflexivity|]. split; [reflexivity|constructor].
Qed.
Print Assumptions C57_no_inputs.
Example C57_example : is_ring FrBls /\ length (map (fun i => fr (Z.of_nat i)) (seq 0 10)) = MIMC5_HASH_ROUNDS /\ length (map (fun i => fr (Z.of_nat i)) (seq 0 91)) = MIMC7_HASH_ROUNDS /\ [fr 3; fr 4] <> [].
Proof. split; [exact FrBls_ring|]. split; [reflexivity|]. split; [reflexivity|discriminate]. Qed.

(** * C58: the exponentiation circuit *)
Lemma params_fun (K : ops) (c : M K unit) n l n' l' : params c n l -> params c n' l' -> l = l' /\ n = n'.
Proof. intros (s & E & N & C) (s' & E' & N' & C'). assert (s = s') by congruence. subst. auto. Qed.
Lemma bit_wire (K : ops) (a : var -> K) nw B n l i x : bit_wires a nw B n = l -> nth_error l i = Some x -> a (Wit (nw + B * i)) = x.
Proof.
  intros E I. assert (L : i < n). { assert (i < length l) by (apply nth_error_Some; congruence). rewrite <- E in H. unfold bit_wires in H. now rewrite map_length, seq_length in H. }
  subst l. unfold bit_wires in I. erewrite map_nth_error in I; [injection I as <-; reflexivity|]. rewrite nth_error_nth' with (d := 0) by (rewrite seq_length; lia). now rewrite seq_nth by lia.
Qed.
Lemma u8_None (K : ops) (l : list K) : Forall2 (fun b x => valued (new_cs true) (u8_bit b) x) (repeat None (length l)) l.
Proof. induction l; cbn; constructor; [reflexivity|assumption]. Qed.
Lemma u8_Some (K : ops) (bits : list bool) : Forall2 (fun b (x : K) => valued (new_cs false) (u8_bit b) x) (u8s bits) (map bit bits).
Proof. induction bits as [|b l IH]; cbn; constructor; [destruct b; reflexivity|assumption]. Qed.
Lemma bits_in (K : ops) (bits : list bool) : forall b : K, In b (map bit bits) -> b = f0 \/ b = f1.
Proof. intros x I. apply in_map_iff in I. destruct I as ([] & <- & _); cbn; auto. Qed.

Section Pow.
Context {K : ops} (HK : is_ring K).
Add Ring kring2 : (HK : ring_theory f0 f1 fadd fmul fsub fopp (@eq K)).
Lemma bits_are_bits (bits : list bool) : Forall (@is_bit K) (map bit bits).
Proof. apply Forall_forall. intros x I. apply in_map_iff in I. destruct I as ([] & <- & _); unfold is_bit, bit; ring. Qed.
Lemma fpow_double (g : K) n : fpow (fmul g g) n = fmul (fpow g n) (fpow g n).
Proof. induction n as [|n IH]; cbn [fpow]; [ring|]. rewrite IH. ring. Qed.
Lemma fpow_plus (g : K) n m : fpow g (n + m) = fmul (fpow g n) (fpow g m).
Proof. induction n as [|n IH]; cbn [fpow Nat.add]; [ring|]. rewrite IH. ring. Qed.
Lemma pow_value bits : forall y g : K, fst (pow_steps (map bit bits) (y, g)) = fmul y (fpow g (number bits)).
Proof.
  induction bits as [|b bits IH]; intros y g; [cbn; ring|]. change (pow_steps (map bit (b :: bits)) (y, g)) with (pow_steps (map bit bits) (pow_step (y, g) (bit b))). unfold pow_step. cbn [fst snd]. rewrite IH, fpow_double.
  cbn [number]. destruct b; cbn [bit]; rewrite !fpow_plus; cbn [fpow]; replace (2 * number bits) with (number bits + number bits) by lia; rewrite fpow_plus; ring.
Qed.
Lemma fnat_add n m : fnat (n + m) = fadd (fnat n) (fnat m) :> K.
Proof. induction n as [|n IH]; cbn [fnat Nat.add]; [ring|]. rewrite IH. ring. Qed.
Lemma dec_value bits : forall t x : K, snd (dec_steps (map bit bits) (t, x)) = fadd x (fmul t (fnat (number bits))).
Proof.
  induction bits as [|b bits IH]; intros t x; [cbn; ring|]. change (dec_steps (map bit (b :: bits)) (t, x)) with (dec_steps (map bit bits) (dec_step (t, x) (bit b))). unfold dec_step. cbn [fst snd]. rewrite IH.
  cbn [number]. destruct b; cbn [bit]; rewrite !fnat_add; cbn [fnat]; replace (2 * number bits) with (number bits + number bits) by lia; rewrite fnat_add; ring.
Qed.
Lemma fpow_nonzero (g i : K) n : fmul i g = f1 -> fmul (fpow i n) (fpow g n) = f1.
Proof. intros E. induction n as [|n IH]; cbn [fpow]; [ring|]. transitivity (fmul (fmul i g) (fmul (fpow i n) (fpow g n))); [ring|]. rewrite E, IH. ring. Qed.
Lemma fnat_pow2 n : fnat (2 ^ n) = fpow (fadd f1 f1) n :> K.
Proof. induction n as [|n IH]; [cbn; ring|]. replace (2 ^ S n) with (2 ^ n + 2 ^ n) by (cbn [Nat.pow]; lia). cbn [fpow]. rewrite fnat_add, IH. ring. Qed.
Lemma mul_0 (x : K) : fmul x f0 = f0. Proof. ring. Qed.
Lemma mul_0_l (x : K) : fmul f0 x = f0. Proof. ring. Qed.
End Pow.

Theorem C58_honest : forall K : ops, is_ring K -> exists l, params (pow_circuit (K := K) None (repeat None 20)) 1 l /\
  forall (g : K) bits, length bits = 20 -> exists s, pow_circuit (Some g) (u8s bits) (new_cs false) = Ok (tt, s) /\
    cons s = l /\ inst_val s = [fpow g (number bits)] /\ sat (asg s) l /\ asg s (Wit 0) = f1 /\ asg s (Wit 1) = g /\
    forall i b, nth_error bits i = Some b -> asg s (Wit (2 + 5 * i)) = bit b.
Proof.
  intros K HK. destruct (pow_circuit_spec HK) as (l & SC & LL & R & D & X). exists l. split.
  - destruct (R (new_cs true) (repeat None 20) None (repeat f0 20) f0) as (ws & _ & E & _); try reflexivity; [apply (u8_None K (repeat f0 20))|]. eexists. split; [exact E|]. split; reflexivity.
  - intros g bits LB. destruct (R (new_cs false) (u8s bits) (Some g) (map bit bits) g) as (ws & _ & E & C); try reflexivity; [unfold u8s; now rewrite map_length|apply u8_Some|].
    rewrite (pow_value HK) in *. set (s := ext _ _ _ _) in *. exists s. split; [exact E|]. destruct (C (asg s) eq_refl (asg_insts s) (asg_wits s) (bits_are_bits HK bits)) as (SA & W0 & W1 & BW).
    split; [reflexivity|]. split; [|split; [exact SA|split; [exact W0|split; [exact W1|]]]].
    + cbn. f_equal. apply (Rmul_1_l (HK : ring_theory f0 f1 fadd fmul fsub fopp (@eq K))).
    + intros i b I. apply (bit_wire K (asg s) 2 5 20 (map bit bits)); [exact BW|]. now apply map_nth_error.
Qed.
Print Assumptions C58_honest.
(** A prime field has decidable equality and no zero divisors, so b*b = b means b is 0 or 1. *)
Lemma prime_eq_dec (K : prime_ops) (PF : is_prime_field K) (x y : K) : x = y \/ x <> y.
Proof.
  destruct (Z.eq_dec (repr x) (repr y)) as [E|N]; [left|right; congruence]. rewrite <- (pf_of_repr K PF x), E. apply (pf_of_repr K PF).
Qed.
Lemma is_bit_bool (K : prime_ops) (PF : is_prime_field K) (x : K) : is_bit x -> exists b, x = bit b.
Proof.
  intros B. pose proof (pf_field K PF) as F. pose proof (F_R F : ring_theory f0 f1 fadd fmul fsub fopp (@eq K)) as RT. destruct (prime_eq_dec K PF x f0) as [->|N]; [now exists false|]. exists true. cbn.
  unfold is_bit in B. assert (E : fmul (finv x) (fmul x x) = fmul (finv x) x) by now rewrite B. rewrite (Rmul_assoc RT), (Finv_l F x N), (Rmul_1_l RT) in E. exact E.
Qed.
Lemma bits_of_wires (K : prime_ops) (PF : is_prime_field K) (l : list K) : Forall is_bit l -> exists bits, l = map bit bits.
Proof. induction 1 as [|x l B F IH]; [now exists []|]. destruct IH as [bits ->]. destruct (is_bit_bool K PF x B) as [b ->]. now exists (b :: bits). Qed.

(** Every satisfying assignment: the output is y0 * g^x, where y0 is wire 0, g is wire 1
    and the bits of x are wires 2, 7, 12, ...  Nothing ties y0 to 1. *)
Theorem C58_all_assignments : forall K : prime_ops, is_prime_field K -> forall l, params (pow_circuit (K := K) None (repeat None 20)) 1 l ->
  forall a : var -> K, a One = f1 -> sat a l -> exists bits, length bits = 20 /\
    (forall i b, nth_error bits i = Some b -> a (Wit (2 + 5 * i)) = bit b) /\ a (Inst 0) = fmul (a (Wit 0)) (fpow (a (Wit 1)) (number bits)).
Proof.
  intros K PF l P a A1 SA. assert (HK : is_ring K) by exact (F_R (pf_field K PF)). destruct (pow_circuit_spec HK) as (l' & SC & LL & R & D & X).
  assert (l' = l). { destruct (R (new_cs true) (repeat None 20) None (repeat f0 20) f0) as (ws & _ & E & _); try reflexivity; [apply (u8_None K (repeat f0 20))|]. eapply (params_fun K); [|exact P]. eexists. split; [exact E|]. split; reflexivity. }
  subst l'. destruct (D a A1 SA) as [FB O]. destruct (bits_of_wires K PF _ FB) as [bits EB]. exists bits. split; [|split].
  - apply (f_equal (@length K)) in EB. rewrite map_length in EB. rewrite <- EB. unfold bit_wires. now rewrite map_length, seq_length.
  - intros i b I. apply (bit_wire K a 2 5 20 (map bit bits)); [exact EB|]. now apply map_nth_error.
  - rewrite O, EB. now apply pow_value.
Qed.
Print Assumptions C58_all_assignments.
(** Hence, whatever the base (not 0) and the exponent, every output is accepted. *)
Theorem C58_any_output : forall K : ops, is_field K -> forall l, params (pow_circuit (K := K) None (repeat None 20)) 1 l ->
  forall (g out : K) bits, g <> f0 -> length bits = 20 -> exists a : var -> K, a One = f1 /\ sat a l /\ a (Inst 0) = out /\ a (Wit 1) = g /\
    forall i b, nth_error bits i = Some b -> a (Wit (2 + 5 * i)) = bit b.
Proof.
  intros K F l P g out bits G LB. assert (HK : is_ring K) by exact (F_R F). pose proof (HK : ring_theory f0 f1 fadd fmul fsub fopp (@eq K)) as RT. destruct (pow_circuit_spec HK) as (l' & SC & LL & R & D & X).
  assert (l' = l). { destruct (R (new_cs true) (repeat None 20) None (repeat f0 20) f0) as (ws & _ & E & _); try reflexivity; [apply (u8_None K (repeat f0 20))|]. eapply (params_fun K); [|exact P]. eexists. split; [exact E|]. split; reflexivity. }
  subst l'. destruct (X (fmul out (fpow (finv g) (number bits))) g (map bit bits)) as (a & A1 & SA & W0 & W1 & BW); [now rewrite map_length|apply bits_in|].
  exists a. split; [exact A1|]. split; [exact SA|]. split; [|split; [exact W1|]].
  - destruct (D a A1 SA) as [_ O]. rewrite O, BW, (pow_value HK), W0, W1, <- (Rmul_assoc RT), (fpow_nonzero HK g (finv g)) by exact (Finv_l F g G). rewrite (Rmul_comm RT). apply (Rmul_1_l RT).
  - intros i b I. apply (bit_wire K a 2 5 20 (map bit bits)); [exact BW|]. now apply map_nth_error.
Qed.
Print Assumptions C58_any_output.
(** A wrong number of bits makes synthesis panic; when proving, so does a missing bit or
    a byte that is neither 0 nor 1. *)
Definition keeps_mode {K : ops} {A : Type} (m : M K A) : Prop := forall s a s', m s = Ok (a, s') -> setup s' = setup s.
Lemma keeps_bind (K : ops) (A B : Type) (m : M K A) (k : A -> M K B) : keeps_mode m -> (forall a, keeps_mode (k a)) -> keeps_mode (bindM m k).
Proof. intros HM HK s b s' E. rewrite bindM_run in E. destruct (m s) as [[a s1]|] eqn:E1; [|discriminate]. cbn [bind fst snd] in E. rewrite (HK a s1 b s' E). exact (HM s a s1 E1). Qed.
Lemma keeps_ret (K : ops) (A : Type) (a : A) : keeps_mode (K := K) (ret a). Proof. intros s b s' [= _ <-]. reflexivity. Qed.
Lemma keeps_lift (K : ops) (A : Type) (r : res A) : keeps_mode (K := K) (lift r). Proof. intros s b s' E. unfold lift in E. destruct r; [|discriminate]. now injection E as _ <-. Qed.
Lemma keeps_witness (K : ops) (v : option K) : keeps_mode (new_witness v). Proof. intros s b s' E. unfold new_witness in E. destruct (setup s); [now injection E as _ <-|]. destruct v; [now injection E as _ <-|discriminate]. Qed.
Lemma keeps_input (K : ops) (v : option K) : keeps_mode (new_input v). Proof. intros s b s' E. unfold new_input in E. destruct (setup s); [now injection E as _ <-|]. destruct v; [now injection E as _ <-|discriminate]. Qed.
Lemma keeps_enforce (K : ops) (x y z : lc K) : keeps_mode (enforce x y z). Proof. intros s b s' [= _ <-]. reflexivity. Qed.
Ltac keeps := repeat (apply keeps_bind; [|intros ?]); repeat match goal with
  | |- keeps_mode (bindM _ _) => apply keeps_bind; [|intros ?]
  | |- keeps_mode (new_witness _) => apply keeps_witness
  | |- keeps_mode (new_input _) => apply keeps_input
  | |- keeps_mode (enforce _ _ _) => apply keeps_enforce
  | |- keeps_mode (lift _) => apply keeps_lift
  | |- keeps_mode (ret _) => apply keeps_ret
  | |- keeps_mode (if ?b then _ else _) => destruct b
  end.
Lemma forM_panic (K : ops) (A S : Type) (f : S -> A -> M K S) l x : In x l -> (forall st s, setup s = false -> f st x s = Panic) -> (forall st y, keeps_mode (f st y)) ->
  forall st s, setup s = false -> forM f l st s = Panic.
Proof.
  intros I FX FK. induction l as [|y l IH]; [easy|]. intros st s SF. cbn [forM]. rewrite bindM_run. destruct I as [->|I]; [now rewrite FX|].
  destruct (f st y s) as [[st' s']|] eqn:E; [|reflexivity]. cbn [bind fst snd]. apply IH; [exact I|]. now rewrite (FK st y s st' s' E).
Qed.
Definition not_a_bit (b : option Z) : Prop := b <> Some 0%Z /\ b <> Some 1%Z.
Lemma u8_none (K : ops) b : not_a_bit b -> u8_bit (K := K) b = None.
Proof. intros [N0 N1]. destruct b as [z|]; [|reflexivity]. cbn. destruct (Z.eqb_spec z 1); [now subst|]. destruct (Z.eqb_spec z 0); [now subst|reflexivity]. Qed.
Theorem C58_bad_bit : forall (K : ops) (g : option K) bits i b, nth_error bits i = Some b -> not_a_bit b -> pow_circuit g bits (new_cs false) = Panic.
Proof.
  intros K g bits i b I NB. unfold pow_circuit. destruct (Nat.eqb_spec (length bits) POW_INPUT_SIZE) as [L|L]; [|reflexivity]. assert (IL : i < 20) by (change 20 with POW_INPUT_SIZE; rewrite <- L; apply nth_error_Some; congruence).
  rewrite bindM_run. destruct (new_witness (Some f1) (new_cs false)) as [[y s1]|] eqn:E1; [|reflexivity]. cbn [bind fst snd]. apply keeps_witness in E1.
  rewrite bindM_run. destruct (new_witness g s1) as [[gw s2]|] eqn:E2; [|reflexivity]. cbn [bind fst snd]. apply keeps_witness in E2. rewrite bindM_run.
  rewrite (forM_panic _ _ _ _ _ i); [reflexivity|apply in_seq; unfold POW_INPUT_SIZE; lia| | |now rewrite E2, E1].
  - intros [[[y' yv] g'] gv] s SF. rewrite bindM_run. unfold lift, index. rewrite I. cbn [bind fst snd]. unfold pow_round. rewrite (u8_none K b NB), bindM_run. unfold new_witness. now rewrite SF.
  - intros [[[y' yv] g'] gv] j. apply keeps_bind; [apply keeps_lift|]. intros c. unfold pow_round. keeps.
Qed.
Print Assumptions C58_bad_bit.
Theorem C58_wrong_size : forall (K : ops) (g : option K) bits s, length bits <> 20 -> pow_circuit g bits s = Panic.
Proof. intros K g bits s L. unfold pow_circuit, POW_INPUT_SIZE. now rewrite (proj2 (Nat.eqb_neq _ _) L). Qed.
Print Assumptions C58_wrong_size.
Example C58_example : number (map Nat.odd [1; 0; 1; 1]) = 13 /\ is_field FrBls /\ (f1 : FrBls) <> f0 /\ length (repeat true 20) = 20.
Proof. split; [reflexivity|]. split; [exact FrBls_field|]. split; [exact (F_1_neq_0 FrBls_field)|reflexivity]. Qed.

(** * C59: the decomposition circuit *)
(** The prefix length d is at least 1 and less than 256: two public inputs. *)
Lemma equal_d pr d : (1 <= d < two64)%Z -> usz pr (d - 1) = Ok (d - 1)%Z.
Proof. intros D. unfold usz. rewrite (proj2 (Z.leb_le _ _)), (proj2 (Z.ltb_lt _ _)) by lia. reflexivity. Qed.
Lemma equal_2 (K : ops) d : (1 <= d <= 256)%Z -> (forall x1 x2 : K, give 256 (d - 1) x1 x2 = [x1; x2]) /\ n_public (d - 1) = 2 /\
  forall (bits : list K) st, demand 256 (d - 1) bits st = [snd (dec_steps (firstn (Z.to_nat d) bits) st); snd (dec_steps bits st)].
Proof.
  intros D. unfold give, n_public, demand. change (Z.of_nat 256) with 256%Z. rewrite (proj2 (Z.leb_le 0 (d - 1))), (proj2 (Z.ltb_lt (d - 1) 256)) by lia. cbn [andb]. replace (Z.to_nat (d - 1) + 1) with (Z.to_nat d) by lia. auto.
Qed.
Lemma equal_1 (K : ops) d : (256 <= d)%Z -> (forall x1 x2 : K, give 256 d x1 x2 = [x2]) /\ n_public d = 1 /\
  forall (bits : list K) st, demand 256 d bits st = [snd (dec_steps bits st)].
Proof.
  intros D. unfold give, n_public, demand. change (Z.of_nat 256) with 256%Z. rewrite (proj2 (Z.ltb_ge d 256)) by lia. rewrite !Bool.andb_false_r. auto.
Qed.
Lemma insts_2 (K : ops) (a : var -> K) x y : insts a 0 [x; y] <-> a (Inst 0) = x /\ a (Inst 1) = y.
Proof. rewrite !insts_cons. split; [intros (E0 & E1 & _); auto|intros (E0 & E1); split; [exact E0|split; [exact E1|apply insts_nil]]]. Qed.

Definition equal_params (K : ops) (pr : profile) (d : Z) (n : nat) (l : list (r1c K)) : Prop := params (equal_circuit pr None None (repeat None 256) d) n l.
Lemma equal_setup (K : ops) (HK : is_ring K) pr d d' n l : usz pr (d - 1) = Ok d' -> equal_params K pr d n l ->
  n = n_public d' /\ 
  (forall s bs bits x1v x2v x1 x2, n_inst s = 0 -> n_wit s = 0 -> length bs = 256 -> Forall2 (fun b bit => valued s (u8_bit b) bit) bs bits -> usable s x1v x1 -> usable s x2v x2 ->
     exists ws, length ws = 1026 /\ equal_circuit pr x1v x2v bs d s = Ok (tt, ext s (give 256 d' x1 x2) ws l) /\
       forall a, a One = f1 -> insts a 0 (demand 256 d' bits (f1, f0)) -> wits a 0 ws -> Forall is_bit bits ->
         sat a l /\ a (Wit 0) = f1 /\ a (Wit 1) = f0 /\ bit_wires a 2 4 256 = bits) /\
  (forall a, a One = f1 -> sat a l -> Forall is_bit (bit_wires a 2 4 256) /\ insts a 0 (demand 256 d' (bit_wires a 2 4 256) (a (Wit 0), a (Wit 1)))) /\
  (forall t0 x0 bits, length bits = 256 -> (forall b, In b bits -> b = f0 \/ b = f1) -> exists a : var -> K, a One = f1 /\ sat a l /\ a (Wit 0) = t0 /\ a (Wit 1) = x0 /\ bit_wires a 2 4 256 = bits).
Proof.
  intros U P. destruct (equal_circuit_spec HK pr d d' U) as (l' & SC & LL & R & D & X).
  destruct (R (new_cs true) (repeat None 256) (repeat f0 256) None None f0 f0) as (ws & _ & E & _); try reflexivity; [rewrite <- (repeat_length (f0 : K) 256) at 1; apply u8_None|discriminate|discriminate|].
  assert (P' : equal_params K pr d (n_public d') l'). { eexists. split; [exact E|]. split; [|reflexivity]. rewrite ext_inst. cbn [n_inst new_cs Nat.add]. unfold give, n_public. change (Z.of_nat 256) with 256%Z. now destruct ((0 <=? d') && (d' <? 256))%Z. }
  destruct (params_fun K _ _ _ _ _ P P') as [-> ->]. auto.
Qed.

(** Completeness: with x2 the number and x1 the number formed by its first d bits. *)
Theorem C59_honest : forall K : ops, is_ring K -> forall pr d, (1 <= d <= 256)%Z -> exists l, equal_params K pr d 2 l /\
  forall bits, length bits = 256 ->
    let x1 := fnat (number (firstn (Z.to_nat d) bits)) in let x2 := fnat (number bits) in
    proves (equal_circuit pr (Some x1) (Some x2) (u8s bits) d) l [x1; x2].
Proof.
  intros K HK pr d D. assert (U : usz pr (d - 1) = Ok (d - 1)%Z) by (apply equal_d; unfold two64; lia). destruct (equal_2 K d D) as (G & N & DE).
  destruct (equal_circuit_spec HK pr d (d - 1) U) as (l & SC & LL & R & _). exists l. split.
  - destruct (R (new_cs true) (repeat None 256) (repeat f0 256) None None f0 f0) as (ws & _ & E & _); try reflexivity; [rewrite <- (repeat_length (f0 : K) 256) at 1; apply u8_None|discriminate|discriminate|].
    rewrite G in E. eexists. split; [exact E|]. split; reflexivity.
  - intros bits LB x1 x2. destruct (R (new_cs false) (u8s bits) (map bit bits) (Some x1) (Some x2) x1 x2) as (ws & _ & E & C); try reflexivity; [unfold u8s; now rewrite map_length|apply u8_Some|apply usable_some|apply usable_some|].
    rewrite G in E. rewrite DE in C. set (s := ext _ _ _ _) in *. exists s. split; [exact E|]. split; [reflexivity|]. split; [reflexivity|].
    apply C; [reflexivity| |apply (asg_wits s)|apply (bits_are_bits HK)].
    pose proof (HK : ring_theory f0 f1 fadd fmul fsub fopp (@eq K)) as RT. rewrite firstn_map, !(dec_value HK), !(Radd_0_l RT), !(Rmul_1_l RT). apply (asg_insts s).
Qed.
Print Assumptions C59_honest.
(** Every satisfying assignment: both public values are taken from the same bits (wires
    2, 6, 10, ...), but offset by wire 1 and scaled by wire 0, which are free. *)
Theorem C59_all_assignments : forall K : prime_ops, is_prime_field K -> forall pr d l, (1 <= d <= 256)%Z -> equal_params K pr d 2 l ->
  forall a : var -> K, a One = f1 -> sat a l -> exists bits, length bits = 256 /\
    (forall i b, nth_error bits i = Some b -> a (Wit (2 + 4 * i)) = bit b) /\
    a (Inst 0) = fadd (a (Wit 1)) (fmul (a (Wit 0)) (fnat (number (firstn (Z.to_nat d) bits)))) /\
    a (Inst 1) = fadd (a (Wit 1)) (fmul (a (Wit 0)) (fnat (number bits))).
Proof.
  intros K PF pr d l DR P a A1 SA. assert (HK : is_ring K) by exact (F_R (pf_field K PF)). assert (U : usz pr (d - 1) = Ok (d - 1)%Z) by (apply equal_d; unfold two64; lia). destruct (equal_2 K d DR) as (G & N & DE).
  destruct (equal_setup K HK pr d (d - 1) 2 l U P) as (_ & _ & D & _). destruct (D a A1 SA) as [FB O]. destruct (bits_of_wires K PF _ FB) as [bits EB]. exists bits. split; [|split].
  - apply (f_equal (@length K)) in EB. rewrite map_length in EB. rewrite <- EB. unfold bit_wires. now rewrite map_length, seq_length.
  - intros i b I. apply (bit_wire K a 2 4 256 (map bit bits)); [exact EB|]. now apply map_nth_error.
  - rewrite DE, EB, firstn_map, !(dec_value HK) in O. now apply insts_2.
Qed.
Print Assumptions C59_all_assignments.
(** So every pair of public values is accepted, unless d is all 256 bits. *)
Theorem C59_any_pair : forall K : ops, is_field K -> fadd f1 f1 <> f0 :> K -> forall pr d l, (1 <= d < 256)%Z -> equal_params K pr d 2 l ->
  forall x1 x2 : K, accepts l [x1; x2].
Proof.
  intros K F T2 pr d l DR P x1 x2. assert (HK : is_ring K) by exact (F_R F). pose proof (HK : ring_theory f0 f1 fadd fmul fsub fopp (@eq K)) as RT. assert (U : usz pr (d - 1) = Ok (d - 1)%Z) by (apply equal_d; unfold two64; lia). destruct (equal_2 K d ltac:(lia)) as (G & N & DE).
  destruct (equal_setup K HK pr d (d - 1) 2 l U P) as (_ & _ & D & X). set (n := Z.to_nat d). assert (NR : n < 256) by (unfold n; lia).
  set (bits := repeat false n ++ true :: repeat false (255 - n)).
  assert (LB : length bits = 256) by (unfold bits; rewrite app_length; cbn [length]; rewrite !repeat_length; lia).
  assert (Z0 : forall k, number (repeat false k) = 0) by (induction k as [|k IH]; [reflexivity|]; cbn [repeat number]; rewrite IH; reflexivity).
  assert (NB : number bits = 2 ^ n). { unfold bits. clear -Z0. induction n as [|n IH]; cbn [repeat app number Nat.pow]; [rewrite Z0; reflexivity|]. cbn [repeat app number] in IH. assert (Q : number (repeat false n ++ true :: repeat false (255 - S n)) = 2 ^ n); [|lia].
    clear IH. generalize (255 - S n). intros k. induction n as [|n IH]; cbn [repeat app number Nat.pow]; [rewrite Z0; reflexivity|lia]. }
  assert (NF : number (firstn n bits) = 0). { unfold bits. rewrite firstn_app, repeat_length, Nat.sub_diag, firstn_O, app_nil_r. rewrite firstn_all2 by (rewrite repeat_length; lia). apply Z0. }
  destruct (X (fmul (fsub x2 x1) (fpow (finv (fadd f1 f1)) n)) x1 (map bit bits)) as (a & A1 & SA & W0 & W1 & BW); [now rewrite map_length|apply bits_in|].
  exists a. split; [exact A1|]. split; [|exact SA]. destruct (D a A1 SA) as [_ O]. rewrite DE, BW, firstn_map, !(dec_value HK) in O. fold n in O. rewrite NF, NB, W0, W1, (fnat_pow2 HK) in O. cbn [fnat] in O.
  apply insts_2 in O. apply (insts_2 K a x1 x2). destruct O as [O1 O2]. split; [rewrite O1, (mul_0 HK), (Radd_comm RT); apply (Radd_0_l RT)|].
  rewrite O2, <- (Rmul_assoc RT), (fpow_nonzero HK _ _ _ (Finv_l F _ T2)).
  rewrite (Rmul_comm RT), (Rmul_1_l RT), (Rsub_def RT), (Radd_comm RT x2), (Radd_assoc RT), (Ropp_def RT). apply (Radd_0_l RT).
Qed.
Print Assumptions C59_any_pair.
(** With d = 256 exactly the pairs of equal values are accepted; a larger d (and, without
    overflow checks, d = 0) exposes x2 only, and every x2 is accepted; with overflow checks
    d = 0 panics. *)
Theorem C59_full_width : forall K : ops, is_ring K -> forall pr l, equal_params K pr 256 2 l -> forall x1 x2 : K, accepts l [x1; x2] <-> x1 = x2.
Proof.
  intros K HK pr l P x1 x2. pose proof (HK : ring_theory f0 f1 fadd fmul fsub fopp (@eq K)) as RT. assert (U : usz pr (256 - 1) = Ok (256 - 1)%Z) by (apply equal_d; unfold two64; lia). destruct (equal_2 K 256 ltac:(lia)) as (G & N & DE).
  destruct (equal_setup K HK pr 256 (256 - 1) 2 l U P) as (_ & _ & D & X). split.
  - intros (a & A1 & AI & SA). destruct (D a A1 SA) as [_ O]. rewrite DE in O. apply (insts_2 K a x1 x2) in AI. apply insts_2 in O. destruct AI as [<- <-], O as [-> ->].
    rewrite firstn_all2; [reflexivity|]. unfold bit_wires. rewrite map_length, seq_length. lia.
  - intros <-. destruct (X f0 x1 (map bit (repeat false 256))) as (a & A1 & SA & W0 & W1 & BW); [now rewrite map_length, repeat_length|apply bits_in|].
    exists a. split; [exact A1|]. split; [|exact SA]. destruct (D a A1 SA) as [_ O]. rewrite DE, BW, firstn_map, !(dec_value HK), W0, W1 in O. rewrite !(mul_0_l HK) in O. rewrite (Radd_comm RT), (Radd_0_l RT) in O. exact O.
Qed.
Print Assumptions C59_full_width.
Theorem C59_other_widths : forall K : ops, is_ring K -> forall pr d l n, (256 < d < two64 \/ (d = 0 /\ pr = Release))%Z -> equal_params K pr d n l ->
  n = 1 /\ forall x2 : K, accepts l [x2].
Proof.
  intros K HK pr d l n DR P. pose proof (HK : ring_theory f0 f1 fadd fmul fsub fopp (@eq K)) as RT. assert (U : exists d', usz pr (d - 1) = Ok d' /\ (256 <= d')%Z).
  { destruct DR as [DR|[-> ->]]; [exists (d - 1)%Z; split; [apply equal_d; lia|lia]|]. exists (two64 - 1)%Z. split; [reflexivity|unfold two64; lia]. }
  destruct U as (d' & U & DL). destruct (equal_1 K d' DL) as (G & N & DE). destruct (equal_setup K HK pr d d' n l U P) as (-> & _ & D & X). split; [exact N|]. intros x2.
  destruct (X f0 x2 (map bit (repeat false 256))) as (a & A1 & SA & W0 & W1 & BW); [now rewrite map_length, repeat_length|apply bits_in|].
  exists a. split; [exact A1|]. split; [|exact SA]. destruct (D a A1 SA) as [_ O]. rewrite DE, BW, (dec_value HK), W0, W1 in O. rewrite (mul_0_l HK), (Radd_comm RT), (Radd_0_l RT) in O. exact O.
Qed.
Print Assumptions C59_other_widths.
Theorem C59_zero_panics : forall (K : ops) (x1 x2 : option K) bits s, equal_circuit Debug x1 x2 bits 0 s = Panic.
Proof. intros K x1 x2 bits s. apply equal_circuit_zero. Qed.
Print Assumptions C59_zero_panics.
Theorem C59_bad_bit : forall (K : ops) pr (x1 x2 : option K) bits d i b, nth_error bits i = Some b -> not_a_bit b -> equal_circuit pr x1 x2 bits d (new_cs false) = Panic.
Proof.
  intros K pr x1 x2 bits d i b I NB. unfold equal_circuit. destruct (Nat.eqb_spec (length bits) EQUAL_INPUT_SIZE) as [L|L]; [|reflexivity]. assert (IL : i < 256) by (change 256 with EQUAL_INPUT_SIZE; rewrite <- L; apply nth_error_Some; congruence).
  rewrite bindM_run. destruct (new_witness (Some f1) (new_cs false)) as [[y s1]|] eqn:E1; [|reflexivity]. cbn [bind fst snd]. apply keeps_witness in E1.
  rewrite bindM_run. destruct (new_witness (Some f0) s1) as [[gw s2]|] eqn:E2; [|reflexivity]. cbn [bind fst snd]. apply keeps_witness in E2. rewrite bindM_run.
  rewrite (forM_panic _ _ _ _ _ i); [reflexivity|apply in_seq; unfold EQUAL_INPUT_SIZE; lia| | |now rewrite E2, E1].
  - intros [[[y' yv] g'] gv] s SF. rewrite bindM_run. unfold lift, index. rewrite I. cbn [bind fst snd]. unfold equal_round. rewrite (u8_none K b NB), bindM_run. unfold new_witness. now rewrite SF.
  - intros [[[y' yv] g'] gv] j. apply keeps_bind; [apply keeps_lift|]. intros c. unfold equal_round, expose. keeps.
Qed.
Print Assumptions C59_bad_bit.
(** The hypotheses hold for the scalar field in use, and the parameters exist. *)
Example C59_example : is_field FrBls /\ fadd f1 f1 <> f0 :> FrBls /\ exists l, equal_params FrBls Debug 200 2 l.
Proof.
  split; [exact FrBls_field|]. split.
  - intros E. apply (f_equal fr_val) in E. discriminate E.
  - destruct (C59_honest FrBls FrBls_ring Debug 200 ltac:(lia)) as (l & P & _). now exists l.
Qed.

(** * C66: the field remainder used by the sloth circuit *)
Theorem C66_fmod_zero : forall K : prime_ops, is_prime_field K -> forall x m : K, m <> f0 -> fmod x m = Ok f0.
Proof.
  intros K PF x m N. pose proof (pf_field K PF) as F. pose proof (F_R F : ring_theory f0 f1 fadd fmul fsub fopp (@eq K)) as RT. unfold fmod. destruct (Z.eqb_spec (repr m) 0) as [E|_].
  - destruct N. rewrite <- (pf_of_repr K PF m), E. apply (pf_0 K PF).
  - rewrite <- (Rmul_assoc RT), (Finv_l F m N), (Rmul_comm RT), (Rmul_1_l RT), (Rsub_def RT), (Ropp_def RT). reflexivity.
Qed.
Print Assumptions C66_fmod_zero.
Theorem C66_fmod_panics : forall K : prime_ops, is_prime_field K -> forall x m : K, fmod x m = Panic <-> m = f0.
Proof.
  intros K PF x m. destruct (prime_eq_dec K PF m f0) as [->|N].
  - split; [reflexivity|]. intros _. unfold fmod. rewrite <- (pf_0 K PF), (pf_repr_of K PF), Z.mod_0_l by (pose proof (pf_modulus K PF); lia). reflexivity.
  - rewrite (C66_fmod_zero K PF x m N). split; [discriminate|contradiction].
Qed.
Print Assumptions C66_fmod_panics.
(** It is not a remainder: 7 mod 2 comes out as 0. *)
Theorem C66_remainder_refuted : ~ (forall x m : FrBls, (0 < repr m)%Z -> exists r, fmod x m = Ok r /\ repr r = (repr x mod repr m)%Z).
Proof.
  intros H. destruct (H (fr 7) (fr 2)) as (r & E & R); [reflexivity|]. rewrite (C66_fmod_zero FrBls FrBls_prime_field) in E.
  - injection E as <-. discriminate R.
  - intros E0. apply (f_equal fr_val) in E0. discriminate E0.
Qed.
Print Assumptions C66_remainder_refuted.
Example C66_example : is_prime_field FrBls /\ fr 2 <> f0 :> FrBls /\ fmod (K := FrBls) (fr 7) (fr 2) = Ok f0 /\ fmod (K := FrBls) (fr 7) f0 = Panic.
Proof.
  assert (N : fr 2 <> f0 :> FrBls) by (intros E0; apply (f_equal fr_val) in E0; discriminate E0). split; [exact FrBls_prime_field|]. split; [exact N|].
  split; [now apply (C66_fmod_zero FrBls FrBls_prime_field)|now apply (C66_fmod_panics FrBls FrBls_prime_field)].
Qed.
