(** Facts about the small helpers: the two sloth implementations, fast_modpow,
    xor, parameter sets, padding. *)
From Verif Require Import Base Legendre Sloth SlothFacts Common Prover BytesFacts VdeFacts.
From Coq Require Import Znumtheory Zpow_facts.
Local Open Scope Z_scope.

(** * The num-bigint twin *)
Lemma big_sloth_eq t : forall x p, big_sloth x p t = sloth x p t.
Proof. induction t as [|t IH]; intros x p; [reflexivity|]. cbn [big_sloth sloth]. rewrite IH. reflexivity. Qed.

Lemma big_single_inv_eq y p : prime p -> p mod 2 = 1 -> 0 <= y < p ->
  big_single_sloth_inv y p = single_sloth_inv y p /\ 0 <= single_sloth_inv y p < p.
Proof.
  intros P O Y. pose proof (prime_ge_2 p P) as G2. assert (3 <= p) as G3 by lia.
  unfold big_single_sloth_inv, single_sloth_inv.
  set (x := if Z.rem y 2 =? 1 then Z.rem (y + 1) p else Z.rem (y - 1) p).
  assert (X : (0 < x < p /\ True) \/ x = -1).
  { unfold x. rewrite Z.rem_mod_nonneg by lia. destruct (Z.eqb_spec (y mod 2) 1) as [E|E].
    - assert (y + 1 < p) by lia. rewrite Z.rem_small by lia. left. lia.
    - destruct (Z.eq_dec y 0) as [->|NZ]; [right|left].
      + change (0 - 1) with (Z.opp 1). rewrite Z.rem_opp_l by lia. rewrite Z.rem_small by lia. reflexivity.
      + assert (y <> 1) by (intros ->; apply E; reflexivity). rewrite Z.rem_small by lia. lia. }
  clearbody x. rewrite Zpow_mod_correct by lia.
  destruct X as [[X _]| ->].
  - assert (N : (x ^ 2) mod p <> 0).
    { intros D. apply Zmod_divide in D; [|lia]. rewrite Z.pow_2_r in D. apply prime_mult in D; [|exact P].
      assert (p | x) as K by tauto. apply Zdivide_le in K; lia. }
    pose proof (Z.mod_pos_bound (x ^ 2) p ltac:(lia)) as B.
    rewrite (Z.rem_mod_nonneg x 2) by lia.
    destruct (Z.eqb_spec (x mod 2) 1).
    + rewrite (Z.rem_mod_nonneg (x ^ 2)) by (try apply Z.pow_nonneg; lia).
      rewrite (Z.rem_small ((x ^ 2) mod p)) by lia. rewrite Z.rem_small by lia. lia.
    + rewrite Z.rem_mod_nonneg by (try apply Z.pow_nonneg; lia). lia.
  - change (Z.rem (-1) 2 =? 1) with false. cbv iota. change ((-1) ^ 2) with 1.
    rewrite Z.rem_small, Z.mod_small by lia. lia.
Qed.
Lemma big_inv_eq t : forall y p, prime p -> p mod 2 = 1 -> 0 <= y < p -> big_sloth_inv y p t = sloth_inv y p t.
Proof.
  induction t as [|t IH]; intros y p P O Y; [reflexivity|]. cbn [big_sloth_inv sloth_inv].
  destruct (big_single_inv_eq y p P O Y) as [-> B]. now apply IH.
Qed.

Lemma big_pad l z : (0 < l)%nat -> Z.abs z < 256 ^ Z.of_nat l ->
  length (pad_to l (big_bytes_le z)) = l /\ le2z (pad_to l (big_bytes_le z)) = Z.abs z.
Proof.
  intros L B. unfold big_bytes_le. destruct (Z.eqb_spec z 0) as [->|N].
  - rewrite le2z_pad_to. split; [|reflexivity]. unfold pad_to. cbn [length].
    destruct (Nat.ltb_spec 1 l); [rewrite app_length, zeros_length; cbn [length]; lia|cbn [length]; lia].
  - split; [now apply pad_to_len|]. now rewrite le2z_pad_to, le2z_z2le.
Qed.

(** The chunk loop common to vde and vde_inv of numbig_vde.rs. *)
Lemma big_chunks (g : Z -> Z) x l k : (0 < l)%nat -> length x = (k * l)%nat ->
  (let* starts := step_by (length x) l in
   foldM (fun acc i => let* buf := slice x i (i + l) in
           Ok (acc ++ pad_to l (big_bytes_le (g (le2z buf))))) starts [])
  = Ok (concat (map (fun u => pad_to l (big_bytes_le (g (le2z u)))) (chunks l k x))).
Proof.
  intros L E. unfold step_by. destruct l as [|l']; [lia|]. set (l := S l') in *.
  cbn [bind]. rewrite E, ceil_div_mul by lia.
  assert (G : forall s c acc, (s + c = k)%nat ->
    foldM (fun acc i => let* buf := slice x i (i + l) in Ok (acc ++ pad_to l (big_bytes_le (g (le2z buf)))))
      (map (fun j => j * l)%nat (seq s c)) acc =
    Ok (acc ++ concat (map (fun u => pad_to l (big_bytes_le (g (le2z u)))) (map (chunk l x) (seq s c))))).
  { intros s c. revert s. induction c as [|c IH]; intros s acc SC; [cbn; now rewrite app_nil_r|].
    cbn [seq map foldM concat].
    assert (B : (s * l + l <= k * l)%nat) by (clear - SC L; nia).
    assert (SL : slice x (s * l) (s * l + l) = Ok (chunk l x s)).
    { unfold slice. destruct (Nat.leb_spec (s * l) (s * l + l)); [|lia].
      destruct (Nat.leb_spec (s * l + l) (length x)); [|lia]. cbn [andb]. unfold chunk. do 2 f_equal. lia. }
    rewrite SL. cbn [bind]. rewrite IH by lia. now rewrite app_assoc. }
  rewrite (G 0 k [])%nat by lia. reflexivity.
Qed.

Theorem big_vde_round_trip x p t l k : prime p -> p mod 4 = 3 -> p <= 256 ^ Z.of_nat l -> (0 < l)%nat ->
  length x = (k * l)%nat -> Forall (fun u => 0 < le2z u < p) (chunks l k x) ->
  exists y, big_vde x p t l = Ok y /\ length y = length x /\ big_vde_inv y p t l = Ok x.
Proof.
  intros P M B L E F. pose proof (prime_ge_2 p P).
  pose proof (big_chunks (fun v => big_sloth v p t) x l k L E) as V. eexists. split; [exact V|].
  set (us := chunks l k x) in *. set (g := fun u => pad_to l (big_bytes_le (big_sloth (le2z u) p t))).
  assert (G : Forall (fun u => length (g u) = l /\ le2z (g u) = sloth (le2z u) p t /\ 1 <= le2z (g u) <= p - 1) us).
  { apply Forall_forall. intros u I. rewrite Forall_forall in F. specialize (F u I).
    pose proof (sloth_range p P M t (le2z u) ltac:(lia)) as R. rewrite <- big_sloth_eq in R.
    destruct (big_pad l (big_sloth (le2z u) p t) L) as [G1 G2]; [lia|]. unfold g.
    rewrite G1, G2, big_sloth_eq in *. lia. }
  assert (Lg : Forall (fun u => length u = l) (map g us)).
  { apply Forall_map. eapply Forall_impl; [|exact G]. cbn. tauto. }
  assert (KL : length (map g us) = k) by (unfold us; now rewrite map_length, chunks_length).
  assert (LY : length (concat (map g us)) = (k * l)%nat) by (rewrite (concat_length_uniform l) by exact Lg; now rewrite KL).
  split; [lia|].
  unfold big_vde_inv. rewrite (big_chunks (fun v => big_sloth_inv v p t) _ l k L LY).
  rewrite <- KL at 1. rewrite (chunks_concat l) by exact Lg. rewrite map_map. f_equal.
  transitivity (concat us); [|apply concat_chunks; exact E]. f_equal. rewrite <- (map_id us) at 2. apply map_ext_in. intros u I.
  rewrite Forall_forall in G, F. specialize (G u I) as (G1 & G2 & G3). specialize (F u I).
  assert (R : big_sloth_inv (le2z (g u)) p t = le2z u).
  { rewrite big_inv_eq by (auto; lia). rewrite G2. apply sloth_round_trip; auto. lia. }
  rewrite R. pose proof (le2z_range u) as RU.
  assert (LU : length u = l) by (pose proof (chunks_each l k x E) as C; rewrite Forall_forall in C; apply C, I).
  destruct (big_pad l (le2z u) L) as [A1 A2]; [lia|]. apply le2z_inj; [lia|]. rewrite A2. lia.
Qed.

(** * fast_modpow *)
Lemma fast_loop fuel : forall x t p r, 1 < p -> 0 <= x -> 0 <= t -> 0 <= r < p -> (t < 2 ^ Z.of_nat fuel) -> (fuel <> 0)%nat ->
  fast_modpow_loop (S fuel) x t p r = Some ((r * x ^ t) mod p).
Proof.
  induction fuel as [|fuel IH]; intros x t p r P X T R F N; [contradiction|].
  change (fast_modpow_loop (S (S fuel)) x t p r) with
    (if 0 <? t then fast_modpow_loop (S fuel) (Z.rem (x * x) p) (Z.quot t 2) p
                      (if Z.land t 1 =? 1 then Z.rem (r * x) p else r) else Some r).
  destruct (Z.ltb_spec 0 t) as [C|C].
  - rewrite Z.rem_mod_nonneg by nia. rewrite Z.quot_div_nonneg by lia.
    change 1 with (Z.ones 1) at 1. rewrite Z.land_ones by lia. change (2 ^ 1) with 2.
    assert (ET : t = 2 * (t / 2) + t mod 2) by (apply Z.div_mod; lia).
    assert (MB : 0 <= t mod 2 < 2) by (apply Z.mod_pos_bound; lia).
    assert (Fq : t / 2 < 2 ^ Z.of_nat fuel).
    { rewrite Nat2Z.inj_succ, Z.pow_succ_r in F by lia. apply Z.div_lt_upper_bound; lia. }
    assert (Q0 : 0 <= t / 2) by (apply Z.div_pos; lia).
    assert (PW : (x * x) ^ (t / 2) = x ^ (2 * (t / 2))) by (rewrite <- Z.pow_2_r, <- Z.pow_mul_r by lia; reflexivity).
    set (r' := if t mod 2 =? 1 then Z.rem (r * x) p else r).
    assert (R' : 0 <= r' < p /\ (r' * (x * x) ^ (t / 2)) mod p = (r * x ^ t) mod p).
    { unfold r'. destruct (Z.eqb_spec (t mod 2) 1) as [E|E].
      - rewrite Z.rem_mod_nonneg by nia. split; [apply Z.mod_pos_bound; lia|].
        rewrite Zmult_mod_idemp_l. f_equal. rewrite PW. rewrite ET at 2. rewrite E, Z.pow_add_r, Z.pow_1_r by lia. ring.
      - split; [lia|]. do 2 f_equal. rewrite PW. f_equal. lia. }
    destruct R' as [R1 R2]. rewrite <- R2.
    destruct fuel as [|fuel'].
    + change (2 ^ Z.of_nat 0) with 1 in Fq. assert (E0 : t / 2 = 0) by lia. rewrite E0.
      cbn [fast_modpow_loop]. change (0 <? 0) with false. cbv iota. rewrite Z.pow_0_r, Z.mul_1_r, Z.mod_small by lia. reflexivity.
    + pose proof (Z.mod_pos_bound (x * x) p ltac:(lia)) as XB. rewrite IH by lia.
      f_equal. rewrite (Zmult_mod r' ((x * x mod p) ^ (t / 2))), <- Zpower_mod by lia. now rewrite <- Zmult_mod.
  - assert (t = 0) as -> by lia. rewrite Z.pow_0_r, Z.mul_1_r, Z.mod_small by lia. reflexivity.
Qed.
Theorem fast_modpow_correct x t p : 1 < p -> 0 <= x -> 0 <= t -> fast_modpow x t p = Some (x ^ t mod p).
Proof.
  intros P X T. unfold fast_modpow. replace (Z.to_nat (Z.log2 t) + 2)%nat with (S (S (Z.to_nat (Z.log2 t)))) by lia.
  rewrite fast_loop; try lia; [now rewrite Z.mul_1_l|].
  destruct (Z.eq_dec t 0) as [->|N]; [reflexivity|].
  pose proof (Z.log2_spec t ltac:(lia)). pose proof (Z.log2_nonneg t). rewrite Nat2Z.inj_succ, Z2Nat.id by lia. lia.
Qed.

(** * modadd panics exactly when the sum does not fit *)
Lemma modadd_panics u h p : 0 < p ->
  (modadd u h p = Panic <-> 256 ^ Z.of_nat (length u) <= (le2z u + le2z h) mod p).
Proof.
  intros P. unfold modadd. destruct (Z.eqb_spec p 0); [lia|].
  pose proof (le2z_nonneg u). pose proof (le2z_nonneg h). rewrite Z.rem_mod_nonneg by lia.
  pose proof (Z.mod_pos_bound (le2z u + le2z h) p P) as B. rewrite <- (Z.abs_eq ((le2z u + le2z h) mod p)) at 2 by lia.
  destruct (Z.lt_ge_cases (Z.abs ((le2z u + le2z h) mod p)) (256 ^ Z.of_nat (length u))) as [C|C].
  - destruct (pad_exact_ok (length u) _ C) as (bs & -> & _). split; [discriminate|lia].
  - rewrite pad_exact_panic by exact C. split; [lia|reflexivity].
Qed.

(** * to_units *)
Lemma to_units_iff data len : (exists us, to_units data len = Ok us) <-> (0 < len)%nat /\ Nat.divide len (length data).
Proof.
  split.
  - intros (us & E). destruct len as [|l]; [discriminate|]. split; [lia|].
    destruct (Nat.eq_dec (length data mod S l) 0) as [M|M].
    + apply Nat.mod_divide in M; [exact M|lia].
    + rewrite to_units_panic in E; [discriminate|lia|]. intros D. apply M. now apply Nat.mod_divide.
  - intros [L (k & K)]. rewrite (to_units_ok len k) by assumption. eauto.
Qed.
Lemma to_units_props data len us : to_units data len = Ok us ->
  com_units us = data /\ Forall (fun u => length u = len) us.
Proof.
  intros E. destruct (proj1 (to_units_iff data len) (ex_intro _ us E)) as [L (k & K)].
  rewrite (to_units_ok len k) in E by assumption. injection E as <-. rewrite com_units_concat. split.
  - now apply concat_chunks.
  - now apply chunks_each.
Qed.
Lemma to_com us len : (0 < len)%nat -> Forall (fun u => length u = len) us -> to_units (com_units us) len = Ok us.
Proof.
  intros L F. rewrite com_units_concat. rewrite (to_units_ok len (length us)); [|exact L|now apply concat_length_uniform].
  now rewrite chunks_concat.
Qed.

(** * xor *)
Lemma bxor_val a b : b2z (bxor a b) = Z.lxor (b2z a) (b2z b).
Proof.
  unfold bxor. rewrite b2z_z2b. pose proof (b2z_range a). pose proof (b2z_range b).
  assert (N : 0 <= Z.lxor (b2z a) (b2z b)) by (apply Z.lxor_nonneg; lia).
  apply Z.mod_small. split; [exact N|].
  destruct (Z.eq_dec (Z.lxor (b2z a) (b2z b)) 0) as [->|NZ]; [lia|].
  change 256 with (2 ^ 8). apply Z.log2_lt_pow2; [lia|].
  eapply Z.le_lt_trans; [apply Z.log2_lxor; lia|].
  assert (LG : forall c, 0 <= c < 256 -> Z.log2 c < 8).
  { intros c C. destruct (Z.eq_dec c 0) as [->|]; [reflexivity|]. apply Z.log2_lt_pow2; [lia|]. exact (proj2 C). }
  apply Z.max_lub_lt; apply LG; assumption.
Qed.
Lemma bxor_comm a b : bxor a b = bxor b a.
Proof. apply b2z_inj. rewrite !bxor_val. apply Z.lxor_comm. Qed.
Lemma bxor_assoc a b c : bxor a (bxor b c) = bxor (bxor a b) c.
Proof. apply b2z_inj. rewrite !bxor_val. symmetry. apply Z.lxor_assoc. Qed.
Lemma bxor_0_r a : bxor a x00 = a.
Proof. apply b2z_inj. rewrite bxor_val. apply Z.lxor_0_r. Qed.
Lemma bxor_self a : bxor a a = x00.
Proof. apply b2z_inj. rewrite bxor_val. apply Z.lxor_nilpotent. Qed.
Local Open Scope nat_scope.
Lemma zipx_length l : forall r, length (zipx l r) = Nat.min (length l) (length r).
Proof. induction l as [|a l IH]; intros [|b r]; cbn; auto. Qed.
Lemma xor_length a b : length (vecu8_xor a b) = Nat.max (length a) (length b).
Proof.
  unfold vecu8_xor. destruct (Nat.ltb_spec (length b) (length a)); rewrite app_length, zipx_length, skipn_length; lia.
Qed.
Lemma xor_nth_l l : forall r k, length r <= length l -> nth k (zipx l r ++ skipn (length r) l) x00 = bxor (nth k l x00) (nth k r x00).
Proof.
  induction l as [|a l IH]; intros [|b r] k L; cbn [length] in *; try lia.
  - destruct k; reflexivity.
  - cbn [zipx skipn app]. destruct k; cbn [nth]; symmetry; apply bxor_0_r.
  - cbn [zipx skipn app]. destruct k; cbn [nth]; [reflexivity|]. apply IH. lia.
Qed.
Lemma zipx_comm l : forall r, zipx l r = zipx r l.
Proof. induction l as [|a l IH]; intros [|b r]; cbn; auto. now rewrite IH, bxor_comm. Qed.
Lemma xor_nth a b k : nth k (vecu8_xor a b) x00 = bxor (nth k a x00) (nth k b x00).
Proof.
  unfold vecu8_xor. destruct (Nat.ltb_spec (length b) (length a)).
  - apply xor_nth_l. lia.
  - rewrite zipx_comm, bxor_comm. apply xor_nth_l. lia.
Qed.
Lemma bytes_ext (a b : list byte) : length a = length b -> (forall k, nth k a x00 = nth k b x00) -> a = b.
Proof. intros L E. apply file_ext; auto. Qed.
Lemma xor_comm a b : vecu8_xor a b = vecu8_xor b a.
Proof. apply bytes_ext; [rewrite !xor_length; lia|]. intros k. rewrite !xor_nth. apply bxor_comm. Qed.
Lemma xor_assoc a b c : vecu8_xor a (vecu8_xor b c) = vecu8_xor (vecu8_xor a b) c.
Proof. apply bytes_ext; [rewrite !xor_length; lia|]. intros k. rewrite !xor_nth. apply bxor_assoc. Qed.
Lemma nth_nil k : nth k (@nil byte) x00 = x00. Proof. destruct k; reflexivity. Qed.
Lemma nth_zeros k n : nth k (zeros n) x00 = x00.
Proof. revert k. induction n as [|n IH]; intros [|k]; cbn; auto. Qed.
Lemma xor_nil a : vecu8_xor a [] = a.
Proof. apply bytes_ext; [rewrite xor_length; cbn; lia|]. intros k. rewrite xor_nth, nth_nil. apply bxor_0_r. Qed.
Lemma nth_app_zeros a n k : nth k (a ++ zeros n) x00 = nth k a x00.
Proof.
  destruct (Nat.lt_ge_cases k (length a)) as [C|C]; [now rewrite app_nth1|].
  rewrite app_nth2, nth_zeros by exact C. symmetry. now apply nth_overflow.
Qed.
Lemma xor_twice a b : vecu8_xor (vecu8_xor a b) b = a ++ zeros (length b - length a).
Proof.
  apply bytes_ext; [rewrite !xor_length, app_length, zeros_length; lia|].
  intros k. rewrite !xor_nth, nth_app_zeros, <- bxor_assoc, bxor_self. apply bxor_0_r.
Qed.

(** * Padding and compressing *)
Lemma copy_and_pad_val f data_l unit_l : unit_l <> 0 ->
  copy_and_pad f data_l unit_l =
  Ok (concat (map (fun cnt => read_file f (cnt * unit_l) unit_l ++ [x00]) (seq 0 (data_l / unit_l)))).
Proof.
  intros U. unfold copy_and_pad. apply Nat.eqb_neq in U. rewrite U. f_equal.
  enough (G : forall l acc, fold_left (fun new cnt => new ++ (read_file f (cnt * unit_l) unit_l ++ [x00])) l acc
     = acc ++ concat (map (fun cnt => read_file f (cnt * unit_l) unit_l ++ [x00]) l)) by apply (G _ []).
  induction l as [|x l IH]; intros acc; cbn [fold_left map concat]; [now rewrite app_nil_r|].
  rewrite IH. now rewrite <- !app_assoc.
Qed.
Lemma concat_reads f n u : concat (map (fun cnt => read_file f (cnt * u) u) (seq 0 n)) = read_file f 0 (n * u).
Proof.
  induction n as [|n IH]; [reflexivity|]. rewrite seq_S, map_app, concat_app, IH. cbn [map concat plus]. rewrite app_nil_r.
  apply bytes_ext.
  - rewrite app_length, !read_file_length. cbn. lia.
  - intros k. assert (R : forall b l i, nth i (read_file f b l) x00 = if i <? l then nth (b + i) f x00 else x00).
    { intros b l i. destruct (Nat.ltb_spec i l) as [C|C].
      - apply nth_error_nth. now apply read_file_nth.
      - apply nth_overflow. rewrite read_file_length. lia. }
    destruct (Nat.lt_ge_cases k (n * u)) as [C|C].
    + rewrite app_nth1 by (rewrite read_file_length; exact C). rewrite !R.
      destruct (Nat.ltb_spec k (n * u)); [|lia]. destruct (Nat.ltb_spec k (S n * u)); [reflexivity|cbn in *; lia].
    + rewrite app_nth2 by (rewrite read_file_length; exact C). rewrite read_file_length, !R.
      destruct (Nat.ltb_spec (k - n * u) u), (Nat.ltb_spec k (S n * u)); cbn in *; try lia; [f_equal; lia|reflexivity].
Qed.
Lemma pad_units_each f unit_l n : Forall (fun u => length u = unit_l + 1)
  (map (fun cnt => read_file f (cnt * unit_l) unit_l ++ [x00]) (seq 0 n)).
Proof. apply Forall_map, Forall_forall. intros k _. rewrite app_length, read_file_length. reflexivity. Qed.
Lemma pad_unit f data_l unit_l g : unit_l <> 0 -> copy_and_pad f data_l unit_l = Ok g ->
  length g = data_l / unit_l * (unit_l + 1) /\
  forall k, k < data_l / unit_l -> read_file g (k * (unit_l + 1)) (unit_l + 1) = read_file f (k * unit_l) unit_l ++ [x00].
Proof.
  intros U E. rewrite copy_and_pad_val in E by exact U. injection E as <-. set (n := data_l / unit_l).
  pose proof (pad_units_each f unit_l n) as F. set (us := map _ (seq 0 n)) in *.
  assert (LU : length us = n) by (unfold us; now rewrite map_length, seq_length).
  assert (LC : length (concat us) = n * (unit_l + 1)) by (rewrite (concat_length_uniform (unit_l + 1)) by exact F; now rewrite LU).
  split; [exact LC|]. intros k K.
  assert (KB : k * (unit_l + 1) + (unit_l + 1) <= n * (unit_l + 1)) by nia.
  rewrite read_file_full by lia.
  pose proof (chunks_concat (unit_l + 1) us F) as C.
  assert (N : nth_error (chunks (unit_l + 1) (length us) (concat us)) k = nth_error us k) by now rewrite C.
  unfold chunks in N. rewrite nth_error_map in N. rewrite LU in N.
  rewrite nth_error_nth' with (d := 0) in N by (rewrite seq_length; exact K). rewrite seq_nth in N by exact K. cbn [option_map plus] in N.
  unfold chunk in N. unfold us in N at 2. rewrite nth_error_map in N.
  rewrite nth_error_nth' with (d := 0) in N by (rewrite seq_length; exact K). rewrite seq_nth in N by exact K. cbn [option_map plus] in N.
  now injection N.
Qed.
Lemma compress_val g data_l unit_l unit_pl : unit_l <> 0 -> unit_l <= unit_pl ->
  copy_and_compress g data_l unit_l unit_pl =
  Ok (concat (map (fun k => firstn unit_l (read_file g (k * unit_pl) unit_pl)) (seq 0 (data_l / unit_l)))).
Proof.
  intros U LE. unfold copy_and_compress. apply Nat.eqb_neq in U. rewrite U.
  generalize (seq 0 (data_l / unit_l)) as l. intros l.
  change (concat (map (fun k => firstn unit_l (read_file g (k * unit_pl) unit_pl)) l))
    with ([] ++ concat (map (fun k => firstn unit_l (read_file g (k * unit_pl) unit_pl)) l)).
  generalize (@nil byte) as acc. induction l as [|x l IH]; intros acc; cbn [foldM map concat]; [now rewrite app_nil_r|].
  unfold slice at 1. rewrite read_file_length. cbn [Nat.leb andb]. destruct (Nat.leb_spec unit_l unit_pl); [|lia].
  cbn [bind skipn]. rewrite Nat.sub_0_r, IH. now rewrite app_assoc.
Qed.
Theorem compress_pad f data_l unit_l g : unit_l <> 0 -> copy_and_pad f data_l unit_l = Ok g ->
  copy_and_compress g data_l unit_l (unit_l + 1) = Ok (read_file f 0 (data_l / unit_l * unit_l)).
Proof.
  intros U E. destruct (pad_unit f data_l unit_l g U E) as [_ P]. rewrite compress_val by lia. f_equal.
  rewrite <- concat_reads. f_equal. apply map_ext_in. intros k K. apply in_seq in K. rewrite P by lia.
  rewrite firstn_app, read_file_length, Nat.sub_diag. cbn [firstn]. rewrite app_nil_r, firstn_all2; [reflexivity|].
  rewrite read_file_length. lia.
Qed.
Corollary compress_pad_id f data_l unit_l g : unit_l <> 0 -> Nat.divide unit_l data_l -> length f = data_l ->
  copy_and_pad f data_l unit_l = Ok g -> copy_and_compress g data_l unit_l (unit_l + 1) = Ok f.
Proof.
  intros U (k & K) L E. rewrite (compress_pad f data_l unit_l g U E). f_equal.
  replace (data_l / unit_l) with k by (rewrite K, Nat.div_mul; auto). rewrite <- K, <- L.
  rewrite read_file_full by lia. cbn [skipn]. apply firstn_all.
Qed.
Lemma padded_units f data_l unit_l : unit_l <> 0 ->
  exists g, copy_and_pad f data_l unit_l = Ok g /\ length g = data_l / unit_l * (unit_l + 1) /\
  forall k, k < data_l / unit_l ->
    firstn (unit_l + 1) (skipn (k * (unit_l + 1)) g) = read_file f (k * unit_l) unit_l ++ [x00].
Proof.
  intros U. eexists. pose proof (copy_and_pad_val f data_l unit_l U) as E. split; [exact E|].
  destruct (pad_unit f data_l unit_l _ U E) as [L P]. split; [exact L|]. intros k K. rewrite <- P by exact K.
  symmetry. apply read_file_full. rewrite L. nia.
Qed.
