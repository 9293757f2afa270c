(** Properties C83 and C84: how likely each challenge is, and how likely it is that a
    challenge misses what a stored file has lost.  Vocabulary: [words], [tuples], [count],
    [binom], [drawn], [finished], [is_set] from Chance; [restores], [same_block] from
    PropSpot.  H is blake3, H2 is SHA-256. *)
From Coq Require Import Strings.Byte Sorted.
From Verif Require Import Base Sloth Common Depend Prover Verifier Merkle Postorage BytesFacts DependSpec DependFacts CommonFacts SealSpec SealTop SealPad SealZero SealWitness
  ChallengeFacts MerkleFacts SealMeaning ParamFacts PostorageFacts SpotFacts PropSpot Chance ChanceFacts.
Local Open Scope nat_scope.

(** C83: any two challenges of c different indices in a .. b - 1 are drawn equally often. *)
Theorem C83_uniform : forall c a b L A B, a <= b -> StronglySorted lt A -> StronglySorted lt B -> length A = c -> length B = c ->
  Forall (fun x => a <= x < b) A -> Forall (fun x => a <= x < b) B ->
  count (fun w => is_set A (drawn c a b w)) (words (b - a) L) = count (fun w => is_set B (drawn c a b w)) (words (b - a) L).
Proof. intros. apply count_eq; auto. congruence. Qed.
Print Assumptions C83_uniform.
(** So each is one in (b - a choose c) of the draws that are enough. *)
Theorem C83_share : forall c a b L A, a <= b -> StronglySorted lt A -> length A = c -> Forall (fun x => a <= x < b) A ->
  count (fun w => is_set A (drawn c a b w)) (words (b - a) L) * binom (b - a) c = count (finished c a b) (words (b - a) L).
Proof. intros. now apply set_share. Qed.
Print Assumptions C83_share.
(** Draws are enough if and only if they have c different values. *)
Theorem C83_enough : forall c a b w, a < b -> Forall (fun x => x < b - a) w -> (finished c a b w = true <-> c <= length (nodup Nat.eq_dec w)).
Proof. exact finished_spec. Qed.
Print Assumptions C83_enough.
(** Once enough, further draws do not matter. *)
Theorem C83_more : forall c a b w v A, drawn c a b w = Some A -> drawn c a b (w ++ v) = Some A.
Proof. exact drawn_more. Qed.
Print Assumptions C83_more.
(** The share of draws of length L that are not enough is at most
    (b - a choose c - 1) * ((c - 1) / (b - a)) ^ L. *)
Theorem C83_unfinished : forall c a b L, a < b -> 0 < c <= b - a ->
  count (fun w => negb (finished c a b w)) (words (b - a) L) <= binom (b - a) (c - 1) * (c - 1) ^ L /\ length (words (b - a) L) = (b - a) ^ L.
Proof. intros c a b L LT C. split; [now apply unfinished_bound|apply words_length]. Qed.
Print Assumptions C83_unfinished.
(** It is smaller than any 1 / K for long enough draws: the loop ends with probability one. *)
Theorem C83_ends : forall c a b K, a < b -> c <= b - a -> exists L0, forall L, L0 <= L ->
  K * count (fun w => negb (finished c a b w)) (words (b - a) L) <= length (words (b - a) L).
Proof. exact unfinished_vanish. Qed.
Print Assumptions C83_ends.
(** No number of draws is always enough for two or more indices. *)
Theorem C83_always_enough_refuted : forall c a b, a < b -> 2 <= c -> forall L, exists w, In w (words (b - a) L) /\ drawn c a b w = None.
Proof.
  intros c a b LT C L. assert (F : Forall (fun x => x < b - a) (repeat 0 L)) by (apply Forall_forall; intros x X; apply repeat_spec in X; lia). exists (repeat 0 L). split.
  - apply words_In. rewrite repeat_length. auto.
  - assert (N : finished c a b (repeat 0 L) <> true).
    { rewrite finished_spec by auto. assert (incl (nodup Nat.eq_dec (repeat 0 L)) [0]) by (intros x X; apply nodup_In, repeat_spec in X; now left).
      apply NoDup_incl_length in H; [cbn in H; lia|apply NoDup_nodup]. }
    unfold finished in N. destruct (drawn c a b (repeat 0 L)); congruence.
Qed.
Print Assumptions C83_always_enough_refuted.
(** Three draws for two indices out of 5, 6, 7: 24 of 27 are enough, each pair has 8. *)
Example C83_ex : count (finished 2 5 8) (words 3 3) = 24 /\ count (fun w => is_set [5; 7] (drawn 2 5 8 w)) (words 3 3) = 8 /\ binom 3 2 = 3 /\
  drawn 2 5 8 [2; 2; 0] = Some [5; 7].
Proof. vm_compute. auto. Qed.

(** C84.  An audit: a stored file F, to which challenges about the data origin are put. *)
Record audit (H H2 : list byte -> list byte) (pr : profile) (params : PosPara) (key : Z) (iv : list byte) (n m : nat)
  (F c origin pub : file) (leaves : list (list byte)) (tree : list (list (nat * list byte))) (root : list byte) : Prop := {
  au_setting : setting H pr params key n m;
  au_key : forall d, (le2z (H d) < key < 256 ^ Z.of_nat (unit_pl params))%Z;
  au_modes : mode_l params = 0;
  au_layout : layout params n m;
  au_hash : hash32 H2;
  au_stored : n * block_pl params <= length F;
  (** what F is restored to *)
  au_restores : restores H pr params key iv F c;
  au_pub : load_data pub = Ok (key, iv);
  au_tree : exists ids, length ids = n /\ generate_merkle_tree_from_data H2 ids = Ok (leaves, tree, root) }.

Section Audit.
Context {H H2 : list byte -> list byte} {pr : profile} {params : PosPara} {key : Z} {iv : list byte} {n m : nat}
  {F c origin pub : file} {leaves : list (list byte)} {tree : list (list (nat * list byte))} {root : list byte}
  (AU : audit H H2 pr params key iv n m F c origin pub leaves tree root).
Context {good : list nat} (GOOD : forall k, In k good <-> k < n /\ same_block params c origin k).
Lemma audit_challenge parallel_num r idx : StronglySorted lt idx -> Forall (fun i => 0 <= i < n) idx -> 0 < length idx ->
  (challenge H H2 pr params parallel_num origin F pub leaves tree root r idx (Ok tt) <-> incl idx good).
Proof.
  intros S R LI. destruct AU as [SET KB ML LAY HH LF RS LD (ids & IDS & GT)].
  assert (R' : Forall (fun i => i < n) idx) by (eapply Forall_impl; [|exact R]; cbn; lia).
  rewrite (C81_challenge H H2 pr params key iv n m SET KB ML LAY HH F c LF RS origin pub ids leaves tree root LD IDS GT idx S R') by (destruct idx; [cbn in LI; lia|discriminate]).
  rewrite Forall_forall in R'. split.
  - intros [(_ & B)|(C & _)]; [|discriminate]. intros k K. apply GOOD. auto.
  - intros I. left. split; [reflexivity|]. intros k K. now apply I, GOOD in K.
Qed.
End Audit.
Lemma sorted_good n good P : NoDup good -> (forall k, In k good <-> k < n /\ P k) ->
  StronglySorted lt (sort_dedup good) /\ Forall (fun x => x < n) (sort_dedup good) /\ length (sort_dedup good) = length good /\ forall x, In x (sort_dedup good) <-> In x good.
Proof.
  intros N G. destruct (sort_dedup_spec good) as (S & I). split; [exact S|]. split; [apply Forall_forall; intros x X; now apply I, G in X|]. split; [|intros x; split; apply I].
  apply Nat.le_antisymm; apply NoDup_incl_length; auto using ssorted_lt_NoDup; intros x X; now apply I.
Qed.
(** Among all draws that are enough, those whose challenge F passes have the share
    (g choose cnt) / (n choose cnt), if F restores g of its n blocks. *)
Theorem C84_accepted : forall H H2 pr params key iv n m F c origin pub leaves tree root, audit H H2 pr params key iv n m F c origin pub leaves tree root ->
  forall good, NoDup good -> (forall k, In k good <-> k < n /\ same_block params c origin k) ->
  forall parallel_num r cnt acc, 0 < cnt ->
  (forall w, acc w = true <-> exists idx, drawn cnt 0 n w = Some idx /\ challenge H H2 pr params parallel_num origin F pub leaves tree root r idx (Ok tt)) ->
  forall L, count acc (words n L) * binom n cnt = count (finished cnt 0 n) (words n L) * binom (length good) cnt.
Proof.
  intros H H2 pr params key iv n m F c origin pub leaves tree root AU good ND GOOD parallel_num r cnt acc C ACC L.
  destruct (sorted_good n good _ ND GOOD) as (S & FG & LG & IG). rewrite <- LG. apply accepted_share; auto. intros w. rewrite ACC. split; intros (s & D & X); exists s; (split; [exact D|]);
    apply drawn_sound in D as (D1 & D2 & D3).
  - apply (audit_challenge AU GOOD) in X; auto; [|lia]. intros k K. now apply IG, X.
  - apply (audit_challenge AU GOOD); auto; [lia|]. intros k K. now apply IG, X.
Qed.
Print Assumptions C84_accepted.
Lemma share_bound acc fin g n cnt : g <= n -> cnt <= n -> acc * binom n cnt = fin * binom g cnt -> acc * n ^ cnt <= fin * g ^ cnt.
Proof.
  intros G C E. pose proof (binom_ratio g n G cnt) as R. pose proof (binom_pos n cnt C) as P. apply (Nat.mul_le_mono_pos_l _ _ (binom n cnt)); [exact P|].
  rewrite Nat.mul_assoc, (Nat.mul_comm (binom n cnt) acc), E. transitivity (fin * (binom g cnt * n ^ cnt)); [lia|]. transitivity (fin * (binom n cnt * g ^ cnt)); [now apply Nat.mul_le_mono_l|lia].
Qed.
Lemma good_le n good P : NoDup good -> (forall k, In k good <-> k < n /\ P k) -> length good <= n.
Proof. intros N G. rewrite <- (seq_length n 0). apply NoDup_incl_length; auto. intros x X. apply G in X. apply in_seq. lia. Qed.
(** At most (g / n) ^ cnt. *)
Theorem C84_bound : forall H H2 pr params key iv n m F c origin pub leaves tree root, audit H H2 pr params key iv n m F c origin pub leaves tree root ->
  forall good, NoDup good -> (forall k, In k good <-> k < n /\ same_block params c origin k) ->
  forall parallel_num r cnt acc, 0 < cnt <= n ->
  (forall w, acc w = true <-> exists idx, drawn cnt 0 n w = Some idx /\ challenge H H2 pr params parallel_num origin F pub leaves tree root r idx (Ok tt)) ->
  forall L, count acc (words n L) * n ^ cnt <= count (finished cnt 0 n) (words n L) * length good ^ cnt.
Proof.
  intros H H2 pr params key iv n m F c origin pub leaves tree root AU good ND GOOD parallel_num r cnt acc C ACC L. apply share_bound; [now apply (good_le n good (same_block params c origin))|lia|].
  eapply C84_accepted; eauto. lia.
Qed.
Print Assumptions C84_bound.
Lemma drawn_unique cnt n w s fuel idx : drawn cnt 0 n w = Some s -> create_challenges fuel cnt (0, n) (fun i => nth i w 0) = Some (Ok idx) -> idx = s.
Proof.
  unfold drawn. intros D E. destruct (create_challenges (S (length w)) cnt (0, n) (fun i => nth i w 0)) as [[r|]|] eqn:C; try discriminate. injection D as ->.
  unfold create_challenges in *. cbn [fst snd] in *. apply (loop_mono _ _ _ _ (fun i => nth i w 0) _ (fuel + S (length w))) in E; auto; [|lia]. apply (loop_mono _ _ _ _ (fun i => nth i w 0) _ (fuel + S (length w))) in C; auto; [|lia]. congruence.
Qed.
(** A run of challenges, one for each random byte in rs, with draws ws. *)
Theorem C84_run : forall H H2 pr params key iv n m F c origin pub leaves tree root, audit H H2 pr params key iv n m F c origin pub leaves tree root ->
  forall good, NoDup good -> (forall k, In k good <-> k < n /\ same_block params c origin k) ->
  forall parallel_num rs cnt acc, 0 < cnt ->
  (forall ws, length ws = length rs -> (acc ws = true <-> Forall (fun w => finished cnt 0 n w = true) ws /\
    challenges_run H H2 pr params parallel_num cnt n origin F pub leaves tree root (combine rs (map (fun w i => nth i w 0) ws)) (Ok tt))) ->
  forall L, count acc (tuples (words n L) (length rs)) * binom n cnt ^ length rs = count (finished cnt 0 n) (words n L) ^ length rs * binom (length good) cnt ^ length rs.
Proof.
  intros H H2 pr params key iv n m F c origin pub leaves tree root AU good ND GOOD parallel_num rs cnt acc C ACC L.
  set (p := fun w => match drawn cnt 0 n w with Some s => forallb (fun k => if in_dec Nat.eq_dec k good then true else false) s | None => false end).
  assert (P : forall w, p w = true <-> exists s, drawn cnt 0 n w = Some s /\ incl s good).
  { intros w. unfold p. destruct (drawn cnt 0 n w) as [s|]; [|split; [discriminate|intros (s & E & _); discriminate]]. rewrite forallb_forall. split.
    - intros X. exists s. split; [reflexivity|]. intros k K. specialize (X k K). destruct (in_dec Nat.eq_dec k good); [assumption|discriminate].
    - intros (s' & E & I) k K. injection E as <-. destruct (in_dec Nat.eq_dec k good) as [|N]; [reflexivity|]. exfalso. auto. }
  assert (E1 : count acc (tuples (words n L) (length rs)) = count (forallb p) (tuples (words n L) (length rs))).
  { apply count_ext. intros ws W. apply tuples_In in W as (W & _). apply Bool.eq_iff_eq_true. rewrite (ACC ws W). clear - AU GOOD P C W. revert ws W. induction rs as [|r rs IH]; intros ws W; destruct ws as [|w ws]; try discriminate.
    - cbn. split; [reflexivity|]. intros _. split; constructor.
    - injection W as W. cbn [combine map forallb]. rewrite andb_true_iff, P, <- (IH ws W). clear IH. split.
      + intros (FI & R). inversion FI as [|? ? FW FS]; subst. inversion R as [| | |? ? ? fuel idx ? CC CH RR]; subst. unfold finished in FW. destruct (drawn cnt 0 n w) as [s|] eqn:D; [|discriminate].
        assert (idx = s) as -> by (eapply drawn_unique; eauto). destruct (drawn_sound _ _ _ _ _ D) as (D1 & D2 & D3).
        apply (audit_challenge AU GOOD) in CH; auto; [|lia]. split; [exists s; auto|]. auto.
      + intros ((s & D & I) & FS & R). split; [constructor; [unfold finished; now rewrite D|exact FS]|]. destruct (drawn_sound _ _ _ _ _ D) as (D1 & D2 & D3).
        assert (Q : create_challenges (S (length w)) cnt (0, n) (fun i => nth i w 0) = Some (Ok s)) by (unfold drawn in D; destruct (create_challenges _ cnt (0, n) _) as [[x|]|]; congruence).
        eapply CR_next; [exact Q| |exact R]. apply (audit_challenge AU GOOD); auto. lia. }
  rewrite E1, count_tuples, <- !Nat.pow_mul_l. f_equal. destruct (sorted_good n good _ ND GOOD) as (S & FG & LG & IG). rewrite <- LG. apply accepted_share; auto.
  intros w. rewrite P. split; intros (s & D & X); exists s; (split; [exact D|]); intros k K; now apply IG, X.
Qed.
Print Assumptions C84_run.
Lemma half_ratio g n cnt : 2 * g <= n -> 0 < cnt -> binom g cnt * 2 ^ cnt <= binom n cnt.
Proof.
  intros G C. destruct (Nat.eq_dec g 0) as [->|G0]; [destruct cnt; [lia|cbn; lia]|].
  assert (P : g ^ cnt <> 0) by now apply Nat.pow_nonzero. apply (Nat.mul_le_mono_pos_r _ _ (g ^ cnt)); [lia|]. rewrite <- Nat.mul_assoc, <- Nat.pow_mul_l.
  etransitivity; [apply Nat.mul_le_mono_l, (Nat.pow_le_mono_l (2 * g) n), G|]. apply binom_ratio. lia.
Qed.
Lemma run_half acc fin g n cnt k : 2 * g <= n -> 0 < cnt <= n -> acc * binom n cnt ^ k = fin ^ k * binom g cnt ^ k -> acc * 2 ^ (cnt * k) <= fin ^ k.
Proof.
  intros G C E. pose proof (half_ratio g n cnt G ltac:(lia)) as R. pose proof (binom_pos n cnt ltac:(lia)) as P.
  assert (Q : binom n cnt ^ k <> 0) by (apply Nat.pow_nonzero; lia). apply (Nat.mul_le_mono_pos_r _ _ (binom n cnt ^ k)); [lia|].
  rewrite <- Nat.mul_assoc, (Nat.mul_comm (2 ^ _)), Nat.mul_assoc, E, <- Nat.mul_assoc. apply Nat.mul_le_mono_l. rewrite Nat.pow_mul_r, <- Nat.pow_mul_l. now apply Nat.pow_le_mono_l.
Qed.
(** At most half of the blocks restored: at most one run of k challenges in
    2 ^ (cnt * k) is passed. *)
Theorem C84_half : forall H H2 pr params key iv n m F c origin pub leaves tree root, audit H H2 pr params key iv n m F c origin pub leaves tree root ->
  forall good, NoDup good -> (forall k, In k good <-> k < n /\ same_block params c origin k) -> 2 * length good <= n ->
  forall parallel_num rs cnt acc, 0 < cnt <= n ->
  (forall ws, length ws = length rs -> (acc ws = true <-> Forall (fun w => finished cnt 0 n w = true) ws /\
    challenges_run H H2 pr params parallel_num cnt n origin F pub leaves tree root (combine rs (map (fun w i => nth i w 0) ws)) (Ok tt))) ->
  forall L, count acc (tuples (words n L) (length rs)) * 2 ^ (cnt * length rs) <= count (finished cnt 0 n) (words n L) ^ length rs.
Proof.
  intros H H2 pr params key iv n m F c origin pub leaves tree root AU good ND GOOD G parallel_num rs cnt acc C ACC L.
  apply (run_half _ _ (length good) n); auto. eapply C84_run; eauto. lia.
Qed.
Print Assumptions C84_half.
(** The shipped parameters are an audit: 256 blocks, 512-bit key. *)
Theorem C84_shipped : forall H H2 pr l iv, hash32 H -> hash32 H2 ->
  forall F c, 256 * block_pl (gen_posdata l) <= length F -> restores H pr (gen_posdata l) P_512 iv F c ->
  forall origin pub ids leaves tree root, load_data pub = Ok (P_512, iv) -> length ids = 256 -> generate_merkle_tree_from_data H2 ids = Ok (leaves, tree, root) ->
  audit H H2 pr (gen_posdata l) P_512 iv 256 (units_per_block l) F c origin pub leaves tree root.
Proof.
  intros H H2 pr l iv HH HH2 F c LF RS origin pub ids leaves tree root LD LI GT. destruct (gen_posdata_geometry l) as (U & UP & _ & _ & _ & _ & ML & MS).
  constructor; eauto; [now apply gen_posdata_setting| |apply gen_posdata_layout].
  intros d. rewrite UP. pose proof (le2z_range (H d)) as R. rewrite HH in R.
  assert (A : (256 ^ Z.of_nat 32 <= P_512)%Z) by (apply Z.leb_le; vm_compute; reflexivity).
  assert (B : (P_512 < 256 ^ Z.of_nat 64)%Z) by (apply Z.ltb_lt; vm_compute; reflexivity). lia.
Qed.
Print Assumptions C84_shipped.
(** Three blocks, the last one lost, a challenge of two: 8 of the 24 sequences of three
    draws that are enough pass, which is (2 choose 2) / (3 choose 2). *)
Definition hfix (d : list byte) : list byte := firstn 32 (d ++ repeat x00 32).
Example C84_ex : exists F c pub leaves tree root acc, audit hsum hfix Debug spot_params ex_key [] 3 2 F c spot_origin pub leaves tree root /\
  (forall k, In k [0; 1] <-> k < 3 /\ same_block spot_params c spot_origin k) /\
  (forall w, acc w = true <-> exists idx, drawn 2 0 3 w = Some idx /\ challenge hsum hfix Debug spot_params 1 spot_origin F pub leaves tree root x00 idx (Ok tt)) /\
  count acc (words 3 3) = 8 /\ count (finished 2 0 3) (words 3 3) = 24.
Proof.
  destruct C81_ex as (SET & LAY & SK & F & c & LF & RS & B0 & B1 & B2).
  assert (HX : hash32 hfix) by (intros d; unfold hfix; rewrite firstn_length, app_length, repeat_length; lia).
  assert (GT : exists leaves tree root, generate_merkle_tree_from_data hfix [[x01]; [x02]; [x03]] = Ok (leaves, tree, root)) by (vm_compute; eauto).
  destruct GT as (leaves & tree & root & GT). set (pub := save_data [] ex_key []).
  assert (AU : audit hsum hfix Debug spot_params ex_key [] 3 2 F c spot_origin pub leaves tree root).
  { constructor; [exact SET| |split; reflexivity|exact LAY|exact HX| |exact RS| |].
    - intros d. split; [apply SK|reflexivity].
    - rewrite LF. cbn. lia.
    - vm_compute. reflexivity.
    - exists [[x01]; [x02]; [x03]]. auto. }
  assert (GOOD : forall k, In k [0; 1] <-> k < 3 /\ same_block spot_params c spot_origin k).
  { intros k. split; [intros [<-|[<-|[]]]; (split; [lia|assumption])|]. intros (K & S). destruct k as [|[|[|k]]]; [cbn; auto|cbn; auto|contradiction|lia]. }
  exists F, c, pub, leaves, tree, root, (fun w => match drawn 2 0 3 w with Some s => forallb (fun k => k <? 2) s | None => false end).
  split; [exact AU|]. split; [exact GOOD|]. split; [|vm_compute; auto].
  intros w. destruct (drawn 2 0 3 w) as [s|] eqn:D; [|split; [discriminate|intros (s & E & _); discriminate]]. destruct (drawn_sound _ _ _ _ _ D) as (D1 & D2 & D3). split.
  - intros X. exists s. split; [reflexivity|]. apply (audit_challenge AU GOOD); auto; [lia|]. intros k K. rewrite forallb_forall in X. apply X, Nat.ltb_lt in K. destruct k as [|[|k]]; [cbn; auto|cbn; auto|lia].
  - intros (s' & E & X). injection E as <-. apply (audit_challenge AU GOOD) in X; auto; [|lia]. apply forallb_forall. intros k K. apply Nat.ltb_lt. destruct (X k K) as [<-|[<-|[]]]; lia.
Qed.
