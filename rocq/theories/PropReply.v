(** Property C75: how far a reply is determined by the plaintext the verifier gets from
    it.  Vocabulary: [unseals_reply] and [canonical_reply] from ReplyMeaning,
    [setting], [sealable], [sound_key] from SealSpec. *)
From Coq Require Import Znumtheory.
From Verif Require Import Base Sloth Common Depend Prover Verifier NumTheory DependFacts SealSpec SealCore SealTop SealZero VerifierFacts SealVerify
  ParallelFacts SealMeaning ReplyMeaning BytesFacts SealWitness.
Local Open Scope nat_scope.

(** Two replies for the same blocks, chain values and dependency blocks that unseal to
    the same plaintext are equal, if neither hands the inverse delay function a number
    outside 1 .. key - 1. *)
Theorem C75_determined : forall H pr params key iv m, hash32 H -> sound_key H key -> (key < 256 ^ Z.of_nat (unit_pl params))%Z ->
  short_modes_fine pr params (block_l params / unit_l params) m -> unit_l params <> 0 ->
  forall ks before deps bs bs' out,
  Forall (fun b => length b = m /\ Forall (fun u => length u = unit_pl params) b) bs ->
  Forall (fun b => length b = m /\ Forall (fun u => length u = unit_pl params) b) bs' ->
  length bs <= length ks -> length bs <= length before -> length bs <= length deps -> Forall (Forall (fun b => length b = m)) deps ->
  batch_unseal H pr params key iv ks before deps bs = Ok out ->
  batch_unseal H pr params key iv ks before deps bs' = Ok out ->
  (forall j, j < length bs -> canonical_reply H pr params key iv m (nth j ks 0) (nth j before []) (nth j deps []) (nth j bs [])) ->
  (forall j, j < length bs' -> canonical_reply H pr params key iv m (nth j ks 0) (nth j before []) (nth j deps []) (nth j bs' [])) ->
  length bs' = length bs -> bs' = bs.
Proof.
  intros H pr params key iv m HH SK KU SM UL ks before deps bs bs' out SB SB' L1 L2 L3 FD E E' C C' LL.
  assert (K1 : (1 < key)%Z) by (pose proof (prime_ge_2 _ (sk_prime _ _ SK)); lia).
  assert (KB : forall d, (le2z (H d) < key < 256 ^ Z.of_nat (unit_pl params))%Z) by (intros d; split; [apply (sk_mask _ _ SK)|exact KU]).
  assert (HO : hash_ok H) by (intros d; rewrite HH; lia).
  destruct (proj1 (reply_iff H pr params key iv m HO K1 KB SM ks before deps bs out UL SB L1 L2 L3 FD) E) as (LO & R).
  destruct (proj1 (reply_iff H pr params key iv m HO K1 KB SM ks before deps bs' out UL SB' ltac:(lia) ltac:(lia) ltac:(lia) FD) E') as (_ & R').
  apply (nth_ext _ _ [] []); [exact LL|]. intros j J. rewrite Forall_forall in SB, SB'.
  destruct (SB (nth j bs []) ltac:(apply nth_In; lia)) as (A1 & A2). destruct (SB' (nth j bs' []) ltac:(apply nth_In; lia)) as (A3 & A4).
  destruct (R j ltac:(lia)) as (_ & U & SU). destruct (R' j J) as (_ & V & SV).
  symmetry. eapply (reply_determined_c H pr params key iv m); eauto; [|apply C; lia]. destruct SK; auto.
Qed.
Print Assumptions C75_determined.

(** What the honest prover stores, when no masked number was 0 during sealing, is such a
    reply, and for the true chain value and dependency blocks it is the only one. *)
Theorem C75_stored_only : forall H pr params key iv n m, setting H pr params key n m -> sound_key H key ->
  unit_l params <> 0 -> (mode_s params = 0 \/ block_l params / unit_l params = m) ->
  forall f st, sealable params key n m f -> seal H pr params key iv f = Ok st -> ~ In 0%Z (s_log st) ->
  forall k, k < n -> exists b before deps,
  single_unseal_prepare H pr params (s_file st) k = Ok (b, before, deps) /\
  forall b', (length b' = m /\ Forall (fun u => length u = unit_pl params) b' /\
              canonical_reply H pr params key iv m k before deps b' /\
              batch_unseal H pr params key iv [k] [before] [deps] [b'] = Ok [block_units params m f k]) <-> b' = b.
Proof.
  intros H pr params key iv n m SET SK UL UB f st SE E NZ k K.
  assert (MS : unit_table params m) by (destruct UB; [now left|right; auto]).
  destruct (prepare_ok H pr params key iv n m SET f st SK SE E NZ k K) as (t & deps & _ & PR & _).
  eexists _, _, deps. split; [exact PR|].
  destruct (stored_canonical H pr params key iv n m SET SK MS f st k _ _ _ SE E NZ K PR) as (DO & (LB & SB) & CB & U & SU).
  set (b := chunks _ _ _) in *. set (w := prepare_before_id _ _ _ _) in *.
  pose proof (sound_lt H pr params key n m SET SK) as KB. pose proof (stored_short H pr params key n m SET MS) as SM.
  assert (ONE : forall b', length b' = m -> Forall (fun u => length u = unit_pl params) b' ->
     (batch_unseal H pr params key iv [k] [w] [deps] [b'] = Ok [block_units params m f k] <->
      exists V, unseals_reply H pr params key iv m k w deps b' (block_units params m f k) V)).
  { intros b' L F. rewrite (reply_iff H pr params key iv m (hh _ _ _ _ _ _ SET) (k1 _ _ _ _ _ _ SET) KB SM [k] [w] [deps] [b'] _ UL); cbn [length]; auto.
    split.
    - intros (_ & X). destruct (X 0 ltac:(lia)) as (_ & Y). exact Y.
    - intros Y. split; [reflexivity|]. intros j J. assert (j = 0) as -> by lia. split; [|exact Y]. cbn [nth]. unfold block_units. now rewrite map_length, seq_length. }
  intros b'. split.
  - intros (L & F & C & BU). apply (ONE b' L F) in BU as (V & SV).
    symmetry. eapply (reply_determined_c H pr params key iv m); eauto; [exact (k1 _ _ _ _ _ _ SET)|]. destruct SK; auto.
  - intros ->. split; [exact LB|]. split; [exact SB|]. split; [exact CB|]. apply (ONE b LB SB). eauto.
Qed.
Print Assumptions C75_stored_only.

(** Without that condition the reply is not determined: whenever the last unit of a
    block is key - 2, the block with that unit set to zero is accepted as well. *)
Theorem C75_not_determined_refuted : forall H pr params key iv m, hash32 H -> sound_key H key -> (2 < key < 256 ^ Z.of_nat (unit_pl params))%Z ->
  short_modes_fine pr params (block_l params / unit_l params) m -> unit_l params <> 0 ->
  1 <= seal_rounds params -> 1 <= vde_rounds params -> 0 < m ->
  forall k before deps b out, length b = m -> Forall (fun u => length u = unit_pl params) b -> Forall (fun d => length d = m) deps ->
  le2z (nth (m - 1) b []) = (key - 2)%Z ->
  batch_unseal H pr params key iv [k] [before] [deps] [b] = Ok out ->
  batch_unseal H pr params key iv [k] [before] [deps] [firstn (m - 1) b ++ [zeros (unit_pl params)]] = Ok out /\
  firstn (m - 1) b ++ [zeros (unit_pl params)] <> b.
Proof.
  intros H pr params key iv m HH SK KU SM UL SR VR MP k before deps b out LB SB FD VB E.
  assert (K1 : (1 < key)%Z) by lia.
  assert (KB : forall d, (le2z (H d) < key < 256 ^ Z.of_nat (unit_pl params))%Z) by (intros d; split; [apply (sk_mask _ _ SK)|lia]).
  assert (HO : hash_ok H) by (intros d; rewrite HH; lia).
  assert (EB : firstn (m - 1) b ++ [zeros (unit_pl params)] = upd b (m - 1) (zeros (unit_pl params))).
  { apply (nth_ext _ _ [] []).
    - rewrite upd_length, app_length, firstn_length. cbn [length]. lia.
    - intros i IL. rewrite app_length, firstn_length in IL. cbn [length] in IL. rewrite upd_nth by lia.
      destruct (Nat.eqb_spec i (m - 1)) as [->|NE].
      + rewrite app_nth2; rewrite firstn_length; [|lia]. now replace (m - 1 - Nat.min (m - 1) (length b)) with 0 by lia.
      + rewrite app_nth1 by (rewrite firstn_length; lia). rewrite <- (firstn_skipn (m - 1) b) at 2. rewrite app_nth1; [reflexivity|]. rewrite firstn_length. lia. }
  split.
  - apply (reply_iff H pr params key iv m HO K1 KB SM [k] [before] [deps] [b] out UL) in E; cbn [length]; auto. destruct E as (LO & R).
    apply (reply_iff H pr params key iv m HO K1 KB SM [k] [before] [deps] _ out UL); cbn [length]; auto.
    + constructor; [|constructor]. split; [rewrite app_length, firstn_length; cbn [length]; lia|]. apply Forall_app. split.
      * apply Forall_forall. intros u I. apply DependDet.In_firstn in I. rewrite Forall_forall in SB. now apply SB.
      * constructor; [apply zeros_length|constructor].
    + split; [exact LO|]. intros j J. assert (j = 0) as -> by lia. destruct (R 0 ltac:(cbn; lia)) as (L0 & U & SU). split; [exact L0|]. cbn [nth] in SU |- *.
      rewrite EB. eapply alias_reply; eauto; [lia|].
      pose proof (sk_mod4 _ _ SK) as M4. rewrite (Z.div_mod key 4) by lia. rewrite M4. rewrite Z.odd_add, Z.odd_mul. reflexivity.
  - intros Q. rewrite EB in Q. assert (X : nth (m - 1) (upd b (m - 1) (zeros (unit_pl params))) [] = nth (m - 1) b []) by now rewrite Q.
    rewrite upd_nth in X by lia. rewrite Nat.eqb_refl in X. rewrite <- X, le2z_zeros in VB. lia.
Qed.
Print Assumptions C75_not_determined_refuted.
(** Such a block, its replies and a sealed file meeting the hypotheses. *)
Example C75_ex : sound_key hsum ex_key /\ short_modes_fine Debug (ex_params 2 0 0 0 10) (block_l (ex_params 2 0 0 0 10) / unit_l (ex_params 2 0 0 0 10)) 2 /\
  (exists b out, le2z (nth 1 b []) = (ex_key - 2)%Z /\
     batch_unseal hsum Debug (ex_params 2 0 0 0 10) ex_key [] [1] [[x09]] [[]] [b] = Ok out /\
     batch_unseal hsum Debug (ex_params 2 0 0 0 10) ex_key [] [1] [[x09]] [[]] [firstn 1 b ++ [zeros 3]] = Ok out) /\
  exists st, seal hsum Debug (ex_params 2 0 0 0 10) ex_key [] ex_file = Ok st /\ ~ In 0%Z (s_log st).
Proof.
  split; [apply ex_sound|]. split; [cbn; lia|]. split.
  - destruct (batch_unseal hsum Debug (ex_params 2 0 0 0 10) ex_key [] [1] [[x09]] [[]] [[[x01; x02; x03]; pad_to 3 (z2le (ex_key - 2))]]) as [out|] eqn:E; [|vm_compute in E; discriminate].
    exists [[x01; x02; x03]; pad_to 3 (z2le (ex_key - 2))], out. split; [vm_compute; reflexivity|]. split; [exact E|].
    vm_compute in E. injection E as <-. vm_compute. reflexivity.
  - destruct (seal hsum Debug (ex_params 2 0 0 0 10) ex_key [] ex_file) as [st|] eqn:S; [|vm_compute in S; discriminate].
    exists st. split; [reflexivity|]. vm_compute in S. injection S as <-. cbn [s_log]. intros I. repeat (destruct I as [I|I]; [discriminate|]). exact I.
Qed.
