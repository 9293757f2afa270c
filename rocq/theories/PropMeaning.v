(** Properties C70-C74: which bytes sealing and unsealing compute, what a response
    contains and what the verifier makes of one.  Vocabulary: SealSpec ([setting],
    [sealable], [unit_bytes], [block_bytes]), SealMeaning and ReplyMeaning (the
    equations [seals_block], [unseals_block], [unseals_reply], [seals_reply]). *)
From Coq Require Import Znumtheory.
From Verif Require Import Base Sloth Common Depend Prover Verifier SealSpec SealCore SealTop SealZero ShortTable VerifierFacts SealVerify
  ParallelFacts TableFacts SealMeaning ReplyMeaning Merkle Postorage PostorageFacts Primes ParamFacts SealWitness.
Local Open Scope nat_scope.

(** C70: the sealed file is the one solution of the sealing equations. *)
Theorem C70_seal_equations : forall H pr params key iv n m, setting H pr params key n m ->
  forall f F, sealable params key n m f ->
  (exists st, seal H pr params key iv f = Ok st /\ s_file st = F) <->
  (length F = length f /\ skipn (n * block_pl params) F = skipn (n * block_pl params) f /\
   exists U, forall k, k < n -> seals_block H pr params key iv n m f F k (U k)).
Proof. exact seal_iff. Qed.
Print Assumptions C70_seal_equations.
Example C70_ex : exists F U, F <> ex_file /\ forall k, k < 3 -> seals_block hsum Debug (ex_params 2 0 0 0 10) ex_key [] 3 2 ex_file F k (U k).
Proof.
  assert (SET : setting hsum Debug (ex_params 2 0 0 0 10) ex_key 3 2) by (apply ex_setting; [apply hsum_32|cbn; lia|cbn; lia]).
  destruct (seal_total hsum Debug (ex_params 2 0 0 0 10) ex_key [] 3 2 SET ex_file (ex_sealable 2 0 0 0 10)) as (st & E & _).
  destruct (proj1 (seal_iff hsum Debug _ ex_key [] 3 2 SET ex_file (s_file st) (ex_sealable 2 0 0 0 10)) ltac:(eauto)) as (_ & _ & U & S).
  exists (s_file st), U. split; [|exact S]. intros Q.
  assert (X : match seal hsum Debug (ex_params 2 0 0 0 10) ex_key [] ex_file with Ok st => if list_eq_dec Byte.byte_eq_dec (s_file st) ex_file then false else true | Panic => false end = true) by (vm_compute; reflexivity).
  rewrite E in X. destruct (list_eq_dec _ _ _); congruence.
Qed.

(** C71: the same for unsealing any file whatsoever. *)
Theorem C71_unseal_equations : forall H pr params key iv n m, setting H pr params key n m ->
  forall F G, (forall d, le2z (H d) < key < 256 ^ Z.of_nat (unit_pl params))%Z ->
  n * block_pl params <= length F ->
  unseal H pr params key iv F = Ok G <->
  (length G = length F /\ skipn (n * block_pl params) G = skipn (n * block_pl params) F /\
   exists U, forall k, k < n -> unseals_block H pr params key iv n m F G k (U k)).
Proof. intros H pr params key iv n m SET F G KB LF. exact (unseal_iff H pr params key iv n m SET F G KB LF). Qed.
Print Assumptions C71_unseal_equations.
Example C71_ex : exists G U, G <> ex_file /\ forall k, k < 3 -> unseals_block hsum Debug (ex_params 2 0 0 0 10) ex_key [] 3 2 ex_file G k (U k).
Proof.
  assert (SET : setting hsum Debug (ex_params 2 0 0 0 10) ex_key 3 2) by (apply ex_setting; [apply hsum_32|cbn; lia|cbn; lia]).
  assert (KB : forall d, (le2z (hsum d) < ex_key < 256 ^ Z.of_nat 3)%Z) by (intros d; pose proof (hsum_small d); unfold ex_key; change (256 ^ Z.of_nat 3)%Z with 16777216%Z; lia).
  assert (LF : 3 * block_pl (ex_params 2 0 0 0 10) <= length ex_file) by apply (ex_sealable 2 0 0 0 10).
  destruct (unseal_total hsum Debug (ex_params 2 0 0 0 10) ex_key [] 3 2 SET ex_file KB LF) as (G & E & _).
  destruct (proj1 (unseal_iff hsum Debug _ ex_key [] 3 2 SET ex_file G KB LF) E) as (_ & _ & U & S).
  exists G, U. split; [|exact S]. intros Q.
  assert (X : match unseal hsum Debug (ex_params 2 0 0 0 10) ex_key [] ex_file with Ok G => if list_eq_dec Byte.byte_eq_dec G ex_file then false else true | Panic => false end = true) by (vm_compute; reflexivity).
  rewrite E in X. destruct (list_eq_dec _ _ _); congruence.
Qed.

(** C72: the content of a response, from any stored file. *)
Theorem C72_response : forall H pr params key n m, setting H pr params key n m ->
  forall F k, n * block_pl params <= length F -> k < n ->
  exists blocks, long_choice H pr params n (H (block_bytes params F (k - 1))) k blocks /\
  single_unseal_prepare H pr params F k =
    Ok (block_units params m F k, if k =? 0 then [] else H (block_bytes params F (k - 1)), map (block_units params m F) blocks).
Proof. exact response_ok. Qed.
Print Assumptions C72_response.
Theorem C72_range_response : forall H pr params key n m, setting H pr params key n m ->
  forall F b e ks, n * block_pl params <= length F -> blocks_in_range b e (block_pl params) = Ok ks -> Forall (fun k => k < n) ks ->
  exists rs, mapM (single_unseal_prepare H pr params F) ks = Ok rs /\
  batch_unseal_prepare H pr params F b e = Ok (ks, map (fun r => fst (fst r)) rs, map (fun r => snd (fst r)) rs, map snd rs).
Proof.
  intros H pr params key n m SET F b e ks LF BR FK. destruct (range_response H pr params key n m SET F b e ks LF BR FK) as (deps & _ & M & E). eauto.
Qed.
Print Assumptions C72_range_response.
Example C72_ex : blocks_in_range 0 18 (block_pl (ex_params 2 0 0 0 10)) = Ok [0; 1; 2] /\
  long_choice hsum Debug (ex_params 2 0 0 0 10) 3 (hsum (block_bytes (ex_params 2 0 0 0 10) ex_file 1)) 2 [1].
Proof. split; vm_compute; reflexivity. Qed.

(** C73: what the verifier computes from any response of the right shape. *)
Theorem C73_reply_equations : forall H pr params key iv m, hash32 H -> (1 < key)%Z ->
  (forall d, le2z (H d) < key < 256 ^ Z.of_nat (unit_pl params))%Z ->
  short_modes_fine pr params (block_l params / unit_l params) m -> unit_l params <> 0 ->
  forall ks before deps bs out,
  Forall (fun b => length b = m /\ Forall (fun u => length u = unit_pl params) b) bs ->
  length bs <= length ks -> length bs <= length before -> length bs <= length deps -> Forall (Forall (fun b => length b = m)) deps ->
  batch_unseal H pr params key iv ks before deps bs = Ok out <->
  (length out = length bs /\ forall j, j < length bs -> length (nth j out []) = m /\
    exists U, unseals_reply H pr params key iv m (nth j ks 0) (nth j before []) (nth j deps []) (nth j bs []) (nth j out []) U).
Proof. intros H pr params key iv m HH K1 KB SM U0 ks before deps bs out. now apply reply_iff. Qed.
Print Assumptions C73_reply_equations.
Example C73_ex : exists out U, out <> [ [x01; x02; x03]; [x04; x05; x06] ] /\
  unseals_reply hsum Debug (ex_params 1 0 0 0 10) ex_key [] 2 1 [x09] [ [[x03; x04; x05]; [x05; x05; x00]] ] [ [x01; x02; x03]; [x04; x05; x06] ] out U.
Proof.
  destruct (batch_unseal hsum Debug (ex_params 1 0 0 0 10) ex_key [] [1] [[x09]] [[ [[x03; x04; x05]; [x05; x05; x00]] ]] [[ [x01; x02; x03]; [x04; x05; x06] ]]) as [out|] eqn:E; [|vm_compute in E; discriminate].
  pose proof E as E'. apply (C73_reply_equations hsum Debug (ex_params 1 0 0 0 10) ex_key [] 2 hsum_32) in E'.
  - destruct E' as [L Q]. cbn [length] in *. destruct (Q 0 ltac:(lia)) as (_ & U & S). cbn [nth] in S. exists (nth 0 out []), U. split; [|exact S].
    clear -E. intros Q. vm_compute in E. injection E as <-. discriminate.
  - reflexivity.
  - intros d. split; [apply ex_sound|reflexivity].
  - cbn. lia.
  - discriminate.
  - repeat constructor.
  - auto.
  - auto.
  - auto.
  - repeat constructor.
Qed.

(** C74: a response can be made up from the original data alone.  Whatever chain values
    and dependency blocks the prover sends along, there are blocks -- the original blocks
    sealed with those values -- that the verifier accepts, unless a masked number is 0. *)
Theorem C74_forged_accepted : forall H pr params key iv n m, setting H pr params key n m -> layout params n m ->
  sound_key H key ->
  forall origin g, copy_and_pad origin (data_l params) (unit_l params) = Ok g -> sealable params key n m g ->
  forall ks, Forall (fun k => k < n) ks ->
  forall before deps, length before = length ks -> length deps = length ks -> Forall (Forall (fun b => length b = m)) deps ->
  exists bs U M, length bs = length ks /\
  (forall j, j < length ks ->
     seals_reply H pr params key iv m (nth j ks 0) (nth j before []) (nth j deps []) (block_units params m g (nth j ks 0)) (nth j bs []) (U j) (M j)) /\
  ((forall j t, j < length ks -> t < seal_rounds params * m -> M j t <> 0%Z) ->
   batch_unseal H pr params key iv ks before deps bs = Ok (map (block_units params m g) ks) /\
   batch_unseal_and_verify H pr params key iv ks before deps origin bs = Ok tt /\
   forall threads r, threads <> 0 ->
     batch_unseal_parallel H pr params key iv ks before deps threads bs r <-> r = Ok (map (block_units params m g) ks)).
Proof.
  intros H pr params key iv n m SET LAY SK origin g EP SE ks FK before deps LB LD FD.
  pose proof (units_block params n m LAY) as UB. pose proof (l_unit _ _ _ LAY) as UL.
  assert (SM : short_modes_fine pr params (block_l params / unit_l params) m).
  { rewrite UB. eapply fine_self, (set_short _ _ _ _ _ _ SET). }
  pose proof (sound_lt H pr params key n m SET SK) as KB.
  assert (FB : Forall (block_ok params key m) (map (block_units params m g) ks)).
  { apply Forall_forall. intros b I. apply in_map_iff in I as (k & <- & I). rewrite Forall_forall in FK. specialize (FK k I). cbn in FK.
    unfold block_units. split; [now rewrite map_length, seq_length|]. apply Forall_forall. intros u Iu. apply in_map_iff in Iu as (i & <- & Ii). apply in_seq in Ii.
    assert (Q : k * m + i < n * m) by nia. destruct SE as [LG FG]. split; [|now apply FG].
    unfold unit_bytes. rewrite firstn_length, skipn_length. rewrite (l_block_pl _ _ _ LAY) in LG. nia. }
  destruct (forged_reply H pr params key iv m (hh _ _ _ _ _ _ SET) (k1 _ _ _ _ _ _ SET) KB SM ks before deps (map (block_units params m g) ks)
    ltac:(destruct SK; auto) ltac:(lia) FB) as (bs & U & M & L & FLX & S & Z); rewrite ?map_length; try lia; [exact FD|].
  rewrite map_length in *. exists bs, U, M. split; [exact L|]. split.
  { intros j J. specialize (S j J). rewrite (nth_indep _ [] (block_units params m g 0)) in S by (rewrite map_length; exact J). now rewrite map_nth in S. }
  intros NZ. specialize (Z NZ).
  assert (BN : block_l params <> 0) by (rewrite (l_block _ _ _ LAY); pose proof (l_m _ _ _ LAY); nia).
  assert (FL : Forall (fun b => length b = m) bs) by (eapply Forall_impl; [|exact FLX]; intros b B; apply B).
  split; [exact Z|]. split.
  - apply (unseal_and_verify_rows H pr params key iv ks before deps n m (set_short _ _ _ _ _ _ SET) BN ltac:(lia) (data_block params n m LAY) UB origin bs FL). exists (map (block_units params m g) ks). split; [exact Z|]. intros i o NO. rewrite nth_error_map in NO.
    destruct (nth_error ks i) as [k|] eqn:NK; [|discriminate]. injection NO as <-. exists k. split; [reflexivity|].
    eapply honest_block; eauto. rewrite Forall_forall in FK. apply FK. eapply nth_error_In; eauto.
  - intros threads r TH. apply (par_eq_seq_rows H pr params key iv ks before deps n m (set_short _ _ _ _ _ _ SET) BN ltac:(lia) (data_block params n m LAY) UB threads bs _ TH FL Z).
Qed.
Print Assumptions C74_forged_accepted.
Definition forge_origin : file := flat_map (fun k => [z2b (Z.of_nat k + 1); x07]) (seq 0 6).
(** Block 2 sealed with no dependency and an empty chain value is accepted, although it
    is not what is stored. *)
Example C74_ex : layout (ex_params 2 0 0 0 10) 3 2 /\ copy_and_pad forge_origin 12 2 = Ok ex_file /\
  exists b zs st, frounds hsum (ex_params 2 0 0 0 10) ex_key [] [] [] 2 (block_units (ex_params 2 0 0 0 10) 2 ex_file 2, []) = Ok (b, zs) /\
  seal hsum Debug (ex_params 2 0 0 0 10) ex_key [] ex_file = Ok st /\ b <> block_units (ex_params 2 0 0 0 10) 2 (s_file st) 2 /\
  batch_unseal_and_verify hsum Debug (ex_params 2 0 0 0 10) ex_key [] [2] [[]] [[]] forge_origin [b] = Ok tt.
Proof.
  split; [split; cbn; lia|]. split; [vm_compute; reflexivity|].
  destruct (frounds hsum (ex_params 2 0 0 0 10) ex_key [] [] [] 2 (block_units (ex_params 2 0 0 0 10) 2 ex_file 2, [])) as [[b zs]|] eqn:E; [|vm_compute in E; discriminate].
  destruct (seal hsum Debug (ex_params 2 0 0 0 10) ex_key [] ex_file) as [st|] eqn:S; [|vm_compute in S; discriminate].
  exists b, zs, st. split; [reflexivity|]. split; [reflexivity|]. vm_compute in E. injection E as <- <-. vm_compute in S. injection S as <-.
  split; [|vm_compute; reflexivity]. vm_compute. discriminate.
Qed.
