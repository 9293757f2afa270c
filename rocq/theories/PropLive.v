(** Property C105: challenges answered while the file is being sealed or unsealed.
    Vocabulary: [single_unseal_prepare_live] etc. from Live, [seal_crash] and
    [unseal_crash], the content of the file after part of a run, from Crash, [sealing]
    from PropCrash, [setting], [block_bytes] from SealSpec, [long_choice],
    [unseals_reply] from SealMeaning and ReplyMeaning, [layout] from PostorageFacts. *)
From Coq Require Import Strings.Byte Sorted.
From Verif Require Import Base Sloth Common Depend Prover Verifier Merkle Postorage Crash BytesFacts CommonFacts SealSpec SealCore SealFile SealTop SealPad SealZero SealWitness
  ShortTable ChallengeFacts VerifierFacts SealVerify SealMeaning ReplyMeaning MerkleFacts PostorageFacts SpotFacts PropSpot CrashFacts PropCrash ShortReadFacts ShortVerifyFacts PropShortVerify Live LiveFacts.
Local Open Scope nat_scope.

(** s is a content the file has while g is sealed in place or the result st unsealed in
    place, at a moment when the blocks below b are sealed: in iteration j of sealing, after
    c bytes of block j have been written; between the two; in iteration i of unsealing,
    after c bytes of block n - 1 - i have been written. *)
Inductive sealed_below (H : list byte -> list byte) (pr : profile) (params : PosPara) (key : Z) (iv : list byte) (n : nat) (g : file) (st : seal_state) (b : nat) : file -> Prop :=
| SB_sealing : forall j c s, b <= j < n -> seal_crash H pr params key iv j c g = Ok s -> sealed_below H pr params key iv n g st b s
| SB_sealed : sealed_below H pr params key iv n g st b (s_file st)
| SB_unsealing : forall i c s, i < n -> b <= n - 1 - i -> unseal_crash H pr params key iv i c (s_file st) = Ok s -> sealed_below H pr params key iv n g st b s.
(** A read that overlaps with writes may find each byte as it was at another moment. *)
Definition seen (moment : file -> Prop) (F : file) : Prop :=
  forall x, exists s, moment s /\ length F = length s /\ nth x F x00 = nth x s x00.

Lemma sealed_below_ok H pr params key iv n m origin g st : sealing H pr params key iv n m origin g st ->
  forall b s, b <= n -> sealed_below H pr params key iv n g st b s -> length s = n * block_pl params /\ firstn (b * block_pl params) s = firstn (b * block_pl params) (s_file st).
Proof.
  intros SG b s BN SB. destruct (sg_sizes _ _ _ _ _ _ _ _ _ _ SG) as (Lg & GS & LS & B0). destruct SG as [SET SK KU ML LAY LO EP ES NZ]. set (bpl := block_pl params) in *.
  destruct SB as [j c s J E| |i c s I B E].
  - rewrite (seal_crash_eq H pr params key iv n m SET g st j c GS ES) in E by lia. injection E as <-. fold bpl.
    assert (JN : j * bpl + bpl <= n * bpl) by (replace (j * bpl + bpl) with (S j * bpl) by lia; apply Nat.mul_le_mono_r; lia).
    assert (BJ : b * bpl <= j * bpl) by (apply Nat.mul_le_mono_r; lia). set (p := j * bpl + Nat.min c bpl). assert (P : b * bpl <= p <= n * bpl) by (unfold p; lia). clearbody p.
    split; [rewrite app_length, firstn_length, skipn_length; lia|]. rewrite firstn_app, firstn_firstn, firstn_length, Nat.min_l by lia.
    replace (b * bpl - Nat.min p (length (s_file st))) with 0 by lia. cbn [firstn]. apply app_nil_r.
  - auto.
  - rewrite (unseal_crash_eq H pr params key iv n m SET g st i c SK (or_introl ML) GS ES NZ I) in E. injection E as <-. fold bpl. set (k := n - 1 - i) in *. replace (n - i) with (k + 1) by lia.
    assert (KN : (k + 1) * bpl <= n * bpl) by (apply Nat.mul_le_mono_r; lia). assert (BJ : b * bpl <= k * bpl) by (apply Nat.mul_le_mono_r; lia).
    assert (LB : forall f : file, length f = n * bpl -> length (block_bytes params f k) = bpl) by (intros f L; unfold block_bytes; fold bpl; rewrite firstn_length, skipn_length; lia).
    split; [rewrite !app_length, !firstn_length, !skipn_length, !LB; lia|]. rewrite firstn_app, firstn_firstn, firstn_length, Nat.min_l by lia.
    replace (b * bpl - Nat.min (k * bpl) (length (s_file st))) with 0 by lia. cbn [firstn]. apply app_nil_r.
Qed.
Lemma seen_ok H pr params key iv n m origin g st : sealing H pr params key iv n m origin g st ->
  forall b F, b <= n -> seen (sealed_below H pr params key iv n g st b) F ->
  length F = n * block_pl params /\ forall k, k < b -> block_bytes params F k = block_bytes params (s_file st) k.
Proof.
  intros SG b F BN SE. destruct (sg_sizes _ _ _ _ _ _ _ _ _ _ SG) as (_ & _ & LS & B0). set (bpl := block_pl params) in *.
  assert (LF : length F = n * bpl). { destruct (SE 0) as (s & SB & L & _). destruct (sealed_below_ok _ _ _ _ _ _ _ _ _ _ SG b s BN SB) as (L' & _). fold bpl in L'. lia. }
  split; [exact LF|]. intros k K. unfold block_bytes. fold bpl. assert (KB : (k + 1) * bpl <= b * bpl) by (apply Nat.mul_le_mono_r; lia).
  assert (BB : b * bpl <= n * bpl) by (apply Nat.mul_le_mono_r; lia).
  assert (E : firstn (b * bpl) F = firstn (b * bpl) (s_file st)).
  { apply nth_ext with (d := x00) (d' := x00); rewrite !firstn_length; [lia|]. intros x X. rewrite !nth_firstn by lia. destruct (SE x) as (s & SB & _ & ->).
    destruct (sealed_below_ok _ _ _ _ _ _ _ _ _ _ SG b s BN SB) as (_ & E). fold bpl in E. rewrite <- (nth_firstn s (b * bpl) x x00), E, nth_firstn by lia. reflexivity. }
  assert (C : forall f : file, firstn bpl (skipn (k * bpl) f) = firstn bpl (skipn (k * bpl) (firstn (b * bpl) f))).
  { intros f. rewrite skipn_firstn_comm, firstn_firstn. f_equal. lia. }
  now rewrite (C F), (C (s_file st)), E.
Qed.

(** C105: the answer for block k is the one from the finished sealed file if block k is
    sealed when it is read and the blocks before it are sealed while the rest is read;
    how far sealing has come beyond that, or unsealing come down, does not matter, and may
    change from byte to byte. *)
Theorem C105_answer : forall H pr params key iv n m origin g st, sealing H pr params key iv n m origin g st ->
  forall k now, k < n -> seen (sealed_below H pr params key iv n g st (k + 1)) (now 0) ->
  (forall q, seen (sealed_below H pr params key iv n g st k) (now (S q))) ->
  single_unseal_prepare_live H pr params now k = single_unseal_prepare H pr params (s_file st) k.
Proof.
  intros H pr params key iv n m origin g st SG k now K S0 S1.
  destruct (seen_ok _ _ _ _ _ _ _ _ _ _ SG (k + 1) (now 0) ltac:(lia) S0) as (L0 & E0).
  assert (X : forall q, length (now (S q)) = n * block_pl params /\ forall i, i < k -> block_bytes params (now (S q)) i = block_bytes params (s_file st) i)
    by (intros q; apply (seen_ok _ _ _ _ _ _ _ _ _ _ SG k (now (S q))); [lia|apply S1]).
  destruct (sg_sizes _ _ _ _ _ _ _ _ _ _ SG) as (_ & _ & LS & B0).
  apply (live_steady H pr params key n m (sg_setting _ _ _ _ _ _ _ _ _ _ SG)); [exact K|lia| |apply E0; lia|intros q i I; apply X; exact I].
  intros [|q]; [lia|]. rewrite (proj1 (X q)). lia.
Qed.
Print Assumptions C105_answer.

(** The same for a range. *)
Theorem C105_range : forall H pr params key iv n m origin g st, sealing H pr params key iv n m origin g st ->
  forall b e ks now, blocks_in_range b e (block_pl params) = Ok ks -> Forall (fun k => k < n) ks ->
  (forall i k, nth_error ks i = Some k -> seen (sealed_below H pr params key iv n g st (k + 1)) (now i 0) /\
     forall q, seen (sealed_below H pr params key iv n g st k) (now i (S q))) ->
  batch_unseal_prepare_live H pr params now b e = batch_unseal_prepare H pr params (s_file st) b e.
Proof.
  intros H pr params key iv n m origin g st SG b e ks now BR FK SE. pose proof (sg_setting _ _ _ _ _ _ _ _ _ _ SG) as SET.
  destruct (sg_sizes _ _ _ _ _ _ _ _ _ _ SG) as (_ & _ & LS & B0).
  destruct (range_response H pr params key n m SET (s_file st) b e ks ltac:(lia) BR FK) as (deps & _ & M & E). rewrite E.
  apply (range_of_singles_live H pr params now b e ks n); auto; [exact (set_nblocks H pr params key n m SET)| |].
  - destruct (tabl_ex H pr params key n m SET) as (t & (TL & _)). change (verifier_idxs_l pr params n) with (seal_idxs_l pr params n). congruence.
  - rewrite <- M, <- (mapM_index_all (single_unseal_prepare H pr params (s_file st)) ks). apply mapM_ext. intros i _. unfold index. destruct (nth_error ks i) as [k|] eqn:N; [|reflexivity].
    cbn [bind]. rewrite Forall_forall in FK. apply (C105_answer _ _ _ _ _ _ _ _ _ _ SG); [apply FK; eapply nth_error_In; eauto|apply (SE i k N)|apply (SE i k N)].
Qed.
Print Assumptions C105_range.

(** A challenge answered at such moments passes, for every number of threads and every
    schedule.  The blocks may be answered at different times. *)
Theorem C105_challenge : forall H H2 pr params key iv n m origin g st, sealing H pr params key iv n m origin g st -> hash32 H2 ->
  forall pub ids leaves tree root, load_data pub = Ok (key, iv) -> length ids = n -> generate_merkle_tree_from_data H2 ids = Ok (leaves, tree, root) ->
  forall idx now, StronglySorted lt idx -> Forall (fun i => i < n) idx -> idx <> [] ->
  (forall i k, nth_error idx i = Some k -> seen (sealed_below H pr params key iv n g st (k + 1)) (now i 0) /\
     forall q, seen (sealed_below H pr params key iv n g st k) (now i (S q))) ->
  forall parallel_num r o, challenge_live H H2 pr params now parallel_num origin pub leaves tree root r idx o <-> o = Ok tt.
Proof.
  intros H H2 pr params key iv n m origin g st SG HH2 pub ids leaves tree root LD LI GT idx now S FI N SE p r o.
  destruct (sg_sizes _ _ _ _ _ _ _ _ _ _ SG) as (_ & _ & LS & B0). destruct (sg_undo _ _ _ _ _ _ _ _ _ _ SG) as (UE & CE).
  assert (CP : challenge_prepare_live H H2 pr params now pub leaves tree root r idx = challenge_prepare H H2 pr params (s_file st) pub leaves tree root r idx).
  { unfold challenge_prepare_live, challenge_prepare. rewrite <- (mapM_index_all (single_unseal_prepare H pr params (s_file st)) idx).
    rewrite (mapM_ext (fun i => let* k := index idx i in single_unseal_prepare_live H pr params (now i) k) (fun i => let* k := index idx i in single_unseal_prepare H pr params (s_file st) k)); [reflexivity|].
    intros i _. unfold index. destruct (nth_error idx i) as [k|] eqn:NK; [|reflexivity]. cbn [bind]. rewrite Forall_forall in FI.
    apply (C105_answer _ _ _ _ _ _ _ _ _ _ SG); [apply FI; eapply nth_error_In; eauto|apply (SE i k NK)|apply (SE i k NK)]. }
  destruct SG as [SET SK KU ML LAY LO EP ES NZ]. pose proof (sound_lt H pr params key n m SET SK) as KB.
  assert (CH := C81_challenge H H2 pr params key iv n m SET KB ML LAY HH2 (s_file st) origin ltac:(lia) (ex_intro _ g (conj UE CE)) origin pub ids leaves tree root LD LI GT idx S FI N p r o).
  assert (EQ : challenge_live H H2 pr params now p origin pub leaves tree root r idx o <-> challenge H H2 pr params p origin (s_file st) pub leaves tree root r idx o).
  { split; intros C.
    - inversion C as [P|k' iv' rs out P O E]; subst o; [apply Ch_panic; congruence|]. rewrite CP in P. exact (Ch_go H H2 pr params p origin (s_file st) pub leaves tree root r idx k' iv' rs out P O).
    - inversion C as [P|k' iv' rs out P O E]; subst o; [apply Ch_live_panic; congruence|]. rewrite <- CP in P. exact (Ch_live_go H H2 pr params now p origin pub leaves tree root r idx k' iv' rs out P O). }
  rewrite EQ, CH. split; [intros [(-> & _)|(_ & X)]; [reflexivity|exfalso; apply X; reflexivity]|intros ->; left; split; reflexivity].
Qed.
Print Assumptions C105_challenge.

(** Whatever the file contains at each read, the answer does not fail: it holds the block
    as it is at the first read, the hash of the block before as it is at the second, and
    the dependencies that hash selects as they are when they are read. *)
Theorem C105_response : forall H pr params key n m, setting H pr params key n m ->
  forall k now, k < n -> (forall q, n * block_pl params <= length (now q)) ->
  exists bs, long_choice H pr params n (H (block_bytes params (now 1) (k - 1))) k bs /\ Forall (fun b => b < k) bs /\
  single_unseal_prepare_live H pr params now k =
    Ok (block_units params m (now 0) k, if k =? 0 then [] else H (block_bytes params (now 1) (k - 1)),
        map (fun j => block_units params m (now (2 + j)) (nth j bs 0)) (seq 0 (length bs))).
Proof. intros H pr params key n m SET k now K L. exact (response_live H pr params key n m SET now k L K). Qed.
Print Assumptions C105_response.
(** And the challenge passes exactly if what each answer unseals to is the original
    block. *)
Theorem C105_decides : forall H H2 pr params key iv n m, setting H pr params key n m ->
  (forall d, (le2z (H d) < key < 256 ^ Z.of_nat (unit_pl params))%Z) -> layout params n m -> hash32 H2 ->
  forall pub ids leaves tree root, load_data pub = Ok (key, iv) -> length ids = n -> generate_merkle_tree_from_data H2 ids = Ok (leaves, tree, root) ->
  forall idx now, StronglySorted lt idx -> Forall (fun i => i < n) idx -> idx <> [] -> (forall i q, n * block_pl params <= length (now i q)) ->
  exists back : nat -> list byte,
  (forall i k, nth_error idx i = Some k -> exists B before deps R U, single_unseal_prepare_live H pr params (now i) k = Ok (B, before, deps) /\
     length R = m /\ unseals_reply H pr params key iv m k before deps B R U /\ back i = concat (map (firstn (unit_l params)) R)) /\
  forall origin parallel_num r o, challenge_live H H2 pr params now parallel_num origin pub leaves tree root r idx o <->
  (o = Ok tt /\ forall i k, nth_error idx i = Some k -> back i = read_file origin (k * block_l params) (block_l params)) \/
  (o = Panic /\ ~ forall i k, nth_error idx i = Some k -> back i = read_file origin (k * block_l params) (block_l params)).
Proof.
  intros H H2 pr params key iv n m SET KB LAY HH2 pub ids leaves tree root LD LI GT idx now S FI N L.
  exact (challenge_live_decides H H2 pr params key iv n m SET KB LAY HH2 pub ids leaves tree root LD LI GT now idx L S FI N).
Qed.
Print Assumptions C105_decides.

(** One run of a challenge without threads. *)
Definition seq_live (H H2 : list byte -> list byte) pr params (now : nat -> nat -> file) (origin pub : file) leaves tree root r idx : res unit :=
  let* (vde_key, iv, rs) := challenge_prepare_live H H2 pr params now pub leaves tree root r idx in
  let* ub := batch_unseal H pr params vde_key iv idx (map (fun x => snd (fst x)) rs) (map snd rs) (map (fun x => fst (fst x)) rs) in
  foldM (fun _ i => let* k := index idx i in let* b := index ub i in batch_verify origin k b (block_l params) (unit_l params)) (seq 0 (length idx)) tt.
Lemma seq_live_run H H2 pr params now origin pub leaves tree root r idx :
  challenge_live H H2 pr params now 0 origin pub leaves tree root r idx (seq_live H H2 pr params now origin pub leaves tree root r idx).
Proof.
  unfold seq_live. destruct (challenge_prepare_live H H2 pr params now pub leaves tree root r idx) as [[[k iv] rs]|] eqn:E; cbn [bind]; [|now constructor].
  exact (Ch_live_go H H2 pr params now 0 origin pub leaves tree root r idx k iv rs _ E eq_refl).
Qed.

(** Three moments at which block 2 is challenged too early or too late: while block 2 is
    half written during sealing; when it was read in time, but unsealing has passed block
    1 before the hash of that block was taken; when unsealing has passed it.  Answering
    blocks 0 and 1 at the first of these moments passes. *)
Definition from (f h : file) : nat -> nat -> file := fun _ q => match q with O => f | S _ => h end.
Definition live_trial : bool :=
  match (let* g := copy_and_pad spot_origin 12 2 in
         let* st := seal hsum Debug spot_params ex_key [] g in
         let* half := seal_crash hsum Debug spot_params ex_key [] 2 3 g in
         let* down := unseal_crash hsum Debug spot_params ex_key [] 1 6 (s_file st) in
         let* (leaves, tree, root) := generate_merkle_tree_from_data hfix ids3 in
         let run now idx := seq_live hsum hfix Debug spot_params now spot_origin spot_pub leaves tree root x00 idx in
         Ok (st, half, down, [run (from half half) [2]; run (from (s_file st) down) [2]; run (from down down) [2]])) with
  | Panic => false
  | Ok (st, half, down, l) => no_zero (s_log st) && (length (s_file st) =? 18) && (length half =? 18) && (length down =? 18) &&
      match l with [Panic; Panic; Panic] => true | _ => false end
  end.
Lemma late_ends now leaves tree root idx : (forall i q, length (now i q) = 18) -> generate_merkle_tree_from_data hfix ids3 = Ok (leaves, tree, root) ->
  StronglySorted lt idx -> Forall (fun i => i < 3) idx -> idx <> [] ->
  forall parallel_num r o, challenge_live hsum hfix Debug spot_params now parallel_num spot_origin spot_pub leaves tree root r idx o <->
  o = seq_live hsum hfix Debug spot_params now spot_origin spot_pub leaves tree root x00 idx.
Proof.
  intros L GT S FI N p r o.
  destruct (C105_decides hsum hfix Debug spot_params ex_key [] 3 2 spot_setting spot_key_bound spot_layout hfix_32 spot_pub ids3 leaves tree root) with (idx := idx) (now := now) as (back & _ & CH); auto.
  { intros i q. rewrite L. cbn. lia. }
  pose proof (seq_live_run hsum hfix Debug spot_params now spot_origin spot_pub leaves tree root x00 idx) as C. apply CH in C. rewrite CH. split.
  - intros C'. destruct C as [(-> & X)|(-> & X)], C' as [(-> & X')|(-> & X')]; tauto.
  - intros ->. exact C.
Qed.
Theorem C105_any_moment_refuted : exists g st half down leaves tree root,
  sealing hsum Debug spot_params ex_key [] 3 2 spot_origin g st /\ generate_merkle_tree_from_data hfix ids3 = Ok (leaves, tree, root) /\
  seal_crash hsum Debug spot_params ex_key [] 2 3 g = Ok half /\ unseal_crash hsum Debug spot_params ex_key [] 1 6 (s_file st) = Ok down /\
  forall parallel_num r o,
  (challenge_live hsum hfix Debug spot_params (from half half) parallel_num spot_origin spot_pub leaves tree root r [2] o <-> o = Panic) /\
  (challenge_live hsum hfix Debug spot_params (from (s_file st) down) parallel_num spot_origin spot_pub leaves tree root r [2] o <-> o = Panic) /\
  (challenge_live hsum hfix Debug spot_params (from down down) parallel_num spot_origin spot_pub leaves tree root r [2] o <-> o = Panic) /\
  (challenge_live hsum hfix Debug spot_params (from half half) parallel_num spot_origin spot_pub leaves tree root r [0; 1] o <-> o = Ok tt).
Proof.
  assert (E : live_trial = true) by (vm_compute; reflexivity). revert E. unfold live_trial.
  destruct (copy_and_pad spot_origin 12 2) as [g|] eqn:EP; [|discriminate]. cbn [bind].
  destruct (seal hsum Debug spot_params ex_key [] g) as [st|] eqn:E1; [|discriminate]. cbn [bind].
  destruct (seal_crash hsum Debug spot_params ex_key [] 2 3 g) as [half|] eqn:E2; [|discriminate]. cbn [bind].
  destruct (unseal_crash hsum Debug spot_params ex_key [] 1 6 (s_file st)) as [down|] eqn:E3; [|discriminate]. cbn [bind].
  destruct (generate_merkle_tree_from_data hfix ids3) as [[[leaves tree] root]|] eqn:GT; [|discriminate]. cbn [bind].
  intros E. apply andb_prop in E as (E & M). apply andb_prop in E as (E & L3). apply andb_prop in E as (E & L2). apply andb_prop in E as (Z1 & L1).
  apply Nat.eqb_eq in L1, L2, L3. apply no_zero_ok in Z1.
  assert (LEN : forall f h : file, length f = 18 -> length h = 18 -> forall i q, length (from f h i q) = 18) by (intros f h A B i [|q]; assumption).
  assert (SG : sealing hsum Debug spot_params ex_key [] 3 2 spot_origin g st).
  { constructor; auto; [apply ex_setting; [exact hsum_32|cbn; lia|cbn; lia]|exact ex_sound|cbn; unfold ex_key; lia|exact spot_layout]. }
  assert (SS : StronglySorted lt [2]) by repeat constructor. assert (FI : Forall (fun i => i < 3) [2]) by repeat constructor. assert (NE : [2] <> []) by discriminate.
  pose proof (late_ends (from half half) leaves tree root [2] (LEN _ _ L2 L2) GT SS FI NE) as R1.
  pose proof (late_ends (from (s_file st) down) leaves tree root [2] (LEN _ _ L1 L3) GT SS FI NE) as R2.
  pose proof (late_ends (from down down) leaves tree root [2] (LEN _ _ L3 L3) GT SS FI NE) as R3. revert M R1 R2 R3.
  generalize (seq_live hsum hfix Debug spot_params (from half half) spot_origin spot_pub leaves tree root x00 [2]).
  generalize (seq_live hsum hfix Debug spot_params (from (s_file st) down) spot_origin spot_pub leaves tree root x00 [2]).
  generalize (seq_live hsum hfix Debug spot_params (from down down) spot_origin spot_pub leaves tree root x00 [2]).
  intros o3 o2 o1 M. destruct o1 as [[]|], o2 as [[]|], o3 as [[]|]; try discriminate M. intros R1 R2 R3.
  exists g, st, half, down, leaves, tree, root. split; [exact SG|]. split; [reflexivity|]. split; [exact E2|]. split; [exact E3|]. intros p r o.
  split; [apply R1|]. split; [apply R2|]. split; [apply R3|].
  assert (SB : forall b, b <= 2 -> seen (sealed_below hsum Debug spot_params ex_key [] 3 g st b) half).
  { intros b B x. exists half. split; [|auto]. apply SB_sealing with (j := 2) (c := 3); [lia|exact E2]. }
  assert (SS' : StronglySorted lt [0; 1]) by (repeat constructor). assert (FI' : Forall (fun i => i < 3) [0; 1]) by (repeat constructor; lia). assert (NE' : [0; 1] <> []) by discriminate.
  assert (LD : load_data spot_pub = Ok (ex_key, [])) by (vm_compute; reflexivity).
  apply (C105_challenge hsum hfix Debug spot_params ex_key [] 3 2 spot_origin g st SG hfix_32 spot_pub ids3 leaves tree root LD eq_refl GT [0; 1] _ SS' FI' NE').
  intros i k NK. destruct i as [|[|i]]; cbn in NK; [injection NK as <-|injection NK as <-|destruct i; discriminate]; (split; [apply SB; lia|intros q; apply SB; lia]).
Qed.
Print Assumptions C105_any_moment_refuted.

(** A mixture of moments the theorems allow for block 1: its first bytes read while block 2
    is being sealed, the rest while it is being unsealed; the block before it read while
    block 1 is being unsealed. *)
Example C105_ex : exists g st s1 s2 s3, sealing hsum Debug spot_params ex_key [] 3 2 spot_origin g st /\
  seal_crash hsum Debug spot_params ex_key [] 2 3 g = Ok s1 /\ unseal_crash hsum Debug spot_params ex_key [] 0 2 (s_file st) = Ok s2 /\
  unseal_crash hsum Debug spot_params ex_key [] 1 4 (s_file st) = Ok s3 /\
  let now := fun q => match q with 0 => firstn 9 s1 ++ skipn 9 s2 | S _ => s3 end in
  seen (sealed_below hsum Debug spot_params ex_key [] 3 g st 2) (now 0) /\ (forall q, seen (sealed_below hsum Debug spot_params ex_key [] 3 g st 1) (now (S q))) /\
  single_unseal_prepare_live hsum Debug spot_params now 1 = single_unseal_prepare hsum Debug spot_params (s_file st) 1.
Proof.
  destruct C105_any_moment_refuted as (g & st & half & down & leaves & tree & root & SG & _ & E1 & _). exists g, st, half.
  destruct (sg_sizes _ _ _ _ _ _ _ _ _ _ SG) as (Lg & GS & LS & B0). pose proof SG as [SET SK KU ML LAY LO EP ES NZ].
  assert (C2 := unseal_crash_eq hsum Debug spot_params ex_key [] 3 2 SET g st 0 2 SK (or_introl ML) GS ES NZ ltac:(lia)).
  assert (C3 := unseal_crash_eq hsum Debug spot_params ex_key [] 3 2 SET g st 1 4 SK (or_introl ML) GS ES NZ ltac:(lia)).
  match type of C2 with _ = Ok ?x => set (s2 := x) in *; clearbody s2 end. match type of C3 with _ = Ok ?x => set (s3 := x) in *; clearbody s3 end.
  exists s2, s3. split; [exact SG|]. split; [exact E1|]. split; [exact C2|]. split; [exact C3|]. intros now.
  assert (B1 : sealed_below hsum Debug spot_params ex_key [] 3 g st 2 half) by (apply SB_sealing with (j := 2) (c := 3); [lia|exact E1]).
  assert (B2 : sealed_below hsum Debug spot_params ex_key [] 3 g st 2 s2) by (apply SB_unsealing with (i := 0) (c := 2); [lia|cbn; lia|exact C2]).
  assert (B3 : sealed_below hsum Debug spot_params ex_key [] 3 g st 1 s3) by (apply SB_unsealing with (i := 1) (c := 4); [lia|cbn; lia|exact C3]).
  destruct (sealed_below_ok _ _ _ _ _ _ _ _ _ _ SG 2 half ltac:(lia) B1) as (L1 & _). destruct (sealed_below_ok _ _ _ _ _ _ _ _ _ _ SG 2 s2 ltac:(lia) B2) as (L2 & _).
  cbn in L1, L2. assert (S0 : seen (sealed_below hsum Debug spot_params ex_key [] 3 g st 2) (now 0)).
  { intros x. cbn [now]. destruct (Nat.ltb_spec x 9) as [X|X].
    - exists half. split; [exact B1|]. split; [rewrite app_length, firstn_length, skipn_length; lia|]. rewrite app_nth1 by (rewrite firstn_length; lia). now apply nth_firstn.
    - exists s2. split; [exact B2|]. split; [rewrite app_length, firstn_length, skipn_length; lia|]. rewrite app_nth2, firstn_length by (rewrite firstn_length; lia).
      rewrite nth_skipn. f_equal. lia. }
  assert (S1 : forall q, seen (sealed_below hsum Debug spot_params ex_key [] 3 g st 1) (now (S q))) by (intros q x; exists s3; auto).
  split; [exact S0|]. split; [exact S1|]. apply (C105_answer _ _ _ _ _ _ _ _ _ _ SG); [lia|exact S0|exact S1].
Qed.
