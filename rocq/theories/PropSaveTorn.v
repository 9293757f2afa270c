(** Property C96: public data saved over a file with other contents, interrupted after k
    bytes.  Vocabulary: [saved_length] from LocalFacts (what save_data writes),
    [setting], [sealable], [sound_key] from SealSpec, [layout] from PostorageFacts,
    [restores], [same_block] from PropSpot. *)
From Coq Require Import Znumtheory Strings.Byte Sorted.
From Verif Require Import Base Sloth Common Depend Prover Verifier Merkle Postorage BytesFacts CommonFacts SealSpec SealTop SealPad SealZero SealWitness
  ChallengeFacts MerkleFacts SealMeaning ParamFacts
  PostorageFacts SpotFacts PropSpot LocalFacts PropLocal SaveTorn.
Local Open Scope nat_scope.

(** f is any previous content.  Once the key and the length of the iv are written,
    loading returns the new key, and an iv filled up with what the file contained; it
    panics only if the file is too short for that. *)
Theorem C96_filled : forall key iv, (Z.of_nat (length (decimal key)) < 2 ^ 64)%Z -> (Z.of_nat (length iv) < 2 ^ 64)%Z ->
  forall f k, 16 + length (decimal key) <= k ->
  let j := k - (16 + length (decimal key)) in
  load_data (save_data_upto k f key iv) =
    if (j <? length iv) && (length f <? saved_length key iv) then Panic
    else Ok (key, firstn j iv ++ firstn (length iv - j) (skipn (16 + length (decimal key) + j) f)).
Proof. intros key iv L1 L2 f k K. now apply torn_iv. Qed.
Print Assumptions C96_filled.

(** The shipped keys have 155, 309 and 617 digits. *)
Definition shipped (key : Z) : Prop := key = P_512 \/ key = P_1024 \/ key = P_2048.
Lemma shipped_512 : length (decimal P_512) = 155. Proof. vm_compute. reflexivity. Qed.
Lemma shipped_1024 : length (decimal P_1024) = 309. Proof. vm_compute. reflexivity. Qed.
Lemma shipped_2048 : length (decimal P_2048) = 617. Proof. vm_compute. reflexivity. Qed.
Lemma shipped_ok key : shipped key -> (0 <= key)%Z /\ In (length (decimal key)) key_lengths.
Proof.
  intros S. split; [destruct S as [->|[->| ->]]; vm_compute; discriminate|]. unfold key_lengths.
  destruct S as [->|[->| ->]]; [rewrite shipped_512|rewrite shipped_1024|rewrite shipped_2048]; simpl; auto.
Qed.
Lemma shipped_inj a b : shipped a -> shipped b -> length (decimal a) = length (decimal b) -> a = b.
Proof.
  pose proof shipped_512 as E1. pose proof shipped_1024 as E2. pose proof shipped_2048 as E3. intros A B. destruct A as [->|[->| ->]], B as [->|[->| ->]]; try reflexivity; rewrite ?E1, ?E2, ?E3; discriminate.
Qed.
(** Over the data of a run with another shipped key (the file held nothing else): loading
    returns the old data if nothing was written and the new data if everything was.
    Anything between panics, except that a shorter key written over a longer one is
    loaded with an iv that ends in digits of the old key. *)
Theorem C96_shipped : forall key key0 iv iv0, shipped key -> shipped key0 -> key <> key0 -> length iv = 128 -> length iv0 = 128 ->
  forall k, let d := length (decimal key) in let j := k - (16 + d) in
  load_data (save_data_upto k (save_data [] key0 iv0) key iv) =
    if k =? 0 then Ok (key0, iv0)
    else if k <? 16 + d then Panic
    else if 144 + d <=? k then Ok (key, iv)
    else if (key <? key0)%Z then Ok (key, firstn j iv ++ firstn (128 - j) (skipn (8 + d + j) (decimal key0)))
    else Panic.
Proof.
  intros key key0 iv iv0 S S0 NE L L0 k d j.
  destruct (shipped_ok key S) as (P & IL). destruct (shipped_ok key0 S0) as (P0 & IL0).
  assert (ND : length (decimal key) <> length (decimal key0)) by (intros E; apply NE; now apply shipped_inj).
  assert (B1 : (Z.of_nat (length (decimal key)) < 2 ^ 64)%Z) by (assert (length (decimal key) <= 617) by (cbn in IL; lia); assert (617 < 2 ^ 64)%Z by reflexivity; lia).
  assert (B0 : (Z.of_nat (length (decimal key0)) < 2 ^ 64)%Z) by (assert (length (decimal key0) <= 617) by (cbn in IL0; lia); assert (617 < 2 ^ 64)%Z by reflexivity; lia).
  assert (B2 : (Z.of_nat (length iv) < 2 ^ 64)%Z) by (rewrite L; reflexivity).
  assert (B3 : (Z.of_nat (length iv0) < 2 ^ 64)%Z) by (rewrite L0; reflexivity).
  destruct (Nat.eqb_spec k 0) as [->|K0].
  { change (save_data_upto 0 (save_data [] key0 iv0) key iv) with (save_data [] key0 iv0). now apply load_save. }
  destruct (Nat.ltb_spec k (16 + d)) as [K1|K1]; [apply torn_other; auto; fold d; lia|].
  destruct (Nat.leb_spec (144 + d) k) as [K2|K2].
  { rewrite save_upto_all by (unfold saved_length; fold d; lia). now apply load_save. }
  rewrite torn_iv by auto. fold d. fold j. unfold saved_length. fold d. rewrite L.
  replace (j <? 128) with true by (symmetry; apply Nat.ltb_lt; unfold j; lia). cbn [andb].
  assert (EO : save_data [] key0 iv0 = enc_bytes (decimal key0) ++ enc_bytes iv0) by (unfold save_data; rewrite write_start, skipn_nil, app_nil_r; reflexivity).
  rewrite EO. rewrite app_length, !enc_bytes_length, L0.
  assert (LT : (key <? key0)%Z = (d <? length (decimal key0))).
  { pose proof shipped_512 as E1. pose proof shipped_1024 as E2. pose proof shipped_2048 as E3. unfold d.
    destruct S as [->|[->| ->]], S0 as [->|[->| ->]]; try congruence; rewrite ?E1, ?E2, ?E3; reflexivity. }
  rewrite LT. set (b := length (decimal key0)) in *.
  destruct (Nat.ltb_spec d b) as [C|C].
  - rewrite (proj2 (Nat.ltb_ge _ _)) by lia. do 3 f_equal.
    assert (DB : d + 154 <= b) by (fold d in IL, ND; cbn in IL, IL0; lia).
    unfold enc_bytes at 1. rewrite <- app_assoc. rewrite skipn_app, enc_le_length, skipn_all2 by (rewrite enc_le_length; lia). cbn [app].
    rewrite skipn_app. fold b. replace (16 + d + j - 8 - b) with 0 by (unfold j; lia). cbn [skipn].
    rewrite firstn_app, skipn_length. fold b. replace (128 - j - (b - (16 + d + j - 8))) with 0 by (unfold j; lia). cbn [firstn]. rewrite app_nil_r.
    f_equal.
  - rewrite (proj2 (Nat.ltb_lt _ _)) by (fold d in IL, ND; cbn in IL, IL0; lia). reflexivity.
Qed.
Print Assumptions C96_shipped.

(** What is lost, for any previous content f long enough: with what is loaded all blocks
    but block 0 of the file just sealed are restored, and a challenge that leaves out
    block 0 passes. *)
Theorem C96_loss : forall H H2 pr params key iv n m, setting H pr params key n m -> sound_key H key ->
  mode_l params = 0 -> layout params n m -> hash32 H2 -> (256 ^ Z.of_nat (unit_l params) <= key)%Z ->
  forall origin g st, length origin = data_l params -> copy_and_pad origin (data_l params) (unit_l params) = Ok g ->
  seal H pr params key iv g = Ok st -> ~ In 0%Z (s_log st) ->
  (Z.of_nat (length (decimal key)) < 2 ^ 64)%Z -> (Z.of_nat (length iv) < 2 ^ 64)%Z ->
  forall f k, saved_length key iv <= length f -> 16 + length (decimal key) <= k ->
  exists iv' c, load_data (save_data_upto k f key iv) = Ok (key, iv') /\
  restores H pr params key iv' (s_file st) c /\ (forall b, 0 < b < n -> same_block params c origin b) /\
  forall leaves tree root, generate_merkle_tree_from_data H2 (s_ids st) = Ok (leaves, tree, root) ->
  forall idx, StronglySorted lt idx -> Forall (fun i => 0 < i < n) idx -> idx <> [] ->
  forall parallel_num r o, challenge H H2 pr params parallel_num origin (s_file st) (save_data_upto k f key iv) leaves tree root r idx o <-> o = Ok tt.
Proof.
  intros H H2 pr params key iv n m SET SK ML LAY HH2 KU origin g st LO EP ES NZ L1 L2 f k LF K.
  pose proof (sound_lt H pr params key n m SET SK) as KB.
  destruct (pad_sealable params key n m origin g) as (Lg & GS & PU); auto; try apply LAY.
  { rewrite (l_data _ _ _ LAY), (l_block _ _ _ LAY). reflexivity. }
  destruct (seal_total H pr params key iv n m SET g GS) as (st' & ES' & LS & _ & _ & LI). rewrite ES in ES'. injection ES' as <-. apply (f_equal (@length _)) in LI. rewrite map_length, seq_length in LI.
  assert (R0 : restores H pr params key iv (s_file st) origin).
  { eapply C82_pad_bytes_unchecked; eauto. intros q Q. rewrite PU by exact Q. rewrite firstn_app, read_file_length, Nat.sub_diag. cbn [firstn]. rewrite app_nil_r. apply firstn_all2. now rewrite read_file_length. }
  assert (LS' : n * block_pl params <= length (s_file st)) by (destruct GS; lia).
  pose proof (C96_filled key iv L1 L2 f k K) as LD. cbv zeta in LD. rewrite (proj2 (Nat.ltb_ge (length f) _)) in LD by exact LF. rewrite andb_false_r in LD.
  set (iv' := firstn _ iv ++ _) in LD.
  destruct (C81_restores H pr params key iv' n m SET KB LAY (s_file st) LS') as (c & R & LC).
  assert (OK : forall b, 0 < b < n -> same_block params c origin b) by (intros b B; exact (C87_iv H pr params key n m SET KB LAY (s_file st) iv' iv c origin LS' R R0 b B)).
  exists iv', c. split; [exact LD|]. split; [exact R|]. split; [exact OK|].
  intros leaves tree root GT idx S FI N parallel_num r o.
  assert (FI' : Forall (fun i => i < n) idx) by (eapply Forall_impl; [|exact FI]; cbn; intros; lia).
  rewrite (C81_challenge H H2 pr params key iv' n m SET KB ML LAY HH2 (s_file st) c LS' R origin _ (s_ids st) leaves tree root LD LI GT idx S FI' N parallel_num r o).
  assert (OK' : forall b, In b idx -> same_block params c origin b) by (intros b I; rewrite Forall_forall in FI; apply OK, FI, I).
  split; [intros [(E & _)|(_ & X)]; [exact E|contradiction]|intros ->; left; auto].
Qed.
Print Assumptions C96_loss.

(** A 512-bit key saved over a 1024-bit one up to the length of the iv: the iv that is
    loaded is 128 digits of the old key. *)
Example C96_ex : forall iv iv0, length iv = 128 -> length iv0 = 128 ->
  load_data (save_data_upto 171 (save_data [] P_1024 iv0) P_512 iv) = Ok (P_512, firstn 128 (skipn 163 (decimal P_1024))) /\
  load_data (save_data_upto 170 (save_data [] P_1024 iv0) P_512 iv) = Panic.
Proof.
  pose proof shipped_512 as E1. pose proof shipped_1024 as E2. pose proof shipped_2048 as E3.
  intros iv iv0 L L0. assert (NE : P_512 <> P_1024) by discriminate.
  assert (LT : (P_512 <? P_1024)%Z = true) by reflexivity.
  pose proof (C96_shipped P_512 P_1024 iv iv0 (or_introl eq_refl) (or_intror (or_introl eq_refl)) NE L L0) as X. cbv zeta in X. rewrite E1, LT in X.
  split; rewrite X; [|reflexivity]. generalize (decimal P_1024). generalize P_512. intros p D. reflexivity.
Qed.
