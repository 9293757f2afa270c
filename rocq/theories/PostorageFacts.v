(** The complete pipeline: saved parameters, responses, honest runs. *)
From Coq Require Import DecimalString DecimalZ DecimalPos Strings.String Strings.Byte Sorted Permutation.
From Coq Require Import List.
From Verif Require Import Base Sloth Common Depend Prover Verifier Merkle Postorage BytesFacts CommonFacts SealSpec SealTop SealPad
  SealZero ChallengeFacts VerifierFacts ParallelFacts SealVerify MerkleFacts MerkleRoot Primes ParamFacts.
Local Open Scope nat_scope.

(** * Saved parameters *)
Lemma enc_le_length k : forall z, length (enc_le k z) = k.
Proof. induction k as [|k IH]; intros z; [reflexivity|]. cbn. now rewrite IH. Qed.
Lemma enc_le_val k : forall z, (0 <= z < 256 ^ Z.of_nat k)%Z -> le2z (enc_le k z) = z.
Proof.
  induction k as [|k IH]; intros z R; [cbn in *; lia|]. rewrite pow256_S in R. cbn [enc_le le2z]. rewrite IH, b2z_z2b.
  - pose proof (Z.div_mod z 256). lia.
  - split; [apply Z.div_pos; lia|apply Z.div_lt_upper_bound; lia].
Qed.
Lemma dec_enc l rest : (Z.of_nat (length l) < 2 ^ 64)%Z -> dec_bytes (enc_bytes l ++ rest) = Ok (l, rest).
Proof.
  intros L. unfold enc_bytes. rewrite <- app_assoc. set (hd8 := enc_le 8 (Z.of_nat (length l))).
  assert (L8 : length hd8 = 8) by apply enc_le_length. unfold dec_bytes.
  assert (G : (length (hd8 ++ l ++ rest) <? 8) = false) by (apply Nat.ltb_ge; rewrite app_length; lia). rewrite G.
  assert (F8 : forall t, firstn 8 (hd8 ++ t) = hd8) by (intros t; rewrite <- L8, firstn_app, firstn_all, Nat.sub_diag; apply app_nil_r).
  assert (S8 : forall t, skipn 8 (hd8 ++ t) = t) by (intros t; rewrite <- L8, skipn_app, skipn_all, Nat.sub_diag; reflexivity).
  rewrite F8, S8.
  unfold hd8. rewrite enc_le_val by (change (256 ^ Z.of_nat 8)%Z with (2 ^ 64)%Z; lia). rewrite Nat2Z.id.
  replace (Z.of_nat (length (l ++ rest)) <? Z.of_nat (length l))%Z with false by (symmetry; apply Z.ltb_ge; rewrite app_length; lia).
  rewrite firstn_app, firstn_all, Nat.sub_diag. cbn [firstn]. rewrite app_nil_r, skipn_app, skipn_all, Nat.sub_diag. reflexivity.
Qed.
Lemma undecimal_decimal z : undecimal (decimal z) = Ok z.
Proof.
  unfold undecimal, decimal. rewrite string_of_list_byte_of_string. rewrite NilZero.isi.
  - now rewrite DecimalZ.of_to.
  - destruct z as [|p|p]; cbn; try discriminate. intros [= E]. now apply (Unsigned.to_uint_nonnil p).
  - destruct z as [|p|p]; cbn; try discriminate. intros [= E]. now apply (Unsigned.to_uint_nonnil p).
Qed.
Lemma write_start f buf : write_at f 0 buf = buf ++ skipn (length buf) f.
Proof. unfold write_at. destruct buf as [|b t]; [reflexivity|]. cbn [firstn app Nat.sub zeros repeat plus]. reflexivity. Qed.
Theorem load_save f key iv : (Z.of_nat (length (decimal key)) < 2 ^ 64)%Z -> (Z.of_nat (length iv) < 2 ^ 64)%Z ->
  load_data (save_data f key iv) = Ok (key, iv).
Proof.
  intros L1 L2. unfold save_data, load_data. rewrite write_start, <- app_assoc, dec_enc by exact L1. cbn [bind].
  rewrite dec_enc by exact L2. cbn [bind]. now rewrite undecimal_decimal.
Qed.
Theorem save_tail f key iv : exists c, save_data f key iv = c ++ skipn (length c) f /\
  forall g, save_data g key iv = c ++ skipn (length c) g.
Proof. eexists. unfold save_data. split; [|intros g]; apply write_start. Qed.

(** * Parameters *)
Lemma push_map {A} (g : nat -> A) n : fold_left (fun v k => v ++ [g k]) (seq 0 n) [] = map g (seq 0 n).
Proof.
  induction n as [|n IH]; [reflexivity|]. rewrite seq_S, map_app, List.fold_left_app, IH. reflexivity.
Qed.
Theorem random_file rnd n : length (create_random_file rnd n) = n /\ forall k, k < n -> nth_error (create_random_file rnd n) k = Some (rnd k).
Proof.
  unfold create_random_file. rewrite push_map. split; [now rewrite map_length, seq_length|]. intros k K.
  rewrite nth_error_map, (nth_error_nth' (seq 0 n) 0) by now rewrite seq_length. now rewrite seq_nth.
Qed.
Theorem prepare_params_ok pr upl rnd : (Z.of_nat upl * 8 < 2 ^ 64)%Z ->
  prepare_params pr upl rnd = Ok (if upl =? 64 then P_512 else if upl =? 128 then P_1024 else if upl =? 256 then P_2048 else P_1024, map rnd (seq 0 128)).
Proof.
  intros L. unfold prepare_params, usz. change two64 with (2 ^ 64)%Z.
  replace ((0 <=? Z.of_nat upl * 8)%Z && (Z.of_nat upl * 8 <? 2 ^ 64)%Z) with true by (symmetry; apply andb_true_iff; split; [apply Z.leb_le|apply Z.ltb_lt]; lia).
  cbn [bind]. rewrite push_map.
  assert (X : forall c, (Z.of_nat upl * 8 =? c * 8)%Z = (Z.of_nat upl =? c)%Z) by (intros c; destruct (Z.eqb_spec (Z.of_nat upl * 8) (c * 8)), (Z.eqb_spec (Z.of_nat upl) c); lia || reflexivity).
  rewrite (X 64%Z : (_ =? 512)%Z = _), (X 128%Z : (_ =? 1024)%Z = _), (X 256%Z : (_ =? 2048)%Z = _).
  assert (Y : forall k, (Z.of_nat upl =? Z.of_nat k)%Z = (upl =? k)) by (intros k; destruct (Z.eqb_spec (Z.of_nat upl) (Z.of_nat k)), (Nat.eqb_spec upl k); lia || reflexivity).
  now rewrite (Y 64 : (_ =? 64)%Z = _), (Y 128 : (_ =? 128)%Z = _), (Y 256 : (_ =? 256)%Z = _).
Qed.
Lemma prepare_params_iv pr upl rnd key iv : prepare_params pr upl rnd = Ok (key, iv) -> length iv = 128 /\ forall k, k < 128 -> nth_error iv k = Some (rnd k).
Proof.
  unfold prepare_params. destruct (usz _ _); [|discriminate]. cbn [bind]. rewrite push_map. intros E. assert (I : map rnd (seq 0 128) = iv) by congruence. subst iv. clear E.
  split; [now rewrite map_length, seq_length|]. intros k K.
  rewrite nth_error_map, (nth_error_nth' (seq 0 128) 0) by (rewrite seq_length; exact K). now rewrite seq_nth.
Qed.
Definition key_fits (key : Z) (upl : nat) : Prop := (256 ^ Z.of_nat (upl - 1) <= key < 256 ^ Z.of_nat upl)%Z.
Lemma shipped_keys_fit : key_fits P_512 64 /\ key_fits P_1024 128 /\ key_fits P_2048 256.
Proof.
  unfold key_fits. change (Z.of_nat (64 - 1)) with 63%Z. change (Z.of_nat 64) with 64%Z. change (Z.of_nat (128 - 1)) with 127%Z. change (Z.of_nat 128) with 128%Z.
  change (Z.of_nat (256 - 1)) with 255%Z. change (Z.of_nat 256) with 256%Z. repeat split; (apply Z.leb_le || apply Z.ltb_lt); vm_compute; reflexivity.
Qed.
Lemma P_1024_too_big upl : upl < 128 -> (256 ^ Z.of_nat upl <= P_1024)%Z.
Proof.
  intros L. destruct shipped_keys_fit as (_ & [A _] & _). change (Z.of_nat (128 - 1)) with 127%Z in A.
  eapply Z.le_trans; [|exact A]. apply Z.pow_le_mono_r; lia.
Qed.

(** * Responses *)
Lemma response_data_val r blocks : response_data r blocks = r :: concat (map (@concat byte) blocks).
Proof.
  unfold response_data. assert (X : forall bs acc, fold_left (fun acc b => fold_left (fun acc u => acc ++ u) b acc) bs acc = acc ++ concat (map (@concat byte) bs)).
  { clear. induction bs as [|b bs IH]; intros acc; [now rewrite app_nil_r|]. cbn [fold_left map concat]. rewrite fold_left_app, IH. now rewrite app_assoc. }
  apply X.
Qed.
Definition same_shape (a b : list (list (list byte))) : Prop := map (map (@length byte)) a = map (map (@length byte)) b.
Lemma concat_shape (a b : list (list byte)) c d : map (@length byte) a = map (@length byte) b -> concat a ++ c = concat b ++ d -> a = b /\ c = d.
Proof.
  revert b. induction a as [|x a IH]; intros [|y b] S E; try discriminate; [auto|]. cbn in S, E. injection S as L S. rewrite <- !app_assoc in E.
  apply app_inj_len in E; [|exact L]. destruct E as [-> E]. destruct (IH b S E) as [-> ->]. auto.
Qed.
Theorem response_injective r r' a b : same_shape a b -> response_data r a = response_data r' b -> r = r' /\ a = b.
Proof.
  unfold same_shape. rewrite !response_data_val. intros S [= -> E]. split; [reflexivity|]. revert b S E. induction a as [|x a IH]; intros [|y b] S E; try discriminate; [reflexivity|].
  cbn [map concat] in S, E. injection S as L S. apply concat_shape in E; [|exact L]. destruct E as [-> E]. f_equal. now apply IH.
Qed.

(** * Honest runs *)
Record layout (params : PosPara) (n m : nat) : Prop := {
  l_unit : 0 < unit_l params;
  l_unit_pl : unit_pl params = unit_l params + 1;
  l_block : block_l params = m * unit_l params;
  l_block_pl : block_pl params = m * unit_pl params;
  l_data : data_l params = n * block_l params;
  l_n : 0 < n;
  l_m : 0 < m
}.

Section Run.
Context (H H2 : list byte -> list byte) (pr : profile) (params : PosPara) (n m : nat).
Context (LAY : layout params n m).
Hypothesis H2_32 : hash32 H2.

Lemma data_block : data_l params / block_l params = n.
Proof. destruct LAY. rewrite l_data0. apply Nat.div_mul. rewrite l_block0. nia. Qed.
Lemma units_block : block_l params / unit_l params = m.
Proof. destruct LAY. rewrite l_block0. apply Nat.div_mul. lia. Qed.
Lemma data_div : Nat.divide (unit_l params) (data_l params).
Proof. destruct LAY. exists (n * m). rewrite l_data0, l_block0. lia. Qed.

(** A plaintext block of the padded file passes the comparison with the original. *)
Lemma honest_block origin g k : copy_and_pad origin (data_l params) (unit_l params) = Ok g -> k < n ->
  batch_verify origin k (block_units params m g k) (block_l params) (unit_l params) = Ok tt.
Proof.
  intros E K. destruct (pad_unit origin (data_l params) (unit_l params) g ltac:(pose proof (l_unit _ _ _ LAY); lia) E) as [L P].
  assert (C : data_l params / unit_l params = n * m) by (destruct LAY; rewrite l_data0, l_block0, Nat.mul_assoc; apply Nat.div_mul; lia).
  rewrite C in L, P. rewrite <- (l_unit_pl _ _ _ LAY) in L, P. apply batch_verify_iff. split; [apply LAY|]. split; [exists m; apply LAY|]. rewrite units_block.
  intros j J. exists (unit_bytes params g (k * m + j)). assert (Q : k * m + j < n * m) by nia. split.
  - unfold block_units. rewrite nth_error_map, (nth_error_nth' (seq 0 m) 0) by now rewrite seq_length. now rewrite seq_nth.
  - unfold unit_bytes. rewrite <- read_file_full by (rewrite L; nia). rewrite P by exact Q.
    rewrite firstn_app, read_file_length, Nat.sub_diag. cbn [firstn]. rewrite app_nil_r, firstn_all2 by now rewrite read_file_length.
    f_equal. rewrite (l_block _ _ _ LAY). lia.
Qed.
Lemma honest_blocks origin g ks : copy_and_pad origin (data_l params) (unit_l params) = Ok g -> Forall (fun k => k < n) ks ->
  foldM (fun _ i => let* k := index ks i in let* b := index (map (block_units params m g) ks) i in
                    batch_verify origin k b (block_l params) (unit_l params)) (seq 0 (length ks)) tt = Ok tt.
Proof.
  intros E F. apply (foldM_unit (fun i => let* k := index ks i in let* b := index (map (block_units params m g) ks) i in
    batch_verify origin k b (block_l params) (unit_l params))). apply Forall_forall. intros i I. apply in_seq in I. unfold index. rewrite nth_error_map.
  destruct (nth_error ks i) as [k|] eqn:X; [|apply nth_error_None in X; lia]. cbn [bind option_map]. apply honest_block; [exact E|].
  rewrite Forall_forall in F. apply F. eapply nth_error_In; eauto.
Qed.

Section Sealed.
Context (key : Z) (iv : list byte) (origin g : file) (st : seal_state).
Hypothesis SET : setting H pr params key n m.
Hypothesis SK : sound_key H key.
Hypothesis KB : (256 ^ Z.of_nat (unit_l params) <= key)%Z.
Hypothesis EP : copy_and_pad origin (data_l params) (unit_l params) = Ok g.
Hypothesis ES : seal H pr params key iv g = Ok st.
Hypothesis NZ : ~ In 0%Z (s_log st).

Lemma g_sealable : sealable params key n m g.
Proof.
  destruct LAY. destruct (pad_sealable params key n m origin g) as (_ & S & _); auto. rewrite l_data0, l_block0. reflexivity.
Qed.
Lemma table_ok : unit_table params m.
Proof. right. split; [pose proof (l_unit _ _ _ LAY); lia|apply units_block]. Qed.

Lemma unseal_compress origin_len : length origin = origin_len -> origin_len = data_l params -> mode_l params = 0 ->
  unseal H pr params key iv (s_file st) = Ok g /\ copy_and_compress g (data_l params) (unit_l params) (unit_pl params) = Ok origin.
Proof.
  intros L LD ML. split.
  - apply (unseal_seal H pr params key iv n m SET g st SK); auto; [now left|apply g_sealable].
  - rewrite (l_unit_pl _ _ _ LAY). apply (compress_pad_id origin); auto; [pose proof (l_unit _ _ _ LAY); lia|apply data_div|lia].
Qed.

Lemma challenge_ok parallel_num pub leaves tree root r idx o : load_data pub = Ok (key, iv) ->
  generate_merkle_tree_from_data H2 (s_ids st) = Ok (leaves, tree, root) ->
  StronglySorted lt idx -> Forall (fun i => i < n) idx -> idx <> [] ->
  challenge H H2 pr params parallel_num origin (s_file st) pub leaves tree root r idx o <-> o = Ok tt.
Proof.
  intros LD GT S F N. pose proof g_sealable as GS.
  destruct (seal_total H pr params key iv n m SET g GS) as (st' & ES' & _ & _ & _ & IDS). rewrite ES in ES'. injection ES' as <-.
  destruct (batch_unseal_sealed H pr params key iv n m SET g st SK GS ES NZ idx table_ok F) as (rs & RS & BU).
  unfold generate_merkle_tree_from_data in GT. destruct (tree_root (from_leaves H2 (map H2 (s_ids st)))) as [r0|] eqn:TR; [|discriminate].
  injection GT as <- <- <-.
  assert (LN : length (map H2 (s_ids st)) = n) by now rewrite IDS, !map_length, seq_length.
  destruct (proof_complete H2 H2_32 (map H2 (s_ids st)) idx) as (proof & root' & GP & TR' & VP); auto.
  { apply Forall_forall. intros x I. apply in_map_iff in I. destruct I as (y & <- & _). apply H2_32. }
  { now rewrite LN. }
  clear LN.
  rewrite TR in TR'. injection TR' as <-.
  assert (CP : challenge_prepare H H2 pr params (s_file st) pub (map H2 (s_ids st)) (from_leaves H2 (map H2 (s_ids st))) r0 r idx = Ok (key, iv, rs)).
  { unfold challenge_prepare. rewrite RS. cbn [bind]. rewrite GP. cbn [bind]. unfold verify_response.
    destruct (list_eq_dec _ _ _) as [_|Q]; [|congruence]. rewrite VP. cbn [bind]. rewrite LD. reflexivity. }
  assert (OUT : forall out, (if parallel_num =? 0
     then out = batch_unseal H pr params key iv idx (map (fun x => snd (fst x)) rs) (map snd rs) (map (fun x => fst (fst x)) rs)
     else batch_unseal_parallel H pr params key iv idx (map (fun x => snd (fst x)) rs) (map snd rs) parallel_num (map (fun x => fst (fst x)) rs) out)
     <-> out = Ok (map (block_units params m g) idx)).
  { intros out. destruct (Nat.eqb_spec parallel_num 0) as [Z|Z]; [now rewrite BU|].
    destruct (parallel_sealed H pr params key iv n m SET g st SK GS ES NZ idx parallel_num Z F) as (rs' & RS' & PS). rewrite RS in RS'. injection RS' as <-. apply PS. }
  split.
  - intros C. inversion C as [P|k' iv' rs' out P O]; subst; [congruence|]. rewrite CP in P. injection P as <- <- <-. apply OUT in O. subst out. cbn [bind].
    now apply honest_blocks.
  - intros ->. replace (Ok tt) with (let* unsealed_blocks := Ok (map (block_units params m g) idx) in
       foldM (fun _ i => let* k := index idx i in let* b := index unsealed_blocks i in
                batch_verify origin k b (block_l params) (unit_l params)) (seq 0 (length idx)) tt).
    + eapply Ch_go; [exact CP|]. now apply OUT.
    + cbn [bind]. now apply honest_blocks.
Qed.
Lemma challenges_ok parallel_num count pub leaves tree root cs o : load_data pub = Ok (key, iv) ->
  generate_merkle_tree_from_data H2 (s_ids st) = Ok (leaves, tree, root) -> 0 < count ->
  challenges_run H H2 pr params parallel_num count n origin (s_file st) pub leaves tree root cs o -> o = Ok tt.
Proof.
  intros LD GT C0 R. assert (CH : forall fuel draw idx, create_challenges fuel count (0, n) draw = Some (Ok idx) ->
     StronglySorted lt idx /\ Forall (fun i => i < n) idx /\ idx <> []).
  { intros fuel draw idx E. apply challenges_sound in E. destruct E as (S & L & F). split; [exact S|]. split.
    - eapply Forall_impl; [|exact F]. cbn. intros; lia.
    - intros ->. cbn in L. lia. }
  induction R as [|r draw cs fuel P|r draw cs fuel idx P C|r draw cs fuel idx o P C R IH]; auto.
  - exfalso. destruct fuel as [|fuel]; [discriminate|]. pose proof (l_n _ _ _ LAY) as N0. clear -P N0. unfold create_challenges in P.
    revert P. cbn [fst snd]. generalize (@nil nat). generalize 0 at 2. generalize (S fuel). clear -N0.
    intros f. induction f as [|f IH]; intros i s P; [discriminate|]. cbn [challenge_loop] in P. destruct (_ <? count); [|discriminate].
    destruct (Nat.leb_spec n 0); [lia|]. now apply IH in P.
  - destruct (CH _ _ _ P) as (S & F & N). now apply (challenge_ok parallel_num pub leaves tree root r idx Panic LD GT S F N) in C.
Qed.
End Sealed.

Lemma tree_data_ok vals : vals <> [] -> exists leaves tree root, generate_merkle_tree_from_data H2 vals = Ok (leaves, tree, root).
Proof.
  intros N. unfold generate_merkle_tree_from_data. destruct (root_total H2 (map H2 vals)) as (r & ->); [|eauto]. destruct vals; [congruence|discriminate].
Qed.

(** The pipeline as a whole. *)
Section Pipeline.
Context (rnd_file rnd_iv : nat -> byte) (pub : file) (key : Z) (iv : list byte).
Hypothesis PP : prepare_params pr (unit_pl params) rnd_iv = Ok (key, iv).
Hypothesis SET : setting H pr params key n m.
Hypothesis SK : sound_key H key.
Hypothesis KB : (256 ^ Z.of_nat (unit_l params) <= key)%Z.
Hypothesis ML : mode_l params = 0.
Hypothesis NZ : forall g st, copy_and_pad (create_random_file rnd_file (data_l params)) (data_l params) (unit_l params) = Ok g ->
  seal H pr params key iv g = Ok st -> ~ In 0%Z (s_log st).

Lemma saved : forall f, load_data (save_data f key iv) = Ok (key, iv).
Proof.
  clear - PP. intros f. destruct (prepare_params_iv _ _ _ _ _ PP) as [LI _]. apply load_save.
  - assert (K : In key [P_512; P_1024; P_2048]).
    { unfold prepare_params in PP. destruct (usz _ _) as [b|]; [|discriminate]. cbn [bind] in PP. assert (Q := f_equal (fun r => match r with Ok (k, _) => k | Panic => 0%Z end) PP).
      cbv beta iota in Q. rewrite <- Q. cbn [In]. destruct (b =? 512)%Z; [auto|]. destruct (b =? 1024)%Z; [auto|]. destruct (b =? 2048)%Z; auto. }
    cbn [In] in K. destruct K as [<-|[<-|[<-|[]]]]; vm_compute; reflexivity.
  - rewrite LI. reflexivity.
Qed.
Theorem pipeline_passes parallel_num count cs : 0 < count ->
  (forall o, pipeline H H2 pr params parallel_num count rnd_file rnd_iv pub cs o -> o = Ok tt) /\
  (Forall (fun c => exists fuel idx, create_challenges fuel count (0, n) (snd c) = Some (Ok idx)) cs ->
   pipeline H H2 pr params parallel_num count rnd_file rnd_iv pub cs (Ok tt)).
Proof.
  intros C0. set (origin := create_random_file rnd_file (data_l params)) in *. destruct (random_file rnd_file (data_l params)) as [LO _]. fold origin in LO.
  assert (U0 : unit_l params <> 0) by (pose proof (l_unit _ _ _ LAY); lia). assert (B0 : block_l params <> 0) by (destruct LAY; rewrite l_block0; nia).
  destruct (padded_units origin (data_l params) (unit_l params) U0) as (g & EP & _).
  assert (GS : sealable params key n m g) by (eapply g_sealable; eauto).
  destruct (seal_total H pr params key iv n m SET g GS) as (st & ES & _ & _ & _ & IDS).
  assert (NZ' : ~ In 0%Z (s_log st)) by (eapply NZ; eauto).
  assert (TF : exists lv tr ro, generate_merkle_tree_from_file H2 origin (data_l params) (block_l params) = Ok (lv, tr, ro)).
  { rewrite file_leaves by exact B0. apply tree_data_ok. rewrite (l_data _ _ _ LAY), ceil_div_mul by lia. pose proof (l_n _ _ _ LAY). destruct n; [lia|discriminate]. }
  destruct TF as (lv & tr & ro & TF).
  destruct (tree_data_ok (s_ids st)) as (leaves & tree & root & TD).
  { rewrite IDS. pose proof (l_n _ _ _ LAY). destruct n; [lia|discriminate]. }
  assert (SETUP : pipeline_setup H H2 pr params rnd_file rnd_iv pub = Ok (origin, ro, key, iv, st, save_data pub key iv, (leaves, tree, root))).
  { unfold pipeline_setup. fold origin. rewrite TF. cbn [bind]. rewrite EP. cbn [bind]. rewrite PP. cbn [bind]. rewrite ES. cbn [bind]. rewrite TD. reflexivity. }
  destruct (unseal_compress key iv origin g st SET SK KB EP ES NZ' _ eq_refl LO ML) as [UN CO].
  assert (FIN : pipeline_finish H H2 pr params ro key iv (s_file st) = Ok tt).
  { unfold pipeline_finish. rewrite UN. cbn [bind]. rewrite CO. cbn [bind]. rewrite TF. cbn [bind]. destruct (list_eq_dec _ ro ro); congruence. }
  split.
  - intros o P. inversion P as [S|a b c d e f l t r o' S R]; subst; [congruence|].
    rewrite SETUP in S. injection S as <- <- <- <- <- <- <- <- <-. rewrite data_block in R.
    apply (challenges_ok key iv origin g st SET SK KB EP ES NZ' parallel_num count) in R; auto; [|apply saved]. subst o'. exact FIN.
  - intros D. rewrite <- FIN. change (pipeline_finish H H2 pr params ro key iv (s_file st)) with (let* _ := Ok tt in pipeline_finish H H2 pr params ro key iv (s_file st)).
    eapply P_run; [exact SETUP|]. rewrite data_block. induction D as [|[r draw] cs (fuel & idx & E) D IH]; [constructor|].
    eapply CR_next; [exact E| |exact IH]. cbn [snd] in E. apply challenges_sound in E. destruct E as (S & L & F).
    apply (challenge_ok key iv origin g st SET SK KB EP ES NZ'); auto; [apply saved| |].
    + eapply Forall_impl; [|exact F]. cbn. intros; lia.
    + intros ->. cbn in L. lia.
Qed.
Theorem seal_and_unseal_ok origin unsealed : length origin = data_l params ->
  (forall g st, copy_and_pad origin (data_l params) (unit_l params) = Ok g -> seal H pr params key iv g = Ok st -> ~ In 0%Z (s_log st)) ->
  exists sealed pub', seal_and_unseal H pr params rnd_iv origin pub unsealed true = Ok (sealed, pub', origin) /\
  load_data pub' = Ok (key, iv).
Proof.
  clear NZ rnd_file.
  intros LO NZO. assert (U0 : unit_l params <> 0) by (pose proof (l_unit _ _ _ LAY); lia).
  destruct (padded_units origin (data_l params) (unit_l params) U0) as (g & EP & _).
  assert (GS : sealable params key n m g) by (eapply g_sealable; eauto).
  destruct (seal_total H pr params key iv n m SET g GS) as (st & ES & _).
  destruct (unseal_compress key iv origin g st SET SK KB EP ES (NZO g st EP ES) _ eq_refl LO ML) as [UN CO].
  exists g, (save_data pub key iv). split; [|apply saved].
  unfold seal_and_unseal. rewrite EP. cbn [bind]. rewrite PP. cbn [bind]. rewrite ES. cbn [bind]. rewrite UN. cbn [bind]. rewrite CO. reflexivity.
Qed.
End Pipeline.

(** The per-leaf check of an unsealed file against the original's root. *)
Theorem merkle_tree_proof_ok f idx : StronglySorted lt idx -> Forall (fun i => i < n) idx -> idx <> [] ->
  merkle_tree_proof H2 params f f idx = Ok tt.
Proof.
  intros S F N. assert (B0 : block_l params <> 0) by (destruct LAY; rewrite l_block0; nia). unfold merkle_tree_proof. rewrite file_leaves by exact B0.
  assert (C : ceil_div (data_l params) (block_l params) = n) by (rewrite (l_data _ _ _ LAY); apply ceil_div_mul; lia). rewrite C.
  set (vals := map (leaf_of f (block_l params)) (seq 0 n)).
  destruct (tree_data_ok vals) as (lv & tr & ro & TD); [unfold vals; pose proof (l_n _ _ _ LAY); destruct n; [lia|discriminate]|]. rewrite TD. cbn [bind].
  unfold generate_merkle_tree_from_data in TD. destruct (tree_root (from_leaves H2 (map H2 vals))) as [r|] eqn:TR; [|discriminate]. injection TD as <- <- <-.
  destruct (proof_complete H2 H2_32 (map H2 vals) idx) as (proof & root & GP & TR' & V); auto.
  - apply Forall_forall. intros x I. apply in_map_iff in I. destruct I as (y & <- & _). apply H2_32.
  - unfold vals. now rewrite !map_length, seq_length.
  - rewrite TR in TR'. injection TR' as <-. rewrite GP. cbn [bind]. exact V.
Qed.

(** The single-block check (the first ten blocks). *)
Theorem unseal_single_ok key iv origin g st pub parallel_num o :
  setting H pr params key n m -> sound_key H key -> (256 ^ Z.of_nat (unit_l params) <= key)%Z ->
  copy_and_pad origin (data_l params) (unit_l params) = Ok g -> seal H pr params key iv g = Ok st -> ~ In 0%Z (s_log st) ->
  load_data pub = Ok (key, iv) -> 10 <= n ->
  unseal_single_and_verify H pr params pub origin (s_file st) parallel_num o <-> o = Ok tt.
Proof.
  intros SET SK KB EP ES NZ LD TEN. assert (GS : sealable params key n m g) by (eapply g_sealable; eauto).
  assert (BP : 0 < block_pl params) by (destruct LAY; rewrite l_block_pl0, l_unit_pl0; nia).
  destruct (blocks_aligned 0 (10 * block_pl params) (block_pl params) BP) as (ks & BR & S & KS).
  assert (F : Forall (fun k => k < n) ks).
  { apply Forall_forall. intros k I. apply KS in I. destruct I as (x & [_ X] & Y & _). nia. }
  assert (TB := table_ok).
  destruct (batch_unseal_sealed H pr params key iv n m SET g st SK GS ES NZ ks TB F) as (rs & RS & BU).
  pose proof (prepare_range_eq H pr params key n m SET st ks rs F RS (0 * block_pl params) (10 * block_pl params) BR) as PE.
  assert (OUT : forall out, (if parallel_num =? 0
     then out = batch_unseal H pr params key iv ks (map (fun x => snd (fst x)) rs) (map snd rs) (map (fun x => fst (fst x)) rs)
     else batch_unseal_parallel H pr params key iv ks (map (fun x => snd (fst x)) rs) (map snd rs) parallel_num (map (fun x => fst (fst x)) rs) out)
     <-> out = Ok (map (block_units params m g) ks)).
  { intros out. destruct (Nat.eqb_spec parallel_num 0) as [Z|Z]; [now rewrite BU|].
    destruct (parallel_sealed H pr params key iv n m SET g st SK GS ES NZ ks parallel_num Z F) as (rs' & RS' & PS). rewrite RS in RS'. injection RS' as <-. apply PS. }
  split.
  - intros C. inversion C as [P|k' iv' a b c d out LD' PE' O]; subst o.
    + exfalso. rewrite LD in P. cbn [bind] in P. rewrite PE in P. discriminate.
    + rewrite LD in LD'. injection LD' as <- <-. rewrite PE in PE'. injection PE' as <- <- <- <-. apply OUT in O. subst out. cbn [bind]. now apply honest_blocks.
  - intros ->. replace (Ok tt) with (let* unsealed_blocks := Ok (map (block_units params m g) ks) in
       foldM (fun _ i => let* k := index ks i in let* b := index unsealed_blocks i in
                batch_verify origin k b (block_l params) (unit_l params)) (seq 0 (length ks)) tt).
    + eapply USV_go; [exact LD|exact PE|]. now apply OUT.
    + cbn [bind]. now apply honest_blocks.
Qed.
End Run.

(** * The shipped parameters, and parameters with one sealing round *)
Lemma gen_posdata_layout l : layout (gen_posdata l) 256 (units_per_block l).
Proof.
  destruct (gen_posdata_geometry l) as (U & UP & B & BP & D & M & _). constructor; auto; [rewrite U; lia|rewrite U, UP; reflexivity|lia].
Qed.
Lemma gen_posdata_key pr l rnd : prepare_params pr (unit_pl (gen_posdata l)) rnd = Ok (P_512, map rnd (seq 0 128)).
Proof. destruct (gen_posdata_geometry l) as (_ & -> & _). apply (prepare_params_ok pr 64). reflexivity. Qed.
Lemma P_512_holds_unit : (256 ^ Z.of_nat 63 <= P_512)%Z.
Proof. apply Z.leb_le. vm_compute. reflexivity. Qed.
Lemma P_512_one_round : (256 ^ Z.of_nat 63 + 256 ^ Z.of_nat 32 <= P_512)%Z.
Proof. apply Z.leb_le. vm_compute. reflexivity. Qed.
Lemma one_round_no_zero H pr params n m iv origin g st : hash32 H -> (forall d, le2z (H d) <> 0%Z) -> layout params n m ->
  setting H pr params P_512 n m -> unit_pl params = 64 -> seal_rounds params = 1 ->
  copy_and_pad origin (data_l params) (unit_l params) = Ok g -> seal H pr params P_512 iv g = Ok st -> ~ In 0%Z (s_log st).
Proof.
  intros HH HN LAY SET UP SR EP ES. assert (UL : unit_l params = 63) by (pose proof (l_unit_pl _ _ _ LAY); lia).
  assert (D : data_l params = n * (m * unit_l params)) by (destruct LAY; rewrite l_data0, l_block0; reflexivity).
  destruct (pad_sealable params P_512 n m origin g) as (LG & SE & UB); try apply LAY; auto; [rewrite UL; apply P_512_holds_unit|].
  refine (proj2 (padded_no_zero H pr params P_512 iv n m SET g st SR _ HN _ _ ES)).
  - intros d. rewrite UP. change (64 - 1) with 63. pose proof (le2z_range (H d)) as R. rewrite HH in R. pose proof P_512_one_round. lia.
  - rewrite LG. lia.
  - intros q Q. rewrite UB by exact Q. rewrite le2z_app, UP, UL. change (le2z [x00]) with 0%Z. change (64 - 1) with 63.
    pose proof (le2z_range (read_file origin (q * 63) 63)) as R. rewrite read_file_length in R. lia.
Qed.
