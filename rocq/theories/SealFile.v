(** Proof machinery for sealing and unsealing whole files. *)
From Verif Require Import Base Legendre Sloth Common Depend Prover NumTheory SlothFacts BytesFacts
  DependFacts DependDet VdeFacts SealSpec SealCore.
From Coq Require Import Znumtheory.
Local Open Scope nat_scope.

Section File.
Context (H : list byte -> list byte) (pr : profile) (params : PosPara) (key : Z) (iv : list byte).
Notation upl := (unit_pl params).
Notation bpl := (block_pl params).

Definition blk (f : file) (k : nat) : list byte := read_file f (k * bpl) bpl.

Definition pick_l (idxs_l : list (list nat)) (n : nat) (bid : list byte) (k : nat) : res (list nat) :=
  if mode_l params =? 0 then
    if k =? 0 then Ok []
    else if cnt_l params =? 0 then long_mode_random H n bid k (k / 10 + 1)
    else long_mode_random H n bid k (cnt_l params)
  else index idxs_l k.
Definition Dfun (idxs_l : list (list nat)) (n : nat) (f : file) (k : nat) : res (list (list (list byte))) :=
  let* is := pick_l idxs_l n (H (blk f (k - 1))) k in mapM (fun i => read_block params f i) is.
Definition sfx (f : file) (k : nat) : list byte := if k =? 0 then iv else H (blk f (k - 1)).

Definition long_ok (idxs_l : list (list nat)) (n : nat) : Prop :=
  if mode_l params =? 0 then (Z.of_nat n <= 65536)%Z \/ (1 <= cnt_l params <= 5)
  else forall k, k < n -> exists row, index idxs_l k = Ok row /\ Forall (fun x => x < k) row.

Context (n m : nat) (idxs_l idxs_s : list (list nat)).
Hypothesis HH : hash_ok H.
Hypothesis K1 : (1 < key)%Z.
Hypothesis K2 : (key <= 256 ^ Z.of_nat upl)%Z.
Hypothesis U0 : 0 < upl.
Hypothesis BPL : bpl = m * upl.
Hypothesis SOK : short_ok params idxs_s m.
Hypothesis LOK : long_ok idxs_l n.

Lemma blk_len f k : length (blk f k) = bpl. Proof. apply read_file_length. Qed.
Lemma read_block_ok f k : read_block params f k = Ok (chunks upl m (blk f k)).
Proof. unfold read_block. apply to_units_ok; [exact U0|]. exact (eq_trans (blk_len f k) BPL). Qed.
Lemma chunks_shaped f k : shaped params m (chunks upl m (blk f k)).
Proof. split; [apply chunks_length|]. apply chunks_each. rewrite blk_len. exact BPL. Qed.

Lemma pick_l_ok bid k : k < n -> exists is, pick_l idxs_l n bid k = Ok is /\ Forall (fun i => i < k) is.
Proof.
  intros K. unfold pick_l. unfold long_ok in LOK. destruct (mode_l params =? 0).
  - destruct (Nat.eqb_spec k 0) as [|NZ]; [exists []; auto|].
    assert (X : forall c, (Z.of_nat n <= 65536)%Z \/ c <= 5 -> exists is, long_mode_random H n bid k c = Ok is /\ Forall (fun i => i < k) is).
    { intros c C. assert (Y : exists is, long_mode_random H n bid k c = Ok is).
      { destruct C as [C|C]; [apply long_mode_random_returns; auto|].
        destruct (Z.lt_ge_cases 65536 (Z.of_nat n)) as [C2|C2]; [|apply long_mode_random_returns; auto].
        destruct (long_mode_random_big H n bid k c HH C2 NZ) as [_ Y]. now apply Y. }
      destruct Y as (is & E). exists is. split; [exact E|]. apply long_mode_random_props in E. tauto. }
    destruct (Nat.eqb_spec (cnt_l params) 0); apply X; lia.
  - now apply LOK.
Qed.
Lemma Dfun_ok f k : k < n -> exists deps, Dfun idxs_l n f k = Ok deps /\ deps_ok m deps.
Proof.
  intros K. unfold Dfun. destruct (pick_l_ok (H (blk f (k - 1))) k K) as (is & -> & F). cbn [bind].
  rewrite (mapM_ok _ (fun i => chunks upl m (blk f i))) by (intros; apply read_block_ok).
  eexists. split; [reflexivity|]. apply Forall_forall. intros b B. apply in_map_iff in B as (i & <- & _). apply chunks_length.
Qed.
Lemma Dfun_ext f g k : k < n -> (forall j, j < k -> blk f j = blk g j) -> Dfun idxs_l n f k = Dfun idxs_l n g k.
Proof.
  intros K E. unfold Dfun. assert (X : pick_l idxs_l n (H (blk f (k - 1))) k = pick_l idxs_l n (H (blk g (k - 1))) k).
  { unfold pick_l. destruct (mode_l params =? 0); [|reflexivity]. destruct (Nat.eqb_spec k 0); [reflexivity|].
    rewrite E by lia. reflexivity. }
  rewrite X. destruct (pick_l_ok (H (blk g (k - 1))) k K) as (is & -> & F). cbn [bind].
  apply mapM_ext. intros i I. rewrite Forall_forall in F. rewrite !read_block_ok, E by auto. reflexivity.
Qed.
Lemma sfx_ext f g k : (forall j, j < k -> blk f j = blk g j) -> sfx f k = sfx g k.
Proof. clear HH K1 K2 U0 BPL SOK LOK. intros E. unfold sfx. destruct (Nat.eqb_spec k 0); [reflexivity|]. now rewrite E by lia. Qed.

Lemma seal_depend_blocks_D f ids k : (k <> 0 -> index ids (k - 1) = Ok (H (blk f (k - 1)))) ->
  seal_depend_blocks H params idxs_l n f ids k = Dfun idxs_l n f k.
Proof.
  intros E. unfold seal_depend_blocks, Dfun, pick_l. destruct (mode_l params =? 0); [|reflexivity].
  destruct (Nat.eqb_spec k 0); [reflexivity|]. destruct (cnt_l params =? 0); rewrite E by assumption; reflexivity.
Qed.
Lemma mapM_index_seq {A B} (f : A -> res B) (l : list A) :
  mapM (fun i => let* k := index l i in f k) (seq 0 (length l)) = mapM f l.
Proof.
  assert (G : forall pre, mapM (fun i => let* k := index (pre ++ l) i in f k) (seq (length pre) (length l)) = mapM f l).
  { induction l as [|a l IH]; intros pre; [reflexivity|]. cbn [length seq mapM].
    assert (X : index (pre ++ a :: l) (length pre) = Ok a).
    { unfold index. rewrite nth_error_app2, Nat.sub_diag by lia. reflexivity. }
    rewrite X. cbn [bind]. destruct (f a); [|reflexivity]. cbn [bind].
    specialize (IH (pre ++ [a])). rewrite app_length in IH. cbn [length] in IH.
    rewrite Nat.add_1_r, <- app_assoc in IH. cbn [app] in IH. now rewrite IH. }
  exact (G []).
Qed.
Lemma unseal_depend_blocks_D f k : mode_l params = 0 ->
  unseal_depend_blocks H params idxs_l n f (H (blk f (k - 1))) k = Dfun idxs_l n f k.
Proof.
  intros M. unfold unseal_depend_blocks, Dfun, pick_l. rewrite M. cbn [Nat.eqb].
  destruct (if k =? 0 then _ else _) as [is|]; [|reflexivity]. cbn [bind]. apply mapM_index_seq.
Qed.
Lemma map_seq_index {A} (l : list nat) (g : nat -> A) : l = seq 0 (length l) -> map g (seq 0 (length l)) = map g l.
Proof. intros E. congruence. Qed.
(** With a deterministic mode the dependencies are right exactly when row k is 0,1,2,... *)
Lemma unseal_depend_blocks_D' f k bid : mode_l params <> 0 -> k < n ->
  (forall row, index idxs_l k = Ok row -> row = seq 0 (length row)) ->
  unseal_depend_blocks H params idxs_l n f bid k = Dfun idxs_l n f k.
Proof.
  intros M K E. unfold unseal_depend_blocks, Dfun, pick_l. apply Nat.eqb_neq in M. rewrite M.
  destruct (index idxs_l k) as [row|] eqn:R; [|reflexivity]. cbn [bind]. rewrite <- (E row eq_refl). reflexivity.
Qed.
Lemma before_id_D f k : unseal_before_id H params f k = if k =? 0 then [] else H (blk f (k - 1)).
Proof. unfold unseal_before_id. destruct (k =? 0); reflexivity. Qed.

(** Block k of F is the sealing of block k of f, given the earlier blocks of F. *)
Definition block_sealed (f F : file) (k : nat) (zs : list Z) : Prop :=
  exists deps, Dfun idxs_l n F k = Ok deps /\
  block_ok params key m (chunks upl m (blk f k)) /\ block_ok params key m (chunks upl m (blk F k)) /\
  (forall log, frounds H params key idxs_s deps (sfx F k) m (chunks upl m (blk f k), log)
               = Ok (chunks upl m (blk F k), zs ++ log)).

Definition file_ok (f : file) : Prop :=
  n * bpl <= length f /\ forall k, k < n -> block_ok params key m (chunks upl m (blk f k)).

Record sealed_upto (j : nat) (f : file) (st : seal_state) : Prop := {
  su_len : length (s_file st) = length f;
  su_ids_len : length (s_ids st) = n;
  su_blocks : forall k, k < j -> exists zs, block_sealed f (s_file st) k zs /\ incl zs (s_log st);
  su_rest : forall x, j * bpl <= x -> nth x (s_file st) x00 = nth x f x00;
  su_ids : forall k, k < j -> index (s_ids st) k = Ok (H (blk (s_file st) k));
  su_log : forall z, In z (s_log st) -> exists k zs, k < j /\ block_sealed f (s_file st) k zs /\ In z zs
}.

Lemma blk_ext f g k : (forall x, k * bpl <= x < S k * bpl -> nth x f x00 = nth x g x00) -> blk f k = blk g k.
Proof. clear - params. intros E. apply read_file_ext. intros x X. apply E. lia. Qed.

Lemma mul_lt_block k j : k < j -> S k * bpl <= j * bpl.
Proof. clear - params. intros L. apply Nat.mul_le_mono_r. lia. Qed.

Lemma com_len us : block_ok params key m us -> length (com_units us) = bpl.
Proof.
  intros B. apply block_ok_shaped in B as [L F]. rewrite com_units_concat, (concat_length_uniform upl) by exact F. now rewrite L.
Qed.
Lemma chunks_com us : shaped params m us -> chunks upl m (com_units us) = us.
Proof. intros [L F]. rewrite com_units_concat. rewrite <- L at 1. now apply chunks_concat. Qed.
Lemma com_chunks f k : com_units (chunks upl m (blk f k)) = blk f k.
Proof. rewrite com_units_concat. apply concat_chunks. rewrite blk_len. exact BPL. Qed.

Lemma write_blk_same f k us : S k * bpl <= length f -> length (com_units us) = bpl ->
  blk (write_at f (k * bpl) (com_units us)) k = com_units us.
Proof. clear - params. intros L E. unfold blk. rewrite <- E at 3. apply read_write_same. lia. Qed.
Lemma write_blk_other f k j us : S k * bpl <= length f -> length (com_units us) = bpl -> j <> k ->
  blk (write_at f (k * bpl) (com_units us)) j = blk f j.
Proof.
  clear - params. intros L E N. apply read_write_other; [lia|]. rewrite E. destruct (Nat.lt_ge_cases j k) as [C|C].
  - left. pose proof (mul_lt_block j k C). lia.
  - right. pose proof (mul_lt_block k j ltac:(lia)). lia.
Qed.

Lemma seal_block_step f j st : file_ok f -> j < n -> sealed_upto j f st ->
  exists st', seal_block H params key iv idxs_l idxs_s n st j = Ok st' /\ sealed_upto (S j) f st'
   /\ exists zs, s_log st' = zs ++ s_log st.
Proof.
  intros [FL FB] J [SL IL SB SR SI SG].
  assert (LJ : S j * bpl <= n * bpl) by (apply mul_lt_block; lia).
  assert (EJ : blk (s_file st) j = blk f j) by (apply blk_ext; intros x X; apply SR; lia).
  unfold seal_block. rewrite read_block_ok. cbn [bind].
  assert (ID : j <> 0 -> index (s_ids st) (j - 1) = Ok (H (blk (s_file st) (j - 1)))) by (intros; apply SI; lia).
  rewrite seal_depend_blocks_D by exact ID.
  destruct (Dfun_ok (s_file st) j J) as (deps & ED & DO). rewrite ED. cbn [bind].
  rewrite (seal_block_rounds_frounds H params key iv idxs_s deps (s_ids st) j m _ _ (H (blk (s_file st) (j - 1))));
    [|apply chunks_length|exact ID].
  fold (sfx (s_file st) j). rewrite EJ.
  destruct (frounds_ok H params key HH K1 K2 idxs_s deps (sfx (s_file st) j) m (chunks upl m (blk f j)) SOK DO (FB j J))
    as (us' & zs & B' & F & G).
  rewrite F. cbn [bind]. rewrite set_index_ok by lia. cbn [bind]. eexists. split; [reflexivity|].
  pose proof (com_len us' B') as CL.
  assert (W1 : blk (write_at (s_file st) (j * bpl) (com_units us')) j = com_units us') by (apply write_blk_same; auto; lia).
  assert (W2 : forall i, i <> j -> blk (write_at (s_file st) (j * bpl) (com_units us')) i = blk (s_file st) i)
    by (intros; apply write_blk_other; auto; lia).
  assert (KEEP : forall k z, k < j -> block_sealed f (s_file st) k z -> block_sealed f (write_at (s_file st) (j * bpl) (com_units us')) k z).
  { intros k z K (d & D1 & D2 & D3 & D4). exists d. rewrite (Dfun_ext _ (s_file st)) by (try lia; intros; apply W2; lia).
    rewrite (sfx_ext _ (s_file st)) by (intros; apply W2; lia). rewrite W2 by lia. auto. }
  assert (NEW : block_sealed f (write_at (s_file st) (j * bpl) (com_units us')) j zs).
  { exists deps. rewrite (Dfun_ext _ (s_file st)) by (auto; intros; apply W2; lia). split; [exact ED|].
    split; [apply FB, J|]. rewrite W1, chunks_com by (eapply block_ok_shaped, B'). split; [exact B'|].
    rewrite (sfx_ext _ (s_file st)) by (intros; apply W2; lia). exact F. }
  split; [|exists zs; reflexivity]. split; cbn [s_file s_ids s_log].
  - rewrite write_at_length by lia. exact SL.
  - now rewrite upd_length.
  - intros k K. destruct (Nat.eq_dec k j) as [->|N].
    + exists zs. split; [exact NEW|apply incl_appl, incl_refl].
    + destruct (SB k ltac:(lia)) as (z & B & IZ). exists z. split; [apply KEEP; auto; lia|apply incl_appr, IZ].
  - intros x X. rewrite write_at_nth by lia. rewrite CL.
    destruct (Nat.ltb_spec x (j * bpl + bpl)); [lia|]. rewrite andb_false_r. apply SR. lia.
  - intros k K. destruct (Nat.eq_dec k j) as [->|N].
    + rewrite index_upd_eq by lia. now rewrite W1.
    + rewrite index_upd_neq by lia. rewrite W2 by exact N. apply SI. lia.
  - intros z Z. apply in_app_or in Z as [Z|Z]; [exists j, zs; auto|].
    destruct (SG z Z) as (k & z' & K & B & I). exists k, z'. repeat split; auto.
Qed.

Lemma sealed_upto_0 f : sealed_upto 0 f (mkSeal f (repeat [] n) []).
Proof. clear HH K1 K2 U0 BPL SOK LOK. split; cbn [s_file s_ids s_log]; auto; try lia. apply repeat_length. intros z []. Qed.

Lemma seal_loop_from f j st d : file_ok f -> j + d <= n -> sealed_upto j f st ->
  exists st', foldM (seal_block H params key iv idxs_l idxs_s n) (seq j d) st = Ok st' /\ sealed_upto (j + d) f st'
   /\ exists zs, s_log st' = zs ++ s_log st.
Proof.
  intros FO. revert j st. induction d as [|d IH]; intros j st L SU.
  - exists st. rewrite Nat.add_0_r. split; [reflexivity|]. split; [exact SU|]. now exists [].
  - destruct (seal_block_step f j st FO ltac:(lia) SU) as (st1 & E & S1 & z1 & Z1). cbn [seq foldM]. rewrite E. cbn [bind].
    destruct (IH (S j) st1 ltac:(lia) S1) as (st2 & E2 & S2 & z2 & Z2). exists st2. split; [exact E2|].
    rewrite Nat.add_succ_r. split; [exact S2|]. exists (z2 ++ z1). rewrite Z2, Z1. now rewrite app_assoc.
Qed.

(** Sealing is determined block by block by the earlier plaintext blocks. *)
Lemma sealed_blk_unique f g F G i :
  i <= n ->
  (forall k, k < i -> exists zs, block_sealed f F k zs) -> (forall k, k < i -> exists zs, block_sealed g G k zs) ->
  (forall k, k < i -> blk f k = blk g k) -> forall k, k < i -> blk F k = blk G k.
Proof.
  intros Hi SF SG E. induction k as [k IH] using lt_wf_ind. intros K.
  destruct (SF k K) as (z1 & d1 & D1 & B1 & B1' & F1). destruct (SG k K) as (z2 & d2 & D2 & B2 & B2' & F2).
  assert (EK : forall j, j < k -> blk F j = blk G j) by (intros; apply IH; lia).
  rewrite (Dfun_ext F G k ltac:(lia) EK) in D1. rewrite D1 in D2. injection D2 as <-.
  rewrite (sfx_ext F G k EK) in F1. rewrite E in F1 by exact K. specialize (F1 []). rewrite F2 in F1.
  injection F1 as X _. rewrite <- com_chunks, <- (com_chunks G k). now rewrite X.
Qed.

(** * Undoing *)
Record unsealed_from (j : nat) (f F G : file) : Prop := {
  uf_len : length G = length F;
  uf_low : forall x, x < j * bpl -> nth x G x00 = nth x F x00;
  uf_high : forall x, j * bpl <= x -> nth x G x00 = nth x f x00
}.

Lemma block_unseal f F k zs : good_key H key -> block_sealed f F k zs -> ~ In 0%Z zs -> k < n ->
  exists deps, Dfun idxs_l n F k = Ok deps /\
  brounds H params key idxs_s deps (sfx F k) m (chunks upl m (blk F k)) = Ok (chunks upl m (blk f k)).
Proof.
  intros GK (deps & D & B & B' & Fr) NZ K. exists deps. split; [exact D|].
  destruct (Dfun_ok F k K) as (deps' & D' & DO). rewrite D in D'. injection D' as <-.
  destruct (frounds_ok H params key HH K1 K2 idxs_s deps (sfx F k) m (chunks upl m (blk f k)) SOK DO B)
    as (us' & z & _ & F' & G').
  specialize (F' []). rewrite Fr in F'. injection F' as <- E. rewrite !app_nil_r in E. subst z. now apply G'.
Qed.

Definition rows_ok : Prop := mode_l params = 0 \/
  forall k row, k < n -> index idxs_l k = Ok row -> row = seq 0 (length row).

Lemma unseal_block_eq G k : k < n -> rows_ok ->
  unseal_block H params key iv idxs_l idxs_s n G (n - 1 - k) =
  (let* deps := Dfun idxs_l n G k in
   let* us := brounds H params key idxs_s deps (sfx G k) m (chunks upl m (blk G k)) in
   Ok (write_at G (k * bpl) (com_units us))).
Proof.
  intros K R. unfold unseal_block. replace (n - 1 - (n - 1 - k)) with k by lia.
  rewrite read_block_ok. cbn [bind]. rewrite before_id_D.
  assert (X : unseal_depend_blocks H params idxs_l n G (if k =? 0 then [] else H (blk G (k - 1))) k = Dfun idxs_l n G k).
  { destruct (Nat.eq_dec (mode_l params) 0) as [M|M].
    - destruct (Nat.eqb_spec k 0) as [Z|NZ].
      + unfold unseal_depend_blocks, Dfun, pick_l. rewrite M, Z. reflexivity.
      + now apply unseal_depend_blocks_D.
    - destruct R as [R|R]; [contradiction|]. apply unseal_depend_blocks_D'; auto. intros row Er. now apply (R k). }
  rewrite X. destruct (Dfun idxs_l n G k) as [deps|]; [|reflexivity]. cbn [bind].
  rewrite (unseal_block_rounds_brounds H params key iv idxs_s deps k m); [|apply chunks_length].
  assert (Y : (if k =? 0 then iv else if k =? 0 then [] else H (blk G (k - 1))) = sfx G k) by (unfold sfx; destruct (k =? 0); reflexivity).
  rewrite Y. reflexivity.
Qed.

Lemma unseal_block_step f F G j zs : good_key H key -> rows_ok -> length F = length f -> n * bpl <= length F ->
  j < n -> block_sealed f F j zs -> ~ In 0%Z zs -> unsealed_from (S j) f F G ->
  exists G', unseal_block H params key iv idxs_l idxs_s n G (n - 1 - j) = Ok G' /\ unsealed_from j f F G'.
Proof.
  intros GK R LF NL J BS NZ [UL ULo UH]. rewrite unseal_block_eq by assumption.
  assert (EJ : forall i, i <= j -> blk G i = blk F i).
  { intros i I. apply blk_ext. intros x X. apply ULo. pose proof (mul_lt_block i (S j) ltac:(lia)). lia. }
  destruct (block_unseal f F j zs GK BS NZ J) as (deps & D & B).
  rewrite (Dfun_ext G F j J ltac:(intros; apply EJ; lia)), D. cbn [bind].
  rewrite (sfx_ext G F j ltac:(intros; apply EJ; lia)), (EJ j ltac:(lia)), B. cbn [bind].
  eexists. split; [reflexivity|]. rewrite com_chunks. pose proof (blk_len f j) as BL. pose proof (mul_lt_block j n J).
  split.
  - rewrite write_at_length by lia. exact UL.
  - intros x X. rewrite write_at_nth by lia. destruct (Nat.leb_spec (j * bpl) x); [lia|]. cbn [andb]. apply ULo. lia.
  - intros x X. rewrite write_at_nth by lia. destruct (Nat.leb_spec (j * bpl) x); [|lia]. cbn [andb]. rewrite BL.
    destruct (Nat.ltb_spec x (j * bpl + bpl)) as [C|C].
    + pose proof (read_file_nth f (j * bpl) bpl (x - j * bpl) ltac:(lia)) as RN.
      fold (blk f j) in RN. apply nth_error_nth with (d := x00) in RN. rewrite RN. f_equal. lia.
    + apply UH. lia.
Qed.

Lemma unsealed_start f F : n * bpl <= length F ->
  (forall x, n * bpl <= x -> nth x F x00 = nth x f x00) -> unsealed_from n f F F.
Proof. intros L E. split; auto. Qed.

Lemma unseal_loop_from f F G j d : good_key H key -> rows_ok -> length F = length f -> n * bpl <= length F ->
  j + d <= n ->
  (forall k, k < n - j -> exists zs, block_sealed f F k zs /\ ~ In 0%Z zs) ->
  unsealed_from (n - j) f F G ->
  exists G', foldM (unseal_block H params key iv idxs_l idxs_s n) (seq j d) G = Ok G' /\ unsealed_from (n - (j + d)) f F G'.
Proof.
  intros GK R LF NL. revert j G. induction d as [|d IH]; intros j G L BS U.
  - exists G. rewrite Nat.add_0_r. auto.
  - cbn [seq foldM]. destruct (BS (n - 1 - j) ltac:(lia)) as (zs & B & NZ).
    destruct (unseal_block_step f F G (n - 1 - j) zs GK R LF NL ltac:(lia) B NZ) as (G1 & E & U1).
    + replace (S (n - 1 - j)) with (n - j) by lia. exact U.
    + replace (n - 1 - (n - 1 - j)) with j in E by lia. rewrite E. cbn [bind].
      replace (n - 1 - j) with (n - S j) in U1 by lia.
      destruct (IH (S j) G1 ltac:(lia) ltac:(intros; apply BS; lia) U1) as (G2 & E2 & U2). exists G2. split; [exact E2|].
      now rewrite Nat.add_succ_r.
Qed.
End File.
