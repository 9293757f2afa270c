(** Facts about the storage code under short reads. *)
From Verif Require Import Base Legendre Sloth Common Depend Prover NumTheory SlothFacts BytesFacts
  DependSpec DependFacts DependDet VdeFacts SealSpec SealCore SealFile SealTop ShortRead.
From Coq Require Import Znumtheory.
Local Open Scope nat_scope.

Lemma read_os_length c f b l : length (read_os c f b l) = l.
Proof. unfold read_os. rewrite app_length, zeros_length, !firstn_length. lia. Qed.
Lemma read_os_full c f b l : l <= c -> read_os c f b l = read_file f b l.
Proof. intros L. unfold read_os, read_file. rewrite (firstn_all2 (n := c)); [reflexivity|]. rewrite firstn_length. lia. Qed.
Lemma read_os_eq c f b l : read_os c f b l = firstn c (read_file f b l) ++ zeros (l - c).
Proof.
  unfold read_os, read_file. set (a := firstn l (skipn b f)). assert (L : length a <= l) by (unfold a; rewrite firstn_length; lia). clearbody a.
  rewrite firstn_app, <- app_assoc. f_equal. rewrite firstn_length. unfold zeros.
  replace (firstn (c - length a) (repeat x00 (l - length a))) with (repeat x00 (Nat.min (c - length a) (l - length a))).
  - rewrite <- repeat_app. f_equal. lia.
  - generalize (l - length a), (c - length a). intros q. induction q as [|q IH]; intros [|r]; cbn [Nat.min repeat firstn]; auto. f_equal. apply IH.
Qed.
Lemma read_os_nth c f b l k : k < l -> nth k (read_os c f b l) x00 = if k <? c then nth (b + k) f x00 else x00.
Proof.
  intros K. rewrite read_os_eq. destruct (Nat.ltb_spec k c) as [C|C].
  - rewrite app_nth1 by (rewrite firstn_length, read_file_length; lia). rewrite nth_firstn by exact C. apply nth_error_nth, read_file_nth, K.
  - rewrite app_nth2 by (rewrite firstn_length, read_file_length; lia). unfold zeros. apply nth_repeat.
Qed.

Lemma mapM_index_all {A B} (f : A -> res B) (l : list A) : mapM (fun i => let* k := index l i in f k) (seq 0 (length l)) = mapM f l.
Proof.
  assert (G : forall pre, mapM (fun i => let* k := index (pre ++ l) i in f k) (seq (length pre) (length l)) = mapM f l); [|exact (G [])].
  induction l as [|a l IH]; intros pre; [reflexivity|]. cbn [length seq mapM]. unfold index at 1. rewrite nth_error_app2, Nat.sub_diag by lia. cbn [nth_error bind].
  destruct (f a); [|reflexivity]. cbn [bind]. specialize (IH (pre ++ [a])). rewrite app_length, <- app_assoc in IH. cbn [length app] in IH. rewrite Nat.add_1_r in IH. now rewrite IH.
Qed.

(** A file as it is delivered when it is read in pieces of [len] bytes and [os k] bytes of
    piece k arrive. *)
Definition as_read (os : nat -> nat) (len : nat) (f : file) : file :=
  map (fun x => if x mod len <? os (x / len) then nth x f x00 else x00) (seq 0 (length f)).
Lemma as_read_length os len f : length (as_read os len f) = length f.
Proof. unfold as_read. now rewrite map_length, seq_length. Qed.
Lemma as_read_nth os len f x : nth x (as_read os len f) x00 = if x mod len <? os (x / len) then nth x f x00 else x00.
Proof.
  unfold as_read. destruct (Nat.lt_ge_cases x (length f)) as [L|L].
  - set (g := fun x => if x mod len <? os (x / len) then nth x f x00 else x00).
    rewrite (nth_indep _ x00 (g 0)) by (rewrite map_length, seq_length; exact L). rewrite map_nth, seq_nth by exact L. reflexivity.
  - rewrite nth_overflow by (rewrite map_length, seq_length; exact L). rewrite (nth_overflow f) by exact L. now destruct (_ <? _).
Qed.
Lemma as_read_at os len f k i : i < len -> nth (k * len + i) (as_read os len f) x00 = if i <? os k then nth (k * len + i) f x00 else x00.
Proof.
  intros I. rewrite as_read_nth. rewrite (Nat.add_comm (k * len)), Nat.mod_add, Nat.div_add, Nat.mod_small, Nat.div_small by lia. reflexivity.
Qed.
Lemma read_as_read os len f k : read_file (as_read os len f) (k * len) len = read_os (os k) f (k * len) len.
Proof.
  apply file_ext; [now rewrite read_os_length, read_file_length|]. intros i I. rewrite read_file_length in I. rewrite read_os_nth by exact I.
  rewrite (nth_error_nth _ _ x00 (read_file_nth _ (k * len) len i I)). now apply as_read_at.
Qed.

(** * Copying *)
Lemma fold_concat {A B} (g : A -> list B) l : forall acc, fold_left (fun new a => new ++ g a) l acc = acc ++ concat (map g l).
Proof. induction l as [|a l IH]; intros acc; cbn [fold_left map concat]; [now rewrite app_nil_r|]. rewrite IH. now rewrite app_assoc. Qed.
Lemma nth_concat_uniform u (l : list (list byte)) : forall c k, Forall (fun x => length x = u) l -> c < length l -> k < u -> nth (c * u + k) (concat l) x00 = nth k (nth c l []) x00.
Proof.
  induction l as [|a l IH]; intros c k F C K; [cbn in C; lia|]. inversion F as [|? ? LA F']; subst. cbn [concat]. destruct c as [|c].
  - cbn [Nat.mul plus nth]. now apply app_nth1.
  - rewrite app_nth2 by (cbn [Nat.mul]; lia). cbn [length] in C. cbn [nth]. rewrite <- (IH c k) by (auto; lia). f_equal. cbn [Nat.mul]. lia.
Qed.
Lemma pad_os_eq os f g d u : u <> 0 ->
  (forall cnt k, cnt < d / u -> k < u -> nth (cnt * u + k) g x00 = if k <? os cnt then nth (cnt * u + k) f x00 else x00) ->
  copy_and_pad_os os f d u = copy_and_pad g d u.
Proof.
  intros U E. unfold copy_and_pad_os, copy_and_pad. apply Nat.eqb_neq in U as U'. rewrite U'. f_equal. rewrite !(fold_concat _ (seq 0 (d / u))). cbn [app]. f_equal.
  apply map_ext_in. intros cnt I. apply in_seq in I. f_equal. apply file_ext; [now rewrite read_os_length, read_file_length|].
  intros k K. rewrite read_os_length in K. rewrite read_os_nth by exact K. rewrite (nth_error_nth _ _ x00 (read_file_nth g (cnt * u) u k K)). symmetry. apply E; lia.
Qed.
Lemma compress_os_ok os F d u up : u <> 0 -> u <= up ->
  exists c, copy_and_compress_os os F d u up = Ok c /\ length c = d / u * u /\
  forall cnt k, cnt < d / u -> k < u -> nth (cnt * u + k) c x00 = if k <? os cnt then nth (cnt * up + k) F x00 else x00.
Proof.
  intros U UP. unfold copy_and_compress_os. apply Nat.eqb_neq in U as U'. rewrite U'.
  set (g := fun cnt => firstn u (read_os (os cnt) F (cnt * up) up)).
  assert (E : forall l acc, foldM (fun new cnt => let* b := slice (read_os (os cnt) F (cnt * up) up) 0 u in Ok (new ++ b)) l acc = Ok (acc ++ concat (map g l))).
  { induction l as [|cnt l IH]; intros acc; cbn [foldM map concat]; [now rewrite app_nil_r|]. unfold slice. cbn [Nat.leb].
    rewrite read_os_length. destruct (Nat.leb_spec u up); [|lia]. cbn [bind andb]. rewrite IH. rewrite <- app_assoc. repeat f_equal. unfold g. cbn [skipn]. now rewrite Nat.sub_0_r. }
  rewrite E. cbn [app]. eexists. split; [reflexivity|].
  assert (LG : Forall (fun x => length x = u) (map g (seq 0 (d / u)))).
  { apply Forall_forall. intros x I. apply in_map_iff in I as (i & <- & _). unfold g. rewrite firstn_length, read_os_length. lia. }
  split.
  - rewrite (concat_length_uniform u) by exact LG. now rewrite map_length, seq_length.
  - intros cnt k C K. pose proof (nth_concat_uniform u (map g (seq 0 (d / u))) cnt k LG) as X.
    rewrite map_length, seq_length in X. rewrite X by assumption. rewrite (nth_indep _ [] (g 0)) by (rewrite map_length, seq_length; exact C). rewrite map_nth, seq_nth by exact C. cbn [plus].
    unfold g. rewrite nth_firstn by exact K. apply read_os_nth. lia.
Qed.

(** * Sealing and unsealing *)
Lemma le2z_mono a : forall b, length a = length b -> (forall k, k < length a -> (b2z (nth k a x00) <= b2z (nth k b x00))%Z) -> (le2z a <= le2z b)%Z.
Proof.
  induction a as [|x a IH]; intros [|y b] L E; try discriminate. cbn [le2z]. pose proof (E 0 ltac:(cbn; lia)) as E0. cbn [nth] in E0.
  specialize (IH b ltac:(now injection L) ltac:(intros k K; apply (E (S k)); cbn; lia)). lia.
Qed.

Section Short.
Context (H : list byte -> list byte) (params : PosPara) (key : Z) (iv : list byte).
Notation upl := (unit_pl params).
Notation bpl := (block_pl params).
Context (n m : nat) (idxs_l idxs_s : list (list nat)).
Hypothesis HH : hash_ok H.
Hypothesis K1 : (1 < key)%Z.
Hypothesis K2 : (key <= 256 ^ Z.of_nat upl)%Z.
Hypothesis U0 : 0 < upl.
Hypothesis BPL : bpl = m * upl.
Hypothesis SOK : short_ok params idxs_s m.
Hypothesis LOK : long_ok params idxs_l n.

Lemma read_block_os_ok c f k : read_block_os params c f k = Ok (chunks upl m (read_os c f (k * bpl) bpl)).
Proof. unfold read_block_os. apply to_units_ok; [exact U0|]. rewrite read_os_length. exact BPL. Qed.
Lemma read_block_os_full c f k : bpl <= c -> read_block_os params c f k = read_block params f k.
Proof. intros L. unfold read_block_os, read_block. now rewrite read_os_full. Qed.

(** Fewer bytes give smaller units. *)
Lemma short_block_ok c f k : block_ok params key m (chunks upl m (blk params f k)) -> block_ok params key m (chunks upl m (read_os c f (k * bpl) bpl)).
Proof.
  intros [L F]. split; [apply chunks_length|]. apply Forall_forall. intros u I.
  assert (LU : length u = upl) by (revert u I; apply Forall_forall, chunks_each; rewrite read_os_length; exact BPL). split; [exact LU|].
  unfold chunks in I. apply in_map_iff in I as (i & <- & I). apply in_seq in I. unfold chunk in *. rewrite Forall_forall in F.
  assert (J : In (chunk upl (blk params f k) i) (chunks upl m (blk params f k))) by (unfold chunks; apply in_map_iff; exists i; split; [reflexivity|apply in_seq; lia]).
  destruct (F _ J) as (LJ & VJ). unfold chunk in *. eapply Z.le_lt_trans; [|exact VJ]. apply le2z_mono; [congruence|].
  intros q Q. rewrite LU in Q. rewrite !nth_firstn, !nth_skipn by exact Q. assert (IU : i * upl + q < bpl) by (rewrite BPL; nia).
  rewrite read_os_nth by exact IU. unfold blk. rewrite (nth_error_nth _ _ x00 (read_file_nth f (k * bpl) bpl (i * upl + q) IU)).
  destruct (_ <? _); [lia|]. pose proof (b2z_range (nth (k * bpl + (i * upl + q)) f x00)). cbn [b2z]. change (b2z x00) with 0%Z. lia.
Qed.

Lemma mapM_read os f l : exists deps, mapM (fun j => let* i := index l j in read_block_os params (os j) f i) (seq 0 (length l)) = Ok deps /\ deps_ok m deps.
Proof.
  destruct (mapM_exists (fun j => let* i := index l j in read_block_os params (os j) f i) (fun _ d => length d = m) (seq 0 (length l))) as (deps & E & F).
  - intros j J. apply in_seq in J. destruct (index_ok l j ltac:(lia)) as (i & ->). cbn [bind]. rewrite read_block_os_ok. eexists. split; [reflexivity|apply chunks_length].
  - exists deps. split; [exact E|]. unfold deps_ok. clear -F. induction F; constructor; auto.
Qed.
Lemma mapM_read_full os f l : (forall j, bpl <= os j) -> mapM (fun j => let* i := index l j in read_block_os params (os j) f i) (seq 0 (length l)) = mapM (fun i => read_block params f i) l.
Proof.
  intros B. rewrite <- (mapM_index_all (fun i => read_block params f i)). apply mapM_ext. intros j _. destruct (index l j) as [i|]; [|reflexivity]. cbn [bind]. apply read_block_os_full, B.
Qed.

(** Block k of F is the sealing of what was read of block k of f, with dependency data that
    is right if all dependencies were read in full. *)
Definition block_sealed_os (os : nat -> nat -> nat) (f F : file) (k : nat) (zs : list Z) : Prop :=
  exists deps, deps_ok m deps /\ ((forall j, bpl <= os k (1 + j)) -> Dfun H params idxs_l n F k = Ok deps) /\
  block_ok params key m (chunks upl m (read_os (os k 0) f (k * bpl) bpl)) /\ block_ok params key m (chunks upl m (blk params F k)) /\
  forall log, frounds H params key idxs_s deps (sfx H params iv F k) m (chunks upl m (read_os (os k 0) f (k * bpl) bpl), log)
              = Ok (chunks upl m (blk params F k), zs ++ log).

Record sealed_os (os : nat -> nat -> nat) (j : nat) (f : file) (st : seal_state) : Prop := {
  so_len : length (s_file st) = length f;
  so_ids_len : length (s_ids st) = n;
  so_blocks : forall k, k < j -> exists zs, block_sealed_os os f (s_file st) k zs /\ incl zs (s_log st);
  so_rest : forall x, j * bpl <= x -> nth x (s_file st) x00 = nth x f x00;
  so_ids : forall k, k < j -> index (s_ids st) k = Ok (H (blk params (s_file st) k))
}.

Lemma read_os_ext c f g b l : (forall k, b <= k < b + l -> nth k f x00 = nth k g x00) -> read_os c f b l = read_os c g b l.
Proof. intros E. rewrite !read_os_eq. now rewrite (read_file_ext f g). Qed.

Lemma seal_block_os_step os f j st : file_ok params key n m f -> j < n -> sealed_os os j f st ->
  exists st', seal_block_os H params key iv os idxs_l idxs_s n st j = Ok st' /\ sealed_os os (S j) f st'.
Proof.
  intros [FL FB] J [SL IL SB SR SI].
  assert (LJ : S j * bpl <= n * bpl) by (apply mul_lt_block; lia).
  unfold seal_block_os. rewrite read_block_os_ok. cbn [bind].
  assert (EJ : read_os (os j 0) (s_file st) (j * bpl) bpl = read_os (os j 0) f (j * bpl) bpl) by (apply read_os_ext; intros x X; apply SR; lia). rewrite EJ.
  assert (ID : j <> 0 -> index (s_ids st) (j - 1) = Ok (H (blk params (s_file st) (j - 1)))) by (intros; apply SI; lia).
  assert (DE : exists deps, seal_depend_blocks_os H params (fun j0 => os j (1 + j0)) idxs_l n (s_file st) (s_ids st) j = Ok deps /\ deps_ok m deps /\
     ((forall q, bpl <= os j (1 + q)) -> Dfun H params idxs_l n (s_file st) j = Ok deps)).
  { destruct (pick_l_ok H params n m idxs_l HH U0 BPL LOK (H (blk params (s_file st) (j - 1))) j J) as (is & P & _).
    destruct (mapM_read (fun q => os j (1 + q)) (s_file st) is) as (deps & E & DO). exists deps.
    assert (PI : (if mode_l params =? 0 then if j =? 0 then Ok [] else if cnt_l params =? 0 then let* d := index (s_ids st) (j - 1) in long_mode_random H n d j (j / 10 + 1)
       else let* d := index (s_ids st) (j - 1) in long_mode_random H n d j (cnt_l params) else index idxs_l j) = Ok is).
    { rewrite <- P. unfold pick_l. destruct (mode_l params =? 0); [|reflexivity]. destruct (Nat.eqb_spec j 0); [reflexivity|]. rewrite ID by assumption. reflexivity. }
    split; [|split; [exact DO|]].
    - unfold seal_depend_blocks_os. rewrite PI. cbn [bind]. exact E.
    - intros FU. unfold Dfun. rewrite P. cbn [bind]. rewrite <- (mapM_read_full (fun q => os j (1 + q))) by exact FU. exact E. }
  destruct DE as (deps & -> & DO & DF). cbn [bind].
  rewrite (seal_block_rounds_frounds H params key iv idxs_s deps (s_ids st) j m _ _ (H (blk params (s_file st) (j - 1))));
    [|apply chunks_length|exact ID].
  fold (sfx H params iv (s_file st) j).
  pose proof (short_block_ok (os j 0) f j (FB j J)) as RB.
  destruct (frounds_ok H params key HH K1 K2 idxs_s deps (sfx H params iv (s_file st) j) m _ SOK DO RB)
    as (us' & zs & B' & F & G).
  rewrite F. cbn [bind]. rewrite set_index_ok by lia. cbn [bind]. eexists. split; [reflexivity|].
  pose proof (com_len params key m BPL us' B') as CL.
  assert (W1 : blk params (write_at (s_file st) (j * bpl) (com_units us')) j = com_units us') by (apply write_blk_same; auto; lia).
  assert (W2 : forall i, i <> j -> blk params (write_at (s_file st) (j * bpl) (com_units us')) i = blk params (s_file st) i)
    by (intros; apply write_blk_other; auto; lia).
  assert (KEEP : forall k z, k < j -> block_sealed_os os f (s_file st) k z -> block_sealed_os os f (write_at (s_file st) (j * bpl) (com_units us')) k z).
  { intros k z K (d & D0 & D1 & D2 & D3 & D4). exists d. rewrite (Dfun_ext H params n m idxs_l HH U0 BPL LOK _ (s_file st)) by (try lia; intros; apply W2; lia).
    rewrite (sfx_ext H params iv _ (s_file st)) by (intros; apply W2; lia). rewrite W2 by lia. auto. }
  assert (NEW : block_sealed_os os f (write_at (s_file st) (j * bpl) (com_units us')) j zs).
  { exists deps. rewrite (Dfun_ext H params n m idxs_l HH U0 BPL LOK _ (s_file st)) by (auto; intros; apply W2; lia). split; [exact DO|]. split; [exact DF|].
    split; [exact RB|]. rewrite W1, (chunks_com params m) by (eapply block_ok_shaped, B'). split; [exact B'|].
    rewrite (sfx_ext H params iv _ (s_file st)) by (intros; apply W2; lia). exact F. }
  split; cbn [s_file s_ids s_log].
  - rewrite write_at_length by lia. exact SL.
  - now rewrite upd_length.
  - intros k K. destruct (Nat.eq_dec k j) as [->|N].
    + exists zs. split; [exact NEW|apply incl_appl, incl_refl].
    + destruct (SB k ltac:(lia)) as (z & B & IZ). exists z. split; [apply KEEP; auto; lia|apply incl_appr, IZ].
  - intros x X. rewrite write_at_nth by lia. rewrite CL.
    destruct (Nat.ltb_spec x (j * bpl + bpl)); [lia|]. rewrite andb_false_r. apply SR. lia.
  - intros k K. destruct (Nat.eq_dec k j) as [->|N].
    + rewrite index_upd_eq by lia. now rewrite W1.
    + rewrite index_upd_neq by lia. rewrite W2 by exact N. apply SI. lia.
Qed.
Lemma seal_os_loop os f d : file_ok params key n m f -> forall j st, j + d <= n -> sealed_os os j f st ->
  exists st', foldM (seal_block_os H params key iv os idxs_l idxs_s n) (seq j d) st = Ok st' /\ sealed_os os (j + d) f st'.
Proof.
  intros FO. induction d as [|d IH]; intros j st L SU.
  - exists st. rewrite Nat.add_0_r. auto.
  - destruct (seal_block_os_step os f j st FO ltac:(lia) SU) as (st1 & E & S1). cbn [seq foldM]. rewrite E. cbn [bind].
    destruct (IH (S j) st1 ltac:(lia) S1) as (st2 & E2 & S2). exists st2. rewrite Nat.add_succ_r. auto.
Qed.
Lemma sealed_os_0 os f : sealed_os os 0 f (mkSeal f (repeat [] n) []).
Proof. clear HH K1 K2 U0 BPL SOK LOK. split; cbn [s_file s_ids s_log]; auto; try lia. apply repeat_length. Qed.

(** What the reads of block k amount to when they are all complete. *)
Definition unsealed_block (F : file) (k : nat) (b : list byte) : Prop :=
  exists deps us, Dfun H params idxs_l n F k = Ok deps /\ brounds H params key idxs_s deps (sfx H params iv F k) m (chunks upl m (blk params F k)) = Ok us /\ b = com_units us.
Record unsealed_os (os : nat -> nat -> nat) (j : nat) (F G : file) : Prop := {
  uo_len : length G = length F;
  uo_low : forall x, x < j * bpl -> nth x G x00 = nth x F x00;
  uo_tail : forall x, n * bpl <= x -> nth x G x00 = nth x F x00;
  uo_blocks : forall k, j <= k < n -> (forall q, bpl <= os k q) -> unsealed_block F k (blk params G k)
}.
Hypothesis KB : forall d, (le2z (H d) < key < 256 ^ Z.of_nat upl)%Z.
Hypothesis ROWS : rows_ok params n idxs_l.

Lemma unseal_block_os_step os F G j : n * bpl <= length F -> j < n -> unsealed_os os (S j) F G ->
  exists G', unseal_block_os H params key iv os idxs_l idxs_s n G (n - 1 - j) = Ok G' /\ unsealed_os os j F G'.
Proof.
  intros LF J [UL ULo UT UB]. unfold unseal_block_os. replace (n - 1 - (n - 1 - j)) with j by lia.
  assert (EJ : forall i, i <= j -> blk params G i = blk params F i).
  { intros i I. apply blk_ext. intros x X. apply ULo. pose proof (mul_lt_block params i (S j) ltac:(lia)). lia. }
  rewrite read_block_os_ok. cbn [bind]. set (bid := unseal_before_id_os H params (os j 0) G j).
  assert (DE : exists deps, unseal_depend_blocks_os H params (fun j0 => os j (2 + j0)) idxs_l n G bid j = Ok deps /\ deps_ok m deps /\
     ((forall q, bpl <= os j q) -> Dfun H params idxs_l n F j = Ok deps)).
  { unfold unseal_depend_blocks_os. destruct (Nat.eqb_spec (mode_l params) 0) as [M0|M0].
    - destruct (pick_l_ok H params n m idxs_l HH U0 BPL LOK bid j J) as (is & P & _). unfold pick_l in P. rewrite M0 in P. cbn [Nat.eqb] in P. rewrite P. cbn [bind].
      destruct (mapM_read (fun q => os j (2 + q)) G is) as (deps & E & DO). exists deps. split; [exact E|]. split; [exact DO|].
      intros FU. rewrite <- (Dfun_ext H params n m idxs_l HH U0 BPL LOK G F j J) by (intros; apply EJ; lia). unfold Dfun, pick_l. rewrite M0. cbn [Nat.eqb].
      assert (BI : j <> 0 -> bid = H (blk params G (j - 1))).
      { intros NZ. unfold bid, unseal_before_id_os. apply Nat.eqb_neq in NZ. rewrite NZ. cbn [negb]. rewrite read_os_full by apply FU. reflexivity. }
      assert (PX : (if j =? 0 then Ok [] else if cnt_l params =? 0 then long_mode_random H n (H (blk params G (j - 1))) j (j / 10 + 1) else long_mode_random H n (H (blk params G (j - 1))) j (cnt_l params)) = Ok is).
      { rewrite <- P. destruct (Nat.eqb_spec j 0); [reflexivity|]. now rewrite BI. }
      rewrite PX. cbn [bind]. rewrite <- (mapM_read_full (fun q => os j (2 + q))) by (intros; apply FU). exact E.
    - pose proof LOK as LK. unfold long_ok in LK. apply Nat.eqb_neq in M0 as M0'. rewrite M0' in LK. destruct (LK j J) as (row & R & _). rewrite R. cbn [bind].
      destruct (mapM_exists (fun i => read_block_os params (os j (2 + i)) G i) (fun _ d => length d = m) (seq 0 (length row))) as (deps & E & F2).
      { intros i _. rewrite read_block_os_ok. eexists. split; [reflexivity|apply chunks_length]. }
      exists deps. split; [exact E|]. split; [unfold deps_ok; clear -F2; induction F2; constructor; auto|].
      intros FU. rewrite <- (Dfun_ext H params n m idxs_l HH U0 BPL LOK G F j J) by (intros; apply EJ; lia). unfold Dfun, pick_l. rewrite M0', R. cbn [bind].
      destruct ROWS as [Q|Q]; [contradiction|]. rewrite (Q j row J R). rewrite <- E. apply mapM_ext. intros i _. symmetry. apply read_block_os_full, FU. }
  destruct DE as (deps & -> & DO & DF). cbn [bind].
  rewrite (unseal_block_rounds_brounds H params key iv idxs_s deps j m); [|apply chunks_length].
  assert (SH : shaped params m (chunks upl m (read_os (os j 1) G (j * bpl) bpl))) by (split; [apply chunks_length|apply chunks_each; rewrite read_os_length; exact BPL]).
  destruct (brounds_ok H params key HH K1 K2 idxs_s deps (if j =? 0 then iv else bid) m _ SOK DO KB SH) as (us & BR & SU). rewrite BR. cbn [bind].
  eexists. split; [reflexivity|]. pose proof (mul_lt_block params j n J) as LJ.
  assert (CL : length (com_units us) = bpl) by (destruct SU as [L F1]; rewrite com_units_concat, (concat_length_uniform upl) by exact F1; now rewrite L).
  split.
  - rewrite write_at_length by lia. exact UL.
  - intros x X. rewrite write_at_nth by lia. destruct (Nat.leb_spec (j * bpl) x); [lia|]. cbn [andb]. apply ULo. lia.
  - intros x X. rewrite write_at_nth by lia. destruct (Nat.ltb_spec x (j * bpl + length (com_units us))); [lia|]. rewrite andb_false_r. now apply UT.
  - intros k K FU. destruct (Nat.eq_dec k j) as [->|NE].
    + rewrite write_blk_same by (auto; lia). exists deps, us. split; [now apply DF|]. split; [|reflexivity].
      rewrite <- BR. rewrite read_os_full by apply FU. fold (blk params G j). rewrite (EJ j) by lia. f_equal.
      unfold sfx. destruct (Nat.eqb_spec j 0) as [|NZ]; [reflexivity|]. unfold bid, unseal_before_id_os. apply Nat.eqb_neq in NZ as NZ'. rewrite NZ'. cbn [negb].
      rewrite read_os_full by apply FU. fold (blk params G (j - 1)). now rewrite EJ by lia.
    + rewrite write_blk_other by (auto; lia). apply UB; [lia|exact FU].
Qed.
Lemma unseal_os_loop os F d : n * bpl <= length F -> forall i G, i + d <= n -> unsealed_os os (n - i) F G ->
  exists G', foldM (unseal_block_os H params key iv os idxs_l idxs_s n) (seq i d) G = Ok G' /\ unsealed_os os (n - (i + d)) F G'.
Proof.
  intros LF. induction d as [|d IH]; intros i G L U.
  - exists G. rewrite Nat.add_0_r. auto.
  - cbn [seq foldM]. destruct (unseal_block_os_step os F G (n - 1 - i) LF ltac:(lia)) as (G1 & E & U1).
    + replace (S (n - 1 - i)) with (n - i) by lia. exact U.
    + replace (n - 1 - (n - 1 - i)) with i in E by lia. rewrite E. cbn [bind].
      replace (n - 1 - i) with (n - S i) in U1 by lia.
      destruct (IH (S i) G1 ltac:(lia) U1) as (G2 & E2 & U2). exists G2. rewrite Nat.add_succ_r. auto.
Qed.
End Short.

(** * Whole runs *)
Section Top.
Context (H : list byte -> list byte) (pr : profile) (params : PosPara) (key : Z) (iv : list byte) (n m : nat).
Context (SET : setting H pr params key n m).
Notation upl := (unit_pl params).
Notation bpl := (block_pl params).
Notation hh := (hh H pr params key n m SET).
Notation k1 := (k1 H pr params key n m SET).
Notation k2 := (k2 H pr params key n m SET).
Notation upl_pos := (upl_pos H pr params key n m SET).
Notation bpl_eq := (bpl_eq H pr params key n m SET).
Lemma seal_os_inv t os f : tabl pr params n m t -> sealable params key n m f ->
  exists st, seal_os H pr params key iv os f = Ok st /\ sealed_os H params key iv n m (fst t) (snd t) os n f st.
Proof.
  intros (A & TL & B & TS) S. unfold seal_os. rewrite (set_nblocks H pr params key n m SET). cbn [bind]. rewrite A. cbn [bind]. rewrite B. cbn [bind].
  exact (seal_os_loop H params key iv n m (fst t) (snd t) hh k1 k2 upl_pos bpl_eq TS TL os f n (sealable_file_ok H pr params key n m SET f S) 0 _ ltac:(lia) (sealed_os_0 H params key iv n m (fst t) (snd t) os f)).
Qed.
Lemma unseal_os_inv t os F : tabl pr params n m t -> plain_rows pr params n -> (forall d, (le2z (H d) < key < 256 ^ Z.of_nat upl)%Z) -> n * bpl <= length F ->
  exists G, unseal_os H pr params key iv os F = Ok G /\ unsealed_os H params key iv n m (fst t) (snd t) os 0 F G.
Proof.
  intros T PR KB L. pose proof T as (A & TL & B & TS). unfold unseal_os. rewrite (set_nblocks H pr params key n m SET). cbn [bind].
  rewrite unseal_idxs_l_eq, A. cbn [bind]. rewrite unseal_idxs_s_eq, B. cbn [bind].
  destruct (unseal_os_loop H params key iv n m (fst t) (snd t) hh k1 k2 upl_pos bpl_eq TS TL KB (plain_rows_ok pr params n m t T PR) os F n L 0 F ltac:(lia)) as (G & E & U).
  - rewrite Nat.sub_0_r. split; auto. intros k K. lia.
  - exists G. split; [exact E|]. cbn [plus] in U. rewrite Nat.sub_diag in U. exact U.
Qed.
End Top.
