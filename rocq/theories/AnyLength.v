(** Files of any length: no function of the storage part notices where a file ends.
    Reading past the end gives zero bytes, writing past the end extends the file. *)
From Verif Require Import Base BytesFacts Sloth Common CommonFacts Depend DependFacts VdeFacts Prover Verifier Merkle Postorage SealSpec SealCore DependDet SealTop SealZero CrashFacts.
From Coq Require Import Lia.
Local Open Scope nat_scope.

(** Two files with the same bytes, the missing ones counted as zeros. *)
Definition same_bytes (f g : file) : Prop := forall x, nth x f x00 = nth x g x00.

(** A file cut off or filled up with zeros to exactly [len] bytes. *)
Definition fit (len : nat) (f : file) : file := firstn len f ++ repeat x00 (len - length f).

(** * Facts *)
Lemma same_refl f : same_bytes f f. Proof. intros x. reflexivity. Qed.
Lemma same_sym f g : same_bytes f g -> same_bytes g f. Proof. intros E x. symmetry. apply E. Qed.
Lemma same_read f g b l : same_bytes f g -> read_file f b l = read_file g b l.
Proof. intros E. apply read_file_ext. intros k _. apply E. Qed.
Lemma nth_zeros k n : nth k (zeros n) x00 = x00.
Proof. revert k. induction n as [|n IH]; intros [|k]; cbn; auto. Qed.
Lemma same_zeros f k : same_bytes f (f ++ zeros k).
Proof.
  intros x. destruct (Nat.lt_ge_cases x (length f)) as [C|C]; [now rewrite app_nth1|].
  rewrite app_nth2 by exact C. rewrite nth_zeros. apply nth_overflow. exact C.
Qed.
Lemma same_fit f len : length f <= len -> same_bytes f (fit len f).
Proof. intros L. unfold fit. rewrite firstn_all2 by exact L. apply same_zeros. Qed.
Lemma fit_length len f : length (fit len f) = len.
Proof. unfold fit. rewrite app_length, repeat_length, firstn_length. lia. Qed.
Lemma nth_first k n (f : file) : k < n -> nth k (firstn n f) x00 = nth k f x00.
Proof.
  revert k f. induction n as [|n IH]; intros k [|a f] K; try lia; cbn [firstn]; [destruct k; reflexivity|].
  destruct k; [reflexivity|]. cbn [nth]. apply IH. lia.
Qed.
Lemma fit_nth len f x : x < len -> nth x (fit len f) x00 = nth x f x00.
Proof.
  intros X. unfold fit. destruct (Nat.lt_ge_cases x (length f)) as [C|C].
  - rewrite app_nth1 by (rewrite firstn_length; lia). apply nth_first. exact X.
  - rewrite app_nth2 by (rewrite firstn_length; lia). rewrite (nth_overflow f) by exact C. apply nth_zeros.
Qed.
Lemma same_length_eq f g : same_bytes f g -> length f = length g -> f = g.
Proof. intros E L. apply (nth_ext _ _ x00 x00 L). intros. apply E. Qed.

Lemma write_at_nth_any f pos buf k :
  nth k (write_at f pos buf) x00 = if (pos <=? k) && (k <? pos + length buf) then nth (k - pos) buf x00 else nth k f x00.
Proof.
  destruct buf as [|b buf'].
  { cbn [write_at length]. destruct (Nat.leb_spec pos k), (Nat.ltb_spec k (pos + 0)); cbn; try reflexivity; lia. }
  set (buf := b :: buf'). assert (E : write_at f pos buf = firstn pos f ++ zeros (pos - length f) ++ buf ++ skipn (pos + length buf) f) by reflexivity.
  rewrite E. clear E. clearbody buf. clear b buf'.
  assert (L1 : length (firstn pos f ++ zeros (pos - length f)) = pos) by (rewrite app_length, zeros_length, firstn_length; lia).
  rewrite app_assoc. destruct (Nat.leb_spec pos k) as [C|C]; cbn [andb].
  - rewrite app_nth2 by lia. rewrite L1. destruct (Nat.ltb_spec k (pos + length buf)) as [D|D].
    + now rewrite app_nth1 by lia.
    + rewrite app_nth2 by lia. destruct (Nat.lt_ge_cases k (length f)) as [G|G].
      * rewrite <- (firstn_skipn (pos + length buf) f) at 2. rewrite app_nth2 by (rewrite firstn_length; lia).
        rewrite firstn_length. f_equal. lia.
      * rewrite !nth_overflow; auto; rewrite ?skipn_length; lia.
  - rewrite app_nth1 by lia. destruct (Nat.lt_ge_cases k (length f)) as [G|G].
    + rewrite app_nth1 by (rewrite firstn_length; lia). now apply nth_first.
    + rewrite app_nth2 by (rewrite firstn_length; lia). rewrite (nth_overflow f) by exact G. apply nth_zeros.
Qed.
Lemma write_at_length_any f pos buf : buf <> [] -> length (write_at f pos buf) = Nat.max (length f) (pos + length buf).
Proof.
  intros N. destruct buf as [|b buf']; [congruence|]. set (buf := b :: buf').
  assert (E : write_at f pos buf = firstn pos f ++ zeros (pos - length f) ++ buf ++ skipn (pos + length buf) f) by reflexivity.
  rewrite E, !app_length, zeros_length, firstn_length, skipn_length. lia.
Qed.
Lemma same_write f g pos buf : same_bytes f g -> same_bytes (write_at f pos buf) (write_at g pos buf).
Proof. intros E x. rewrite !write_at_nth_any. now rewrite (E x). Qed.

(** Both panic, or both return related results. *)
Definition both {A B} (R : A -> B -> Prop) (a : res A) (b : res B) : Prop :=
  match a, b with Ok x, Ok y => R x y | Panic, Panic => True | _, _ => False end.
Lemma both_eq {A} (a b : res A) : both eq a b <-> a = b.
Proof. destruct a, b; cbn; split; intros; try congruence; try contradiction; auto. Qed.
Lemma both_foldM {A S T} (R : S -> T -> Prop) (f : S -> A -> res S) (g : T -> A -> res T) l :
  (forall s t a, R s t -> both R (f s a) (g t a)) -> forall s t, R s t -> both R (foldM f l s) (foldM g l t).
Proof.
  intros E. induction l as [|a l IH]; intros s t Rst; cbn [foldM]; [exact Rst|].
  specialize (E s t a Rst). destruct (f s a), (g t a); cbn [both bind] in *; try contradiction; auto.
Qed.
Lemma foldM_keeps {A S} (I : S -> Prop) (f : S -> A -> res S) l :
  (forall s a s', In a l -> I s -> f s a = Ok s' -> I s') -> forall s s', I s -> foldM f l s = Ok s' -> I s'.
Proof.
  induction l as [|a l IH]; intros E s s' Is R; cbn [foldM] in R; [injection R as <-; exact Is|].
  apply bind_ok in R as (s1 & E1 & R). apply (IH (fun s a s' H => E s a s' (or_intror H)) s1 s'); [|exact R]. apply (E s a s1); auto. now left.
Qed.

Section Same.
Context (H : list byte -> list byte) (pr : profile) (params : PosPara).

Lemma same_read_block f g k : same_bytes f g -> read_block params f k = read_block params g k.
Proof. intros E. unfold read_block. now rewrite (same_read f g _ _ E). Qed.
Lemma mapM_same {A B} (f g : A -> res B) l : (forall a, f a = g a) -> mapM f l = mapM g l.
Proof. intros E. induction l as [|a l IH]; cbn [mapM]; [reflexivity|]. now rewrite E, IH. Qed.

Lemma same_seal_depend idxs_l n f g ids k : same_bytes f g ->
  seal_depend_blocks H params idxs_l n f ids k = seal_depend_blocks H params idxs_l n g ids k.
Proof.
  intros E. unfold seal_depend_blocks. assert (M : forall l, mapM (fun i => read_block params f i) l = mapM (fun i => read_block params g i) l).
  { intros l. apply mapM_same. intros i. now apply same_read_block. }
  destruct (mode_l params =? 0).
  - match goal with |- bind ?x _ = _ => destruct x as [l|]; cbn [bind]; [apply M|reflexivity] end.
  - destruct (index idxs_l k) as [row|]; cbn [bind]; [apply M|reflexivity].
Qed.

Definition same_state (a b : seal_state) : Prop := same_bytes (s_file a) (s_file b) /\ s_ids a = s_ids b /\ s_log a = s_log b.

Lemma same_seal_block key iv idxs_l idxs_s n a b k : same_state a b ->
  both same_state (seal_block H params key iv idxs_l idxs_s n a k) (seal_block H params key iv idxs_l idxs_s n b k).
Proof.
  intros (E & I & L). unfold seal_block. rewrite (same_read_block _ _ k E), (same_seal_depend idxs_l n _ _ (s_ids a) k E), I, L.
  destruct (read_block params (s_file b) k) as [cur|]; cbn [bind]; [|exact Logic.I].
  destruct (seal_depend_blocks H params idxs_l n (s_file b) (s_ids b) k) as [deps|]; cbn [bind]; [|exact Logic.I].
  destruct (seal_block_rounds H params key iv idxs_s deps (s_ids b) k (cur, s_log b)) as [[c lg]|]; cbn [bind]; [|exact Logic.I].
  destruct (set_index (s_ids b) k (H (com_units c))) as [ids|]; cbn [bind]; [|exact Logic.I].
  cbn [both]. split; [|split; reflexivity]. cbn [s_file]. now apply same_write.
Qed.
Lemma same_seal_upto key iv k f g : same_bytes f g -> both same_state (seal_upto H pr params key iv k f) (seal_upto H pr params key iv k g).
Proof.
  intros E. unfold seal_upto. destruct (nblocks params) as [n|]; cbn [bind]; [|exact Logic.I].
  destruct (seal_idxs_l pr params n) as [tl|]; cbn [bind]; [|exact Logic.I]. destruct (seal_idxs_s pr params n) as [ts|]; cbn [bind]; [|exact Logic.I].
  apply both_foldM; [intros; now apply same_seal_block|]. split; [exact E|split; reflexivity].
Qed.
Lemma same_seal key iv f g : same_bytes f g -> both same_state (seal H pr params key iv f) (seal H pr params key iv g).
Proof.
  intros E. unfold seal. destruct (nblocks params) as [n|]; cbn [bind]; [|exact Logic.I].
  destruct (seal_idxs_l pr params n) as [tl|]; cbn [bind]; [|exact Logic.I]. destruct (seal_idxs_s pr params n) as [ts|]; cbn [bind]; [|exact Logic.I].
  apply both_foldM; [intros; now apply same_seal_block|]. split; [exact E|split; reflexivity].
Qed.

Lemma same_before f g k : same_bytes f g -> unseal_before_id H params f k = unseal_before_id H params g k.
Proof. intros E. unfold unseal_before_id. now rewrite (same_read f g _ _ E). Qed.
Lemma same_unseal_depend idxs_l n f g bid k : same_bytes f g ->
  unseal_depend_blocks H params idxs_l n f bid k = unseal_depend_blocks H params idxs_l n g bid k.
Proof.
  intros E. unfold unseal_depend_blocks. destruct (mode_l params =? 0).
  - match goal with |- bind ?x _ = _ => destruct x as [l|]; cbn [bind]; [|reflexivity] end.
    apply mapM_same. intros i. destruct (index l i); cbn [bind]; [now apply same_read_block|reflexivity].
  - destruct (index idxs_l k) as [row|]; cbn [bind]; [|reflexivity]. apply mapM_same. intros i. now apply same_read_block.
Qed.
Lemma same_unseal_block key iv idxs_l idxs_s n f g i : same_bytes f g ->
  both same_bytes (unseal_block H params key iv idxs_l idxs_s n f i) (unseal_block H params key iv idxs_l idxs_s n g i).
Proof.
  intros E. unfold unseal_block. rewrite (same_read_block f g _ E), (same_before f g _ E), (same_unseal_depend idxs_l n f g _ _ E).
  destruct (read_block params g (n - 1 - i)) as [cur|]; cbn [bind]; [|exact Logic.I].
  match goal with |- both _ (bind ?x _) _ => destruct x as [deps|]; cbn [bind]; [|exact Logic.I] end.
  match goal with |- both _ (bind ?x _) _ => destruct x as [c|]; cbn [bind]; [|exact Logic.I] end.
  cbn [both]. now apply same_write.
Qed.
Lemma same_unseal_range key iv from k f g : same_bytes f g -> both same_bytes (unseal_range H pr params key iv from k f) (unseal_range H pr params key iv from k g).
Proof.
  intros E. unfold unseal_range. destruct (nblocks params) as [n|]; cbn [bind]; [|exact Logic.I].
  destruct (unseal_idxs_l pr params n) as [tl|]; cbn [bind]; [|exact Logic.I]. destruct (unseal_idxs_s pr params n) as [ts|]; cbn [bind]; [|exact Logic.I].
  apply both_foldM; [intros; now apply same_unseal_block|exact E].
Qed.
Lemma same_unseal key iv f g : same_bytes f g -> both same_bytes (unseal H pr params key iv f) (unseal H pr params key iv g).
Proof.
  intros E. unfold unseal. destruct (nblocks params) as [n|]; cbn [bind]; [|exact Logic.I].
  destruct (unseal_idxs_l pr params n) as [tl|]; cbn [bind]; [|exact Logic.I]. destruct (unseal_idxs_s pr params n) as [ts|]; cbn [bind]; [|exact Logic.I].
  apply both_foldM; [intros; now apply same_unseal_block|exact E].
Qed.

Lemma same_single f g k : same_bytes f g -> single_unseal_prepare H pr params f k = single_unseal_prepare H pr params g k.
Proof.
  intros E. unfold single_unseal_prepare. rewrite (same_read f g _ _ E).
  assert (B : prepare_before_id H params f k = prepare_before_id H params g k) by (unfold prepare_before_id; now rewrite (same_read f g _ _ E)).
  assert (D : forall t n bid, prepare_depend_blocks H params t n f bid k = prepare_depend_blocks H params t n g bid k).
  { intros t n bid. unfold prepare_depend_blocks.
    assert (M : forall l, mapM (fun i => to_units (read_file f (i * block_pl params) (block_pl params)) (unit_pl params)) l
                        = mapM (fun i => to_units (read_file g (i * block_pl params) (block_pl params)) (unit_pl params)) l).
    { intros l. apply mapM_same. intros i. now rewrite (same_read f g _ _ E). }
    destruct (mode_l params =? 0).
    - match goal with |- bind ?x _ = _ => destruct x as [l|]; cbn [bind]; [apply M|reflexivity] end.
    - destruct (index t k) as [row|]; cbn [bind]; [apply M|reflexivity]. }
  rewrite B. destruct (to_units _ _); cbn [bind]; [|reflexivity]. destruct (nblocks params) as [n|]; cbn [bind]; [|reflexivity].
  destruct (verifier_idxs_l pr params n); cbn [bind]; [|reflexivity]. now rewrite D.
Qed.
Lemma same_batch f g b e : same_bytes f g -> batch_unseal_prepare H pr params f b e = batch_unseal_prepare H pr params g b e.
Proof.
  intros E. unfold batch_unseal_prepare. destruct (blocks_in_range b e (block_pl params)) as [ks|]; cbn [bind]; [|reflexivity].
  rewrite (mapM_same (fun idx2 => to_units (read_file f (idx2 * block_pl params) (block_pl params)) (unit_pl params))
                     (fun idx2 => to_units (read_file g (idx2 * block_pl params) (block_pl params)) (unit_pl params)))
    by (intros i; now rewrite (same_read f g _ _ E)).
  destruct (mapM _ ks) as [us|]; cbn [bind]; [|reflexivity]. destruct (nblocks params) as [n|]; cbn [bind]; [|reflexivity].
  destruct (verifier_idxs_l pr params n) as [t|]; cbn [bind]; [|reflexivity].
  rewrite (mapM_same (fun idx2 => let* deps := prepare_depend_blocks H params t n f (prepare_before_id H params f idx2) idx2 in Ok (prepare_before_id H params f idx2, deps))
                     (fun idx2 => let* deps := prepare_depend_blocks H params t n g (prepare_before_id H params g idx2) idx2 in Ok (prepare_before_id H params g idx2, deps)));
    [reflexivity|].
  intros k. assert (B : prepare_before_id H params f k = prepare_before_id H params g k) by (unfold prepare_before_id; now rewrite (same_read f g _ _ E)).
  rewrite B. f_equal. unfold prepare_depend_blocks.
  assert (M : forall l, mapM (fun i => to_units (read_file f (i * block_pl params) (block_pl params)) (unit_pl params)) l
                      = mapM (fun i => to_units (read_file g (i * block_pl params) (block_pl params)) (unit_pl params)) l).
  { intros l. apply mapM_same. intros i. now rewrite (same_read f g _ _ E). }
  destruct (mode_l params =? 0).
  - match goal with |- bind ?x _ = _ => destruct x as [l|]; cbn [bind]; [apply M|reflexivity] end.
  - destruct (index t k) as [row|]; cbn [bind]; [apply M|reflexivity].
Qed.
End Same.

Lemma same_verify f g k b bl ul : same_bytes f g -> batch_verify f k b bl ul = batch_verify g k b bl ul.
Proof. intros E. unfold batch_verify. now rewrite (same_read f g _ _ E). Qed.
Lemma same_fused H pr params key iv ks before deps f g bs : same_bytes f g ->
  batch_unseal_and_verify H pr params key iv ks before deps f bs = batch_unseal_and_verify H pr params key iv ks before deps g bs.
Proof.
  intros E. unfold batch_unseal_and_verify. destruct (bv_idxs_s pr params) as [t|]; cbn [bind]; [|reflexivity].
  apply foldM_ext. intros i s _. unfold bv_block. destruct (index ks i) as [k|]; cbn [bind]; [|reflexivity].
  destruct (index bs i); cbn [bind]; [|reflexivity].
  match goal with |- bind ?x _ = _ => destruct x as [c|]; cbn [bind]; [|reflexivity] end. now rewrite (same_read f g _ _ E).
Qed.
Lemma same_tree H2 f g dl ll : same_bytes f g -> generate_merkle_tree_from_file H2 f dl ll = generate_merkle_tree_from_file H2 g dl ll.
Proof.
  intros E. unfold generate_merkle_tree_from_file. destruct (step_by dl ll) as [l|]; cbn [bind]; [|reflexivity].
  now rewrite (map_ext (fun i => read_file f (i + ll) ll) (fun i => read_file g (i + ll) ll)) by (intros; now apply same_read).
Qed.
Lemma same_tree_proof H2 params f f' g g' idx : same_bytes f g -> same_bytes f' g' -> merkle_tree_proof H2 params f f' idx = merkle_tree_proof H2 params g g' idx.
Proof. intros E E'. unfold merkle_tree_proof. now rewrite (same_tree H2 f g _ _ E), (same_tree H2 f' g' _ _ E'). Qed.
Lemma fold_left_same {A S} (f g : S -> A -> S) l : (forall s a, In a l -> f s a = g s a) -> forall s, fold_left f l s = fold_left g l s.
Proof.
  induction l as [|a l IH]; intros E s; cbn [fold_left]; [reflexivity|]. rewrite (E s a) by now left. apply IH. intros; apply E; now right.
Qed.
Lemma pad_fit f dl ul : copy_and_pad f dl ul = copy_and_pad (fit dl f) dl ul.
Proof.
  unfold copy_and_pad. destruct (Nat.eqb_spec ul 0) as [->|N]; [reflexivity|]. f_equal. apply fold_left_same. intros s k K. apply in_seq in K.
  do 2 f_equal. apply read_file_ext. intros x X. symmetry. apply fit_nth. pose proof (Nat.mul_div_le dl ul N). nia.
Qed.
Lemma same_pad f g dl ul : same_bytes f g -> copy_and_pad f dl ul = copy_and_pad g dl ul.
Proof.
  intros E. unfold copy_and_pad. destruct (ul =? 0); [reflexivity|]. f_equal. apply fold_left_same. intros s k K. now rewrite (same_read f g _ _ E).
Qed.
Lemma same_compress f g dl ul upl : same_bytes f g -> copy_and_compress f dl ul upl = copy_and_compress g dl ul upl.
Proof.
  intros E. unfold copy_and_compress. destruct (ul =? 0); [reflexivity|]. apply foldM_ext. intros k s _. now rewrite (same_read f g _ _ E).
Qed.

Lemma verify_fit f k b bl ul dl : (k + 1) * bl <= dl -> batch_verify f k b bl ul = batch_verify (fit dl f) k b bl ul.
Proof.
  intros K. unfold batch_verify. rewrite (read_file_ext f (fit dl f)); [reflexivity|]. intros x X. symmetry. apply fit_nth. nia.
Qed.

(** * The verifier's two runs *)
Section Runs.
Context (H H2 : list byte -> list byte) (pr : profile) (params : PosPara).
Lemma same_checks (f g : file) ks (out : res (list (list (list byte)))) : same_bytes f g ->
  (let* us := out in foldM (fun _ i => let* k := index ks i in let* b := index us i in batch_verify f k b (block_l params) (unit_l params)) (seq 0 (length ks)) tt)
  = (let* us := out in foldM (fun _ i => let* k := index ks i in let* b := index us i in batch_verify g k b (block_l params) (unit_l params)) (seq 0 (length ks)) tt).
Proof.
  intros E. destruct out as [us|]; cbn [bind]; [|reflexivity]. apply foldM_ext. intros i s _.
  destruct (index ks i); cbn [bind]; [|reflexivity]. destruct (index us i); cbn [bind]; [|reflexivity]. now apply same_verify.
Qed.
Lemma same_challenge1 p f f' g g' pub leaves tree root r idx o : same_bytes f f' -> same_bytes g g' ->
  challenge H H2 pr params p f g pub leaves tree root r idx o -> challenge H H2 pr params p f' g' pub leaves tree root r idx o.
Proof.
  intros E E' C.
  assert (P : challenge_prepare H H2 pr params g pub leaves tree root r idx = challenge_prepare H H2 pr params g' pub leaves tree root r idx).
  { unfold challenge_prepare. rewrite (mapM_same (single_unseal_prepare H pr params g) (single_unseal_prepare H pr params g')) by (intros; now apply same_single). reflexivity. }
  destruct C as [C|key iv rs out C O].
  - apply Ch_panic. congruence.
  - rewrite (same_checks f f' idx out E). eapply Ch_go; [|exact O]. congruence.
Qed.
Lemma same_challenge p f f' g g' pub leaves tree root r idx o : same_bytes f f' -> same_bytes g g' ->
  (challenge H H2 pr params p f g pub leaves tree root r idx o <-> challenge H H2 pr params p f' g' pub leaves tree root r idx o).
Proof. intros E E'. split; apply same_challenge1; auto using same_sym. Qed.
Lemma same_first_ten1 pub f f' g g' p o : same_bytes f f' -> same_bytes g g' ->
  unseal_single_and_verify H pr params pub f g p o -> unseal_single_and_verify H pr params pub f' g' p o.
Proof.
  intros E E' C. pose proof (same_batch H pr params g g' (0 * block_pl params) (10 * block_pl params) E') as P.
  destruct C as [C|key iv ks bs before deps out L C O].
  - apply USV_panic. now rewrite <- P.
  - rewrite (same_checks f f' ks out E). eapply USV_go; [exact L| |exact O]. congruence.
Qed.
Lemma same_first_ten pub f f' g g' p o : same_bytes f f' -> same_bytes g g' ->
  (unseal_single_and_verify H pr params pub f g p o <-> unseal_single_and_verify H pr params pub f' g' p o).
Proof. intros E E'. split; apply same_first_ten1; auto using same_sym. Qed.
Lemma same_full rnd f g pub un b : same_bytes f g -> seal_and_unseal H pr params rnd f pub un b = seal_and_unseal H pr params rnd g pub un b.
Proof. intros E. unfold seal_and_unseal. now rewrite (same_pad f g _ _ E). Qed.
Lemma full_fit rnd f pub un b : seal_and_unseal H pr params rnd f pub un b = seal_and_unseal H pr params rnd (fit (data_l params) f) pub un b.
Proof. unfold seal_and_unseal. now rewrite <- pad_fit. Qed.
End Runs.

(** * Lengths *)
Lemma com_length upl m us : length us = m -> Forall (fun u => length u = upl) us -> length (com_units us) = m * upl.
Proof. intros L F. rewrite com_units_concat, (concat_length_uniform upl) by exact F. now rewrite L. Qed.
Lemma write_len f k buf l : length buf = l -> length (write_at f (k * l) buf) = Nat.max (length f) (k * l + l).
Proof.
  intros L. destruct buf as [|b buf]; [cbn in L; subst l; cbn [write_at]; lia|]. rewrite write_at_length_any by discriminate. now rewrite L.
Qed.

Lemma pad_exact_len k bs r : pad_exact k bs = Ok r -> length r = k.
Proof.
  unfold pad_exact. destruct (Nat.leb_spec (length bs) k) as [L|L]; [|discriminate]. intros E. injection E as <-.
  rewrite app_length, zeros_length. lia.
Qed.
Lemma modadd_val u h p r : (1 < p)%Z -> modadd u h p = Ok r -> (0 <= le2z r < p)%Z.
Proof.
  intros P E. unfold modadd in E. destruct (Z.eqb_spec p 0); [lia|]. unfold pad_exact in E.
  destruct (length (z2le (Z.rem (le2z u + le2z h) p)) <=? length u); [|discriminate]. injection E as <-.
  rewrite le2z_app, le2z_zeros, le2z_z2le. pose proof (le2z_nonneg u). pose proof (le2z_nonneg h).
  pose proof (Z.rem_bound_pos (le2z u + le2z h) p). lia.
Qed.
Lemma modsub_len u h p r : modsub u h p = Ok r -> length r = length u.
Proof. unfold modsub. destruct (p =? 0)%Z; [discriminate|]. apply pad_exact_len. Qed.

Section Lengths.
Context (H : list byte -> list byte) (pr : profile) (params : PosPara) (key : Z) (iv : list byte) (n m : nat).
Hypothesis GEO : geometry params n m.
Hypothesis KEY : (1 < key <= 256 ^ Z.of_nat (unit_pl params))%Z.
Notation upl := (unit_pl params).
Notation bpl := (block_pl params).

Lemma set_shaped cur i u cur' : shaped params m cur -> length u = upl -> set_index cur i u = Ok cur' -> shaped params m cur'.
Proof.
  intros [L F] U E. unfold set_index in E. destruct (Nat.ltb_spec i (length cur)) as [C|C]; [|discriminate].
  injection E as <-. change (shaped params m (upd cur i u)). split; [now rewrite upd_length|]. now apply Forall_upd.
Qed.
Lemma read_shaped f k cur : read_block params f k = Ok cur -> shaped params m cur.
Proof.
  intros E. unfold read_block in E. rewrite (to_units_ok upl m) in E; [|apply (g_unit _ _ _ GEO)|rewrite read_file_length; apply (g_block_pl _ _ _ GEO)].
  injection E as <-. split; [apply chunks_length|]. apply chunks_each. rewrite read_file_length. apply (g_block_pl _ _ _ GEO).
Qed.
Lemma index_shaped cur i u : shaped params m cur -> index cur i = Ok u -> length u = upl.
Proof. intros [_ F] E. rewrite Forall_forall in F. apply F. eapply index_In. exact E. Qed.

Lemma seal_block_length tl ts cnt st k st' : seal_block H params key iv tl ts cnt st k = Ok st' ->
  length (s_file st') = Nat.max (length (s_file st)) (k * bpl + bpl).
Proof.
  intros E. unfold seal_block in E. apply bind_ok in E as (cur & EC & E). apply bind_ok in E as (deps & _ & E).
  apply bind_ok in E as ([c lg] & ER & E). apply bind_ok in E as (ids & _ & E). injection E as <-. cbn [s_file].
  apply write_len. rewrite (g_block_pl _ _ _ GEO).
  assert (SH : shaped params m c); [|destruct SH; now apply com_length].
  change c with (fst (c, lg)). unfold seal_block_rounds in ER. revert ER.
  apply (foldM_keeps (fun st => shaped params m (fst st))); [|cbn [fst]; eapply read_shaped; exact EC].
  intros s a s' _ S R. revert R. apply (foldM_keeps (fun st => shaped params m (fst st))); [|exact S].
  clear - KEY. intros [c0 l0] i s' _ S R. cbn [fst] in *. unfold seal_unit in R. apply bind_ok in R as (d & _ & R). apply bind_ok in R as (u & EU & R).
  apply bind_ok in R as (a & EA & R). apply bind_ok in R as (c1 & E1 & R). injection R as <-. cbn [fst].
  eapply set_shaped; [exact S| |exact E1]. pose proof (modadd_val u (H d) key a ltac:(lia) EA). apply vde_len; lia.
Qed.
Lemma unseal_block_length tl ts cnt f i f' : (key < 256 ^ Z.of_nat upl)%Z -> unseal_block H params key iv tl ts cnt f i = Ok f' ->
  length f' = Nat.max (length f) ((cnt - 1 - i) * bpl + bpl).
Proof.
  intros KS E. unfold unseal_block in E. apply bind_ok in E as (cur & EC & E). apply bind_ok in E as (deps & _ & E).
  apply bind_ok in E as (c & ER & E). injection E as <-.
  apply write_len. rewrite (g_block_pl _ _ _ GEO).
  assert (SH : shaped params m c); [|destruct SH; now apply com_length].
  unfold unseal_block_rounds in ER. revert ER.
  apply (foldM_keeps (shaped params m)); [|eapply read_shaped; exact EC].
  intros s a s' _ S R. revert R. apply (foldM_keeps (shaped params m)); [|exact S].
  clear - KEY KS. intros c0 j s' _ S R. unfold unseal_unit in R. apply bind_ok in R as (d & _ & R). apply bind_ok in R as (u & EU & R).
  apply bind_ok in R as (a & EA & R). eapply set_shaped; [exact S| |exact R]. apply modsub_len in EA. rewrite EA.
  apply vde_inv_len_any; [lia|exact KS|]. eapply index_shaped; eassumption.
Qed.

(** Either run leaves the file at least as long as the blocks it has written. *)
Lemma seal_upto_length k f st : k <= n -> seal_upto H pr params key iv k f = Ok st ->
  length (s_file st) = Nat.max (length f) (k * bpl).
Proof.
  intros K E. unfold seal_upto, nblocks in E. destruct (Nat.eqb_spec (block_l params) 0); [exfalso; now apply (g_block_l _ _ _ GEO)|].
  cbn [bind] in E. rewrite (g_blocks _ _ _ GEO) in E. apply bind_ok in E as (tl & _ & E). apply bind_ok in E as (ts & _ & E).
  replace (firstn k (seq 0 n)) with (seq 0 k) in E.
  2:{ replace n with (k + (n - k)) by lia. rewrite seq_app, firstn_app, seq_length, Nat.sub_diag, firstn_O, app_nil_r, firstn_all2; [reflexivity|rewrite seq_length; lia]. }
  clear K. revert st E. induction k as [|k IH]; intros st E.
  - injection E as <-. cbn [s_file]. lia.
  - rewrite seq_S, foldM_app in E. apply bind_ok in E as (s1 & E1 & E). cbn [plus foldM] in E. apply bind_ok in E as (s2 & E2 & E). injection E as <-.
    apply seal_block_length in E2. rewrite E2, (IH s1 E1). lia.
Qed.
Lemma seal_is_upto f : seal H pr params key iv f = seal_upto H pr params key iv n f.
Proof.
  unfold seal, seal_upto, nblocks. destruct (block_l params =? 0); [reflexivity|]. cbn [bind]. rewrite (g_blocks _ _ _ GEO).
  rewrite firstn_all2 by (rewrite seq_length; lia). reflexivity.
Qed.
Lemma seal_length f st : seal H pr params key iv f = Ok st -> length (s_file st) = Nat.max (length f) (n * bpl).
Proof. intros E. rewrite seal_is_upto in E. apply (seal_upto_length n f st ltac:(lia) E). Qed.
Lemma unseal_length f f' : (key < 256 ^ Z.of_nat upl)%Z -> unseal H pr params key iv f = Ok f' -> length f' = Nat.max (length f) (n * bpl).
Proof.
  intros KS E. unfold unseal, nblocks in E. destruct (Nat.eqb_spec (block_l params) 0); [exfalso; now apply (g_block_l _ _ _ GEO)|].
  cbn [bind] in E. rewrite (g_blocks _ _ _ GEO) in E. apply bind_ok in E as (tl & _ & E). apply bind_ok in E as (ts & _ & E).
  destruct n as [|n'] eqn:EN; [injection E as <-; lia|]. rewrite <- EN in *.
  assert (P : forall k, 0 < k <= n -> forall g, foldM (unseal_block H params key iv tl ts n) (seq 0 k) f = Ok g -> length g = Nat.max (length f) (n * bpl)).
  { induction k as [|k IH]; intros K g F; [lia|]. rewrite seq_S, foldM_app in F. apply bind_ok in F as (g1 & F1 & F).
    cbn [plus foldM] in F. apply bind_ok in F as (g2 & F2 & F). injection F as <-. apply (unseal_block_length _ _ _ _ _ _ KS) in F2. rewrite F2.
    destruct k as [|k]; [injection F1 as <-; replace (n - 1 - 0) with (n - 1) by lia; nia|]. rewrite (IH ltac:(lia) g1 F1). nia. }
  apply (P n ltac:(lia) f' E).
Qed.
End Lengths.

Section Short.
Context (H : list byte -> list byte) (pr : profile) (params : PosPara) (key : Z) (iv : list byte) (n m : nat).
Hypothesis SET : setting H pr params key n m.

Lemma seal_fit F : length F <= n * block_pl params -> seal H pr params key iv F = seal H pr params key iv (fit (n * block_pl params) F).
Proof.
  intros L. pose proof (same_seal H pr params key iv F _ (same_fit F _ L)) as B. pose proof (fit_length (n * block_pl params) F) as FL.
  pose proof (set_geom _ _ _ _ _ _ SET) as G. pose proof (set_key _ _ _ _ _ _ SET) as K.
  destruct (seal H pr params key iv F) as [a|] eqn:EA, (seal H pr params key iv (fit (n * block_pl params) F)) as [b|] eqn:EB; cbn [both] in B; try contradiction; [|reflexivity].
  apply (seal_length H pr params key iv n m G K) in EA, EB. destruct B as (B1 & B2 & B3). f_equal.
  apply same_length_eq in B1; [|lia]. destruct a as [a1 a2 a3], b as [b1 b2 b3]. cbn [s_file s_ids s_log] in *. now subst.
Qed.
Lemma unseal_fit F : (key < 256 ^ Z.of_nat (unit_pl params))%Z -> length F <= n * block_pl params ->
  unseal H pr params key iv F = unseal H pr params key iv (fit (n * block_pl params) F).
Proof.
  intros KS L. pose proof (same_unseal H pr params key iv F _ (same_fit F _ L)) as B. pose proof (fit_length (n * block_pl params) F) as FL.
  pose proof (set_geom _ _ _ _ _ _ SET) as G. pose proof (set_key _ _ _ _ _ _ SET) as K.
  destruct (unseal H pr params key iv F) as [a|] eqn:EA, (unseal H pr params key iv (fit (n * block_pl params) F)) as [b|] eqn:EB; cbn [both] in B; try contradiction; [|reflexivity].
  apply (unseal_length H pr params key iv n m G K _ _ KS) in EA, EB. f_equal. apply same_length_eq in B; [exact B|lia].
Qed.
End Short.
