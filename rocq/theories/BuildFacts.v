(** What the debug build computes without a panic the release build computes too (for PropBuilds):
    the only difference between the two is what an overflow does. *)
From Verif Require Import Base Legendre Sloth Common Depend Prover Verifier Merkle Postorage Machine Convert Field Mimc Space R1cs Circuits SpaceRun BytesFacts SealCore.
Local Open Scope nat_scope.

Definition follows {A} (d r : res A) : Prop := forall x, d = Ok x -> r = Ok x.
Lemma follows_refl {A} (d : res A) : follows d d. Proof. intros x E. exact E. Qed.
Lemma follows_bind {A B} (d r : res A) (k l : A -> res B) : follows d r -> (forall x, follows (k x) (l x)) -> follows (bind d k) (bind r l).
Proof. intros D K x E. destruct d as [a|]; [|discriminate]. rewrite (D a eq_refl). cbn [bind] in *. now apply K. Qed.
Lemma follows_foldM {A S} (f g : S -> A -> res S) : (forall s a, follows (f s a) (g s a)) -> forall l s, follows (foldM f l s) (foldM g l s).
Proof. intros F. induction l as [|a l IH]; intros s; cbn [foldM]; [apply follows_refl|]. apply follows_bind; auto. Qed.
Lemma follows_mapM {A B} (f g : A -> res B) : (forall a, follows (f a) (g a)) -> forall l, follows (mapM f l) (mapM g l).
Proof. intros F. induction l as [|a l IH]; cbn [mapM]; [apply follows_refl|]. apply follows_bind; [apply F|]. intros b. apply follows_bind; [exact IH|]. intros bs. apply follows_refl. Qed.
Lemma follows_usz z : follows (usz Debug z) (usz Release z).
Proof. intros x. unfold usz. destruct ((0 <=? z) && (z <? two64))%Z; [auto|discriminate]. Qed.
Lemma follows_u8 z : follows (u8 Debug z) (u8 Release z).
Proof. intros x. unfold u8. destruct ((0 <=? z) && (z <? 256))%Z; [auto|discriminate]. Qed.
Ltac fol :=
  repeat match goal with
  | |- follows ?a ?a => apply follows_refl
  | |- follows (usz _ _) (usz _ _) => apply follows_usz
  | |- follows (u8 _ _) (u8 _ _) => apply follows_u8
  | |- follows (bind _ _) (bind _ _) => apply follows_bind; [|intros]
  | |- follows (foldM _ _ _) (foldM _ _ _) => apply follows_foldM; intros
  | |- follows (mapM _ _) (mapM _ _) => apply follows_mapM; intros
  | |- follows (if ?b then _ else _) (if ?b then _ else _) => destruct b
  | |- follows (match ?p with (_, _) => _ end) _ => destruct p
  | |- follows (match ?p with Some _ => _ | None => _ end) _ => destruct p
  end; eauto.
Lemma f_upow2 i : follows (upow2 Debug i) (upow2 Release i). Proof. unfold upow2. fol. Qed.
#[export] Hint Resolve f_upow2 : core.
Lemma f_long i c m : follows (long_depend Debug i c m) (long_depend Release i c m).
Proof. unfold long_depend, long_mode_1, long_mode_2, long_mode_3. fol. Qed.
Lemma f_short2 num i : forall is flag v, follows (short_mode_2_loop Debug num i is flag v) (short_mode_2_loop Release num i is flag v).
Proof. induction is as [|j is IH]; intros flag v; cbn [short_mode_2_loop]; fol. Qed.
Lemma f_short num i c m : follows (short_depend Debug num i c m) (short_depend Release num i c m).
Proof. unfold short_depend, short_mode_2. pose proof (f_short2 num i). fol. Qed.
Lemma f_clong num c m : follows (create_long_depend Debug num c m) (create_long_depend Release num c m).
Proof. unfold create_long_depend. pose proof f_long. fol. Qed.
Lemma f_cshort num c m : follows (create_short_depend Debug num c m) (create_short_depend Release num c m).
Proof. unfold create_short_depend. pose proof f_short. fol. Qed.
#[export] Hint Resolve f_clong f_cshort : core.
Lemma f_umul a b : follows (umul Debug a b) (umul Release a b). Proof. unfold umul. fol. Qed.
Lemma f_uadd a b : follows (uadd Debug a b) (uadd Release a b). Proof. unfold uadd. fol. Qed.
#[export] Hint Resolve f_umul f_uadd : core.

(** Storage, with the offsets of the machine. *)
Lemma f_pad lim o a b : follows (copy_and_pad_m lim Debug o a b) (copy_and_pad_m lim Release o a b). Proof. unfold copy_and_pad_m. fol. Qed.
Lemma f_compress lim o a b c : follows (copy_and_compress_m lim Debug o a b c) (copy_and_compress_m lim Release o a b c). Proof. unfold copy_and_compress_m. fol. Qed.
Lemma f_verify lim o i u a b : follows (batch_verify_m lim Debug o i u a b) (batch_verify_m lim Release o i u a b). Proof. unfold batch_verify_m. fol. Qed.
Lemma f_tree lim H f a b : follows (generate_merkle_tree_from_file_m lim Debug H f a b) (generate_merkle_tree_from_file_m lim Release H f a b). Proof. unfold generate_merkle_tree_from_file_m. fol. Qed.
Lemma f_range b e pl : forall fuel i acc ks, blocks_idx_loop_m Debug fuel i b e pl acc = Some (Ok ks) -> blocks_idx_loop_m Release fuel i b e pl acc = Some (Ok ks).
Proof.
  induction fuel as [|fuel IH]; intros i acc ks E; [discriminate|]. cbn [blocks_idx_loop_m] in *.
  assert (F1 : follows (let* t := umul Debug i pl in uadd Debug t b) (let* t := umul Release i pl in uadd Release t b)) by fol.
  destruct (let* t := umul Debug i pl in uadd Debug t b) as [pos|]; [|discriminate]. rewrite (F1 pos eq_refl). destruct (pos <? e); [|exact E]. destruct (pl =? 0); [discriminate|].
  pose proof (f_uadd i (b / pl)) as F2. pose proof (f_uadd i 1) as F3. destruct (uadd Debug i (b / pl)) as [k|]; [|discriminate]. destruct (uadd Debug i 1) as [j|]; [|discriminate].
  rewrite (F2 k eq_refl), (F3 j eq_refl). now apply IH.
Qed.
Section Params.
Context (lim : Z) (H H2 : list byte -> list byte) (params : PosPara).
Lemma f_read f i : follows (read_block_m lim Debug params f i) (read_block_m lim Release params f i). Proof. unfold read_block_m. fol. Qed.
Lemma f_before f i : follows (before_id_m lim Debug H params f i) (before_id_m lim Release H params f i). Proof. unfold before_id_m. fol. Qed.
Hint Resolve f_read f_before : core.
Lemma f_pdeps t n f id i : follows (prepare_depend_blocks_m lim Debug H params t n f id i) (prepare_depend_blocks_m lim Release H params t n f id i). Proof. unfold prepare_depend_blocks_m. fol. Qed.
Lemma f_vl n : follows (verifier_idxs_l Debug params n) (verifier_idxs_l Release params n). Proof. unfold verifier_idxs_l. fol. Qed.
Hint Resolve f_pdeps f_vl : core.
Lemma f_single f i : follows (single_unseal_prepare_m lim Debug H params f i) (single_unseal_prepare_m lim Release H params f i). Proof. unfold single_unseal_prepare_m. fol. Qed.
Lemma f_sdeps t n f id i : follows (seal_depend_blocks_m lim Debug H params t n f id i) (seal_depend_blocks_m lim Release H params t n f id i). Proof. unfold seal_depend_blocks_m. fol. Qed.
Lemma f_udeps t n f id i : follows (unseal_depend_blocks_m lim Debug H params t n f id i) (unseal_depend_blocks_m lim Release H params t n f id i). Proof. unfold unseal_depend_blocks_m. fol. Qed.
Hint Resolve f_sdeps f_udeps : core.
Lemma f_seal_m key iv f : follows (seal_m lim Debug H params key iv f) (seal_m lim Release H params key iv f).
Proof. unfold seal_m, seal_block_m, seal_idxs_l, seal_idxs_s. fol. Qed.
Lemma f_unseal_m key iv f : follows (unseal_m lim Debug H params key iv f) (unseal_m lim Release H params key iv f).
Proof. unfold unseal_m, unseal_block_m, unseal_idxs_l, unseal_idxs_s. fol. Qed.
Lemma f_seal key iv f : follows (seal H Debug params key iv f) (seal H Release params key iv f).
Proof. unfold seal, seal_idxs_l, seal_idxs_s. fol. Qed.
Lemma f_unseal key iv f : follows (unseal H Debug params key iv f) (unseal H Release params key iv f).
Proof. unfold unseal, unseal_range, unseal_idxs_l, unseal_idxs_s. fol. Qed.
Lemma f_batch_prepare f a b : follows (batch_unseal_prepare H Debug params f a b) (batch_unseal_prepare H Release params f a b).
Proof. unfold batch_unseal_prepare. fol. Qed.
Lemma f_single0 f i : follows (single_unseal_prepare H Debug params f i) (single_unseal_prepare H Release params f i).
Proof. unfold single_unseal_prepare. fol. Qed.
Lemma f_batch key iv ks bs ds blocks : follows (batch_unseal H Debug params key iv ks bs ds blocks) (batch_unseal H Release params key iv ks bs ds blocks).
Proof. unfold batch_unseal, bu_idxs_s. fol. Qed.
Lemma f_batch_verify key iv ks bs ds o blocks : follows (batch_unseal_and_verify H Debug params key iv ks bs ds o blocks) (batch_unseal_and_verify H Release params key iv ks bs ds o blocks).
Proof. unfold batch_unseal_and_verify, bv_idxs_s. fol. Qed.
Lemma f_bp : follows (bp_idxs_s Debug params) (bp_idxs_s Release params). Proof. unfold bp_idxs_s. fol. Qed.
Lemma f_parallel key iv ks bs ds th blocks r : batch_unseal_parallel H Debug params key iv ks bs ds th blocks (Ok r) -> batch_unseal_parallel H Release params key iv ks bs ds th blocks (Ok r).
Proof. intros E. inversion E; subst. eapply bp_returns; eauto. now apply f_bp. Qed.
Lemma f_prep pl rnd : follows (prepare_params Debug pl rnd) (prepare_params Release pl rnd). Proof. unfold prepare_params. fol. Qed.
Lemma f_su rnd o p u b : follows (seal_and_unseal H Debug params rnd o p u b) (seal_and_unseal H Release params rnd o p u b).
Proof. unfold seal_and_unseal. pose proof f_prep. pose proof f_seal. pose proof f_unseal. fol. Qed.
Lemma f_usv pub origin sealed th : unseal_single_and_verify H Debug params pub origin sealed th (Ok tt) -> unseal_single_and_verify H Release params pub origin sealed th (Ok tt).
Proof.
  intros E. inversion E as [|key iv ks blocks bs ds out EL EP EO ER]; subst. destruct out as [un|]; [|discriminate ER].
  apply f_batch_prepare in EP.
  refine (USV_go H Release params pub origin sealed th key iv ks blocks bs ds (Ok un) EL EP _).
  destruct (th =? 0); [symmetry; apply f_batch; now symmetry|now apply f_parallel].
Qed.
Lemma f_cp sealed pub leaves tree root r idx : follows (challenge_prepare H H2 Debug params sealed pub leaves tree root r idx) (challenge_prepare H H2 Release params sealed pub leaves tree root r idx).
Proof. unfold challenge_prepare. pose proof f_single0. fol. Qed.
Lemma f_challenge th o s p leaves tree root r idx : challenge H H2 Debug params th o s p leaves tree root r idx (Ok tt) -> challenge H H2 Release params th o s p leaves tree root r idx (Ok tt).
Proof.
  intros E. inversion E as [|key iv rs out EP EO ER]; subst. destruct out as [un|]; [|discriminate ER]. apply f_cp in EP.
  refine (Ch_go H H2 Release params th o s p leaves tree root r idx key iv rs (Ok un) EP _).
  destruct (th =? 0); [symmetry; apply f_batch; now symmetry|now apply f_parallel].
Qed.
Lemma f_run th c n o s p leaves tree root cs : challenges_run H H2 Debug params th c n o s p leaves tree root cs (Ok tt) -> challenges_run H H2 Release params th c n o s p leaves tree root cs (Ok tt).
Proof.
  induction cs as [|[r draw] cs IH]; intros E; inversion E; subst; [constructor|]. eapply CR_next; eauto. now apply f_challenge.
Qed.
Lemma f_setup r1 r2 pub : follows (pipeline_setup H H2 Debug params r1 r2 pub) (pipeline_setup H H2 Release params r1 r2 pub).
Proof. unfold pipeline_setup. pose proof f_prep. pose proof f_seal. fol. Qed.
Lemma f_finish a k iv s : follows (pipeline_finish H H2 Debug params a k iv s) (pipeline_finish H H2 Release params a k iv s).
Proof. unfold pipeline_finish. pose proof f_unseal. fol. Qed.
Lemma f_pipeline th c r1 r2 pub cs : pipeline H H2 Debug params th c r1 r2 pub cs (Ok tt) -> pipeline H H2 Release params th c r1 r2 pub cs (Ok tt).
Proof.
  intros E. inversion E as [|origin oroot key iv st pub' leaves tree root o ES ER EF]; subst. destruct o as [[]|]; [|discriminate EF]. cbn [bind] in EF. apply f_setup in ES.
  pose proof (P_run H H2 Release params th c r1 r2 pub cs origin oroot key iv st pub' leaves tree root (Ok tt) ES (f_run _ _ _ _ _ _ _ _ _ _ ER)) as P. cbn [bind] in P. rewrite (f_finish _ _ _ _ tt EF) in P. cbn [bind]. rewrite EF. exact P.
Qed.
End Params.

(** Space. *)
Lemma f_pow2 n : follows (pow2 Debug n) (pow2 Release n). Proof. unfold pow2. fol. Qed.
Lemma f_b2b x : follows (bits_to_bytes Debug x) (bits_to_bytes Release x).
Proof. unfold bits_to_bytes, bits_to_bytes_step. fol. Qed.
Lemma f_b2u x : follows (bits_to_usize Debug x) (bits_to_usize Release x).
Proof. unfold bits_to_usize, bits_to_usize_step. fol. Qed.
#[export] Hint Resolve f_pow2 f_b2b f_b2u : core.
Lemma f_prepare_space f n : follows (prepare_space Debug f n) (prepare_space Release f n). Proof. unfold prepare_space. fol. Qed.
Lemma f_mark_slot n f y bits : follows (mark_slot Debug n f y bits) (mark_slot Release n f y bits).
Proof. unfold mark_slot, mark_bit. fol. Qed.
#[export] Hint Resolve f_mark_slot f_prepare_space : core.
Section Space.
Context {K : prime_ops}.
Lemma f_target (key m : K) c n x : follows (mark_target Debug key m c n x) (mark_target Release key m c n x). Proof. unfold mark_target. fol. Qed.
Hint Resolve f_target : core.
Lemma f_mark f (key m : K) c n : follows (mark_space Debug f key m c n) (mark_space Release f key m c n). Proof. unfold mark_space. fol. Qed.
Lemma f_slot f n y : follows (read_slot Debug f n y) (read_slot Release f n y). Proof. unfold read_slot. fol. Qed.
Hint Resolve f_slot : core.
Lemma f_respond f n : forall cs i (xs : list K) idxs, follows (respond Debug f n i cs xs idxs) (respond Release f n i cs xs idxs).
Proof. induction cs as [|c cs IH]; intros i xs idxs; cbn [respond]; fol. Qed.
Hint Resolve f_respond : core.
Lemma f_response f cs (key : K) hc n : follows (response_1 Debug f cs key hc n) (response_1 Release f cs key hc n). Proof. unfold response_1. fol. Qed.
Lemma f_create rnd n e : follows (create_challenges Debug rnd n e) (create_challenges Release rnd n e). Proof. unfold create_challenges. fol. Qed.
Lemma f_pospace (G : snark K) f dc hc (key m : K) rnd : follows (pospace G Debug f dc hc key m rnd) (pospace G Release f dc hc key m rnd).
Proof. unfold pospace. pose proof f_mark. pose proof f_response. pose proof f_create. fol. Qed.
End Space.

(** The circuit that compares two widths of a number. *)
Section Circuit.
Context {K : ops}.
Lemma follows_bindM {A B} (d r : M K A) (k l : A -> M K B) : (forall s, follows (d s) (r s)) -> (forall x s, follows (k x s) (l x s)) -> forall s, follows (bindM d k s) (bindM r l s).
Proof. intros D L s. unfold bindM. apply follows_bind; [apply D|]. intros [a s']. apply L. Qed.
Lemma follows_forM {A S} (f g : S -> A -> M K S) : (forall st a s, follows (f st a s) (g st a s)) -> forall l st s, follows (forM f l st s) (forM g l st s).
Proof. intros F. induction l as [|a l IH]; intros st s; cbn [forM]; [apply follows_refl|]. apply follows_bindM; auto. Qed.
Lemma f_lift_usz z (s : cs K) : follows (lift (usz Debug z) s) (lift (usz Release z) s).
Proof. unfold lift. apply follows_bind; [apply follows_usz|]. intros; apply follows_refl. Qed.
Lemma f_equal_round x1 x2 d b i st (s : cs K) : follows (equal_round Debug x1 x2 d b i st s) (equal_round Release x1 x2 d b i st s).
Proof.
  destruct st as [[[two two_val] x] x_val]. unfold equal_round. revert s. repeat (apply follows_bindM; [intros; first [apply f_lift_usz|apply follows_refl]|intro]). intros s. apply follows_refl.
Qed.
Lemma f_equal_circuit x1 x2 bits d (s : cs K) : follows (equal_circuit Debug x1 x2 bits d s) (equal_circuit Release x1 x2 bits d s).
Proof.
  unfold equal_circuit. destruct (length bits =? EQUAL_INPUT_SIZE); [|apply follows_refl]. revert s. apply follows_bindM; [intros; apply follows_refl|]. intros two. apply follows_bindM; [intros; apply follows_refl|]. intros x.
  apply follows_bindM; [|intros; apply follows_refl]. intros s. apply follows_forM. intros st i s'. revert s'. apply follows_bindM; [intros; apply follows_refl|]. intros b s'. apply f_equal_round.
Qed.
End Circuit.

(** * Where nothing overflows the builds do the same *)
From Verif Require Import ConvertFacts SpaceFacts MimcAlg SealSpec SealTop.
Lemma usz_in pr z : (0 <= z < two64)%Z -> usz pr z = Ok z.
Proof. intros B. unfold usz. destruct (Z.leb_spec 0 z), (Z.ltb_spec z two64); cbn [andb]; try reflexivity; lia. Qed.
Lemma same_mark_bit s xb : mark_bit Debug s xb = mark_bit Release s xb.
Proof. destruct s as [[[[f i] buf] bb] j]. unfold mark_bit. destruct (set_index bb j xb); [|reflexivity]. cbn [bind]. destruct (S j =? 8); [|reflexivity]. now rewrite !bits_to_bytes_pack. Qed.
Lemma same_mark_slot n f y bits : (0 <= (Z.of_nat n + 1) * y < two64)%Z -> mark_slot Debug n f y bits = mark_slot Release n f y bits.
Proof.
  intros B. unfold mark_slot. rewrite !usz_in by exact B. cbn [bind]. rewrite (MimcAlg.foldM_ext (mark_bit Debug) (mark_bit Release)) by (intros; apply same_mark_bit).
  destruct (foldM _ _ _) as [[[[[f' i] buf] bb] j]|]; [|reflexivity]. cbn [bind]. destruct (j =? 0); [reflexivity|]. now rewrite !bits_to_bytes_pack.
Qed.
Lemma slice_len {A} (l r : list A) n : slice l 0 n = Ok r -> length r = n.
Proof.
  unfold slice. destruct (Nat.leb_spec 0 n), (Nat.leb_spec n (length l)); cbn [andb]; try discriminate. intros E. injection E as <-. rewrite Nat.sub_0_r. cbn [skipn]. rewrite firstn_length. lia.
Qed.
Lemma slots_in n y : n <= 58 -> (0 <= y < 2 ^ Z.of_nat n)%Z -> (0 <= (Z.of_nat n + 1) * y < two64)%Z.
Proof.
  intros N Y. assert (P : (2 ^ Z.of_nat n <= 2 ^ 58)%Z) by (apply Z.pow_le_mono_r; lia). change (2 ^ 58)%Z with 288230376151711744%Z in P. unfold two64. nia.
Qed.
Section SameSpace.
Context {K : prime_ops}.
Lemma target_in pr (key m : K) c n x y bits : n <= 58 -> mark_target pr key m c n x = Ok (y, bits) -> (0 <= y < 2 ^ Z.of_nat n)%Z.
Proof.
  intros N. unfold mark_target. destruct (mimc5_df _ _ _) as [v|]; [|discriminate]. cbn [bind]. destruct (slice (to_bits_le v) 0 n) as [b|] eqn:ES; [|discriminate]. cbn [bind]. apply slice_len in ES. rewrite bits_to_usize_val by lia. cbn [bind].
  destruct (usize_to_bits x n) as [[r|]|]; cbn [bind]; try discriminate. intros E. assert (y = val b) by congruence. subst y. rewrite <- ES. apply val_bounds.
Qed.
Lemma same_target (key m : K) c n x : n <= 58 -> mark_target Debug key m c n x = mark_target Release key m c n x.
Proof.
  intros N. unfold mark_target. destruct (mimc5_df _ _ _) as [v|]; [|reflexivity]. cbn [bind]. destruct (slice (to_bits_le v) 0 n) as [b|] eqn:ES; [|reflexivity]. cbn [bind]. apply slice_len in ES. now rewrite !bits_to_usize_val by lia.
Qed.
Lemma same_mark f (key m : K) c n : n <= 58 -> mark_space Debug f key m c n = mark_space Release f key m c n.
Proof.
  intros N. unfold mark_space. rewrite !pow2_ok by lia. cbn [bind]. apply MimcAlg.foldM_ext. intros g x _. rewrite same_target by exact N. destruct (mark_target Release key m c n (Z.of_nat x)) as [[y bits]|] eqn:E; [|reflexivity]. cbn [bind].
  apply same_mark_slot, slots_in; [exact N|]. exact (target_in _ _ _ _ _ _ _ _ N E).
Qed.
Lemma same_respond f n : n <= 58 -> forall cs i (xs : list K) idxs, Forall (fun c => 0 <= c < 2 ^ Z.of_nat n)%Z cs -> respond Debug f n i cs xs idxs = respond Release f n i cs xs idxs.
Proof.
  intros N. induction cs as [|c cs IH]; intros i xs idxs F; [reflexivity|]. inversion F as [|? ? C F']; subst. cbn [respond]. unfold read_slot. rewrite !usz_in by (now apply slots_in). cbn [bind].
  destruct (foldM _ _ _) as [[[[[b ?] ?] ?] ?]|]; [|reflexivity]. cbn [bind]. destruct (index b n) as [flag|]; [|reflexivity]. cbn [bind]. destruct flag.
  - destruct (slice b 0 n) as [bits|] eqn:ES; [|reflexivity]. cbn [bind]. apply slice_len in ES. rewrite !bits_to_usize_val by lia. cbn [bind]. destruct (_ =? _); [reflexivity|]. now apply IH.
  - cbn [bind]. destruct (_ =? _); [reflexivity|]. now apply IH.
Qed.
Lemma create_val pr rnd n e : e <= 63 -> create_challenges pr rnd n e = Ok (map (fun i => val (map (rnd i) (seq 0 e))) (seq 0 n)).
Proof.
  intros E. unfold create_challenges. induction (seq 0 n) as [|i l IH]; [reflexivity|]. cbn [mapM map]. rewrite bits_to_usize_val by (rewrite map_length, seq_length; exact E). cbn [bind]. rewrite IH. reflexivity.
Qed.
Lemma same_response f cs (key : K) hc n : n <= 58 -> Forall (fun c => 0 <= c < 2 ^ Z.of_nat n)%Z cs -> response_1 Debug f cs key hc n = response_1 Release f cs key hc n.
Proof. intros N F. unfold response_1. now rewrite same_respond. Qed.
Lemma same_pospace (G : snark K) f dc hc (key m : K) rnd : pospace G Debug f dc hc key m rnd = pospace G Release f dc hc key m rnd.
Proof.
  unfold pospace. assert (N : SPACE_N <= 58) by (unfold SPACE_N; lia). rewrite !prepare_space_ok by exact N. cbn [bind]. rewrite same_mark by exact N. destruct (mark_space Release _ key m dc SPACE_N) as [g|]; [|reflexivity]. cbn [bind].
  rewrite !create_val by lia. cbn [bind]. rewrite same_response; [reflexivity|exact N|]. apply Forall_forall. intros c IC. apply in_map_iff in IC as (i & <- & _). pose proof (val_bounds (map (rnd i) (seq 0 SPACE_N))) as B. now rewrite map_length, seq_length in B.
Qed.
End SameSpace.
Section SameStorage.
Context (H : list byte -> list byte) (params : PosPara) (key : Z) (n m : nat).
Hypothesis SET : setting H Debug params key n m.
Lemma same_seal iv f : seal H Debug params key iv f = seal H Release params key iv f.
Proof using SET.
  unfold seal. rewrite (set_nblocks _ _ _ _ _ _ SET). cbn [bind]. destruct (tabl_ex _ _ _ _ _ _ SET) as ([a b] & A & _ & B & _). unfold seal_idxs_l, seal_idxs_s in *. cbn [fst snd] in *.
  assert (A' : (if negb (mode_l params =? 0) then create_long_depend Release n (cnt_l params) (mode_l params) else Ok []) = Ok a) by (revert A; destruct (negb (mode_l params =? 0)); [apply f_clong|auto]).
  assert (B' : (if negb (mode_s params =? 0) then create_short_depend Release n (cnt_s params) (mode_s params) else Ok []) = Ok b) by (revert B; destruct (negb (mode_s params =? 0)); [apply f_cshort|auto]).
  rewrite A, A', B, B'. reflexivity.
Qed.
Lemma same_unseal iv f : unseal H Debug params key iv f = unseal H Release params key iv f.
Proof using SET.
  unfold unseal, unseal_range. rewrite (set_nblocks _ _ _ _ _ _ SET). cbn [bind]. destruct (tabl_ex _ _ _ _ _ _ SET) as ([a b] & A & _ & B & _). unfold seal_idxs_l, seal_idxs_s, unseal_idxs_l, unseal_idxs_s in *. cbn [fst snd] in *.
  assert (A' : (if negb (mode_l params =? 0) then create_long_depend Release n (cnt_l params) (mode_l params) else Ok []) = Ok a) by (revert A; destruct (negb (mode_l params =? 0)); [apply f_clong|auto]).
  assert (B' : (if negb (mode_s params =? 0) then create_short_depend Release n (cnt_s params) (mode_s params) else Ok []) = Ok b) by (revert B; destruct (negb (mode_s params =? 0)); [apply f_cshort|auto]).
  rewrite A, A', B, B'. reflexivity.
Qed.
End SameStorage.
