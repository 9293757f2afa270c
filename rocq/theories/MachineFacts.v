(** Facts for C98: where the offsets fit, the machine versions are the plain ones; where
    they do not, some step panics whatever the state is. *)
From Verif Require Import Base BytesFacts Sloth Common Depend DependSpec DependFacts DependDet Prover SealCore Verifier Merkle Machine MachineSpec.
From Coq Require Import Sorted.
Local Open Scope nat_scope.

Lemma two63_pow : two63 = (2 ^ 63)%Z. Proof. reflexivity. Qed.

Lemma umul_ok pr a b : (Z.of_nat (a * b) < 2 ^ 64)%Z -> umul pr a b = Ok (a * b).
Proof.
  intros L. unfold umul. rewrite usz_ok by (rewrite two64_pow; lia). cbn [bind]. f_equal. lia.
Qed.
Lemma uadd_ok pr a b : (Z.of_nat (a + b) < 2 ^ 64)%Z -> uadd pr a b = Ok (a + b).
Proof.
  intros L. unfold uadd. rewrite usz_ok by (rewrite two64_pow; lia). cbn [bind]. f_equal. lia.
Qed.

Section Limit.
Context (lim : Z) (LIM : (0 < lim <= 2 ^ 63)%Z) (pr : profile).

Lemma seek_ok pos : (Z.of_nat pos < lim)%Z -> seek lim pos = Ok tt.
Proof. intros L. unfold seek. now rewrite (proj2 (Z.ltb_lt _ _) L). Qed.
Lemma seek_panic pos : (lim <= Z.of_nat pos)%Z -> seek lim pos = Panic.
Proof. intros L. unfold seek. now rewrite (proj2 (Z.ltb_ge _ _) L). Qed.
Lemma read_m_ok f b len : (Z.of_nat len < 2 ^ 63)%Z -> (Z.of_nat b < lim)%Z -> read_file_m lim f b len = Ok (read_file f b len).
Proof.
  intros L1 L2. unfold read_file_m. rewrite two63_pow, (proj2 (Z.ltb_lt _ _) L1), (seek_ok _ L2). reflexivity.
Qed.
Lemma read_m_panic f b len : (2 ^ 63 <= Z.of_nat len)%Z \/ (lim <= Z.of_nat b)%Z -> read_file_m lim f b len = Panic.
Proof.
  intros L. unfold read_file_m. rewrite two63_pow. destruct (Z.ltb_spec (Z.of_nat len) (2 ^ 63)).
  - rewrite seek_panic by lia. reflexivity.
  - reflexivity.
Qed.

(** Reading piece [i] of [len] bytes. *)
Lemma piece_ok {A} f i len (k : list byte -> res A) : (Z.of_nat len < 2 ^ 63)%Z -> (Z.of_nat (i * len) < lim)%Z ->
  (let* off := umul pr i len in let* buf := read_file_m lim f off len in k buf) = k (read_file f (i * len) len).
Proof. intros L1 L2. rewrite umul_ok by lia. cbn [bind]. rewrite read_m_ok by assumption. reflexivity. Qed.
Lemma piece_panic {A} f i len (k : list byte -> res A) :
  (2 ^ 63 <= Z.of_nat len)%Z \/ (lim <= Z.of_nat (i * len) < 2 ^ 64)%Z ->
  (let* off := umul pr i len in let* buf := read_file_m lim f off len in k buf) = Panic.
Proof.
  intros [L | L].
  - destruct (umul pr i len); cbn [bind]; [rewrite read_m_panic by tauto|]; reflexivity.
  - rewrite umul_ok by lia. cbn [bind]. rewrite read_m_panic by lia. reflexivity.
Qed.

(** Pieces that are not all reachable include one that is refused before any product
    overflows. *)
Lemma first_refused n len : ~ reachable lim n len ->
  exists i, i < n /\ ((2 ^ 63 <= Z.of_nat len)%Z \/ (lim <= Z.of_nat (i * len) < 2 ^ 64)%Z).
Proof.
  intros R. destruct (Z.lt_ge_cases (Z.of_nat len) (2 ^ 63)) as [L | L].
  - destruct (Nat.eq_dec n 0) as [E | N0].
    { exfalso. apply R. intros i I. lia. }
    destruct (Z.lt_ge_cases (Z.of_nat ((n - 1) * len)) lim) as [B | B].
    { exfalso. apply R. intros i I. split; [assumption|]. 
      assert (i * len <= (n - 1) * len) by (apply Nat.mul_le_mono_r; lia). lia. }
    (* the least i with lim <= i * len *)
    assert (X : forall k, (lim <= Z.of_nat (k * len))%Z -> exists i, i <= k /\ (lim <= Z.of_nat (i * len) < lim + Z.of_nat len)%Z).
    { induction k as [|k IH]; intros E; [cbn in E; lia|].
      destruct (Z.lt_ge_cases (Z.of_nat (k * len)) lim) as [C | C].
      - exists (S k). split; [lia|]. split; [assumption|]. cbn [Nat.mul]. lia.
      - destruct (IH C) as (i & I & J). exists i. split; [lia | assumption]. }
    destruct (X _ B) as (i & I & J). exists i. split; [lia|]. right. lia.
  - exists 0. split; [|tauto]. destruct n; [|lia]. exfalso. apply R. intros i I. lia.
Qed.

(** * Copies *)
Lemma fold_foldM {A S} (f : S -> A -> S) l : forall s, foldM (fun s a => Ok (f s a)) l s = Ok (fold_left f l s).
Proof. induction l as [|a l IH]; intros s; [reflexivity|]. cbn. apply IH. Qed.

Lemma pad_m_ok f d u : reachable lim (d / u) u -> copy_and_pad_m lim pr f d u = copy_and_pad f d u.
Proof.
  intros R. unfold copy_and_pad_m, copy_and_pad. destruct (u =? 0); [reflexivity|].
  rewrite <- fold_foldM. apply foldM_ext. intros a s I. apply in_seq in I. destruct (R a ltac:(lia)) as (L1 & L2).
  exact (piece_ok f a u (fun buf => Ok (s ++ (buf ++ [x00]))) L1 L2).
Qed.
Lemma pad_m_panic f d u : ~ reachable lim (d / u) u -> copy_and_pad_m lim pr f d u = Panic.
Proof.
  intros R. unfold copy_and_pad_m. destruct (u =? 0); [reflexivity|].
  destruct (first_refused _ _ R) as (i & I & W). apply foldM_panic with (a := i).
  - apply in_seq. lia.
  - intros s. exact (piece_panic f i u (fun buf => Ok (s ++ (buf ++ [x00]))) W).
Qed.
Lemma compress_m_ok f d u up : reachable lim (d / u) up -> copy_and_compress_m lim pr f d u up = copy_and_compress f d u up.
Proof.
  intros R. unfold copy_and_compress_m, copy_and_compress. destruct (u =? 0); [reflexivity|].
  apply foldM_ext. intros a s I. apply in_seq in I. destruct (R a ltac:(lia)) as (L1 & L2).
  exact (piece_ok f a up (fun buf => let* b := slice buf 0 u in Ok (s ++ b)) L1 L2).
Qed.
Lemma compress_m_panic f d u up : ~ reachable lim (d / u) up -> copy_and_compress_m lim pr f d u up = Panic.
Proof.
  intros R. unfold copy_and_compress_m. destruct (u =? 0); [reflexivity|].
  destruct (first_refused _ _ R) as (i & I & W). apply foldM_panic with (a := i).
  - apply in_seq. lia.
  - intros s. exact (piece_panic f i up (fun buf => let* b := slice buf 0 u in Ok (s ++ b)) W).
Qed.

(** * Blocks *)
Section Params.
Context (H : list byte -> list byte) (params : PosPara) (key : Z) (iv : list byte).
Notation bpl := (block_pl params).
Notation near i := ((Z.of_nat bpl < 2 ^ 63)%Z /\ (Z.of_nat (i * bpl) < lim)%Z).

Lemma near_le i k : near i -> k <= i -> near k.
Proof.
  intros (A & B) L. split; [assumption|]. assert (k * bpl <= i * bpl) by (apply Nat.mul_le_mono_r; lia). lia.
Qed.
Lemma block_m_ok f i : near i -> read_block_m lim pr params f i = read_block params f i.
Proof. intros (A & B). unfold read_block_m. exact (piece_ok f i bpl (fun buf => to_units buf (unit_pl params)) A B). Qed.
Lemma block_m_panic f i : (2 ^ 63 <= Z.of_nat bpl)%Z \/ (lim <= Z.of_nat (i * bpl) < 2 ^ 64)%Z -> read_block_m lim pr params f i = Panic.
Proof. intros W. unfold read_block_m. exact (piece_panic f i bpl (fun buf => to_units buf (unit_pl params)) W). Qed.
Lemma before_m_ok f i : near i -> before_id_m lim pr H params f i = Ok (unseal_before_id H params f i).
Proof.
  intros N. unfold before_id_m, unseal_before_id. destruct (i =? 0); cbn [negb]; [reflexivity|].
  destruct (near_le i (i - 1) N ltac:(lia)) as (A & B). exact (piece_ok f (i - 1) bpl (fun buf => Ok (H buf)) A B).
Qed.
Lemma blocks_m_ok f i l : near i -> Forall (fun k => k <= i) l -> mapM (read_block_m lim pr params f) l = mapM (read_block params f) l.
Proof.
  intros N F. apply mapM_ext. intros k I. apply block_m_ok. apply (near_le i); [assumption|].
  exact (proj1 (Forall_forall _ _) F k I).
Qed.

(** The rows of the deterministic tables point backwards. *)
Lemma back_members (g : nat -> res Z) index l : forall acc row, Forall (fun x => x <= index) acc ->
  foldM (fun acc i => let* dis := g i in
           if (dis <=? Z.of_nat index)%Z then Ok (acc ++ [Z.to_nat (Z.of_nat index - dis)]) else Ok acc) l acc = Ok row ->
  (forall i z, g i = Ok z -> (0 <= z)%Z) ->
  Forall (fun x => x <= index) row /\ length row <= length acc + length l.
Proof.
  induction l as [|a l IH]; intros acc row F E G.
  - cbn in E. injection E as <-. split; [assumption | cbn; lia].
  - cbn [foldM] in E. destruct (g a) as [z|] eqn:Eg; [|discriminate E]. cbn [bind] in E.
    destruct (z <=? Z.of_nat index)%Z.
    + destruct (IH (acc ++ [Z.to_nat (Z.of_nat index - z)]) row) as (A & B); [|exact E | exact G |].
      * apply Forall_app. split; [assumption|]. constructor; [|constructor]. pose proof (G _ _ Eg). lia.
      * split; [assumption|]. rewrite app_length in B. cbn in B |- *. lia.
    + destruct (IH acc row) as (A & B); [assumption | exact E | exact G |]. split; [assumption | cbn; lia].
Qed.
Lemma usz_nonneg z r : (0 <= z)%Z -> usz pr z = Ok r -> (0 <= r)%Z.
Proof.
  intros N. unfold usz. destruct ((0 <=? z) && (z <? two64))%Z.
  - intros E. injection E as <-. exact N.
  - destruct pr; intros E; [discriminate E|]. injection E as <-. apply Z.mod_pos_bound. reflexivity.
Qed.
Lemma upow2_nonneg i r : upow2 pr i = Ok r -> (0 <= r)%Z.
Proof.
  unfold upow2. destruct (Z.of_nat i <? 4294967296)%Z; [|discriminate].
  intros E. apply usz_nonneg in E; [exact E|]. apply Z.pow_nonneg. lia.
Qed.
Lemma bind_assoc {A B C} (x : res A) (f : A -> res B) (g : B -> res C) :
  bind (bind x f) g = bind x (fun a => bind (f a) g).
Proof. now destruct x. Qed.
Lemma mode_1_back index count row : long_mode_1 pr index count = Ok row -> Forall (fun x => x <= index) row /\ length row <= count.
Proof.
  intros E. destruct (back_members (fun i => let* t := usz pr (2 * Z.of_nat i) in usz pr (1 + t)) index (seq 0 count) [] row) as (A & B).
  - constructor.
  - rewrite <- E. unfold long_mode_1. apply foldM_ext. intros a s _. apply bind_assoc.
  - intros i z Ez. destruct (usz pr (2 * Z.of_nat i)) as [t|] eqn:Et; [|discriminate Ez]. cbn [bind] in Ez.
    apply usz_nonneg in Et; [|lia]. apply usz_nonneg in Ez; lia.
  - rewrite seq_length in B. split; assumption.
Qed.
Lemma mode_2_back index count row : long_mode_2 pr index count = Ok row -> Forall (fun x => x <= index) row /\ length row <= count.
Proof.
  intros E. destruct (back_members (fun i => let* t := upow2 pr i in usz pr (1 + t)) index (seq 0 count) [] row) as (A & B).
  - constructor.
  - rewrite <- E. unfold long_mode_2. apply foldM_ext. intros a s _. apply bind_assoc.
  - intros i z Ez. destruct (upow2 pr i) as [t|] eqn:Et; [|discriminate Ez]. cbn [bind] in Ez.
    apply upow2_nonneg in Et. apply usz_nonneg in Ez; lia.
  - rewrite seq_length in B. split; assumption.
Qed.
Lemma long_back index count mode row : long_depend pr index count mode = Ok row -> Forall (fun x => x <= index) row.
Proof.
  unfold long_depend. destruct (mode =? 1); [intros E; exact (proj1 (mode_1_back _ _ _ E))|].
  destruct (mode =? 2); [intros E; exact (proj1 (mode_2_back _ _ _ E))|].
  destruct (mode =? 3); [rewrite long_mode_3_is_2; intros E; exact (proj1 (mode_2_back _ _ _ E))|].
  intros E. injection E as <-. constructor.
Qed.
Lemma NoDup_below l k : NoDup l -> Forall (fun x => x < k) l -> length l <= k.
Proof.
  intros N F. rewrite <- (seq_length k 0). apply NoDup_incl_length; [assumption|].
  intros x I. apply in_seq. split; [lia|]. exact (proj1 (Forall_forall _ _) F x I).
Qed.
Lemma long_count index row : sane_count params -> long_depend pr index (cnt_l params) (mode_l params) = Ok row -> length row <= index.
Proof.
  intros (S1 & S2). unfold long_depend. destruct (Nat.eqb_spec (mode_l params) 1) as [E1|].
  { rewrite (long_mode_1_spec pr index (cnt_l params) (S1 E1)). intros E. injection E as <-.
    destruct (back_by_props dist_1 index (cnt_l params) dist_1_pos dist_1_inj) as (F & N & _). now apply NoDup_below. }
  destruct (Nat.eqb_spec (mode_l params) 2) as [E2|].
  { rewrite (long_mode_2_spec pr index (cnt_l params) (S2 E2)). intros E. injection E as <-.
    destruct (back_by_props dist_2 index (cnt_l params) dist_2_pos dist_2_inj) as (F & N & _). now apply NoDup_below. }
  destruct (mode_l params =? 3).
  { rewrite long_mode_3_is_2. intros E. apply mode_2_back in E as (_ & E).
    pose proof (Nat.div_le_upper_bound index 10 index). lia. }
  intros E. injection E as <-. cbn. lia.
Qed.
Lemma table_row n c mode t i row : create_long_depend pr n c mode = Ok t -> index t i = Ok row -> long_depend pr i c mode = Ok row.
Proof.
  intros E I. unfold create_long_depend in E. pose proof (mapM_length _ _ _ E) as L. rewrite seq_length in L.
  assert (B : i < length t) by (destruct (Nat.lt_ge_cases i (length t)); [assumption|]; rewrite index_panic in I by assumption; discriminate I).
  destruct (mapM_index _ _ _ i i E) as (b & Eb & Ib).
  - rewrite nth_error_nth' with (d := 0) by (rewrite seq_length; lia). rewrite seq_nth by lia. reflexivity.
  - rewrite Ib in I. injection I as <-. exact Eb.
Qed.
Lemma idxs_row n t i row : mode_l params <> 0 -> seal_idxs_l pr params n = Ok t -> index t i = Ok row ->
  long_depend pr i (cnt_l params) (mode_l params) = Ok row.
Proof.
  intros M. unfold seal_idxs_l. apply Nat.eqb_neq in M. rewrite M. cbn [negb]. apply table_row.
Qed.
Lemma random_back n d i c l : long_mode_random H n d i c = Ok l -> Forall (fun x => x <= i) l.
Proof.
  intros E. destruct (long_mode_random_props _ _ _ _ _ _ E) as (_ & F & _).
  apply Forall_impl with (2 := F). intros x X. lia.
Qed.

Lemma choice_back (c : bool) n d i (a b : nat) l :
  (if i =? 0 then Ok [] else if c then long_mode_random H n d i a else long_mode_random H n d i b) = Ok l ->
  Forall (fun x => x <= i) l.
Proof.
  destruct (i =? 0); [intros E; injection E as <-; constructor|]. destruct c; apply random_back.
Qed.

(** * Sealing *)
Lemma seal_deps_m n t f ids i : near i -> seal_idxs_l pr params n = Ok t ->
  seal_depend_blocks_m lim pr H params t n f ids i = seal_depend_blocks H params t n f ids i.
Proof.
  intros N T. unfold seal_depend_blocks_m, seal_depend_blocks. destruct (Nat.eqb_spec (mode_l params) 0) as [M | M].
  - destruct (i =? 0); [reflexivity|]. destruct (cnt_l params =? 0).
    + destruct (index ids (i - 1)) as [d|]; [|reflexivity]. cbn [bind].
      destruct (long_mode_random H n d i (i / 10 + 1)) as [l|] eqn:E; [|reflexivity]. cbn [bind].
      apply (blocks_m_ok f i); [assumption | exact (random_back _ _ _ _ _ E)].
    + destruct (index ids (i - 1)) as [d|]; [|reflexivity]. cbn [bind].
      destruct (long_mode_random H n d i (cnt_l params)) as [l|] eqn:E; [|reflexivity]. cbn [bind].
      apply (blocks_m_ok f i); [assumption | exact (random_back _ _ _ _ _ E)].
  - destruct (index t i) as [row|] eqn:I; [|reflexivity]. cbn [bind]. apply (blocks_m_ok f i); [assumption|].
    exact (long_back _ _ _ _ (idxs_row _ _ _ _ M T I)).
Qed.
Lemma seal_block_m_ok n t s st i : near i -> seal_idxs_l pr params n = Ok t ->
  seal_block_m lim pr H params key iv t s n st i = seal_block H params key iv t s n st i.
Proof.
  intros N T. unfold seal_block_m, seal_block. rewrite (block_m_ok _ _ N), (seal_deps_m _ _ _ _ _ N T).
  destruct (read_block params (s_file st) i) as [b|]; [|reflexivity]. cbn [bind].
  destruct (seal_depend_blocks H params t n (s_file st) (s_ids st) i) as [dd|]; [|reflexivity]. cbn [bind].
  destruct (seal_block_rounds H params key iv s dd (s_ids st) i (b, s_log st)) as [[b' log']|]; [|reflexivity]. cbn [bind].
  destruct (set_index (s_ids st) i (H (com_units b'))) as [ids'|]; [|reflexivity]. cbn [bind].
  destruct N as (A & B). rewrite umul_ok by lia. cbn [bind]. rewrite (seek_ok _ B). reflexivity.
Qed.
Lemma seal_block_m_panic n t s st i : (2 ^ 63 <= Z.of_nat bpl)%Z \/ (lim <= Z.of_nat (i * bpl) < 2 ^ 64)%Z ->
  seal_block_m lim pr H params key iv t s n st i = Panic.
Proof. intros W. unfold seal_block_m. rewrite (block_m_panic _ _ W). reflexivity. Qed.

Lemma firstn_seq_in k : forall s n a, In a (firstn k (seq s n)) -> s <= a < s + n /\ a < s + k.
Proof.
  induction k as [|k IH]; intros s n a; [intros []|]. destruct n as [|n]; [intros []|].
  cbn. intros [<- | I]; [lia|]. apply IH in I. lia.
Qed.
Lemma seal_upto_m_ok k f : (forall i n, nblocks params = Ok n -> i < n -> i < k -> near i) ->
  seal_upto_m lim pr H params key iv k f = seal_upto H pr params key iv k f.
Proof.
  intros R. unfold seal_upto_m, seal_upto. destruct (nblocks params) as [n|] eqn:En; [|reflexivity]. cbn [bind].
  destruct (seal_idxs_l pr params n) as [t|] eqn:T; [|reflexivity]. cbn [bind].
  destruct (seal_idxs_s pr params n) as [s|]; [|reflexivity]. cbn [bind].
  apply foldM_ext. intros a st I. apply seal_block_m_ok; [|assumption].
  apply firstn_seq_in in I. apply (R a n); [reflexivity | lia | lia].
Qed.
Lemma seal_m_ok f n : nblocks params = Ok n -> reachable lim n bpl -> seal_m lim pr H params key iv f = seal H pr params key iv f.
Proof.
  intros En R. unfold seal_m, seal. rewrite En. cbn [bind].
  destruct (seal_idxs_l pr params n) as [t|] eqn:T; [|reflexivity]. cbn [bind].
  destruct (seal_idxs_s pr params n) as [s|]; [|reflexivity]. cbn [bind].
  apply foldM_ext. intros a st I. apply in_seq in I. apply seal_block_m_ok; [|assumption]. apply R. lia.
Qed.
Lemma seal_m_panic f n : nblocks params = Ok n -> ~ reachable lim n bpl -> seal_m lim pr H params key iv f = Panic.
Proof.
  intros En R. unfold seal_m. rewrite En. cbn [bind].
  destruct (seal_idxs_l pr params n) as [t|]; [|reflexivity]. cbn [bind].
  destruct (seal_idxs_s pr params n) as [s|]; [|reflexivity]. cbn [bind].
  destruct (first_refused _ _ R) as (i & I & W). apply foldM_panic with (a := i).
  - apply in_seq. lia.
  - intros st. now apply seal_block_m_panic.
Qed.

(** * Unsealing *)
Lemma unseal_deps_m n t f id i : sane_count params -> near i -> unseal_idxs_l pr params n = Ok t ->
  unseal_depend_blocks_m lim pr H params t n f id i = unseal_depend_blocks H params t n f id i.
Proof.
  intros SC N T. unfold unseal_depend_blocks_m, unseal_depend_blocks. destruct (Nat.eqb_spec (mode_l params) 0) as [M | M].
  - match goal with |- bind ?x _ = _ => destruct x as [l|] eqn:E end; [|reflexivity]. cbn [bind].
    apply choice_back in E. apply mapM_ext. intros j J. apply in_seq in J.
    destruct (nth_error l j) as [k|] eqn:Ek.
    + unfold index. rewrite Ek. cbn [bind]. apply block_m_ok. apply (near_le i); [assumption|].
      exact (proj1 (Forall_forall _ _) E k (nth_error_In _ _ Ek)).
    + apply nth_error_None in Ek. lia.
  - destruct (index t i) as [row|] eqn:I; [|reflexivity]. cbn [bind]. apply (blocks_m_ok f i); [assumption|].
    pose proof (long_count _ _ SC (idxs_row _ _ _ _ M T I)) as L. apply Forall_forall. intros x X. apply in_seq in X. lia.
Qed.
Lemma unseal_block_m_ok n t s f j : sane_count params -> near (n - 1 - j) -> unseal_idxs_l pr params n = Ok t ->
  unseal_block_m lim pr H params key iv t s n f j = unseal_block H params key iv t s n f j.
Proof.
  intros SC N T. unfold unseal_block_m, unseal_block. cbv zeta. rewrite (before_m_ok _ _ N), (block_m_ok _ _ N). cbn [bind].
  destruct (read_block params f (n - 1 - j)) as [b|]; [|reflexivity]. cbn [bind].
  rewrite (unseal_deps_m _ _ _ _ _ SC N T).
  destruct (unseal_depend_blocks H params t n f (unseal_before_id H params f (n - 1 - j)) (n - 1 - j)) as [dd|]; [|reflexivity]. cbn [bind].
  destruct (unseal_block_rounds H params key iv s dd (unseal_before_id H params f (n - 1 - j)) (n - 1 - j) b) as [b'|]; [|reflexivity]. cbn [bind].
  destruct N as (A & B). rewrite umul_ok by lia. cbn [bind]. rewrite (seek_ok _ B). reflexivity.
Qed.
Lemma unseal_m_ok f n : sane_count params -> nblocks params = Ok n -> reachable lim n bpl ->
  unseal_m lim pr H params key iv f = unseal H pr params key iv f.
Proof.
  intros SC En R. unfold unseal_m, unseal. rewrite En. cbn [bind].
  destruct (unseal_idxs_l pr params n) as [t|] eqn:T; [|reflexivity]. cbn [bind].
  destruct (unseal_idxs_s pr params n) as [s|]; [|reflexivity]. cbn [bind].
  apply foldM_ext. intros a st I. apply in_seq in I. apply unseal_block_m_ok; [assumption | | assumption]. apply R. lia.
Qed.
Lemma unseal_m_panic f n : nblocks params = Ok n -> ~ reachable lim n bpl -> unseal_m lim pr H params key iv f = Panic.
Proof.
  intros En R. unfold unseal_m. rewrite En. cbn [bind].
  destruct (unseal_idxs_l pr params n) as [t|]; [|reflexivity]. cbn [bind].
  destruct (unseal_idxs_s pr params n) as [s|]; [|reflexivity]. cbn [bind].
  destruct (first_refused _ _ R) as (i & I & W). apply foldM_panic with (a := n - 1 - i).
  - apply in_seq. lia.
  - intros st. unfold unseal_block_m. cbv zeta. replace (n - 1 - (n - 1 - i)) with i by lia.
    destruct (before_id_m lim pr H params st i); [|reflexivity]. cbn [bind]. rewrite (block_m_panic _ _ W). reflexivity.
Qed.

(** * Responses *)
Lemma response_m_ok f i : near i ->
  single_unseal_prepare_m lim pr H params f i = single_unseal_prepare H pr params f i.
Proof.
  intros N. unfold single_unseal_prepare_m, single_unseal_prepare. rewrite (block_m_ok _ _ N), (before_m_ok _ _ N).
  unfold read_block. destruct (to_units (read_file f (i * bpl) bpl) (unit_pl params)) as [b|]; [|reflexivity]. cbn [bind].
  destruct (nblocks params) as [n|]; [|reflexivity]. cbn [bind].
  destruct (verifier_idxs_l pr params n) as [t|] eqn:T; [|reflexivity]. cbn [bind].
  change (prepare_before_id H params f i) with (unseal_before_id H params f i).
  set (id := unseal_before_id H params f i).
  assert (E : prepare_depend_blocks_m lim pr H params t n f id i = prepare_depend_blocks H params t n f id i).
  { unfold prepare_depend_blocks_m, prepare_depend_blocks. destruct (Nat.eqb_spec (mode_l params) 0) as [M | M].
    - match goal with |- bind ?x _ = _ => destruct x as [l|] eqn:E end; [|reflexivity]. cbn [bind].
      apply choice_back in E. exact (blocks_m_ok f i l N E).
    - destruct (index t i) as [row|] eqn:I; [|reflexivity]. cbn [bind]. apply (blocks_m_ok f i row N).
      exact (long_back _ _ _ _ (idxs_row _ _ _ _ M T I)). }
  rewrite E. reflexivity.
Qed.
Lemma response_m_panic f i : (2 ^ 63 <= Z.of_nat bpl)%Z \/ (lim <= Z.of_nat (i * bpl) < 2 ^ 64)%Z ->
  single_unseal_prepare_m lim pr H params f i = Panic.
Proof. intros W. unfold single_unseal_prepare_m. rewrite (block_m_panic _ _ W). reflexivity. Qed.
End Params.

Lemma verify_m_ok f i u bl ul : (Z.of_nat bl < 2 ^ 63)%Z -> (Z.of_nat (i * bl) < lim)%Z ->
  batch_verify_m lim pr f i u bl ul = batch_verify f i u bl ul.
Proof.
  intros A B. unfold batch_verify_m, batch_verify.
  exact (piece_ok f i bl (fun o => let* o := to_units o ul in verify_block_units o u ul) A B).
Qed.
Lemma verify_m_panic f i u bl ul : (2 ^ 63 <= Z.of_nat bl)%Z \/ (lim <= Z.of_nat (i * bl) < 2 ^ 64)%Z ->
  batch_verify_m lim pr f i u bl ul = Panic.
Proof. intros W. unfold batch_verify_m. exact (piece_panic f i bl (fun o => let* o := to_units o ul in verify_block_units o u ul) W). Qed.

(** * The tree over a file: leaf number j is read at (j + 1) * leaf_len. *)
Lemma tree_m_ok H f d l : (forall i, i < ceil_div d l -> (Z.of_nat l < 2 ^ 63)%Z /\ (Z.of_nat (i * l + l) < lim)%Z) ->
  generate_merkle_tree_from_file_m lim pr H f d l = generate_merkle_tree_from_file H f d l.
Proof.
  intros R. unfold generate_merkle_tree_from_file_m, generate_merkle_tree_from_file, step_by.
  destruct l as [|l']; [reflexivity|]. set (l := S l') in *. cbn [bind].
  rewrite (mapM_ok _ (fun i => read_file f (i + l) l)).
  - reflexivity.
  - intros a I. apply in_map_iff in I as (j & <- & J). apply in_seq in J. destruct (R j ltac:(lia)) as (A & B).
    rewrite uadd_ok by lia. cbn [bind]. now apply read_m_ok.
Qed.
Lemma tree_m_panic H f d l : ~ (forall i, i < ceil_div d l -> (Z.of_nat l < 2 ^ 63)%Z /\ (Z.of_nat (i * l + l) < lim)%Z) ->
  generate_merkle_tree_from_file_m lim pr H f d l = Panic.
Proof.
  intros R. unfold generate_merkle_tree_from_file_m, step_by.
  destruct l as [|l']; [reflexivity|]. set (l := S l') in *. cbn [bind].
  assert (X : exists i, i < ceil_div d l /\ ((2 ^ 63 <= Z.of_nat l)%Z \/ (lim <= Z.of_nat (i * l + l) < 2 ^ 64)%Z)).
  { assert (R' : ~ reachable lim (1 + ceil_div d l) l).
    { intros R'. apply R. intros i I. destruct (R' (1 + i) ltac:(lia)) as (A & B). split; [assumption|]. cbn [Nat.mul Nat.add] in B. lia. }
    destruct (first_refused _ _ R') as ([|i] & I & W).
    - destruct W as [W | W]; [|cbn in W; lia]. exists 0. split; [|tauto].
      destruct (ceil_div d l); [|lia]. exfalso. apply R. intros i I'. lia.
    - exists i. split; [lia|]. destruct W as [W | W]; [tauto|]. right. cbn [Nat.mul] in W. lia. }
  destruct X as (i & I & W). rewrite mapM_panic with (a := i * l); [reflexivity | |].
  - apply in_map_iff. exists i. split; [reflexivity|]. apply in_seq. lia.
  - destruct W as [W | W].
    + destruct (uadd pr (i * l) l); [|reflexivity]. cbn [bind]. apply read_m_panic. tauto.
    + rewrite uadd_ok by lia. cbn [bind]. apply read_m_panic. lia.
Qed.
End Limit.

(** * The loop over a byte range *)
Lemma range_m pr b e bp : (Z.of_nat e + Z.of_nat bp <= 2 ^ 64)%Z -> (Z.of_nat b < 2 ^ 64)%Z -> 0 < bp -> forall fuel i acc,
  (i = 0 \/ (i - 1) * bp + b < e) ->
  blocks_idx_loop_m pr fuel i b e bp acc = blocks_idx_loop fuel i b e bp acc.
Proof.
  intros L B P. induction fuel as [|fuel IH]; intros i acc I; [reflexivity|]. cbn [blocks_idx_loop_m blocks_idx_loop].
  assert (W : (Z.of_nat (i * bp + b) < 2 ^ 64)%Z).
  { destruct I as [-> | I]; [cbn; lia|]. destruct i as [|i]; [cbn; lia|].
    replace (S i - 1) with i in I by lia. cbn [Nat.mul]. lia. }
  rewrite umul_ok by lia. cbn [bind]. rewrite uadd_ok by lia.
  destruct (Nat.ltb_spec (i * bp + b) e) as [C | C]; [|reflexivity].
  destruct (Nat.eqb_spec bp 0) as [Z0|]; [lia|].
  assert (Db : b / bp <= b) by (apply Nat.div_le_upper_bound; nia).
  assert (Ib : i <= i * bp) by nia.
  rewrite !uadd_ok by lia. apply IH. right. replace (i + 1 - 1) with i by lia. assumption.
Qed.
