(** Property C121: runs that seal or unseal one file at the same time.
    Vocabulary: [run], [turns], [seal_p] and [unseal_p] from Side, [setting], [sealable] and
    [unit_bytes] from SealSpec, [sloth] and [sloth_inv] from Sloth. *)
From Coq Require Import Strings.Byte.
From Verif Require Import Base Legendre Sloth Common Depend Prover NumTheory SlothFacts BytesFacts DependSpec DependFacts DependDet VdeFacts SealSpec SealCore SealFile SealTop SealWitness AnyLength
  Paths PathFacts Side SideFacts SpaceSideFacts PropSide PropSeal.
Local Open Scope nat_scope.

(** A run seals the file or unseals it, with an iv of its own; the key is that of the unit size. *)
Inductive task := Seal (iv : list byte) | Unseal (iv : list byte).
Definition task_run (H : list byte -> list byte) (pr : profile) (params : PosPara) (key : Z) (p : place) (t : task) : proc (option (list (list byte))) :=
  match t with
  | Seal iv => go ids <- seal_p H pr params p key iv; calc (Ok (Some ids))
  | Unseal iv => go _ <- unseal_p H pr params p key iv; calc (Ok None)
  end.
(** A sealing run returns a 32-byte id for each block. *)
Definition returned (n : nat) (t : task) (a : option (list (list byte))) : Prop :=
  match t, a with
  | Seal _, Some ids => length ids = n /\ Forall (fun i => length i = 32) ids
  | Unseal _, None => True
  | _, _ => False
  end.

(** One step on a unit taken as a number: add a mask and delay, or undo the delay and take a mask away. *)
Definition masked (H : list byte -> list byte) (key : Z) (t : nat) (x y : Z) : Prop :=
  exists w, y = Z.abs (sloth ((x + le2z (H w)) mod key) key t).
Definition unmasked (H : list byte -> list byte) (key : Z) (t : nat) (x y : Z) : Prop :=
  exists w, y = ((Z.abs (sloth_inv x key t) - le2z (H w)) mod key)%Z.
Inductive times (R : Z -> Z -> Prop) : nat -> Z -> Z -> Prop :=
| times_0 : forall x, times R 0 x x
| times_S : forall r x y z, times R r x y -> R y z -> times R (S r) x z.
(** So many whole passes: [seal_rounds] steps one way, or [seal_rounds] steps the other way,
    of the kinds that are among the runs. *)
Inductive passes (H : list byte -> list byte) (params : PosPara) (key : Z) (tasks : list task) : nat -> Z -> Z -> Prop :=
| pass_none : forall x, passes H params key tasks 0 x x
| pass_seal : forall iv c x y z, In (Seal iv) tasks -> passes H params key tasks c x y ->
    times (masked H key (vde_rounds params)) (seal_rounds params) y z -> passes H params key tasks (S c) x z
| pass_unseal : forall iv c x y z, In (Unseal iv) tasks -> passes H params key tasks c x y ->
    times (unmasked H key (vde_rounds params)) (seal_rounds params) y z -> passes H params key tasks (S c) x z.

(** * One block *)
Lemma foldM_done {A B} (I : list A -> B -> Prop) (f : B -> A -> res B) : forall l pre b,
  (forall pre a b, In a l -> I pre b -> exists b', f b a = Ok b' /\ I (a :: pre) b') -> I pre b -> exists b', foldM f l b = Ok b' /\ I (rev l ++ pre) b'.
Proof.
  induction l as [|a l IH]; intros pre b F Ib; cbn [foldM rev app]; [eauto|].
  destruct (F pre a b ltac:(now left) Ib) as (b1 & -> & I1). cbn [bind]. destruct (IH (a :: pre) b1) as (b2 & E & I2); [|exact I1|].
  - intros; apply F; auto; now right.
  - exists b2. split; [exact E|]. rewrite <- app_assoc. exact I2.
Qed.
Section Block.
Context (params : PosPara) (key : Z) (m : nat).
Definition steps_done (R : Z -> Z -> Prop) (c : nat -> nat) (us0 us : list (list byte)) : Prop :=
  forall j u0 u, nth_error us0 j = Some u0 -> nth_error us j = Some u -> times R (c j) (le2z u0) (le2z u).
Lemma rounds_done {S} (us : S -> list (list byte)) (f : S -> nat -> res S) (R : Z -> Z -> Prop) (l : list nat) :
  (forall i s, In i l -> block_ok params key m (us s) -> exists s' u v, f s i = Ok s' /\ us s' = upd (us s) i v /\ nth_error (us s) i = Some u /\ unit_ok params key v /\ R (le2z u) (le2z v)) ->
  NoDup l -> (forall j, j < m -> In j l) -> forall q s, block_ok params key m (us s) ->
  exists s', foldM (fun s (_ : nat) => foldM f l s) (seq 0 q) s = Ok s' /\ block_ok params key m (us s') /\ steps_done R (fun _ => q) (us s) (us s').
Proof.
  intros F ND IN q s B.
  destruct (foldM_done (fun pre s' => block_ok params key m (us s') /\ steps_done R (fun _ => length pre) (us s) (us s')) (fun s (_ : nat) => foldM f l s) (seq 0 q) [] s) as (s' & E & B' & D).
  - intros pre x s1 _ (B1 & D1).
    destruct (foldM_done (fun pr s' => block_ok params key m (us s') /\ steps_done R (fun j => length pre + count_occ Nat.eq_dec pr j) (us s) (us s')) f l [] s1) as (s2 & E2 & B2 & D2).
    + intros pr i s2 I (B2 & D2). destruct (F i s2 I B2) as (s3 & u & v & E3 & U3 & N3 & K3 & R3). exists s3. split; [exact E3|]. rewrite U3. split.
      * destruct B2 as [L2 F2]. split; [now rewrite upd_length|now apply Forall_upd].
      * intros j u0 w N0 N. apply upd_nth_any in N. cbn [count_occ]. destruct N as [[-> N]|[NE N]].
        -- subst w. destruct (Nat.eq_dec j j); [|congruence]. rewrite Nat.add_succ_r. econstructor; [eapply D2; eassumption|exact R3].
        -- destruct (Nat.eq_dec i j); [congruence|]. eapply D2; eassumption.
    + split; [exact B1|]. intros j u0 u N0 N. cbn [count_occ]. rewrite Nat.add_0_r. eapply D1; eassumption.
    + exists s2. split; [exact E2|]. split; [exact B2|]. intros j u0 u N0 N. specialize (D2 j u0 u N0 N). cbn beta in D2.
      rewrite app_nil_r in D2. assert (J : j < m) by (destruct B2 as [<- _]; apply nth_error_Some; congruence).
      rewrite (proj1 (NoDup_count_occ' Nat.eq_dec (rev l)) (NoDup_rev ND) j) in D2 by (rewrite <- in_rev; auto). rewrite Nat.add_1_r in D2. exact D2.
  - split; [exact B|]. intros j u0 u N0 N. rewrite N0 in N. injection N as ->. constructor.
  - exists s'. split; [exact E|]. split; [exact B'|]. rewrite app_nil_r, rev_length, seq_length in D. exact D.
Qed.
End Block.

Section Steps.
Context (H : list byte -> list byte) (pr : profile) (params : PosPara) (key : Z) (n m : nat).
Context (SET : setting H pr params key n m).
Notation upl := (unit_pl params).
Notation bpl := (block_pl params).

Lemma frounds_steps is deps sfx us log : short_ok params is m -> deps_ok m deps -> block_ok params key m us ->
  exists us' log', frounds H params key is deps sfx m (us, log) = Ok (us', log') /\ block_ok params key m us' /\
  steps_done (masked H key (vde_rounds params)) (fun _ => seal_rounds params) us us'.
Proof using SET.
  intros S D B.
  destruct (rounds_done params key m fst (fstep H params key is deps sfx m) (masked H key (vde_rounds params)) (seq 0 m)) with (q := seal_rounds params) (s := (us, log)) as ((us' & log') & E & B' & R'); [|apply seq_NoDup|intros; apply in_seq; lia|exact B|exists us', log'; auto].
  intros i [cur lg] I [L F]. apply in_seq in I. cbn [fst] in L, F.
  destruct (md_returns H params is deps sfx m cur i (hh _ _ _ _ _ _ SET) S D L ltac:(lia)) as (d & Ed). destruct (index_ok cur i ltac:(lia)) as (u & Eu).
  assert (Uu : unit_ok params key u) by (rewrite Forall_forall in F; apply F; eapply index_In; exact Eu). destruct Uu as [Lu Bu].
  pose proof (k1 _ _ _ _ _ _ SET) as K1. pose proof (k2 _ _ _ _ _ _ SET) as K2.
  destruct (modadd_ok u (H d) key K1 ltac:(rewrite Lu; exact K2)) as (a & Ea & La & Va).
  assert (Ra : (0 <= le2z a < key)%Z) by (rewrite Va; apply Z.mod_pos_bound; lia).
  set (v := vde a key (vde_rounds params) (vde_mode params) upl).
  exists (upd cur i v, le2z a :: lg), u, v. unfold fstep. rewrite Ed. cbn [bind]. rewrite Eu. cbn [bind]. rewrite Ea. cbn [bind]. rewrite set_index_ok by lia. cbn [bind fst].
  split; [reflexivity|]. split; [reflexivity|]. split; [unfold index in Eu; destruct (nth_error cur i); congruence|]. unfold v. split.
  - split; [apply vde_len; lia|]. rewrite vde_val. now apply sloth_abs.
  - exists d. rewrite vde_val. now rewrite Va.
Qed.
Lemma brounds_steps is deps sfx us : (forall d, le2z (H d) < key < 256 ^ Z.of_nat upl)%Z -> short_ok params is m -> deps_ok m deps -> block_ok params key m us ->
  exists us', brounds H params key is deps sfx m us = Ok us' /\ block_ok params key m us' /\
  steps_done (unmasked H key (vde_rounds params)) (fun _ => seal_rounds params) us us'.
Proof using SET.
  intros K3 S D B.
  destruct (rounds_done params key m (fun x => x) (bstep H params key is deps sfx m) (unmasked H key (vde_rounds params)) (rev (seq 0 m))) with (q := seal_rounds params) (s := us) as (us' & E & B' & R'); [|apply NoDup_rev, seq_NoDup|intros; rewrite <- in_rev; apply in_seq; lia|exact B|exists us'; auto].
  intros i cur I [L F]. rewrite <- in_rev in I. apply in_seq in I.
  destruct (md_returns H params is deps sfx m cur i (hh _ _ _ _ _ _ SET) S D L ltac:(lia)) as (d & Ed). destruct (index_ok cur i ltac:(lia)) as (u & Eu).
  assert (Uu : unit_ok params key u) by (rewrite Forall_forall in F; apply F; eapply index_In; exact Eu). destruct Uu as [Lu Bu].
  pose proof (k1 _ _ _ _ _ _ SET) as K1. pose proof (k2 _ _ _ _ _ _ SET) as K2.
  set (w := vde_inv u key (vde_rounds params) (vde_mode params) upl).
  assert (Lw : length w = upl) by (apply vde_inv_len_any; auto; apply (K3 d)).
  assert (Hd : (le2z (H d) < key)%Z) by apply K3.
  destruct (modsub_ok w (H d) key K1 ltac:(rewrite Lw; exact K2) ltac:(pose proof (le2z_nonneg w); lia)) as (a & Ea & La & Va).
  exists (upd cur i a), u, a. unfold bstep. rewrite Ed. cbn [bind]. rewrite Eu. cbn [bind]. fold w. rewrite Ea. cbn [bind]. rewrite set_index_ok by lia.
  split; [reflexivity|]. split; [reflexivity|]. split; [unfold index in Eu; destruct (nth_error cur i); congruence|]. split.
  - split; [congruence|]. rewrite Va. apply Z.mod_pos_bound. lia.
  - exists d. unfold w in Va. rewrite vde_inv_val in Va. exact Va.
Qed.

End Steps.

(** * The file *)
(** A part of a run that only looks at p, and returns what satisfies Q. *)
Inductive views {A} (p : place) (OK : file -> Prop) (Q : A -> Prop) : proc A -> Prop :=
| views_end : forall a, Q a -> views p OK Q (Halt (Ok a))
| views_see : forall k, (forall f, OK f -> views p OK Q (k (Some f))) -> views p OK Q (See p k).
Lemma views_next {A B} p OK (Q : A -> Prop) (R : B -> Prop) m k : views p OK Q m -> (forall a, Q a -> views p OK R (k a)) -> views p OK R (next m k).
Proof. intros S F. induction S as [a QA|k' _ IH]; cbn [next]; [now apply F|now constructor]. Qed.
Lemma views_calc {A} p OK (Q : A -> Prop) r a : r = Ok a -> Q a -> views p OK Q (calc r).
Proof. intros -> QA. now constructor. Qed.
Lemma views_all {A B} p OK (Q : B -> Prop) (f : A -> proc B) : forall l, (forall a, In a l -> views p OK Q (f a)) -> views p OK (Forall Q) (all f l).
Proof.
  induction l as [|a l IH]; intros F; cbn [all]; [constructor; constructor|]. eapply views_next; [apply F; now left|]. intros b QB.
  eapply views_next; [apply IH; intros; apply F; now right|]. intros bs QBS. constructor. now constructor.
Qed.
(** A run that has seen to it that the facts D of ks hold of p: whatever it does keeps OK
    and every such fact, and it ends with Q. *)
Inductive leads {A} (p : place) (OK : file -> Prop) (D : nat -> file -> Prop) (Q : list nat -> A -> Prop) : list nat -> proc A -> Prop :=
| leads_end : forall ks a, Q ks a -> leads p OK D Q ks (Halt (Ok a))
| leads_see : forall ks k, (forall f, OK f -> leads p OK D Q ks (k (Some f))) -> leads p OK D Q ks (See p k)
| leads_change : forall ks k w m, (forall f, OK f -> OK (w (Some f)) /\ D k (w (Some f)) /\ forall j, D j f -> D j (w (Some f))) ->
    leads p OK D Q (k :: ks) m -> leads p OK D Q ks (Change p w m).
Lemma leads_views {A B} p OK D (Q : A -> Prop) (R : list nat -> B -> Prop) ks m k : views p OK Q m -> (forall a, Q a -> leads p OK D R ks (k a)) -> leads p OK D R ks (next m k).
Proof. intros S F. induction S as [a QA|k' _ IH]; cbn [next]; [now apply F|now constructor]. Qed.
Lemma leads_next {A B} p OK D (Q : list nat -> A -> Prop) (R : list nat -> B -> Prop) ks m k : leads p OK D Q ks m -> (forall ks' a, Q ks' a -> leads p OK D R ks' (k a)) -> leads p OK D R ks (next m k).
Proof. intros S F. induction S as [ks a QA|ks k' _ IH|ks x w m W _ IH]; cbn [next]; [now apply F|now constructor|econstructor; eassumption]. Qed.
Lemma leads_imp {A} p OK D (Q R : list nat -> A -> Prop) ks m : leads p OK D Q ks m -> (forall ks a, Q ks a -> R ks a) -> leads p OK D R ks m.
Proof. intros S F. induction S; [constructor; auto|constructor; auto|econstructor; eauto]. Qed.
Lemma leads_each {A S} p OK D (I : nat -> list nat -> S -> Prop) (f : S -> A -> proc S) : forall l i ks s,
  (forall j a ks s, nth_error l j = Some a -> I (i + j) ks s -> leads p OK D (I (Datatypes.S (i + j))) ks (f s a)) -> I i ks s -> leads p OK D (I (i + length l)) ks (each f l s).
Proof.
  induction l as [|a l IH]; intros i ks s F IS; cbn [each length]; [rewrite Nat.add_0_r; now constructor|].
  eapply leads_next; [pose proof (F 0 a ks s eq_refl) as F0; rewrite Nat.add_0_r in F0; now apply F0|]. intros ks' s' IS'. replace (i + Datatypes.S (length l)) with (Datatypes.S i + length l) by lia. apply IH; [|exact IS'].
  intros j b ks'' s'' E. replace (Datatypes.S i + j) with (i + Datatypes.S j) by lia. now apply F.
Qed.
Definition all_lead {A} (p : place) (OK : file -> Prop) (D : nat -> file -> Prop) (Qs : nat -> list nat -> A -> Prop) (s : shared A) : Prop :=
  exists f, fst s p = Some f /\ OK f /\ forall i m, nth_error (snd s) i = Some (Some m) -> exists ks, Forall (fun k => D k f) ks /\ leads p OK D (Qs i) ks m.
Lemma lead_turn {A} p OK D (Qs : nat -> list nat -> A -> Prop) s s' : turn s s' -> all_lead p OK D Qs s -> all_lead p OK D Qs s' /\ forall q, q <> p -> fst s' q = fst s q.
Proof.
  intros T (f & P & O & S). destruct T as [d ps i q k E|d ps i q w m E|d ps i m E _]; cbn [fst snd] in *.
  - split; [|reflexivity]. exists f. split; [exact P|]. split; [exact O|]. cbn [snd]. intros j m' E'. apply upd_nth in E'. destruct E' as [[-> E']|[_ E']]; [|now apply S]. injection E' as ->.
    destruct (S j _ E) as (ks & F & L). inversion L; subst. rewrite P. eauto.
  - destruct (S i _ E) as (ks & F & L). inversion L as [| |ks' k w' m' C LM]; subst. rewrite P. destruct (C f O) as (O' & DK & KEEP). split.
    + exists (w (Some f)). cbn [fst snd]. split; [unfold put; now rewrite Nat.eqb_refl|]. split; [exact O'|]. intros j m' E'. apply upd_nth in E'. destruct E' as [[-> E']|[_ E']].
      * injection E' as ->. exists (k :: ks). split; [|exact LM]. constructor; [exact DK|]. eapply Forall_impl; [|exact F]. exact KEEP.
      * destruct (S j _ E') as (ks1 & F1 & L1). exists ks1. split; [|exact L1]. eapply Forall_impl; [|exact F1]. exact KEEP.
    + intros r NR. unfold put. now rewrite (proj2 (Nat.eqb_neq _ _) NR).
  - split; [|reflexivity]. exists f. split; [exact P|]. split; [exact O|]. cbn [snd]. intros j m' E'. apply upd_nth in E'. destruct E' as [[_ E']|[_ E']]; [discriminate E'|now apply S].
Qed.
Lemma lead_turns {A} p OK D (Qs : nat -> list nat -> A -> Prop) s s' : turns s s' -> all_lead p OK D Qs s -> all_lead p OK D Qs s' /\ forall q, q <> p -> fst s' q = fst s q.
Proof.
  intros T. induction T as [s|s s1 s2 T TS IH]; [auto|]. intros S. destruct (lead_turn _ _ _ _ _ _ T S) as [S1 F1]. destruct (IH S1) as [S2 F2]. split; [exact S2|]. intros q NQ. rewrite F2 by exact NQ. now apply F1.
Qed.

Section Runs.
Context (H : list byte -> list byte) (pr : profile) (params : PosPara) (key : Z) (n m : nat).
Context (SET : setting H pr params key n m).
Notation upl := (unit_pl params).
Notation bpl := (block_pl params).
Context (tasks : list task) (p : place) (f0 : file).
Context (K3 : forall iv, In (Unseal iv) tasks -> forall d, (le2z (H d) < key < 256 ^ Z.of_nat upl)%Z).
Context (F0 : sealable params key n m f0).
Definition after_passes (c k : nat) (us : list (list byte)) : Prop :=
  forall j u0 u, nth_error (chunks upl m (blk params f0 k)) j = Some u0 -> nth_error us j = Some u -> passes H params key tasks c (le2z u0) (le2z u).
Definition fine_block (k : nat) (us : list (list byte)) : Prop := block_ok params key m us /\ exists c, after_passes c k us.
Definition worked_file (g : file) : Prop :=
  length g = length f0 /\ (forall x, n * bpl <= x -> nth x g x00 = nth x f0 x00) /\ forall k, k < n -> fine_block k (chunks upl m (blk params g k)).
Definition passed (k : nat) (g : file) : Prop := exists c, after_passes (S c) k (chunks upl m (blk params g k)).
Notation Views := (views p worked_file).
Notation Leads := (leads p worked_file passed).

Lemma start_worked : worked_file f0.
Proof using SET F0.
  split; [reflexivity|]. split; [reflexivity|]. intros k K. split; [now apply (sealable_file_ok _ _ _ _ _ _ SET f0 F0)|].
  exists 0. intros j u0 u A B. rewrite A in B. injection B as ->. constructor.
Qed.
Lemma view_block_any k : Views (fun us => length us = m) (read_block_p params p k).
Proof using SET.
  constructor. intros f _. cbn [data next]. apply (views_calc _ _ _ _ (chunks upl m (blk params f k))); [|apply chunks_length].
  exact (read_block_ok params m (upl_pos _ _ _ _ _ _ SET) (bpl_eq _ _ _ _ _ _ SET) f k).
Qed.
Lemma view_block k : k < n -> Views (fine_block k) (read_block_p params p k).
Proof using SET.
  intros K. constructor. intros f (_ & _ & F). cbn [data next]. apply (views_calc _ _ _ _ (chunks upl m (blk params f k))); [|now apply F].
  exact (read_block_ok params m (upl_pos _ _ _ _ _ _ SET) (bpl_eq _ _ _ _ _ _ SET) f k).
Qed.
Lemma lead_put {A} (Q : list nat -> A -> Prop) ks k us c (rest : proc A) : k < n -> block_ok params key m us -> after_passes (S c) k us -> Leads Q (k :: ks) rest ->
  Leads Q ks (next (p_write p (k * bpl) (com_units us)) (fun _ => rest)).
Proof using SET F0 K3.
  intros K B PS LR. apply (leads_change _ _ _ _ ks k); [|exact LR]. intros f (L & T & F). cbn [data].
  pose proof (com_len params key m (bpl_eq _ _ _ _ _ _ SET) us B) as CL. pose proof (mul_lt_block params k n K) as LK. destruct F0 as [L0 _].
  assert (SAME : chunks upl m (blk params (write_at f (k * bpl) (com_units us)) k) = us).
  { rewrite write_blk_same by lia. apply (chunks_com params m). now apply (block_ok_shaped params key). }
  assert (PK : passed k (write_at f (k * bpl) (com_units us))) by (exists c; now rewrite SAME).
  split; [|split; [exact PK|]].
  - split; [rewrite write_at_length by lia; exact L|]. split.
    + intros x X. rewrite write_at_nth_any. destruct (Nat.leb_spec (k * bpl) x), (Nat.ltb_spec x (k * bpl + length (com_units us))); cbn [andb]; try lia; now apply T.
    + intros j J. destruct (Nat.eq_dec j k) as [->|NE].
      * rewrite SAME. split; [exact B|eauto].
      * rewrite write_blk_other by lia. now apply F.
  - intros j PJ. destruct (Nat.eq_dec j k) as [->|NE]; [exact PK|]. unfold passed. now rewrite write_blk_other by lia.
Qed.
Lemma fine_after c k us us' R : block_ok params key m us -> after_passes c k us -> block_ok params key m us' -> steps_done R (fun _ => seal_rounds params) us us' ->
  (forall c x y z, passes H params key tasks c x y -> times R (seal_rounds params) y z -> passes H params key tasks (S c) x z) -> after_passes (S c) k us'.
Proof.
  intros B PS B' D C j u0 u N0 N. destruct (nth_error us j) as [v|] eqn:V.
  - eapply C; [eapply PS; eassumption|eapply D; eassumption].
  - apply nth_error_None in V. destruct B as [<- _], B' as [L' _]. assert (j < length us') by (apply nth_error_Some; congruence). lia.
Qed.

Lemma lead_seal iv : In (Seal iv) tasks -> Leads (fun ks ids => (length ids = n /\ Forall (fun i => length i = 32) ids) /\ forall k, k < n -> In k ks) [] (seal_p H pr params p key iv).
Proof using SET F0 K3.
  intros IT. destruct (tabl_ex _ _ _ _ _ _ SET) as ((il & is) & T1 & T2 & T3 & T4). cbn [fst snd] in *.
  unfold seal_p. constructor. intros f _. cbn [next]. eapply leads_views; [apply (views_calc _ _ (fun x => x = n) _ n); [apply (set_nblocks _ _ _ _ _ _ SET)|reflexivity]|]. intros ? ->.
  eapply leads_views; [apply (views_calc _ _ (fun x => x = il) _ il); [exact T1|reflexivity]|]. intros ? ->.
  eapply leads_views; [apply (views_calc _ _ (fun x => x = is) _ is); [exact T3|reflexivity]|]. intros ? ->.
  pose (Inv := fun (i : nat) (ks : list nat) (st : list (list byte) * list Z) => length (fst st) = n /\ (forall k id, k < i -> nth_error (fst st) k = Some id -> length id = 32) /\ forall k, k < i -> In k ks).
  eapply leads_next; [apply (leads_each p worked_file passed Inv) with (i := 0)|].
  - intros k k' ks st N (IL & II & IK). assert (K : k' = k /\ k < n).
    { assert (k < n) by (rewrite <- (seq_length n 0); apply nth_error_Some; congruence). rewrite (nth_error_nth' _ 0) in N by (now rewrite seq_length). rewrite seq_nth in N by assumption. injection N as <-. auto. }
    destruct K as [-> K]. cbn [Nat.add] in *. eapply leads_views; [now apply view_block|]. intros cur (BC & c & PC).
    assert (BID : exists b, k <> 0 -> index (fst st) (k - 1) = Ok b).
    { destruct (index_ok (fst st) (k - 1) ltac:(lia)) as (b & E). exists b. auto. }
    destruct BID as (b & EB).
    eapply leads_views.
    { unfold seal_depend_p. destruct (pick_l_ok H params n m il (hh _ _ _ _ _ _ SET) (upl_pos _ _ _ _ _ _ SET) (bpl_eq _ _ _ _ _ _ SET) T2 b k K) as (l & PL & _).
      eapply views_next; [apply (views_calc _ _ (fun _ => True) _ l); [|exact I]|intros l' _; apply (views_all _ _ (fun us => length us = m)); intros; apply view_block_any].
      rewrite <- PL. unfold pick_l. destruct (mode_l params =? 0); [|reflexivity]. destruct (Nat.eqb_spec k 0) as [|NZ]; [reflexivity|]. rewrite EB by exact NZ. cbn [bind]. destruct (cnt_l params =? 0); reflexivity. }
    intros deps D. destruct (frounds_steps H pr params key n m SET is deps (if k =? 0 then iv else b) cur (snd st) T4 D BC) as (us' & log' & EF & B' & R').
    eapply leads_views; [apply (views_calc _ _ (fun x => x = (us', log')) _ (us', log')); [|reflexivity]|].
    { rewrite (seal_block_rounds_frounds H params key iv is deps (fst st) k m cur (snd st) b (proj1 BC) EB). exact EF. }
    intros ? ->. eapply leads_views; [apply (views_calc _ _ (fun x => x = upd (fst st) k (H (com_units us'))) _ (upd (fst st) k (H (com_units us')))); [apply set_index_ok; lia|reflexivity]|]. intros ? ->.
    eapply (lead_put _ _ _ _ c); [exact K|exact B'| |].
    + eapply fine_after; [exact BC|exact PC|exact B'|exact R'|]. intros; eapply pass_seal; eassumption.
    + constructor. split; [cbn [fst]; now rewrite upd_length|]. cbn [fst]. split.
      * intros j id J N'. apply upd_nth_any in N'. destruct N' as [[-> N']|[NE N']]; [subst id; apply (set_hash _ _ _ _ _ _ SET)|]. apply (II j id); [lia|exact N'].
      * intros j J. destruct (Nat.eq_dec j k) as [->|]; [now left|right; apply IK; lia].
  - split; [apply repeat_length|]. split; intros; lia.
  - intros ks st (IL & II & IK). rewrite seq_length in *. constructor. split; [|exact IK]. split; [exact IL|]. apply Forall_forall. intros id IN. apply In_nth_error in IN as (k & N). apply (II k id); [|exact N]. cbn [Nat.add]. rewrite <- IL. apply nth_error_Some. congruence.
Qed.
Lemma lead_unseal iv : In (Unseal iv) tasks -> Leads (fun ks _ => forall k, k < n -> In k ks) [] (unseal_p H pr params p key iv).
Proof using SET F0 K3.
  intros IT. destruct (tabl_ex _ _ _ _ _ _ SET) as ((il & is) & T1 & T2 & T3 & T4). cbn [fst snd] in *.
  unfold unseal_p. constructor. intros f _. cbn [next]. eapply leads_views; [apply (views_calc _ _ (fun x => x = n) _ n); [apply (set_nblocks _ _ _ _ _ _ SET)|reflexivity]|]. intros ? ->.
  eapply leads_views; [apply (views_calc _ _ (fun x => x = il) _ il); [exact T1|reflexivity]|]. intros ? ->.
  eapply leads_views; [apply (views_calc _ _ (fun x => x = is) _ is); [exact T3|reflexivity]|]. intros ? ->.
  pose (Inv := fun (i : nat) (ks : list nat) (st : unit) => forall k, k < n -> n - i <= k -> In k ks).
  eapply leads_imp; [apply (leads_each p worked_file passed Inv _ (seq 0 n) 0 [] tt)|].
  - intros q i ks [] N IK. assert (QI : i = q /\ q < n).
    { assert (q < n) by (rewrite <- (seq_length n 0); apply nth_error_Some; congruence). rewrite (nth_error_nth' _ 0) in N by (now rewrite seq_length). rewrite seq_nth in N by assumption. injection N as <-. auto. }
    destruct QI as [-> QN]. cbn [Nat.add] in *. cbv zeta. set (k := n - 1 - q). assert (KN : k < n) by lia.
    assert (SB : Views (fun _ => True) (before_id_p H params p k)).
    { unfold before_id_p. destruct (negb (k =? 0)); [|now constructor]. constructor. intros g _. cbn [next]. now constructor. }
    eapply leads_views; [exact SB|]. intros b _. eapply leads_views; [now apply view_block|]. intros cur (BC & c & PC).
    eapply leads_views with (Q := Forall (fun us => length us = m)).
    { unfold unseal_depend_p. destruct (pick_l_ok H params n m il (hh _ _ _ _ _ _ SET) (upl_pos _ _ _ _ _ _ SET) (bpl_eq _ _ _ _ _ _ SET) T2 b k KN) as (l & PL & _). unfold pick_l in PL. destruct (mode_l params =? 0).
      - eapply views_next; [apply (views_calc _ _ (fun x => x = l) _ l); [|reflexivity]|].
        + rewrite <- PL. destruct (k =? 0); [reflexivity|]. destruct (cnt_l params =? 0); reflexivity.
        + intros ? ->. apply views_all. intros j J. apply in_seq in J. destruct (index_ok l j ltac:(lia)) as (x & EX). eapply views_next; [apply (views_calc _ _ (fun _ => True) _ x EX I)|]. intros x' _. apply view_block_any.
      - eapply views_next; [apply (views_calc _ _ (fun _ => True) _ l PL I)|]. intros l' _. apply views_all. intros; apply view_block_any. }
    intros deps D. destruct (brounds_steps H pr params key n m SET is deps (if k =? 0 then iv else b) cur (K3 iv IT) T4 D BC) as (us' & EF & B' & R').
    eapply leads_views; [apply (views_calc _ _ (fun x => x = us') _ us'); [|reflexivity]|].
    { rewrite (unseal_block_rounds_brounds H params key iv is deps k m cur b (proj1 BC)). exact EF. }
    intros ? ->. apply (lead_put (Inv (S q)) ks k us' c (Halt (Ok tt))); [exact KN|exact B'| |].
    + eapply fine_after; [exact BC|exact PC|exact B'|exact R'|]. intros; eapply pass_unseal; eassumption.
    + constructor. intros j JN J. destruct (Nat.eq_dec j k) as [->|]; [now left|right; apply IK; lia].
  - intros k K K'. lia.
  - intros ks [] IK k K. apply IK; [exact K|]. rewrite seq_length. lia.
Qed.
Lemma lead_task t : In t tasks -> Leads (fun ks a => returned n t a /\ forall k, k < n -> In k ks) [] (task_run H pr params key p t).
Proof using SET F0 K3.
  destruct t as [iv|iv]; intros I; cbn [task_run].
  - eapply leads_next; [now apply lead_seal|]. intros ks ids [Q K]. constructor. now split.
  - eapply leads_next; [now apply lead_unseal|]. intros ks [] K. constructor. now split.
Qed.
End Runs.

Lemma turns_length {A} (s s' : shared A) : turns s s' -> length (snd s') = length (snd s).
Proof. intros T. induction T as [s|s s1 s2 T TS IH]; [reflexivity|]. rewrite IH. destruct T; cbn [snd]; apply upd_len. Qed.
(** In every schedule with kills: no run panics, the file is sealable at every moment, its
    length and the bytes after the blocks stay, and each unit has gone through whole passes
    only: at least one, once some run has ended.  No other file is touched. *)
Theorem C121_side : forall H pr params key n m p tasks d f, setting H pr params key n m ->
  (forall iv, In (Unseal iv) tasks -> forall w, (le2z (H w) < key < 256 ^ Z.of_nat (unit_pl params))%Z) ->
  d p = Some f -> sealable params key n m f ->
  forall d' ps, turns (d, map (fun t => Some (task_run H pr params key p t)) tasks) (d', ps) ->
  (exists g, d' p = Some g /\ length g = length f /\ sealable params key n m g /\
     (forall x, n * block_pl params <= x -> nth x g x00 = nth x f x00) /\
     forall k, k < n * m -> exists c, passes H params key tasks c (le2z (unit_bytes params f k)) (le2z (unit_bytes params g k)) /\
       forall i r, nth_error ps i = Some (Some (Halt r)) -> 0 < c) /\
  (forall q, q <> p -> d' q = d q) /\
  (forall i t r, nth_error tasks i = Some t -> nth_error ps i = Some (Some (Halt r)) -> exists a, r = Ok a /\ returned n t a).
Proof.
  intros H pr params key n m p tasks d f SET K3 DP SL d' ps T.
  pose (Q := fun i (ks : list nat) a => forall t, nth_error tasks i = Some t -> returned n t a /\ forall k, k < n -> In k ks).
  assert (S0 : all_lead p (worked_file H params key n m tasks f) (passed H params key m tasks f) Q (d, map (fun t => Some (task_run H pr params key p t)) tasks)).
  { exists f. split; [exact DP|]. split; [eapply start_worked; eassumption|]. cbn [snd]. intros i x E. rewrite nth_error_map in E. destruct (nth_error tasks i) as [t|] eqn:ET; [|discriminate]. injection E as <-.
    exists []. split; [constructor|]. eapply leads_imp; [eapply lead_task; try eassumption; eapply nth_error_In; exact ET|]. intros ks a R t' ET'. rewrite ET in ET'. now injection ET' as <-. }
  destruct (lead_turns _ _ _ _ _ _ T S0) as [(g & G & (L & TL & B) & S1) FR]. cbn [fst snd] in *. pose proof (proj1 SL) as L0. split; [|split].
  - exists g. split; [exact G|]. split; [exact L|]. split; [apply (file_ok_sealable _ _ _ _ _ _ SET); split; [lia|]; intros k K; now apply B|]. split; [exact TL|].
    intros q K. assert (M0 : m <> 0) by nia. pose proof (Nat.div_mod q m M0) as E. pose proof (Nat.mod_upper_bound q m M0) as R.
    assert (KN : q / m < n) by (apply Nat.div_lt_upper_bound; lia). pose proof (mul_lt_block params (q / m) n KN) as LK.
    assert (U : forall h, length h = length f -> nth_error (chunks (unit_pl params) m (blk params h (q / m))) (q mod m) = Some (unit_bytes params h q)).
    { intros h LH. rewrite (unit_of_block _ _ _ _ _ _ SET) by lia. do 2 f_equal. lia. }
    assert (DEC : (exists i r, nth_error ps i = Some (Some (Halt r))) \/ ~ (exists i r, nth_error ps i = Some (Some (Halt r)))).
    { clear. induction ps as [|x ps IH]; [right; intros ([|i] & r & E); discriminate|]. destruct IH as [(i & r & E)|N]; [left; exists (S i), r; exact E|].
      assert (NO : (forall r, x <> Some (Halt r)) -> ~ (exists i r, nth_error (x :: ps) i = Some (Some (Halt r)))).
      { intros X ([|i] & r & E); [injection E as E; now apply (X r)|]. apply N. exists i, r. exact E. }
      destruct x as [[r|p k|p w m]|]; [left; exists 0, r; reflexivity|right; apply NO; discriminate..]. }
    destruct DEC as [(i & r & EP)|NO].
    + assert (IT : i < length tasks) by (pose proof (turns_length _ _ T) as LT; cbn [snd] in LT; rewrite map_length in LT; rewrite <- LT; apply nth_error_Some; congruence).
      destruct (S1 i _ EP) as (ks & FK & LD). assert (IK : forall k, k < n -> In k ks).
      { inversion LD; subst. destruct (nth_error tasks i) as [t|] eqn:ET; [|apply nth_error_None in ET; lia]. match goal with X : Q i ks _ |- _ => now apply (X t ET) end. }
      rewrite Forall_forall in FK. destruct (FK _ (IK _ KN)) as (c & P). exists (S c). split; [apply (P (q mod m)); now apply U|]. intros; lia.
    + destruct (B (q / m) KN) as [_ (c & P)]. exists c. split; [apply (P (q mod m)); now apply U|]. intros i r EP. elim NO. eauto.
  - exact FR.
  - intros i t r ET EP. destruct (S1 i _ EP) as (ks & _ & LD). inversion LD; subst. match goal with X : Q i ks ?a |- _ => exists a; split; [reflexivity|]; now apply (X t ET) end.
Qed.
Print Assumptions C121_side.

(** * Nested runs *)
(** Each of the ivs seals what the one before left, then they unseal in the opposite order. *)
Inductive nested (H : list byte -> list byte) (pr : profile) (params : PosPara) (key : Z) : list (list byte) -> file -> file -> Prop :=
| nest_none : forall f, nested H pr params key [] f f
| nest_more : forall iv ivs f st g, seal H pr params key iv f = Ok st -> ~ In 0%Z (s_log st) -> nested H pr params key ivs (s_file st) g -> nested H pr params key (iv :: ivs) f g.
Theorem C121_nested : forall H pr params key n m, setting H pr params key n m -> sound_key H key -> mode_l params = 0 ->
  forall ivs f g, sealable params key n m f -> nested H pr params key ivs f g ->
  foldM (fun x iv => unseal H pr params key iv x) (rev ivs) g = Ok f.
Proof.
  intros H pr params key n m SET SK M ivs f g SL N. induction N as [f|iv ivs f st g E NZ N IH]; [reflexivity|]. cbn [rev].
  destruct (C22_seal_total H pr params key iv n m SET f SL) as (st' & E' & _ & _ & SL' & _). rewrite E in E'. injection E' as <-.
  rewrite foldM_app, IH by exact SL'. cbn [bind foldM]. rewrite (C23_unseal_seal H pr params key iv n m SET f st SK M SL E NZ). reflexivity.
Qed.
Print Assumptions C121_nested.

(** * Examples *)
(** A toy hash that tells ivs apart. *)
Definition hrev (d : list byte) : list byte := hsum (rev d).
Definition hands_params : PosPara := ex_params 1 0 0 0 10.
Lemma hands_setting : setting hrev Debug hands_params ex_key 3 2.
Proof. apply ex_setting; [intros d; apply hsum_32|left; lia|cbn; lia]. Qed.
Lemma hands_sound : sound_key hrev ex_key.
Proof. split; [apply ex_key_prime|reflexivity|]. intros d. apply ex_sound. Qed.
Definition hands_start (tasks : list task) : shared (option (list (list byte))) :=
  (fun q : nat => if q =? 0 then Some ex_file else None, map (fun t => Some (task_run hrev Debug hands_params ex_key 0 t)) tasks).
Definition hands (tasks : list task) (l : list nat) : shared (option (list (list byte))) := by_list l (hands_start tasks).
Definition all_ended {A} (s : shared A) : bool := forallb (fun x => match x with Some (Halt (Ok _)) => true | _ => false end) (snd s).
Definition left_over {A} (s : shared A) : file := data (fst s 0).
Lemma hands_said tasks l : all_ended (hands tasks l) = true -> turns (hands_start tasks) (hands tasks l) /\ forall i x, nth_error (snd (hands tasks l)) i = Some x -> exists a, x = Some (Halt (Ok a)).
Proof.
  intros E. split; [apply by_list_turns|]. intros i x N. unfold all_ended in E. rewrite forallb_forall in E. specialize (E x (nth_error_In _ _ N)). destruct x as [[[a|]|p k|p w m]|]; try discriminate. eauto.
Qed.
Definition sealed_with (iv : list byte) (f : file) : file := match seal hrev Debug hands_params ex_key iv f with Ok st => s_file st | Panic => [] end.
Lemma sealed_with_ok iv f st : seal hrev Debug hands_params ex_key iv f = Ok st -> s_file st = sealed_with iv f.
Proof. intros E. unfold sealed_with. now rewrite E. Qed.
(** The second run seals the file while the first is in the middle of its first block. *)
Definition mixed : file := left_over (hands [Seal [x03]; Seal [x05]] ([0; 0] ++ repeat 1 40 ++ repeat 0 40)).
Lemma mixed_new : all_ended (hands [Seal [x03]; Seal [x05]] ([0; 0] ++ repeat 1 40 ++ repeat 0 40)) = true /\
  map (bytes_eqb mixed) [sealed_with [x03] ex_file; sealed_with [x05] ex_file; sealed_with [x05] (sealed_with [x03] ex_file); sealed_with [x03] (sealed_with [x05] ex_file)] = [false; false; false; false].
Proof. split; vm_compute; reflexivity. Qed.
(** Two runs that seal one file side by side, and both report success, can leave a file that
    neither leaves alone, and that neither order of the two leaves. *)
Theorem C121_serial_refuted :
  ~ (forall H pr params key n m p iv1 iv2 d f d' a1 a2 g, setting H pr params key n m -> sound_key H key -> sealable params key n m f -> d p = Some f ->
     turns (d, map (fun t => Some (task_run H pr params key p t)) [Seal iv1; Seal iv2]) (d', [Some (Halt (Ok a1)); Some (Halt (Ok a2))]) -> d' p = Some g ->
     exists st, g = s_file st /\ (seal H pr params key iv1 f = Ok st \/ seal H pr params key iv2 f = Ok st \/
       (exists st1, seal H pr params key iv1 f = Ok st1 /\ seal H pr params key iv2 (s_file st1) = Ok st) \/
       (exists st2, seal H pr params key iv2 f = Ok st2 /\ seal H pr params key iv1 (s_file st2) = Ok st))).
Proof.
  intros X. destruct mixed_new as [E N]. destruct (hands_said _ _ E) as [T A]. clear E. unfold mixed in N.
  pose proof (C121_side hrev Debug hands_params ex_key 3 2 0 [Seal [x03]; Seal [x05]] (fst (hands_start [Seal [x03]; Seal [x05]])) ex_file hands_setting ltac:(intros iv [Y|[Y|[]]]; discriminate Y) eq_refl
    (ex_sealable 1 0 0 0 10)) as SIDE. fold (hands_start [Seal [x03]; Seal [x05]]) in SIDE.
  destruct (hands [Seal [x03]; Seal [x05]] ([0; 0] ++ repeat 1 40 ++ repeat 0 40)) as [d' ps]. unfold left_over in N. cbn [fst snd] in *.
  destruct (SIDE d' ps T) as [(g & G & _) _]. rewrite G in N. cbn [data] in N.
  assert (LP : length ps = 2) by (rewrite (turns_length _ _ T : length ps = _); reflexivity).
  clear SIDE. destruct ps as [|x [|y [|z ps]]]; try discriminate LP. destruct (A 0 x eq_refl) as (a1 & ->). destruct (A 1 y eq_refl) as (a2 & ->).
  destruct (X hrev Debug hands_params ex_key 3 2 0 [x03] [x05] _ ex_file d' a1 a2 g hands_setting hands_sound (ex_sealable 1 0 0 0 10) eq_refl T G) as (st & -> & C). cbn [map] in N.
  injection N as N1 N2 N3 N4. destruct C as [C|[C|[(st1 & C1 & C)|(st2 & C2 & C)]]].
  - rewrite (sealed_with_ok _ _ _ C), bytes_eqb_refl in N1. discriminate N1.
  - rewrite (sealed_with_ok _ _ _ C), bytes_eqb_refl in N2. discriminate N2.
  - rewrite (sealed_with_ok _ _ _ C), (sealed_with_ok _ _ _ C1), bytes_eqb_refl in N3. discriminate N3.
  - rewrite (sealed_with_ok _ _ _ C), (sealed_with_ok _ _ _ C2), bytes_eqb_refl in N4. discriminate N4.
Qed.
Print Assumptions C121_serial_refuted.

(** Sealed by one and then another, and unsealed in the order of sealing. *)
Definition order_trial (back : list (list byte)) : bool :=
  match seal hrev Debug hands_params ex_key [x03] ex_file with
  | Ok st1 => match seal hrev Debug hands_params ex_key [x05] (s_file st1) with
      | Ok st2 => no_zero (s_log st1) && no_zero (s_log st2) && match foldM (fun x iv => unseal hrev Debug hands_params ex_key iv x) back (s_file st2) with Ok h => negb (bytes_eqb h ex_file) | Panic => false end
      | Panic => false
      end
  | Panic => false
  end.
Lemma order_bad : order_trial [[x03]; [x05]] = true.
Proof. vm_compute. reflexivity. Qed.
Lemma order_said back : order_trial back = true -> exists st1 st2 h, seal hrev Debug hands_params ex_key [x03] ex_file = Ok st1 /\ ~ In 0%Z (s_log st1) /\
  seal hrev Debug hands_params ex_key [x05] (s_file st1) = Ok st2 /\ ~ In 0%Z (s_log st2) /\ foldM (fun x iv => unseal hrev Debug hands_params ex_key iv x) back (s_file st2) = Ok h /\ h <> ex_file.
Proof.
  unfold order_trial. destruct (seal hrev Debug hands_params ex_key [x03] ex_file) as [st1|] eqn:E1; [|intros T; discriminate T]. destruct (seal hrev Debug hands_params ex_key [x05] (s_file st1)) as [st2|] eqn:E2; [|intros T; discriminate T].
  destruct (foldM _ back (s_file st2)) as [h|] eqn:E3; [|rewrite andb_false_r; intros T; discriminate T]. intros T. apply andb_true_iff in T as [T T3]. apply andb_true_iff in T as [T1 T2].
  exists st1, st2, h. split; [reflexivity|]. split; [now apply no_zero_ok|]. split; [exact E2|]. split; [now apply no_zero_ok|]. split; [exact E3|]. apply bytes_eqb_neq. now apply negb_true_iff.
Qed.
(** Unsealing in the order of sealing does not give the file back, and reports success. *)
Theorem C121_order_refuted :
  ~ (forall H pr params key n m ivs f g h, setting H pr params key n m -> sound_key H key -> mode_l params = 0 -> sealable params key n m f -> nested H pr params key ivs f g ->
     foldM (fun x iv => unseal H pr params key iv x) ivs g = Ok h -> h = f).
Proof.
  intros X. destruct (order_said _ order_bad) as (st1 & st2 & h & E1 & Z1 & E2 & Z2 & E3 & NE). apply NE.
  apply (X hrev Debug hands_params ex_key 3 2 [[x03]; [x05]] ex_file (s_file st2) h hands_setting hands_sound eq_refl (ex_sealable 1 0 0 0 10)); [|exact E3].
  apply (nest_more _ _ _ _ _ _ _ st1); [exact E1|exact Z1|]. apply (nest_more _ _ _ _ _ _ _ st2); [exact E2|exact Z2|]. constructor.
Qed.
Print Assumptions C121_order_refuted.
Definition three : list task := [Seal [x03]; Unseal [x04]; Seal [x05]].
Lemma three_end : all_ended (hands three (concat (repeat [0; 1; 2] 40))) && negb (bytes_eqb (left_over (hands three (concat (repeat [0; 1; 2] 40)))) ex_file) = true.
Proof. vm_compute. reflexivity. Qed.
(** Three runs side by side that all end: two that seal, one that unseals. *)
Example C121_ex : setting hrev Debug hands_params ex_key 3 2 /\ (forall w, (le2z (hrev w) < ex_key < 256 ^ Z.of_nat (unit_pl hands_params))%Z) /\
  sealable hands_params ex_key 3 2 ex_file /\ exists d' ps, turns (hands_start three) (d', ps) /\ (forall i x, nth_error ps i = Some x -> exists a, x = Some (Halt (Ok a))) /\ d' 0 <> Some ex_file.
Proof.
  split; [exact hands_setting|]. split; [intros w; split; [apply hands_sound|reflexivity]|]. split; [apply (ex_sealable 1 0 0 0 10)|].
  pose proof three_end as TR. apply andb_true_iff in TR as [E N]. destruct (hands_said _ _ E) as [T A]. clear E. destruct (hands three (concat (repeat [0; 1; 2] 40))) as [d' ps]. exists d', ps. split; [exact T|]. split; [exact A|].
  intros D. unfold left_over in N. cbn [fst] in N. rewrite D in N. cbn [data] in N. rewrite bytes_eqb_refl in N. discriminate N.
Qed.
(** Two nested runs exist. *)
Example C121_ex_nested : exists g, nested hrev Debug hands_params ex_key [[x03]; [x05]] ex_file g.
Proof.
  destruct (order_said _ order_bad) as (st1 & st2 & h & E1 & Z1 & E2 & Z2 & _). exists (s_file st2).
  apply (nest_more _ _ _ _ _ _ _ st1); [exact E1|exact Z1|]. apply (nest_more _ _ _ _ _ _ _ st2); [exact E2|exact Z2|]. constructor.
Qed.
