(** Proof machinery for sealing: one unit, one block. *)
From Verif Require Import Base Legendre Sloth Common Depend Prover NumTheory SlothFacts BytesFacts
  DependFacts DependDet VdeFacts.
From Coq Require Import Znumtheory.
Local Open Scope nat_scope.

(** * Loops *)
Lemma foldM_map {A B S} (f : S -> B -> res S) (g : A -> B) l s :
  foldM f (map g l) s = foldM (fun s a => f s (g a)) l s.
Proof. revert s. induction l as [|a l IH]; intros s; [reflexivity|]. cbn. destruct (f s (g a)); [apply IH|reflexivity]. Qed.
Lemma foldM_ext {A S} (f g : S -> A -> res S) l s :
  (forall a s, In a l -> f s a = g s a) -> foldM f l s = foldM g l s.
Proof.
  revert s. induction l as [|a l IH]; intros s E; [reflexivity|]. cbn. rewrite E by now left.
  destruct (g s a); [|reflexivity]. cbn. apply IH. intros b s' I. apply E. now right.
Qed.
Lemma foldM_const {A B S} (f : S -> res S) (l : list A) (l' : list B) s : length l = length l' ->
  foldM (fun s _ => f s) l s = foldM (fun s _ => f s) l' s.
Proof.
  revert l' s. induction l as [|a l IH]; intros [|b l'] s L; try discriminate; [reflexivity|].
  cbn. destruct (f s); [|reflexivity]. cbn. apply IH. now injection L.
Qed.
Lemma rev_seq n : rev (seq 0 n) = map (fun j => n - 1 - j) (seq 0 n).
Proof.
  induction n as [|n IH]; [reflexivity|]. rewrite seq_S at 1. rewrite rev_app_distr. cbn [rev app plus].
  cbn [seq map]. f_equal; [lia|]. rewrite IH, <- seq_shift, map_map. apply map_ext_in. intros j J.
  apply in_seq in J. lia.
Qed.

Lemma loop_undo {B A} (I : B -> Prop) (Q : Prop) (f : B * list Z -> A -> res (B * list Z)) (g : B -> A -> res B) l :
  (forall i b, In i l -> I b -> exists b' z, I b' /\ (forall log, f (b, log) i = Ok (b', z ++ log))
      /\ (Q -> ~ In 0%Z z -> g b' i = Ok b)) ->
  forall b, I b -> exists b' z, I b' /\ (forall log, foldM f l (b, log) = Ok (b', z ++ log))
      /\ (Q -> ~ In 0%Z z -> foldM g (rev l) b' = Ok b).
Proof.
  induction l as [|i l IH]; intros HS b Ib.
  - exists b, []. repeat split; auto.
  - destruct (HS i b ltac:(now left) Ib) as (b1 & z1 & I1 & F1 & G1).
    destruct (IH ltac:(intros; apply HS; auto; now right) b1 I1) as (b2 & z2 & I2 & F2 & G2).
    exists b2, (z2 ++ z1). repeat split; [exact I2| |].
    + intros log. cbn [foldM]. rewrite F1. cbn [bind]. rewrite F2. now rewrite app_assoc.
    + intros q N. cbn [rev]. rewrite foldM_app.
      rewrite G2 by (auto; intros X; apply N, in_or_app; now left). cbn [bind foldM].
      rewrite G1 by (auto; intros X; apply N, in_or_app; now right). reflexivity.
Qed.

Section Core.
Context (H : list byte -> list byte) (pr : profile) (params : PosPara) (key : Z) (iv : list byte).
Notation upl := (unit_pl params).

(** The bytes hashed into the mask: common form of all the copies in the code. *)
Definition md (idxs_s : list (list nat)) (deps : list (list (list byte))) (sfx : list byte)
           (m : nat) (cur : list (list byte)) (idx1 : nat) : res (list byte) :=
  let* long := foldM (fun acc b => let* u := index b idx1 in Ok (acc ++ u)) deps [] in
  let* idxs :=
    if negb (mode_s params =? 0) then index idxs_s idx1
    else if idx1 =? 0 then short_depend_random H m [] idx1 (cnt_s params)
    else
      let* d := index cur (idx1 - 1) in
      short_depend_random H m d idx1 (cnt_s params) in
  let* both := foldM (fun acc i => let* u := index cur i in Ok (acc ++ u)) idxs long in
  if idx1 =? 0 then Ok (both ++ sfx) else Ok both.

Definition short_ok (idxs_s : list (list nat)) (m : nat) : Prop :=
  if mode_s params =? 0 then (Z.of_nat m <= 65536)%Z
  else forall i, i < m -> exists row, index idxs_s i = Ok row /\ Forall (fun x => x < m /\ x <> i) row.

Definition unit_ok (u : list byte) : Prop := length u = upl /\ (le2z u < key)%Z.
Definition block_ok (m : nat) (us : list (list byte)) : Prop := length us = m /\ Forall unit_ok us.
Definition shaped (m : nat) (us : list (list byte)) : Prop := length us = m /\ Forall (fun u => length u = upl) us.
Definition deps_ok (m : nat) (deps : list (list (list byte))) : Prop := Forall (fun b => length b = m) deps.

Lemma block_ok_shaped m us : block_ok m us -> shaped m us.
Proof. intros [L F]. split; [exact L|]. eapply Forall_impl; [|exact F]. intros u [E _]. exact E. Qed.

Lemma gather_long deps m i : deps_ok m deps -> i < m -> forall acc,
  exists r, foldM (fun acc b => let* u := index b i in Ok (acc ++ u)) deps acc = Ok r.
Proof.
  intros D L. induction D as [|b deps E D IH]; intros acc; cbn [foldM]; [eauto|].
  destruct (index_ok b i ltac:(lia)) as (u & ->). cbn [bind]. apply IH.
Qed.
Lemma gather_short (cur : list (list byte)) idxs : Forall (fun x => x < length cur) idxs -> forall acc,
  exists r, foldM (fun acc i => let* u := index cur i in Ok (acc ++ u)) idxs acc = Ok r.
Proof.
  intros D. induction D as [|i idxs E D IH]; intros acc; cbn [foldM]; [eauto|].
  destruct (index_ok cur i E) as (u & ->). cbn [bind]. apply IH.
Qed.
Lemma gather_upd (cur : list (list byte)) idxs k v : Forall (fun x => x <> k) idxs -> forall acc,
  foldM (fun acc i => let* u := index (upd cur k v) i in Ok (acc ++ u)) idxs acc =
  foldM (fun acc i => let* u := index cur i in Ok (acc ++ u)) idxs acc.
Proof.
  intros D acc. apply foldM_ext. intros i s I. rewrite Forall_forall in D.
  rewrite index_upd_neq; [reflexivity|]. intros ->. exact (D _ I eq_refl).
Qed.

Lemma md_returns idxs_s deps sfx m cur i : hash_ok H -> short_ok idxs_s m -> deps_ok m deps ->
  length cur = m -> i < m -> exists d, md idxs_s deps sfx m cur i = Ok d.
Proof.
  intros HH S D L I. unfold md. destruct (gather_long deps m i D I []) as (long & ->). cbn [bind].
  assert (X : exists idxs, (if negb (mode_s params =? 0) then index idxs_s i
    else if i =? 0 then short_depend_random H m [] i (cnt_s params)
    else let* d := index cur (i - 1) in short_depend_random H m d i (cnt_s params)) = Ok idxs
     /\ Forall (fun x => x < m) idxs).
  { unfold short_ok in S. destruct (mode_s params =? 0); cbn [negb].
    - assert (Y : forall d, exists idxs, short_depend_random H m d i (cnt_s params) = Ok idxs /\ Forall (fun x => x < m) idxs).
      { intros d. destruct (short_depend_random_returns H m d i (cnt_s params) HH ltac:(lia)) as (l & E).
        exists l. split; [exact E|]. apply short_depend_random_props in E as (_ & F & _).
        eapply Forall_impl; [|exact F]. cbn. tauto. }
      destruct (i =? 0); [apply Y|]. destruct (index_ok cur (i - 1) ltac:(lia)) as (d & ->). apply Y.
    - destruct (S i I) as (row & E & F). exists row. split; [exact E|]. eapply Forall_impl; [|exact F]. cbn; tauto. }
  destruct X as (idxs & -> & F). cbn [bind]. rewrite <- L in F.
  destruct (gather_short cur idxs F long) as (both & ->). cbn [bind]. destruct (i =? 0); eauto.
Qed.

Lemma md_upd idxs_s deps sfx m cur i v : short_ok idxs_s m -> i < m ->
  md idxs_s deps sfx m (upd cur i v) i = md idxs_s deps sfx m cur i.
Proof.
  clear pr iv. intros S I. unfold md. destruct (foldM _ deps []) as [long|]; [|reflexivity]. cbn [bind].
  unfold short_ok in S. destruct (mode_s params =? 0); cbn [negb].
  - destruct (Nat.eqb_spec i 0) as [Z|NZ].
    + destruct (short_depend_random _ _ _ _ _) as [idxs|] eqn:E; [|reflexivity]. cbn [bind].
      apply short_depend_random_props in E as (_ & F & _). rewrite gather_upd; [reflexivity|].
      eapply Forall_impl; [|exact F]. cbn; tauto.
    + rewrite index_upd_neq by lia. destruct (index cur (i - 1)) as [d|]; [|reflexivity]. cbn [bind].
      destruct (short_depend_random _ _ _ _ _) as [idxs|] eqn:E; [|reflexivity]. cbn [bind].
      apply short_depend_random_props in E as (_ & F & _). rewrite gather_upd; [reflexivity|].
      eapply Forall_impl; [|exact F]. cbn; tauto.
  - destruct (S i I) as (row & -> & F). cbn [bind]. rewrite gather_upd; [reflexivity|].
    eapply Forall_impl; [|exact F]. cbn; tauto.
Qed.

Lemma seal_depend_data_md idxs_s deps ids idx2 m cur i b :
  (i = 0 -> idx2 <> 0 -> index ids (idx2 - 1) = Ok b) ->
  seal_depend_data H params iv idxs_s deps ids idx2 m cur i =
  md idxs_s deps (if idx2 =? 0 then iv else b) m cur i.
Proof.
  intros E. unfold seal_depend_data, md. destruct (foldM _ deps []) as [long|]; [|reflexivity]. cbn [bind].
  match goal with |- bind ?x _ = bind ?x _ => destruct x as [idxs|]; [|reflexivity] end. cbn [bind].
  destruct (foldM _ idxs long) as [both|]; [|reflexivity]. cbn [bind].
  destruct (Nat.eqb_spec i 0) as [I0|]; [|reflexivity]. destruct (Nat.eqb_spec idx2 0); [reflexivity|].
  rewrite E by assumption. reflexivity.
Qed.
Lemma unseal_depend_data_md idxs_s deps b idx2 m cur i :
  unseal_depend_data H params iv idxs_s deps b idx2 m cur i =
  md idxs_s deps (if idx2 =? 0 then iv else b) m cur i.
Proof.
  unfold unseal_depend_data, md. destruct (foldM _ deps []) as [long|]; [|reflexivity]. cbn [bind].
  match goal with |- bind ?x _ = bind ?x _ => destruct x as [idxs|]; [|reflexivity] end. cbn [bind].
  destruct (foldM _ idxs long) as [both|]; [|reflexivity]. cbn [bind].
  destruct (i =? 0); [|reflexivity]. destruct (idx2 =? 0); reflexivity.
Qed.

Definition fstep idxs_s deps sfx m (st : list (list byte) * list Z) (i : nat) : res (list (list byte) * list Z) :=
  let (cur, log) := st in
  let* d := md idxs_s deps sfx m cur i in
  let* u := index cur i in
  let* a := modadd u (H d) key in
  let* cur' := set_index cur i (vde a key (vde_rounds params) (vde_mode params) upl) in
  Ok (cur', le2z a :: log).
Definition bstep idxs_s deps sfx m (cur : list (list byte)) (i : nat) : res (list (list byte)) :=
  let* d := md idxs_s deps sfx m cur i in
  let* u := index cur i in
  let* a := modsub (vde_inv u key (vde_rounds params) (vde_mode params) upl) (H d) key in
  set_index cur i a.
Definition frounds idxs_s deps sfx m (st : list (list byte) * list Z) :=
  foldM (fun st _ => foldM (fstep idxs_s deps sfx m) (seq 0 m) st) (seq 0 (seal_rounds params)) st.
Definition brounds idxs_s deps sfx m (cur : list (list byte)) :=
  foldM (fun cb _ => foldM (bstep idxs_s deps sfx m) (rev (seq 0 m)) cb) (seq 0 (seal_rounds params)) cur.

Lemma seal_block_rounds_frounds idxs_s deps ids idx2 m cur log b : length cur = m ->
  (idx2 <> 0 -> index ids (idx2 - 1) = Ok b) ->
  seal_block_rounds H params key iv idxs_s deps ids idx2 (cur, log) =
  frounds idxs_s deps (if idx2 =? 0 then iv else b) m (cur, log).
Proof.
  intros <- E. unfold seal_block_rounds, frounds. cbn [fst]. apply foldM_ext. intros _ s _. apply foldM_ext.
  intros i [c l] I. cbn [seal_unit fstep]. rewrite (seal_depend_data_md _ _ _ _ _ _ _ b) by auto. reflexivity.
Qed.
Lemma unseal_block_rounds_brounds idxs_s deps idx2 m cur b : length cur = m ->
  unseal_block_rounds H params key iv idxs_s deps b idx2 cur =
  brounds idxs_s deps (if idx2 =? 0 then iv else b) m cur.
Proof.
  intros <-. unfold unseal_block_rounds, brounds. apply foldM_ext. intros _ s _.
  rewrite rev_seq, foldM_map. apply foldM_ext. intros i c I. unfold unseal_unit, bstep.
  rewrite unseal_depend_data_md. reflexivity.
Qed.

Definition good_key : Prop := prime key /\ (key mod 4 = 3)%Z /\ (forall d, le2z (H d) < key)%Z.

Hypothesis HH : hash_ok H.
Hypothesis K1 : (1 < key)%Z.
Hypothesis K2 : (key <= 256 ^ Z.of_nat upl)%Z.

Lemma hash_lt d : good_key -> (le2z (H d) < key)%Z.
Proof. intros (_ & _ & B). apply B. Qed.

Lemma fstep_ok idxs_s deps sfx m i cur : short_ok idxs_s m -> deps_ok m deps -> i < m -> block_ok m cur ->
  exists cur' z, block_ok m cur' /\ (forall log, fstep idxs_s deps sfx m (cur, log) i = Ok (cur', z ++ log))
  /\ (good_key -> ~ In 0%Z z -> bstep idxs_s deps sfx m cur' i = Ok cur).
Proof.
  clear pr iv. intros S D I [L F]. destruct (md_returns idxs_s deps sfx m cur i HH S D L I) as (d & Ed).
  destruct (index_ok cur i ltac:(lia)) as (u & Eu).
  assert (Uu : unit_ok u) by (rewrite Forall_forall in F; apply F; eapply index_In; exact Eu).
  destruct Uu as [Lu Bu].
  destruct (modadd_ok u (H d) key K1 ltac:(rewrite Lu; exact K2)) as (a & Ea & La & Va).
  assert (Ra : (0 <= le2z a < key)%Z) by (rewrite Va; apply Z.mod_pos_bound; lia).
  set (v := vde a key (vde_rounds params) (vde_mode params) upl).
  assert (Lv : length v = upl) by (apply vde_len; lia).
  exists (upd cur i v), [le2z a]. repeat split.
  - now rewrite upd_length.
  - apply Forall_upd; [exact F|]. split; [exact Lv|]. unfold v. rewrite vde_val. now apply sloth_abs.
  - intros log. unfold fstep. rewrite Ed. cbn [bind]. rewrite Eu. cbn [bind]. rewrite Ea. cbn [bind].
    rewrite set_index_ok by lia. reflexivity.
  - intros G N. unfold bstep. rewrite md_upd by assumption. rewrite Ed. cbn [bind].
    rewrite index_upd_eq by lia. cbn [bind]. pose proof (hash_lt d G) as Hd. destruct G as (P & P4 & PH).
    unfold v. rewrite vde_inv_vde; [|assumption..| |congruence].
    + rewrite (modsub_modadd u (H d) key a K1 ltac:(rewrite Lu; exact K2) Bu ltac:(lia) Ea). cbn [bind].
      rewrite set_index_ok by (rewrite upd_length; lia). rewrite upd_upd. f_equal. now apply upd_same.
    + cbn [In] in N. assert (le2z a <> 0%Z) by tauto. lia.
Qed.

Lemma funits_ok idxs_s deps sfx m cur : short_ok idxs_s m -> deps_ok m deps -> block_ok m cur ->
  exists cur' z, block_ok m cur' /\ (forall log, foldM (fstep idxs_s deps sfx m) (seq 0 m) (cur, log) = Ok (cur', z ++ log))
  /\ (good_key -> ~ In 0%Z z -> foldM (bstep idxs_s deps sfx m) (rev (seq 0 m)) cur' = Ok cur).
Proof.
  intros S D B. apply (loop_undo (block_ok m) good_key); [|exact B].
  intros i b I. apply in_seq in I. intros Bb. apply fstep_ok; auto; lia.
Qed.
Lemma frounds_ok idxs_s deps sfx m cur : short_ok idxs_s m -> deps_ok m deps -> block_ok m cur ->
  exists cur' z, block_ok m cur' /\ (forall log, frounds idxs_s deps sfx m (cur, log) = Ok (cur', z ++ log))
  /\ (good_key -> ~ In 0%Z z -> brounds idxs_s deps sfx m cur' = Ok cur).
Proof.
  intros S D B.
  destruct (loop_undo (block_ok m) good_key (fun st (_ : nat) => foldM (fstep idxs_s deps sfx m) (seq 0 m) st)
     (fun cb _ => foldM (bstep idxs_s deps sfx m) (rev (seq 0 m)) cb) (seq 0 (seal_rounds params))) with (b := cur)
    as (cur' & z & B' & F & G); [|exact B|].
  - intros i b _ Bb. destruct (funits_ok idxs_s deps sfx m b S D Bb) as (b' & z & X). exists b', z. exact X.
  - exists cur', z. repeat split; auto; [apply B'|apply B'|]. intros q N. unfold brounds.
    rewrite (foldM_const (foldM (bstep idxs_s deps sfx m) (rev (seq 0 m))) (seq 0 (seal_rounds params)) (rev (seq 0 (seal_rounds params))));
      [|now rewrite rev_length]. now apply G.
Qed.

(** Unsealing any well-shaped block returns. *)
Lemma bstep_ok idxs_s deps sfx m i cur : short_ok idxs_s m -> deps_ok m deps -> (forall d, le2z (H d) < key < 256 ^ Z.of_nat upl)%Z ->
  i < m -> shaped m cur ->
  exists cur', bstep idxs_s deps sfx m cur i = Ok cur' /\ shaped m cur'.
Proof.
  intros S D K3 I [L F]. destruct (md_returns idxs_s deps sfx m cur i HH S D L I) as (d & Ed).
  destruct (index_ok cur i ltac:(lia)) as (u & Eu).
  assert (Lu : length u = upl) by (rewrite Forall_forall in F; apply F; eapply index_In; exact Eu).
  set (w := vde_inv u key (vde_rounds params) (vde_mode params) upl).
  assert (Lw : length w = upl) by (apply vde_inv_len_any; auto; apply (K3 d)).
  assert (Hd : (le2z (H d) < key)%Z) by apply K3.
  destruct (modsub_ok w (H d) key K1 ltac:(rewrite Lw; exact K2) ltac:(pose proof (le2z_nonneg w); lia)) as (a & Ea & La & Va).
  exists (upd cur i a). unfold bstep. rewrite Ed. cbn [bind]. rewrite Eu. cbn [bind]. fold w. rewrite Ea. cbn [bind].
  rewrite set_index_ok by lia. repeat split; [now rewrite upd_length|]. apply Forall_upd; [exact F|congruence].
Qed.
Lemma foldM_inv {A B} (I : B -> Prop) (f : B -> A -> res B) l :
  (forall a b, In a l -> I b -> exists b', f b a = Ok b' /\ I b') ->
  forall b, I b -> exists b', foldM f l b = Ok b' /\ I b'.
Proof.
  induction l as [|a l IH]; intros E b Ib; cbn [foldM]; [eauto|].
  destruct (E a b ltac:(now left) Ib) as (b1 & -> & I1). cbn [bind]. apply IH; [|exact I1].
  intros; apply E; auto; now right.
Qed.
Lemma brounds_ok idxs_s deps sfx m cur : short_ok idxs_s m -> deps_ok m deps -> (forall d, le2z (H d) < key < 256 ^ Z.of_nat upl)%Z ->
  shaped m cur -> exists cur', brounds idxs_s deps sfx m cur = Ok cur' /\ shaped m cur'.
Proof.
  intros S D K3 Sh. apply (foldM_inv (shaped m)); [|exact Sh]. intros _ c _ Sc.
  apply (foldM_inv (shaped m)); [|exact Sc]. intros i b I Sb. apply bstep_ok; auto.
  apply in_rev in I. apply in_seq in I. lia.
Qed.
End Core.
