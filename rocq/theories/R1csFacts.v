(** Lemmas about constraint systems: how synthesis code extends them, scopes of wires,
    assignments agreeing on a scope. *)
From Verif Require Import Base Field R1cs.

Section Facts.
Context {K : ops}.
Implicit Types (s : cs K) (a b : var -> K).

(** ** Extension of a constraint system by public values, witness values and constraints *)
Definition ext s (is ws : list K) (new : list (r1c K)) : cs K :=
  mkCs (setup s) (n_inst s + length is) (n_wit s + length ws)
    (inst_val s ++ if setup s then [] else is) (wit_val s ++ if setup s then [] else ws) (cons s ++ new).
Lemma ext_ext s i w c i' w' c' : ext (ext s i w c) i' w' c' = ext s (i ++ i') (w ++ w') (c ++ c').
Proof. unfold ext. cbn. rewrite !app_length, !Nat.add_assoc, <- !app_assoc. destruct (setup s); reflexivity. Qed.
Lemma ext_nil s : ext s [] [] [] = s.
Proof. destruct s. unfold ext. cbn. rewrite !Nat.add_0_r. destruct setup; now rewrite !app_nil_r. Qed.
Lemma ext_wit s i w c : n_wit (ext s i w c) = n_wit s + length w. Proof. reflexivity. Qed.
Lemma ext_inst s i w c : n_inst (ext s i w c) = n_inst s + length i. Proof. reflexivity. Qed.
Lemma ext_setup s i w c : setup (ext s i w c) = setup s. Proof. reflexivity. Qed.

(** The value v is right for s: present when proving, absent in setup. *)
Definition valued s (v : option K) (x : K) : Prop := if setup s then v = None else v = Some x.
Lemma valued_ext s i w c v x : valued (ext s i w c) v x = valued s v x.
Proof. reflexivity. Qed.
Lemma valued_omap s v x f y : valued s v x -> f x = Ok y -> exists v', omap v f = Ok v' /\ valued s v' y.
Proof.
  unfold valued. destruct (setup s); intros -> E; cbn [omap]; [now exists None|]. rewrite E. now exists (Some y).
Qed.

(** In setup mode the value does not matter. *)
Definition usable s (v : option K) (x : K) : Prop := setup s = false -> v = Some x.
Lemma valued_usable s v x : valued s v x -> usable s v x.
Proof. unfold valued, usable. intros V E. now rewrite E in V. Qed.
Lemma usable_some s x : usable s (Some x) x.
Proof. intros _. reflexivity. Qed.
Lemma usable_ext s i w c v x : usable (ext s i w c) v x = usable s v x.
Proof. reflexivity. Qed.
Lemma new_witness_run s v x : usable s v x -> new_witness v s = Ok (Wit (n_wit s), ext s [] [x] []).
Proof.
  unfold usable, new_witness, ext. intros V. destruct s as [[] ni nw iv wv c]; cbn in *.
  - now rewrite !Nat.add_0_r, !app_nil_r, Nat.add_1_r.
  - rewrite V by reflexivity. now rewrite !Nat.add_0_r, !app_nil_r, Nat.add_1_r.
Qed.
Lemma new_input_run s v x : usable s v x -> new_input v s = Ok (Inst (n_inst s), ext s [x] [] []).
Proof.
  unfold usable, new_input, ext. intros V. destruct s as [[] ni nw iv wv c]; cbn in *.
  - now rewrite !Nat.add_0_r, !app_nil_r, Nat.add_1_r.
  - rewrite V by reflexivity. now rewrite !Nat.add_0_r, !app_nil_r, Nat.add_1_r.
Qed.
Lemma enforce_run s x y z : enforce x y z s = Ok (tt, ext s [] [] [(x, y, z)]).
Proof. unfold enforce, ext. cbn. rewrite !Nat.add_0_r. destruct (setup s); now rewrite !app_nil_r. Qed.

Lemma bindM_run {A B} (m : M K A) (k : A -> M K B) s : bindM m k s = bind (m s) (fun r => k (fst r) (snd r)).
Proof. unfold bindM. destruct (m s) as [[a s']|]; reflexivity. Qed.
Lemma forM_app {A S : Type} (f : S -> A -> M K S) l1 : forall l2 st s, forM f (l1 ++ l2) st s = bindM (forM f l1 st) (forM f l2) s.
Proof.
  induction l1 as [|x l1 IH]; intros l2 st s; [reflexivity|]. cbn [app forM]. unfold bindM in *. destruct (f st x s) as [[st' s']|]; [|reflexivity]. cbn [bind]. apply IH.
Qed.
(** A loop over indices as a loop over the elements. *)
Lemma forM_index {A S : Type} (l : list A) (F : nat -> A -> S -> M K S) : forall post pre st s, l = pre ++ post ->
  forM (fun st i => let# c := lift (index l i) in F i c st) (seq (length pre) (length post)) st s
  = forM (fun st ic => F (fst ic) (snd ic) st) (combine (seq (length pre) (length post)) post) st s.
Proof.
  induction post as [|c post IH]; intros pre st s E; [reflexivity|]. cbn [length seq forM combine]. unfold bindM at 1 2 4. cbn [fst snd]. unfold lift, index at 1.
  rewrite E at 1. rewrite nth_error_app2, Nat.sub_diag by lia. cbn [nth_error bind]. destruct (F (length pre) c st s) as [[st' s']|]; [|reflexivity]. cbn [bind].
  specialize (IH (pre ++ [c]) st' s'). rewrite app_length in IH. cbn [length] in IH. rewrite Nat.add_1_r in IH. apply IH. now rewrite <- app_assoc.
Qed.
Lemma forM_combine {A S : Type} (F : nat -> A -> S -> M K S) (G : A -> S -> M K S) : forall l k st s,
  (forall i c, k <= i < k + length l -> F i c = G c) ->
  forM (fun st ic => F (fst ic) (snd ic) st) (combine (seq k (length l)) l) st s = forM (fun st c => G c st) l st s.
Proof.
  induction l as [|c l IH]; intros k st s E; [reflexivity|]. cbn [length seq combine forM]. unfold bindM. cbn [fst snd]. rewrite E by (cbn; lia).
  destruct (G c st s) as [[st' s']|]; [|reflexivity]. cbn [bind]. apply IH. intros i c' I. apply E. cbn [length]. lia.
Qed.
(** A loop whose last iteration is special. *)
Lemma forM_last {A S : Type} (L : list A) n l (c : A) (F : bool -> A -> S -> M K S) st s : L = l ++ [c] -> n = length L ->
  forM (fun st i => let# d := lift (index L i) in F (i =? n - 1) d st) (seq 0 n) st s
  = bindM (forM (fun st d => F false d st) l st) (F true c) s.
Proof.
  intros E ->. etransitivity; [exact (forM_index L (fun i => F (i =? length L - 1)) L [] st s eq_refl)|]. cbn [length].
  replace (combine (seq 0 (length L)) L) with (combine (seq 0 (length l)) l ++ [(length l, c)]).
  2:{ subst L. rewrite app_length. cbn [length]. rewrite seq_app. cbn [seq Nat.add].
      assert (G : forall k, combine (seq k (length l)) l ++ [(k + length l, c)] = combine (seq k (length l) ++ [k + length l]) (l ++ [c])); [|exact (G 0)].
      induction l as [|d l IH]; intros k; cbn [length seq combine app]; [reflexivity|]. f_equal. rewrite <- Nat.add_succ_comm. apply IH. }
  rewrite forM_app. subst L. rewrite app_length. cbn [length]. replace (length l + 1 - 1) with (length l) by lia. unfold bindM.
  rewrite (forM_combine (fun i => F (i =? length l)) (F false)); [|intros i d I; f_equal; apply Nat.eqb_neq; lia].
  destruct (forM _ l st s) as [[st' s']|]; [|reflexivity]. cbn [bind forM fst snd]. rewrite Nat.eqb_refl. unfold bindM, ret. destruct (F true c st' s') as [[st'' s'']|]; reflexivity.
Qed.
Lemma forM_elements {A S : Type} (l : list A) (F : A -> S -> M K S) st s :
  forM (fun st i => let# c := lift (index l i) in F c st) (seq 0 (length l)) st s = forM (fun st c => F c st) l st s.
Proof.
  etransitivity; [exact (forM_index l (fun _ => F) l [] st s eq_refl)|]. now apply (forM_combine (fun _ => F) F).
Qed.

(** ** Scopes *)
Definition in_scope (ni nw : nat) (v : var) : Prop := match v with One => True | Inst i => i < ni | Wit i => i < nw end.
Definition lc_scope (ni nw : nat) (l : lc K) : Prop := Forall (fun t => in_scope ni nw (snd t)) l.
Definition c_scope (ni nw : nat) (c : r1c K) : Prop := let '(x, y, z) := c in lc_scope ni nw x /\ lc_scope ni nw y /\ lc_scope ni nw z.
Definition scoped (ni nw : nat) (l : list (r1c K)) : Prop := Forall (c_scope ni nw) l.
Definition agree (ni nw : nat) a b : Prop := forall v, in_scope ni nw v -> a v = b v.

Lemma in_scope_mono ni nw ni' nw' v : ni <= ni' -> nw <= nw' -> in_scope ni nw v -> in_scope ni' nw' v.
Proof. destruct v; cbn; lia. Qed.
Lemma lc_scope_mono ni nw ni' nw' l : ni <= ni' -> nw <= nw' -> lc_scope ni nw l -> lc_scope ni' nw' l.
Proof. intros A B. apply Forall_impl. intros t. now apply in_scope_mono. Qed.
Lemma scoped_mono ni nw ni' nw' l : ni <= ni' -> nw <= nw' -> scoped ni nw l -> scoped ni' nw' l.
Proof. intros A B. apply Forall_impl. intros [[x y] z] (X & Y & Z). split; [|split]; eapply (lc_scope_mono ni nw); eassumption. Qed.
Lemma agree_mono ni nw ni' nw' a b : ni' <= ni -> nw' <= nw -> agree ni nw a b -> agree ni' nw' a b.
Proof. intros A B AG v V. apply AG. eapply in_scope_mono; [| |exact V]; lia. Qed.
Lemma agree_refl ni nw a : agree ni nw a a. Proof. intros v _. reflexivity. Qed.
Lemma agree_sym ni nw a b : agree ni nw a b -> agree ni nw b a. Proof. intros A v V. symmetry. now apply A. Qed.
Lemma agree_trans ni nw a b c : agree ni nw a b -> agree ni nw b c -> agree ni nw a c.
Proof. intros A B v V. rewrite A by exact V. now apply B. Qed.
Lemma eval_agree ni nw a b l : lc_scope ni nw l -> agree ni nw a b -> eval a l = eval b l.
Proof. intros S A. unfold eval. induction S as [|t l T S IH]; [reflexivity|]. cbn [fold_right]. now rewrite IH, (A _ T). Qed.
Lemma sat_agree ni nw a b l : scoped ni nw l -> agree ni nw a b -> sat a l -> sat b l.
Proof.
  intros S A. unfold sat. induction S as [|[[x y] z] l (X & Y & Z) S IH]; [constructor|]. intros H. inversion H; subst. constructor; [|now apply IH].
  cbn in *. now rewrite <- (eval_agree ni nw a b x X A), <- (eval_agree ni nw a b y Y A), <- (eval_agree ni nw a b z Z A).
Qed.
Lemma sat_app a l m : sat a (l ++ m) <-> sat a l /\ sat a m.
Proof. apply Forall_app. Qed.
Lemma scoped_app ni nw l m : scoped ni nw l -> scoped ni nw m -> scoped ni nw (l ++ m).
Proof. intros. apply Forall_app. now split. Qed.
Lemma sat_cons a c l : sat a (c :: l) <-> holds a c /\ sat a l.
Proof. split; [intros H; inversion H; now split|intros []; now constructor]. Qed.
Lemma sat_nil a : sat a []. Proof. constructor. Qed.

(** ** Assignments with given values from a position on *)
Definition wits a (k : nat) (ws : list K) : Prop := forall j w, nth_error ws j = Some w -> a (Wit (k + j)) = w.
Definition insts a (k : nat) (is : list K) : Prop := forall j w, nth_error is j = Some w -> a (Inst (k + j)) = w.
Lemma wits_app a k l m : wits a k (l ++ m) <-> wits a k l /\ wits a (k + length l) m.
Proof.
  unfold wits. split.
  - intros H. split; intros j w E.
    + apply H. rewrite nth_error_app1; [exact E|]. apply nth_error_Some. congruence.
    + rewrite <- Nat.add_assoc. apply H. rewrite nth_error_app2 by lia. now replace (length l + j - length l) with j by lia.
  - intros [H1 H2] j w E. destruct (Nat.lt_ge_cases j (length l)) as [L|L].
    + apply H1. now rewrite nth_error_app1 in E.
    + rewrite nth_error_app2 in E by exact L. specialize (H2 _ _ E). now replace (k + length l + (j - length l)) with (k + j) in H2 by lia.
Qed.
Lemma insts_app a k l m : insts a k (l ++ m) <-> insts a k l /\ insts a (k + length l) m.
Proof.
  unfold insts. split.
  - intros H. split; intros j w E.
    + apply H. rewrite nth_error_app1; [exact E|]. apply nth_error_Some. congruence.
    + rewrite <- Nat.add_assoc. apply H. rewrite nth_error_app2 by lia. now replace (length l + j - length l) with j by lia.
  - intros [H1 H2] j w E. destruct (Nat.lt_ge_cases j (length l)) as [L|L].
    + apply H1. now rewrite nth_error_app1 in E.
    + rewrite nth_error_app2 in E by exact L. specialize (H2 _ _ E). now replace (k + length l + (j - length l)) with (k + j) in H2 by lia.
Qed.
Lemma wits_nil a k : wits a k []. Proof. intros [|j] w; discriminate. Qed.
Lemma insts_nil a k : insts a k []. Proof. intros [|j] w; discriminate. Qed.
Lemma wits_cons a k w ws : wits a k (w :: ws) <-> a (Wit k) = w /\ wits a (S k) ws.
Proof.
  split.
  - intros H. split; [specialize (H 0 w eq_refl); now rewrite Nat.add_0_r in H|]. intros j x E. specialize (H (S j) x E). now replace (k + S j) with (S k + j) in H by lia.
  - intros [H1 H2] [|j] x E; cbn in E; [injection E as <-; now rewrite Nat.add_0_r|]. replace (k + S j) with (S k + j) by lia. now apply H2.
Qed.
Lemma insts_cons a k w ws : insts a k (w :: ws) <-> a (Inst k) = w /\ insts a (S k) ws.
Proof.
  split.
  - intros H. split; [specialize (H 0 w eq_refl); now rewrite Nat.add_0_r in H|]. intros j x E. specialize (H (S j) x E). now replace (k + S j) with (S k + j) in H by lia.
  - intros [H1 H2] [|j] x E; cbn in E; [injection E as <-; now rewrite Nat.add_0_r|]. replace (k + S j) with (S k + j) by lia. now apply H2.
Qed.
Lemma wits_agree ni nw a b k ws : k + length ws <= nw -> agree ni nw a b -> wits a k ws -> wits b k ws.
Proof.
  intros L A W j w E. rewrite <- (A (Wit (k + j))); [now apply W|]. cbn. assert (j < length ws) by (apply nth_error_Some; congruence). lia.
Qed.
Lemma insts_agree ni nw a b k ws : k + length ws <= ni -> agree ni nw a b -> insts a k ws -> insts b k ws.
Proof.
  intros L A W j w E. rewrite <- (A (Inst (k + j))); [now apply W|]. cbn. assert (j < length ws) by (apply nth_error_Some; congruence). lia.
Qed.

(** Overriding an assignment beyond a scope. *)
Definition over a (ni nw : nat) (is ws : list K) (v : var) : K :=
  match v with
  | One => a One
  | Inst i => if i <? ni then a v else nth (i - ni) is (a v)
  | Wit i => if i <? nw then a v else nth (i - nw) ws (a v)
  end.
Lemma over_agree a ni nw is ws : agree ni nw a (over a ni nw is ws).
Proof. intros [|i|i] S; cbn [in_scope over] in *; [reflexivity| |]; rewrite (proj2 (Nat.ltb_lt _ _) S); reflexivity. Qed.
Lemma over_wits a ni nw is ws : wits (over a ni nw is ws) nw ws.
Proof. intros j w E. cbn [over]. rewrite (proj2 (Nat.ltb_ge _ _)) by lia. replace (nw + j - nw) with j by lia. now apply nth_error_nth. Qed.
Lemma over_insts a ni nw is ws : insts (over a ni nw is ws) ni is.
Proof. intros j w E. cbn [over]. rewrite (proj2 (Nat.ltb_ge _ _)) by lia. replace (ni + j - ni) with j by lia. now apply nth_error_nth. Qed.

(** The assignment of a run in proving mode. *)
Lemma asg_wits s : wits (asg s) 0 (wit_val s).
Proof. intros j w E. cbn. now apply nth_error_nth. Qed.
Lemma asg_insts s : insts (asg s) 0 (inst_val s).
Proof. intros j w E. cbn. now apply nth_error_nth. Qed.
End Facts.

(** Solving scope side conditions. *)
Ltac scope := cbn [in_scope] in *; repeat match goal with
  | |- scoped _ _ (_ ++ _) => apply scoped_app
  | |- scoped _ _ (_ :: _) => constructor
  | |- scoped _ _ [] => constructor
  | |- c_scope _ _ _ => split; [|split]
  | |- lc_scope _ _ _ => repeat constructor
  | |- Forall _ _ => repeat constructor
  | |- in_scope _ _ _ => first [assumption|eassumption|cbn [in_scope]; lia|eapply in_scope_mono; [| |eassumption]; lia]
  end; cbn [in_scope snd]; try lia.
