(** Reading the result files back: fields and lines of the reports. *)
From Coq Require Import Strings.String Strings.Byte.
From Coq Require Import List.
From Verif Require Import Base Sloth Common Depend Prover Verifier Merkle Postorage PostorageFacts SaveTorn Driver Report.
Local Open Scope nat_scope.

(** * Fields *)
Lemma cut (P : byte -> Prop) a : forall b x y s t, Forall P a -> Forall P b -> ~ P x -> ~ P y -> a ++ x :: s = b ++ y :: t -> a = b /\ x = y /\ s = t.
Proof.
  induction a as [|c a IH]; intros [|d b] x y s t FA FB X Y E; cbn [app] in E.
  - injection E as -> ->. auto.
  - injection E as -> E. now inversion FB.
  - injection E as -> E. now inversion FA.
  - injection E as -> E. inversion FA; inversion FB; subst. destruct (IH b x y s t) as (-> & -> & ->); auto.
Qed.
(** No comma and no newline. *)
Definition plain (t : list byte) : Prop := ~ In x2c t /\ ~ In x0a t.
Lemma plain_forall t : plain t -> Forall (fun b => b <> x2c /\ b <> x0a) t.
Proof. intros [A B]. apply Forall_forall. intros b I. split; intros ->; contradiction. Qed.
Lemma digits n : Forall (fun b => (48 <= b2z b)%Z) (num n).
Proof. apply decimal_digits. lia. Qed.
Lemma num_plain n : plain (num n).
Proof.
  pose proof (digits n) as D. rewrite Forall_forall in D. split; intros I; specialize (D _ I); vm_compute in D; congruence.
Qed.
Lemma num_inj a b : num a = num b -> a = b.
Proof.
  intros E. assert (U : undecimal (num a) = undecimal (num b)) by now rewrite E. unfold num in U. rewrite !undecimal_decimal in U. injection U as U. lia.
Qed.
Lemma txt_inj a b : txt a = txt b -> a = b.
Proof. unfold txt. intros E. rewrite <- (string_of_list_byte_of_string a), <- (string_of_list_byte_of_string b). now rewrite E. Qed.
Lemma field a b s t : plain a -> plain b -> a ++ comma ++ s = b ++ comma ++ t -> a = b /\ s = t.
Proof.
  intros A B E. change (a ++ x2c :: (x20 :: s) = b ++ x2c :: (x20 :: t)) in E.
  apply (cut (fun c => c <> x2c /\ c <> x0a)) in E; [|now apply plain_forall|now apply plain_forall|tauto|tauto]. destruct E as (-> & _ & E). injection E as ->. auto.
Qed.
Lemma last_field a b s t : plain a -> plain b -> a ++ x2c :: s = b ++ x2c :: t -> a = b /\ s = t.
Proof.
  intros A B E. apply (cut (fun c => c <> x2c /\ c <> x0a)) in E; [|now apply plain_forall|now apply plain_forall|tauto|tauto]. tauto.
Qed.
Lemma line_end a b s t : plain a -> plain b -> a ++ x0a :: s = b ++ x0a :: t -> a = b /\ s = t.
Proof.
  intros A B E. apply (cut (fun c => c <> x2c /\ c <> x0a)) in E; [|now apply plain_forall|now apply plain_forall|tauto|tauto]. tauto.
Qed.
Lemma number a b x s y t : (b2z x < 48)%Z -> (b2z y < 48)%Z -> num a ++ x :: s = num b ++ y :: t -> a = b /\ s = t.
Proof.
  intros X Y E. apply (cut (fun c => (48 <= b2z c)%Z)) in E; [|apply digits|apply digits|lia|lia]. destruct E as (E & _ & ->). split; [now apply num_inj|reflexivity].
Qed.

(** * Lines *)
Ltac open_line E := unfold line in E; rewrite <- ?app_assoc in E; cbn [txt newline list_byte_of_string app] in E.
Lemma line_split s t v a : forall s' t' v' b, plain t -> plain v -> plain t' -> plain v' -> line s t v ++ a = line s' t' v' ++ b -> s = s' /\ line s t v = line s' t' v' /\ a = b.
Proof.
  intros s' t' v' b PT PV PT' PV' E.
  assert (S : s = s').
  { destruct s, s'; try reflexivity; try (exfalso; unfold line in E; rewrite <- ?app_assoc in E; cbn in E; discriminate E).
    unfold line in E. rewrite <- !app_assoc in E. apply app_inv_head, app_inv_head in E. change (num i ++ x20 :: txt "--" ++ newline ++ newline ++ a = num i0 ++ x20 :: txt "--" ++ newline ++ newline ++ b) in E.
    apply number in E; [destruct E as [-> _]; reflexivity|vm_compute; reflexivity|vm_compute; reflexivity]. }
  subst s'. split; [reflexivity|].
  destruct s; unfold line in E |- *; rewrite <- ?app_assoc in E; try (apply app_inv_head in E);
    try (apply line_end in E; [|assumption|assumption]; destruct E as [-> E]; split; [reflexivity|]; injection E; tauto).
  - apply line_end in E; [|assumption|assumption]. destruct E as [-> ->]. auto.
  - change (t ++ x2c :: txt " Vde: " ++ v ++ newline ++ a = t' ++ x2c :: txt " Vde: " ++ v' ++ newline ++ b) in E. apply last_field in E; [|assumption|assumption]. destruct E as [-> E].
    apply app_inv_head in E. apply line_end in E; [|assumption|assumption]. destruct E as [-> ->]. auto.
  - apply line_end in E; [|assumption|assumption]. destruct E as [-> ->]. auto.
  - apply app_inv_head in E. change (num i ++ x20 :: txt "--" ++ newline ++ newline ++ a = num i ++ x20 :: txt "--" ++ newline ++ newline ++ b) in E.
    apply number in E; [|vm_compute; reflexivity|vm_compute; reflexivity]. destruct E as [_ E]. apply app_inv_head, app_inv_head, app_inv_head in E. auto.
  - apply line_end in E; [|assumption|assumption]. destruct E as [-> ->]. auto.
  - apply line_end in E; [|assumption|assumption]. destruct E as [-> ->]. auto.
  - apply line_end in E; [|assumption|assumption]. destruct E as [-> ->]. auto.
  - apply line_end in E; [|assumption|assumption]. destruct E as [-> ->]. auto.
  - apply line_end in E; [|assumption|assumption]. destruct E as [-> ->]. auto.
  - apply line_end in E; [|assumption|assumption]. destruct E as [-> ->]. auto.
  - apply line_end in E; [|assumption|assumption]. destruct E as [-> ->]. auto.
  - apply app_inv_head in E. change (t ++ x2c :: txt " Vde: " ++ v ++ newline ++ a = t' ++ x2c :: txt " Vde: " ++ v' ++ newline ++ b) in E. apply last_field in E; [|assumption|assumption]. destruct E as [-> E].
    apply app_inv_head in E. apply line_end in E; [|assumption|assumption]. destruct E as [-> ->]. auto.
Qed.
Lemma line_nonempty s t v : exists x l, line s t v = x :: l.
Proof. destruct s; cbn; eauto. Qed.
Definition stages (l : list (stage * list byte * list byte)) : list stage := map (fun x => fst (fst x)) l.
Definition lines (l : list (stage * list byte * list byte)) : list (list byte) := map (fun x => line (fst (fst x)) (snd (fst x)) (snd x)) l.
Definition times_plain (l : list (stage * list byte * list byte)) : Prop := Forall (fun x => plain (snd (fst x)) /\ plain (snd x)) l.
Lemma record_cons x l : record (x :: l) = line (fst (fst x)) (snd (fst x)) (snd x) ++ record l.
Proof. reflexivity. Qed.
Lemma record_inj l : forall l', times_plain l -> times_plain l' -> record l = record l' -> stages l = stages l' /\ lines l = lines l'.
Proof.
  induction l as [|[[s t] v] l IH]; intros [|[[s' t'] v'] l'] F F' E; [auto| | |]; rewrite ?record_cons in E; cbn [fst snd] in E.
  - exfalso. destruct (line_nonempty s' t' v') as (x & y & Q). rewrite Q in E. discriminate.
  - exfalso. destruct (line_nonempty s t v) as (x & y & Q). rewrite Q in E. discriminate.
  - inversion F as [|? ? [P1 P2] FT]; inversion F' as [|? ? [P1' P2'] FT']; subst. apply line_split in E; try assumption. destruct E as (-> & L & E).
    destruct (IH l' FT FT' E) as [ES EL]. split; unfold stages, lines in *; cbn [map fst snd]; [now rewrite ES|now rewrite EL, L].
Qed.

(** * The stages of a run *)
Lemma wrote_snd {A B} (c : res A) s (k : A -> list stage * res B) : snd (wrote c s k) = let* a := c in snd (k a).
Proof. unfold wrote. destruct c as [a|]; [|reflexivity]. cbn [bind]. now destruct (k a). Qed.
(** [all]: the lines of a complete run; [P]: what the first missing line may be. *)
Definition progress {A} (P : stage -> Prop) (all : list stage) (lo : list stage * res A) : Prop :=
  match snd lo with
  | Ok _ => fst lo = all
  | Panic => exists s rest, all = fst lo ++ s :: rest /\ P s
  end.
Lemma progress_done {A} P (a : A) : progress P [] ([], Ok a).
Proof. reflexivity. Qed.
Lemma progress_wrote {A B} (P : stage -> Prop) (c : res A) s (k : A -> list stage * res B) all :
  (c = Panic -> P s) -> (forall a, c = Ok a -> progress P all (k a)) -> progress P (s :: all) (wrote c s k).
Proof.
  intros N K. unfold wrote. destruct c as [a|]; [specialize (K a eq_refl)|exists s, all; split; [reflexivity|now apply N]].
  destruct (k a) as [l [b|]]; unfold progress in *; cbn [fst snd] in *; [now rewrite K|]. destruct K as (s' & rest & -> & PS). exists s', rest. auto.
Qed.
Lemma progress_app {A B} P a1 a2 l1 l2 (x : A) (o : res B) : progress P a1 (l1, Ok x) -> progress P a2 (l2, o) -> progress P (a1 ++ a2) (l1 ++ l2, o).
Proof.
  unfold progress. cbn [fst snd]. intros -> Q. destruct o; [now rewrite Q|]. destruct Q as (s & rest & -> & PS). exists s, rest. now rewrite app_assoc.
Qed.
Lemma progress_stop {A B} P a1 a2 l : progress P a1 (l, @Panic A) -> progress P (a1 ++ a2) (l, @Panic B).
Proof. unfold progress. cbn [fst snd]. intros (s & rest & -> & PS). exists s, (rest ++ a2). now rewrite <- app_assoc. Qed.

Section Run.
Variable H H2 : list byte -> list byte.
Variable pr : profile.
Variable params : PosPara.

Lemma checks_prepare sealed pub leaves tree root r idx : challenge_prepare H H2 pr params sealed pub leaves tree root r idx =
  let* rs := snd (challenge_checks H H2 pr params sealed leaves tree root r idx) in
  let* (vde_key, iv) := load_data pub in Ok (vde_key, iv, rs).
Proof.
  unfold challenge_prepare, challenge_checks, verify_response. rewrite wrote_snd. destruct (mapM _ idx) as [rs|]; [|reflexivity]. cbn [bind].
  rewrite wrote_snd. destruct (generate_merkle_proof idx tree) as [p|]; [|reflexivity]. cbn [bind]. rewrite wrote_snd.
  destruct (list_eq_dec _ _ _) as [|N]; [|now destruct N]. cbn [bind]. rewrite wrote_snd. destruct (verify_merkle_proof _ _ _ _ _); reflexivity.
Qed.
Lemma challenge_both parallel_num origin sealed pub leaves tree root r idx o :
  challenge H H2 pr params parallel_num origin sealed pub leaves tree root r idx o <->
  exists l, challenge_logged H H2 pr params parallel_num origin sealed pub leaves tree root r idx l o.
Proof.
  destruct (challenge_checks H H2 pr params sealed leaves tree root r idx) as [lc oc] eqn:EC.
  assert (EP := checks_prepare sealed pub leaves tree root r idx). rewrite EC in EP. cbn [snd] in EP. split.
  - intros C. destruct C as [E|key iv rs out E EO].
    + rewrite E in EP. destruct oc as [rs|]; [|exists lc; now apply CL_checks]. cbn [bind] in EP. destruct (load_data pub) as [[k i]|] eqn:LD; [discriminate|]. exists lc. now apply CL_load with rs.
    + rewrite E in EP. destruct oc as [rs'|]; [|discriminate]. cbn [bind] in EP. destruct (load_data pub) as [[k i]|] eqn:LD; [|discriminate]. cbn [bind] in EP. injection EP as -> -> ->.
      match goal with |- exists l, challenge_logged _ _ _ _ _ _ _ _ _ _ _ _ _ _ ?O => set (oo := O) end.
      eexists. eapply CL_go; [exact EC|exact LD|exact EO|].
      match goal with |- ?W = _ => rewrite (surjective_pairing W) end. f_equal. rewrite wrote_snd. unfold oo. destruct out as [ub|]; [|reflexivity]. cbn [bind].
      rewrite wrote_snd. cbn [snd]. destruct (foldM _ _ tt) as [[]|]; reflexivity.
  - intros (l & C). destruct C as [l E|l rs E LD|l rs key iv out l2 o E LD EO EW].
    + apply Ch_panic. rewrite EP. rewrite EC in E. injection E as _ ->. reflexivity.
    + apply Ch_panic. rewrite EP. rewrite EC in E. injection E as _ ->. cbn [bind]. now rewrite LD.
    + assert (EP' : challenge_prepare H H2 pr params sealed pub leaves tree root r idx = Ok (key, iv, rs)) by (rewrite EP; rewrite EC in E; injection E as _ ->; cbn [bind]; now rewrite LD).
      apply (f_equal snd) in EW. cbn [snd] in EW. rewrite wrote_snd in EW. subst o. pose proof (Ch_go H H2 pr params parallel_num origin sealed pub leaves tree root r idx key iv rs out EP' EO) as C.
      destruct out as [ub|]; [|exact C]. cbn [bind] in *. rewrite wrote_snd. cbn [snd]. destruct (foldM _ _ tt) as [[]|]; exact C.
Qed.
Lemma challenges_both parallel_num count n origin sealed pub leaves tree root : forall cs i o,
  challenges_run H H2 pr params parallel_num count n origin sealed pub leaves tree root cs o <->
  exists l, challenges_logged H H2 pr params parallel_num count n origin sealed pub leaves tree root i cs l o.
Proof.
  intros cs. induction cs as [|[r draw] cs IH]; intros i o; split.
  - intros C. inversion C. subst. exists []. constructor.
  - intros (l & C). inversion C. subst. constructor.
  - intros C. inversion C; subst.
    + eexists. eapply CsL_draw_panic; eassumption.
    + match goal with X : challenge _ _ _ _ _ _ _ _ _ _ _ _ _ _ |- _ => apply challenge_both in X; destruct X as (l & C') end. eexists. eapply CsL_panic; eassumption.
    + match goal with X : challenge _ _ _ _ _ _ _ _ _ _ _ _ _ _ |- _ => apply challenge_both in X; destruct X as (l & C') end.
      match goal with X : challenges_run _ _ _ _ _ _ _ _ _ _ _ _ _ cs _ |- _ => apply (IH (S i)) in X; destruct X as (ls & C'') end. eexists. eapply CsL_next; eassumption.
  - intros (l & C). inversion C; subst.
    + eapply CR_draw_panic; eassumption.
    + eapply CR_panic; [eassumption|]. apply challenge_both. eauto.
    + eapply CR_next; [eassumption|apply challenge_both; eauto|]. apply (IH (S i)). eauto.
Qed.
Lemma setup_both rnd_file rnd_iv pub : pipeline_setup H H2 pr params rnd_file rnd_iv pub = snd (setup_logged H H2 pr params rnd_file rnd_iv pub).
Proof.
  unfold pipeline_setup, setup_logged. rewrite wrote_snd. destruct (generate_merkle_tree_from_file _ _ _ _) as [[[a b] oroot]|]; [|reflexivity]. cbn [bind].
  rewrite wrote_snd. destruct (copy_and_pad _ _ _) as [padded|]; [|reflexivity]. cbn [bind]. destruct (prepare_params _ _ _) as [[key iv]|]; [|reflexivity]. cbn [bind].
  destruct (seal H pr params key iv padded) as [st|]; [|reflexivity]. cbn [bind]. rewrite wrote_snd. destruct (generate_merkle_tree_from_data H2 (s_ids st)) as [[[x y] z]|]; reflexivity.
Qed.
Lemma finish_both oroot key iv sealed : pipeline_finish H H2 pr params oroot key iv sealed = snd (finish_logged H H2 pr params oroot key iv sealed).
Proof.
  unfold pipeline_finish, finish_logged. rewrite wrote_snd. destruct (unseal H pr params key iv sealed) as [u|]; [|reflexivity]. cbn [bind]. rewrite wrote_snd.
  destruct (copy_and_compress _ _ _ _) as [c|]; [|reflexivity]. cbn [bind]. destruct (generate_merkle_tree_from_file _ _ _ _) as [[[a b] ur]|]; [|reflexivity]. cbn [bind].
  destruct (list_eq_dec _ _ _); reflexivity.
Qed.
Lemma pipeline_both parallel_num count rnd_file rnd_iv pub cs o :
  pipeline H H2 pr params parallel_num count rnd_file rnd_iv pub cs o <-> exists l, pipeline_logged H H2 pr params parallel_num count rnd_file rnd_iv pub cs l o.
Proof.
  destruct (setup_logged H H2 pr params rnd_file rnd_iv pub) as [ls os] eqn:ES. assert (EP := setup_both rnd_file rnd_iv pub). rewrite ES in EP. cbn [snd] in EP. split.
  - intros P. destruct P as [E|origin oroot key iv st pub' leaves tree root o E C].
    + exists ls. apply PL_setup. rewrite ES. now rewrite EP in E; rewrite E.
    + rewrite EP in E. rewrite E in ES. apply (challenges_both _ _ _ _ _ _ _ _ _ _ 0) in C. destruct C as (lc & C). destruct o as [[]|].
      * cbn [bind]. rewrite finish_both. eexists. eapply PL_end; [exact ES|exact C|apply surjective_pairing].
      * cbn [bind]. eexists. eapply PL_challenges; [exact ES|exact C].
  - intros (l & P). destruct P as [l E|l origin oroot key iv st pub' leaves tree root lc E C|l origin oroot key iv st pub' leaves tree root lc lf o E C EF].
    + apply P_setup. rewrite EP. rewrite ES in E. now injection E.
    + rewrite ES in E. injection E as -> ->. apply (P_run H H2 pr params parallel_num count rnd_file rnd_iv pub cs origin oroot key iv st pub' leaves tree root Panic EP).
      apply (challenges_both _ _ _ _ _ _ _ _ _ _ 0). eauto.
    + rewrite ES in E. injection E as -> ->. assert (EO : o = pipeline_finish H H2 pr params oroot key iv (s_file st)) by (rewrite finish_both, EF; reflexivity). subst o.
      apply (P_run H H2 pr params parallel_num count rnd_file rnd_iv pub cs origin oroot key iv st pub' leaves tree root (Ok tt) EP).
      apply (challenges_both _ _ _ _ _ _ _ _ _ _ 0). eauto.
Qed.

(** * What the lines of a run are *)
Definition challenge_lines (i : nat) : list stage :=
  [Challenge i; Create; Response_1; Response_2; Verify_hash; Verify_path; Batch_unseal; Batch_verify].
Definition can_fail (s : stage) : Prop := s <> Verify_hash.
Ltac cf := intros _; unfold can_fail; discriminate.
Lemma challenge_progress parallel_num origin sealed pub leaves tree root r idx l o :
  challenge_logged H H2 pr params parallel_num origin sealed pub leaves tree root r idx l o ->
  progress can_fail [Response_1; Response_2; Verify_hash; Verify_path; Batch_unseal; Batch_verify] (l, o).
Proof.
  assert (CK : progress can_fail [Response_1; Response_2; Verify_hash; Verify_path] (challenge_checks H H2 pr params sealed leaves tree root r idx)).
  { apply progress_wrote; [cf|]. intros rs _. apply progress_wrote; [cf|]. intros p _. apply progress_wrote.
    - destruct (list_eq_dec _ _ _) as [|N]; [discriminate|now destruct N].
    - intros [] _. apply progress_wrote; [cf|]. intros [] _. apply progress_done. }
  intros C. destruct C as [l E|l rs E LD|l rs key iv out l2 o E LD EO EW]; rewrite E in CK.
  - exact (progress_stop _ _ [Batch_unseal; Batch_verify] _ CK).
  - unfold progress in *. cbn [fst snd] in *. subst l. exists Batch_unseal, [Batch_verify]. split; [reflexivity|discriminate].
  - apply (progress_app _ _ [Batch_unseal; Batch_verify] _ l2 rs o CK). rewrite <- EW. apply progress_wrote; [cf|]. intros ub _. apply progress_wrote; [cf|]. intros [] _. apply progress_done.
Qed.
Lemma challenges_progress parallel_num count n origin sealed pub leaves tree root i cs l o :
  challenges_logged H H2 pr params parallel_num count n origin sealed pub leaves tree root i cs l o ->
  progress can_fail (concat (map challenge_lines (seq i (length cs)))) (l, o).
Proof.
  intros C. induction C as [i|i r draw cs fuel D|i r draw cs fuel idx l D C|i r draw cs fuel idx l ls o D C CS IH].
  - reflexivity.
  - cbn [length seq map concat]. exists Create. eexists. split; [reflexivity|discriminate].
  - cbn [length seq map concat]. apply challenge_progress in C. unfold progress in *. cbn [fst snd] in *. destruct C as (s & rest & E & PS). exists s. eexists.
    split; [|exact PS]. unfold challenge_lines. rewrite E. cbn [app]. now rewrite <- app_assoc.
  - cbn [length seq map concat]. apply challenge_progress in C. change (Challenge i :: Create :: l ++ ls) with ((Challenge i :: Create :: l) ++ ls).
    apply (progress_app _ _ _ _ ls tt o); [|exact IH]. unfold progress in *. cbn [fst snd] in *. now rewrite C.
Qed.
Definition complete_record (k : nat) : list stage :=
  [Origin_tree; Sealing; Sealed_tree] ++ concat (map challenge_lines (seq 0 k)) ++ [Complete_unseal; Verify_tree].
Lemma setup_progress rnd_file rnd_iv pub : progress can_fail [Origin_tree; Sealing; Sealed_tree] (setup_logged H H2 pr params rnd_file rnd_iv pub).
Proof.
  apply progress_wrote; [cf|]. intros [[a b] c] _. apply progress_wrote; [cf|]. intros [[key iv] st] _. apply progress_wrote; [cf|]. intros t _. apply progress_done.
Qed.
Lemma finish_progress oroot key iv sealed : progress can_fail [Complete_unseal; Verify_tree] (finish_logged H H2 pr params oroot key iv sealed).
Proof. apply progress_wrote; [cf|]. intros u _. apply progress_wrote; [cf|]. intros [] _. apply progress_done. Qed.
Lemma pipeline_progress parallel_num count rnd_file rnd_iv pub cs l o :
  pipeline_logged H H2 pr params parallel_num count rnd_file rnd_iv pub cs l o -> progress can_fail (complete_record (length cs)) (l, o).
Proof.
  pose proof (setup_progress rnd_file rnd_iv pub) as SP. unfold complete_record. intros P.
  destruct P as [l E|l origin oroot key iv st pub' leaves tree root lc E C|l origin oroot key iv st pub' leaves tree root lc lf o E C EF]; rewrite E in SP.
  - exact (progress_stop _ _ _ _ SP).
  - apply challenges_progress in C. apply (progress_app _ _ _ _ lc _ (@Panic unit) SP). exact (progress_stop _ _ _ _ C).
  - apply challenges_progress in C. apply (progress_app _ _ _ _ (lc ++ lf) _ o SP). apply (progress_app _ _ _ _ lf _ o C). rewrite <- EF. apply finish_progress.
Qed.
End Run.
