(** Facts about Room: a loop with room does what the loop without it does as long as the
    file fits, and stops in the first write that does not. *)
From Verif Require Import Base Sloth Common Depend Prover Postorage BytesFacts CommonFacts SealSpec SealCore DependDet AnyLength PathFacts Room.
Local Open Scope nat_scope.

Lemma write_grows f pos buf : length f <= length (write_at f pos buf).
Proof. destruct buf as [|b buf]; [reflexivity|]. rewrite write_at_length_any by discriminate. lia. Qed.
Lemma write_room_fits f free pos buf : length (write_at f pos buf) <= length f + free ->
  write_room (f, free) pos buf = ((write_at f pos buf, length f + free - length (write_at f pos buf)), Ok tt).
Proof. intros L. unfold write_room. apply Nat.leb_le in L. now rewrite L. Qed.
Lemma write_room_full f free pos buf : length f + free < length (write_at f pos buf) ->
  let h := write_at f pos (firstn (length f + free - pos) buf) in
  write_room (f, free) pos buf = ((h, length f + free - length h), Panic).
Proof. intros L h. unfold write_room. apply Nat.leb_gt in L. now rewrite L. Qed.
Lemma write_full_length f free pos buf : pos <= length f -> length f + free < length (write_at f pos buf) ->
  length (write_at f pos (firstn (length f + free - pos) buf)) = length f + free.
Proof.
  intros P L. destruct buf as [|b buf]; [cbn in L; lia|]. rewrite write_at_length_any in L by discriminate.
  destruct (firstn (length f + free - pos) (b :: buf)) as [|b' buf'] eqn:E.
  - cbn [write_at]. assert (X : length (firstn (length f + free - pos) (b :: buf)) = 0) by now rewrite E. rewrite firstn_length in X. cbn [length] in *. lia.
  - rewrite <- E. assert (X : length (firstn (length f + free - pos) (b :: buf)) = length f + free - pos) by (rewrite firstn_length; lia).
    rewrite write_at_length_any by (rewrite E; discriminate). rewrite X. lia.
Qed.

Definition step {S} (body : file -> S -> nat -> res (nat * list byte * S)) (fs : file * S) (a : nat) : res (file * S) :=
  let* (pos, buf, s') := body (fst fs) (snd fs) a in Ok (write_at (fst fs) pos buf, s').

Section Loop.
Context {S : Type} (body : file -> S -> nat -> res (nat * list byte * S)).
Lemma steps_grow l : forall f s F s', foldM (step body) l (f, s) = Ok (F, s') -> length f <= length F.
Proof.
  induction l as [|a l IH]; intros f s F s' E; cbn [foldM] in E; [now injection E as <- <-|].
  unfold step in E at 1. cbn [fst snd] in E. destruct (body f s a) as [[[pos buf] s1]|]; [|discriminate]. cbn [bind] in E.
  apply IH in E. pose proof (write_grows f pos buf). lia.
Qed.
Lemma loop_fits l : forall f free s F s', foldM (step body) l (f, s) = Ok (F, s') -> length F <= length f + free ->
  loop_room body l (f, free) s = ((F, length f + free - length F), Ok s').
Proof.
  induction l as [|a l IH]; intros f free s F s' E L; cbn [foldM loop_room] in *.
  - injection E as <- <-. do 2 f_equal. lia.
  - unfold step in E at 1. cbn [fst snd] in *. destruct (body f s a) as [[[pos buf] s1]|]; [|discriminate]. cbn [bind] in E.
    pose proof (steps_grow _ _ _ _ _ E) as G1. pose proof (write_grows f pos buf) as G2. rewrite write_room_fits by lia.
    rewrite (IH _ _ _ _ _ E) by lia. do 2 f_equal. lia.
Qed.
Lemma loop_full l : forall f free s F s', foldM (step body) l (f, s) = Ok (F, s') -> length f + free < length F ->
  exists l1 a l2 g s1 pos buf s2, l = l1 ++ a :: l2 /\ foldM (step body) l1 (f, s) = Ok (g, s1) /\ body g s1 a = Ok (pos, buf, s2) /\
    length g <= length f + free < length (write_at g pos buf) /\
    let h := write_at g pos (firstn (length f + free - pos) buf) in
    loop_room body l (f, free) s = ((h, length f + free - length h), Panic).
Proof.
  induction l as [|a l IH]; intros f free s F s' E L; cbn [foldM loop_room] in *.
  - injection E as <- <-. lia.
  - unfold step in E at 1. cbn [fst snd] in *. destruct (body f s a) as [[[pos buf] s1]|] eqn:B; [|discriminate]. cbn [bind] in E.
    pose proof (write_grows f pos buf) as G2. destruct (Nat.le_gt_cases (length (write_at f pos buf)) (length f + free)) as [C|C].
    + rewrite write_room_fits by exact C.
      destruct (IH _ (length f + free - length (write_at f pos buf)) _ _ _ E ltac:(lia)) as (l1 & a' & l2 & g & s2 & pos' & buf' & s3 & EL & E1 & B1 & LL & R).
      replace (length (write_at f pos buf) + (length f + free - length (write_at f pos buf))) with (length f + free) in * by lia.
      exists (a :: l1), a', l2, g, s2, pos', buf', s3. split; [now rewrite EL|]. split; [|split; [exact B1|split; [exact LL|exact R]]].
      cbn [foldM]. unfold step at 1. cbn [fst snd]. rewrite B. cbn [bind]. exact E1.
    + exists [], a, l, f, s, pos, buf, s1. split; [reflexivity|]. split; [reflexivity|]. split; [exact B|]. split; [lia|]. cbv zeta.
      rewrite write_room_full by exact C. reflexivity.
Qed.
Lemma loop_panics l : forall f free s, foldM (step body) l (f, s) = Panic -> snd (loop_room body l (f, free) s) = Panic.
Proof.
  induction l as [|a l IH]; intros f free s E; cbn [foldM loop_room] in *; [discriminate|].
  unfold step in E at 1. cbn [fst snd] in *. destruct (body f s a) as [[[pos buf] s1]|] eqn:B; [|reflexivity]. cbn [bind] in E.
  destruct (Nat.le_gt_cases (length (write_at f pos buf)) (length f + free)) as [C|C].
  - rewrite write_room_fits by exact C. now apply IH.
  - now rewrite write_room_full by exact C.
Qed.
End Loop.

(** * Appending *)
Definition appends {S} (body : file -> S -> nat -> res (nat * list byte * S)) (cur : S -> nat) : Prop :=
  forall f s a pos buf s', body f s a = Ok (pos, buf, s') -> pos = cur s /\ cur s' = pos + length buf.
Lemma append_loop {S} (body : file -> S -> nat -> res (nat * list byte * S)) (cur : S -> nat) l : appends body cur ->
  forall (f : file) free s (F : file) s', cur s = length f -> foldM (step body) l (f, s) = Ok (F, s') ->
  loop_room body l (f, free) s =
    if length F <=? length f + free then ((F, length f + free - length F), Ok s') else ((firstn (length f + free) F, 0), Panic).
Proof.
  intros A f free s F s' C E. destruct (Nat.leb_spec (length F) (length f + free)) as [L|L]; [now apply loop_fits|].
  destruct (loop_full body l f free s F s' E L) as (l1 & a & l2 & g & s1 & pos & buf & s2 & EL & E1 & B & LL & R). cbv zeta in R. etransitivity; [exact R|]. clear R.
  assert (CUR : forall l (f : file) s (g : file) s1, cur s = length f -> foldM (step body) l (f, s) = Ok (g, s1) -> cur s1 = length g /\ exists t, g = f ++ t).
  { clear - A. induction l as [|a l IH]; intros f s g s1 C E; cbn [foldM] in E.
    - injection E as <- <-. split; [exact C|]. exists []. now rewrite app_nil_r.
    - unfold step in E at 1. cbn [fst snd] in E. destruct (body f s a) as [[[pos buf] s2]|] eqn:B; [|discriminate]. cbn [bind] in E.
      destruct (A _ _ _ _ _ _ B) as (P & C2). rewrite P, C, write_end in E. destruct (IH (f ++ buf) s2 g s1) as (C3 & t & G).
      + rewrite app_length, C2, P, C. reflexivity.
      + exact E.
      + split; [exact C3|]. exists (buf ++ t). now rewrite app_assoc. }
  destruct (CUR _ _ _ _ _ C E1) as (C1 & _). destruct (A _ _ _ _ _ _ B) as (P & C2). rewrite C1 in P. subst pos. rewrite !write_end in *.
  assert (EF : exists t, F = (g ++ buf) ++ t).
  { rewrite EL, foldM_app, E1 in E. cbn [bind foldM] in E. unfold step in E at 1. cbn [fst snd] in E. rewrite B in E. cbn [bind] in E. rewrite write_end in E.
    apply CUR in E; [apply E|]. rewrite app_length. lia. }
  destruct EF as (t & ->). rewrite app_length in LL.
  assert (H1 : length (g ++ firstn (length f + free - length g) buf) = length f + free) by (rewrite app_length, firstn_length; lia).
  rewrite H1, Nat.sub_diag. do 2 f_equal. rewrite <- app_assoc, firstn_app. rewrite (firstn_all2 g) by lia. f_equal.
  rewrite firstn_app. replace (length f + free - length g - length buf) with 0 by lia. cbn [firstn]. now rewrite app_nil_r.
Qed.

(** * The functions *)
Lemma pad_appends origin ul : appends (pad_body origin ul) (fun p => p).
Proof. intros f s a pos buf s' E. unfold pad_body in E. injection E as <- <- <-. auto. Qed.
Lemma pad_steps origin ul l : forall f : file,
  exists p, foldM (step (pad_body origin ul)) l (f, length f) = Ok (fold_left (fun new cnt => new ++ (read_file origin (cnt * ul) ul ++ [x00])) l f, p).
Proof.
  induction l as [|a l IH]; intros f; cbn [foldM fold_left]; [eauto|]. unfold step at 1, pad_body. cbn [fst snd bind]. rewrite write_end.
  rewrite <- app_length. apply IH.
Qed.
Theorem pad_room origin f free dl ul g : copy_and_pad origin dl ul = Ok g ->
  exists p, copy_and_pad_room origin (f, free) dl ul =
    if length g <=? length f + free then ((g, length f + free - length g), Ok p) else ((firstn (length f + free) g, 0), Panic).
Proof.
  unfold copy_and_pad, copy_and_pad_room, truncate_room. cbn [fst snd]. destruct (ul =? 0); [discriminate|]. cbv zeta. intros E.
  destruct (pad_steps origin ul (seq 0 (dl / ul)) []) as (p & P). injection E as E. rewrite E in P. exists p.
  exact (append_loop (pad_body origin ul) (fun p => p) _ (pad_appends origin ul) [] (length f + free) 0 g p eq_refl P).
Qed.
Lemma compress_appends origin ul upl : appends (compress_body origin ul upl) (fun p => p).
Proof. intros f s a pos buf s' E. unfold compress_body in E. destruct (slice _ _ _); [|discriminate]. cbn [bind] in E. injection E as <- <- <-. auto. Qed.
Lemma compress_steps origin ul upl l : forall (f g : file),
  foldM (fun new cnt => let buf := read_file origin (cnt * upl) upl in let* b := slice buf 0 ul in Ok (new ++ b)) l f = Ok g ->
  exists p, foldM (step (compress_body origin ul upl)) l (f, length f) = Ok (g, p).
Proof.
  induction l as [|a l IH]; intros f g E; cbn [foldM] in *; [injection E as <-; eauto|]. unfold step at 1, compress_body. cbn [fst snd]. cbv zeta in E |- *.
  destruct (slice (read_file origin (a * upl) upl) 0 ul) as [b|]; [|discriminate]. cbn [bind] in *. rewrite write_end, <- app_length. now apply IH.
Qed.
Theorem compress_room origin f free dl ul upl g : copy_and_compress origin dl ul upl = Ok g ->
  exists p, copy_and_compress_room origin (f, free) dl ul upl =
    if length g <=? length f + free then ((g, length f + free - length g), Ok p) else ((firstn (length f + free) g, 0), Panic).
Proof.
  unfold copy_and_compress, copy_and_compress_room, truncate_room. cbn [fst snd]. destruct (ul =? 0); [discriminate|]. cbv zeta. intros E.
  destruct (compress_steps origin ul upl _ _ _ E) as (p & P). exists p.
  exact (append_loop (compress_body origin ul upl) (fun p => p) _ (compress_appends origin ul upl) [] (length f + free) 0 g p eq_refl P).
Qed.
Theorem save_room f free key iv : let e := length (enc_bytes (decimal key) ++ enc_bytes iv) in
  save_data_room (f, free) key iv =
    if e <=? length f + free then ((save_data f key iv, length f + free - Nat.max (length f) e), Ok tt)
    else ((save_data_upto (length f + free) f key iv, 0), Panic).
Proof.
  intros e. unfold save_data_room, save_data, save_data_upto. set (buf := enc_bytes (decimal key) ++ enc_bytes iv) in *. fold e.
  assert (B : buf <> []) by (unfold buf, enc_bytes; cbn; discriminate).
  assert (L : length (write_at f 0 buf) = Nat.max (length f) e) by (rewrite write_at_length_any by exact B; reflexivity).
  destruct (Nat.leb_spec e (length f + free)) as [C|C].
  - rewrite write_room_fits by lia. now rewrite L.
  - rewrite write_room_full by lia. cbv zeta. rewrite Nat.sub_0_r.
    pose proof (write_full_length f free 0 buf ltac:(lia) ltac:(lia)) as W. rewrite Nat.sub_0_r in W. now rewrite W, Nat.sub_diag.
Qed.

Section Files.
Context (H : list byte -> list byte) (pr : profile) (params : PosPara) (key : Z) (iv : list byte).
Lemma seal_step il is' n f ids log a :
  step (seal_body H params key iv il is' n) (f, (ids, log)) a =
  match seal_block H params key iv il is' n (mkSeal f ids log) a with Ok st => Ok (s_file st, (s_ids st, s_log st)) | Panic => Panic end.
Proof.
  unfold step, seal_body, seal_block. cbn [fst snd s_file s_ids s_log].
  destruct (read_block params f a) as [cur|]; [|reflexivity]. cbn [bind]. destruct (seal_depend_blocks H params il n f ids a) as [deps|]; [|reflexivity]. cbn [bind].
  destruct (seal_block_rounds H params key iv is' deps ids a (cur, log)) as [[cur' log']|]; [|reflexivity]. cbn [bind].
  destruct (set_index ids a (H (com_units cur'))) as [ids'|]; reflexivity.
Qed.
Lemma seal_steps il is' n l : forall f ids log,
  foldM (step (seal_body H params key iv il is' n)) l (f, (ids, log)) =
  match foldM (seal_block H params key iv il is' n) l (mkSeal f ids log) with Ok st => Ok (s_file st, (s_ids st, s_log st)) | Panic => Panic end.
Proof.
  induction l as [|a l IH]; intros f ids log; cbn [foldM]; [reflexivity|]. rewrite seal_step.
  destruct (seal_block H params key iv il is' n (mkSeal f ids log) a) as [[f' ids' log']|]; [|reflexivity]. cbn [bind s_file s_ids s_log]. apply IH.
Qed.
Lemma unseal_step il is' n f a :
  step (unseal_body H params key iv il is' n) (f, tt) a = match unseal_block H params key iv il is' n f a with Ok g => Ok (g, tt) | Panic => Panic end.
Proof.
  unfold step, unseal_body, unseal_block. cbn [fst snd].
  destruct (read_block params f (n - 1 - a)) as [cur|]; [|reflexivity]. cbn [bind].
  destruct (unseal_depend_blocks H params il n f (unseal_before_id H params f (n - 1 - a)) (n - 1 - a)) as [deps|]; [|reflexivity]. cbn [bind].
  destruct (unseal_block_rounds H params key iv is' deps (unseal_before_id H params f (n - 1 - a)) (n - 1 - a) cur) as [cur'|]; reflexivity.
Qed.
Lemma unseal_steps il is' n l : forall f,
  foldM (step (unseal_body H params key iv il is' n)) l (f, tt) =
  match foldM (unseal_block H params key iv il is' n) l f with Ok g => Ok (g, tt) | Panic => Panic end.
Proof.
  induction l as [|a l IH]; intros f; cbn [foldM]; [reflexivity|]. rewrite unseal_step.
  destruct (unseal_block H params key iv il is' n f a) as [f'|]; [|reflexivity]. cbn [bind]. apply IH.
Qed.
Theorem seal_fits f free st : seal H pr params key iv f = Ok st -> length (s_file st) <= length f + free ->
  seal_room H pr params key iv (f, free) = ((s_file st, length f + free - length (s_file st)), Ok (s_ids st, s_log st)).
Proof.
  unfold seal, seal_room. destruct (nblocks params) as [n|]; [|discriminate]. cbn [bind]. destruct (seal_idxs_l pr params n) as [il|]; [|discriminate]. cbn [bind].
  destruct (seal_idxs_s pr params n) as [is'|]; [|discriminate]. cbn [bind]. intros E L. apply loop_fits; [|exact L]. now rewrite seal_steps, E.
Qed.
Theorem unseal_fits f free g : unseal H pr params key iv f = Ok g -> length g <= length f + free ->
  unseal_room H pr params key iv (f, free) = ((g, length f + free - length g), Ok tt).
Proof.
  unfold unseal, unseal_room. destruct (nblocks params) as [n|]; [|discriminate]. cbn [bind]. destruct (unseal_idxs_l pr params n) as [il|]; [|discriminate]. cbn [bind].
  destruct (unseal_idxs_s pr params n) as [is'|]; [|discriminate]. cbn [bind]. intros E L. apply loop_fits; [|exact L]. now rewrite unseal_steps, E.
Qed.
Theorem seal_full f free st : seal H pr params key iv f = Ok st -> length f + free < length (s_file st) -> snd (seal_room H pr params key iv (f, free)) = Panic.
Proof.
  unfold seal, seal_room. destruct (nblocks params) as [n|]; [|discriminate]. cbn [bind]. destruct (seal_idxs_l pr params n) as [il|]; [|discriminate]. cbn [bind].
  destruct (seal_idxs_s pr params n) as [is'|]; [|discriminate]. cbn [bind]. intros E L.
  destruct (loop_full (seal_body H params key iv il is' n) (seq 0 n) f free (repeat [] n, []) (s_file st) (s_ids st, s_log st)) as (l1 & a & l2 & g & s1 & pos & buf & s2 & _ & _ & _ & _ & R).
  - now rewrite seal_steps, E.
  - exact L.
  - cbv zeta in R. match goal with |- snd ?x = _ => change x with (loop_room (seal_body H params key iv il is' n) (seq 0 n) (f, free) (repeat [] n, [])) end. now rewrite R.
Qed.
Theorem unseal_full f free g : unseal H pr params key iv f = Ok g -> length f + free < length g -> snd (unseal_room H pr params key iv (f, free)) = Panic.
Proof.
  unfold unseal, unseal_room. destruct (nblocks params) as [n|]; [|discriminate]. cbn [bind]. destruct (unseal_idxs_l pr params n) as [il|]; [|discriminate]. cbn [bind].
  destruct (unseal_idxs_s pr params n) as [is'|]; [|discriminate]. cbn [bind]. intros E L.
  destruct (loop_full (unseal_body H params key iv il is' n) (seq 0 n) f free tt g tt) as (l1 & a & l2 & g' & s1 & pos & buf & s2 & _ & _ & _ & _ & R).
  - now rewrite unseal_steps, E.
  - exact L.
  - cbv zeta in R. match goal with |- snd ?x = _ => change x with (loop_room (unseal_body H params key iv il is' n) (seq 0 n) (f, free) tt) end. now rewrite R.
Qed.
Theorem seal_room_panics f free : seal H pr params key iv f = Panic -> snd (seal_room H pr params key iv (f, free)) = Panic.
Proof.
  unfold seal, seal_room. destruct (nblocks params) as [n|]; [|reflexivity]. cbn [bind]. destruct (seal_idxs_l pr params n) as [il|]; [|reflexivity]. cbn [bind].
  destruct (seal_idxs_s pr params n) as [is'|]; [|reflexivity]. cbn [bind]. intros E. apply loop_panics. now rewrite seal_steps, E.
Qed.
Theorem unseal_room_panics f free : unseal H pr params key iv f = Panic -> snd (unseal_room H pr params key iv (f, free)) = Panic.
Proof.
  unfold unseal, unseal_room. destruct (nblocks params) as [n|]; [|reflexivity]. cbn [bind]. destruct (unseal_idxs_l pr params n) as [il|]; [|reflexivity]. cbn [bind].
  destruct (unseal_idxs_s pr params n) as [is'|]; [|reflexivity]. cbn [bind]. intros E. apply loop_panics. now rewrite unseal_steps, E.
Qed.
End Files.
