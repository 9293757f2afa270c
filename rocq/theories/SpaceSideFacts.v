(** Facts about spaces used side by side. *)
From Coq Require Import Strings.Byte.
From Verif Require Import Base BytesFacts AnyLength Field Mimc MimcFacts Convert ConvertFacts Space SpaceFacts SpaceCrashFacts Paths Side SideFacts SpaceSide.
Local Open Scope nat_scope.

(** * Alone *)
(** The process m, alone on a disk where p exists, does to that file what r does. *)
Definition does {A} (p : place) (m : proc A) (r : file -> res (file * A)) : Prop := forall d f, d p = Some f ->
  (forall q, q <> p -> fst (run m d) q = d q) /\
  match r f with
  | Ok (g, a) => snd (run m d) = Ok a /\ fst (run m d) p = Some g
  | Panic => snd (run m d) = Panic
  end.
Lemma does_ext {A} p (m : proc A) r r' : (forall f, r f = r' f) -> does p m r -> does p m r'.
Proof. intros E D d f P. specialize (D d f P). now rewrite <- E. Qed.
Lemma does_next {A B} p (m : proc A) (k : A -> proc B) r r' : does p m r -> (forall a, does p (k a) (r' a)) ->
  does p (next m k) (fun f => let* (g, a) := r f in r' a g).
Proof.
  intros D D' d f P. rewrite run_next. unfold andThen. destruct (D d f P) as [F R]. destruct (run m d) as [d1 x] eqn:E. cbn [fst snd] in *.
  destruct (r f) as [(g, a)|]; cbn [bind].
  - destruct R as [-> PG]. destruct (D' a d1 g PG) as [F' R']. split; [intros q Q; rewrite F' by exact Q; now apply F|exact R'].
  - subst x. split; [exact F|reflexivity].
Qed.
Lemma does_calc {A} p (r : res A) : does p (calc r) (fun f => let* a := r in Ok (f, a)).
Proof. intros d f P. cbn [calc run fst snd]. split; [reflexivity|]. destruct r; cbn [bind]; auto. Qed.
Lemma does_get p pos buf : does p (p_get p pos buf) (fun f => Ok (f, read_into f pos buf)).
Proof. intros d f P. cbn [p_get run fst snd]. rewrite P. cbn [run fst snd data]. auto. Qed.
Lemma does_existing p : does p (p_existing p) (fun f => Ok (f, tt)).
Proof. intros d f P. cbn [p_existing run]. rewrite P. cbn [run fst snd]. auto. Qed.
Lemma does_write p pos b : does p (p_write p pos b) (fun f => Ok (write_at f pos b, tt)).
Proof.
  intros d f P. cbn [p_write run fst snd]. rewrite P. cbn [data]. unfold put. split; [|split; [reflexivity|now rewrite Nat.eqb_refl]].
  intros q Q. now rewrite (proj2 (Nat.eqb_neq q p) Q).
Qed.
Lemma does_each {A S} p (g : S -> A -> proc S) r : (forall s a, does p (g s a) (r s a)) ->
  forall l s, does p (each g l s) (fun f => foldM (fun fs a => r (snd fs) a (fst fs)) l (f, s)).
Proof.
  intros D l. induction l as [|a l IH]; intros s; cbn [each foldM].
  - eapply does_ext; [|apply does_calc]. reflexivity.
  - eapply does_ext; [|apply (does_next p _ _ (r s a) (fun s' f => foldM (fun fs a => r (snd fs) a (fst fs)) l (f, s'))); [apply D|exact IH]].
    intros f. cbn [fst snd]. destruct (r s a f) as [(g', s')|]; reflexivity.
Qed.

Definition mark_bit_f (pr : profile) (s : nat * list byte * list bool * nat) (xb : bool) (f : file) : res (file * (nat * list byte * list bool * nat)) :=
  let '(idx, buf, bb, j) := s in let* (f, idx, buf, bb, j) := mark_bit pr (f, idx, buf, bb, j) xb in Ok (f, (idx, buf, bb, j)).
Lemma does_mark_bit pr p s xb : does p (mark_bit_p pr p s xb) (mark_bit_f pr s xb).
Proof.
  destruct s as (((idx, buf), bb), j). unfold mark_bit_p, mark_bit_f, mark_bit. destruct (set_index bb j xb) as [bb'|]; cbn [calc next bind].
  - destruct (S j =? 8).
    + destruct (bits_to_bytes pr bb') as [e|]; cbn [calc next bind].
      * eapply does_ext; [|eapply does_next; [apply does_write|intros ?; eapply does_next; [apply does_get|intros b; apply does_calc]]]. reflexivity.
      * eapply does_ext; [|apply does_calc]. reflexivity.
    + eapply does_ext; [|apply does_calc]. reflexivity.
  - eapply does_ext; [|apply does_calc]. reflexivity.
Qed.
Lemma fold_mark pr : forall l f idx buf bb j,
  foldM (fun fs a => mark_bit_f pr (snd fs) a (fst fs)) l (f, (idx, buf, bb, j))
  = (let* (f, idx, buf, bb, j) := foldM (mark_bit pr) l (f, idx, buf, bb, j) in Ok (f, (idx, buf, bb, j))).
Proof.
  induction l as [|b l IH]; intros f idx buf bb j; [reflexivity|]. cbn [foldM fst snd].
  assert (E : mark_bit_f pr (idx, buf, bb, j) b f = let* (f, idx, buf, bb, j) := mark_bit pr (f, idx, buf, bb, j) b in Ok (f, (idx, buf, bb, j))) by reflexivity. rewrite E. clear E.
  destruct (mark_bit pr (f, idx, buf, bb, j) b) as [((((f', i'), b'), bb'), j')|]; cbn [bind]; [apply IH|reflexivity].
Qed.
Lemma does_mark_slot pr p n y l : does p (mark_slot_p pr p n y l) (fun f => let* g := mark_slot pr n f y l in Ok (g, tt)).
Proof.
  unfold mark_slot_p, mark_slot. destruct (usz pr ((Z.of_nat n + 1) * y)) as [u|]; cbn [calc next bind]; [|eapply does_ext; [|apply does_calc]; reflexivity].
  eapply does_ext; [|eapply does_next; [apply does_get|intros b; eapply does_next; [apply does_each; intros s a; apply does_mark_bit|
    intros (((idx, b'), bb), j); instantiate (1 := fun s f => let '(idx, _, bb, j) := s in if j =? 0 then Ok (f, tt) else let* e := bits_to_bytes pr bb in Ok (write_at f idx e, tt))]]].
  - intros f. cbn [bind]. rewrite fold_mark. destruct (foldM _ _ _) as [((((f', i'), b'), bb'), j')|]; cbn [bind]; [|reflexivity].
    destruct (j' =? 0); [reflexivity|]. destruct (bits_to_bytes pr bb'); reflexivity.
  - cbn beta iota. destruct (j =? 0); [eapply does_ext; [|apply does_calc]; reflexivity|].
    destruct (bits_to_bytes pr bb); cbn [calc next bind]; [apply does_write|]. eapply does_ext; [|apply does_calc]. reflexivity.
Qed.
Lemma fold_unit {A} (g : file -> A -> res file) : forall l f,
  foldM (fun (fs : file * unit) a => let* h := g (fst fs) a in Ok (h, tt)) l (f, tt) = (let* h := foldM g l f in Ok (h, tt)).
Proof. induction l as [|a l IH]; intros f; [reflexivity|]. cbn [foldM fst]. destruct (g f a); cbn [bind]; [apply IH|reflexivity]. Qed.
Theorem does_mark_space {K : prime_ops} pr p (key m : K) consts n : does p (mark_space_p pr p key m consts n) (fun f => let* g := mark_space pr f key m consts n in Ok (g, tt)).
Proof.
  unfold mark_space_p, mark_space. eapply does_ext; [|eapply does_next; [apply does_existing|intros ?; eapply does_next; [apply does_calc|intros count;
    apply (does_each p _ (fun _ x f => let* g := (let* (y, x_bits) := mark_target pr key m consts n (Z.of_nat x) in mark_slot pr n f y x_bits) in Ok (g, tt)))]]].
  - intros f. cbn [bind]. destruct (pow2 pr n) as [c|]; cbn [bind]; [|reflexivity]. rewrite <- (fold_unit (fun f x => let* (y, x_bits) := mark_target pr key m consts n (Z.of_nat x) in mark_slot pr n f y x_bits)). reflexivity.
  - intros _ x. destruct (mark_target pr key m consts n (Z.of_nat x)) as [(y, xb)|]; cbn [calc next bind]; [apply does_mark_slot|].
    eapply does_ext; [|apply does_calc]. reflexivity.
Qed.
Definition read_bit_f (s : list bool * nat * list byte * list bool * nat) (a : nat) (f : file) : res (file * (list bool * nat * list byte * list bool * nat)) :=
  let* s := read_bit f s a in Ok (f, s).
Lemma does_read_bit p s a : does p (read_bit_p p s a) (read_bit_f s a).
Proof.
  destruct s as ((((xs, idx), buf), bb), k). unfold read_bit_p, read_bit_f, read_bit. destruct (index bb k) as [b|]; cbn [calc next bind]; [|eapply does_ext; [|apply does_calc]; reflexivity].
  destruct (S k =? 8); [|eapply does_ext; [|apply does_calc]; reflexivity].
  eapply does_ext; [|eapply does_next; [apply does_get|intros c; apply does_calc]]. reflexivity.
Qed.
Lemma fold_read f : forall l s, foldM (fun fs a => read_bit_f (snd fs) a (fst fs)) l (f, s) = (let* s := foldM (read_bit f) l s in Ok (f, s)).
Proof. induction l as [|a l IH]; intros s; [reflexivity|]. cbn [foldM fst snd]. assert (E : read_bit_f s a f = let* s := read_bit f s a in Ok (f, s)) by reflexivity. rewrite E. clear E. destruct (read_bit f s a); cbn [bind]; [apply IH|reflexivity]. Qed.
Lemma does_read_slot pr p n y : does p (read_slot_p pr p n y) (fun f => let* s := read_slot pr f n y in Ok (f, s)).
Proof.
  unfold read_slot_p, read_slot. destruct (usz pr ((Z.of_nat n + 1) * y)) as [u|]; cbn [calc next bind]; [|eapply does_ext; [|apply does_calc]; reflexivity].
  eapply does_ext; [|eapply does_next; [apply does_get|intros b; eapply does_next; [apply does_each; intros s a; apply does_read_bit|
    intros ((((xs, idx), b'), bb), j); instantiate (1 := fun s f => let '(xs, _, _, _, _) := s in Ok (f, xs))]]].
  - intros f. cbn [bind]. rewrite fold_read. destruct (foldM _ _ _) as [((((xs, i'), b'), bb'), j')|]; reflexivity.
  - apply (does_calc p (Ok xs)).
Qed.
Lemma does_respond {K : prime_ops} pr p n : forall cs i (xs : list K) idxs, does p (respond_p pr p n i cs xs idxs) (fun f => let* r := respond pr f n i cs xs idxs in Ok (f, r)).
Proof.
  induction cs as [|c cs IH]; intros i xs idxs; cbn [respond_p respond]; [eapply does_ext; [|apply does_calc]; reflexivity|].
  eapply does_ext; [|eapply does_next; [apply does_read_slot|intros s;
    instantiate (1 := fun s f => let* r := (let* flag := index s n in let* (xs, idxs) := (if flag then let* bits := slice s 0 n in let* x := bits_to_usize pr bits in Ok (xs ++ [of_Z x], idxs ++ [i]) else Ok (xs, idxs)) in
      if length xs =? RESPONSE_COUNT then Ok (xs, idxs) else respond pr f n (S i) cs xs idxs) in Ok (f, r))]].
  - intros f. cbn beta. destruct (read_slot pr f n c); reflexivity.
  - cbn beta. destruct (index s n) as [flag|]; cbn [calc next bind]; [|eapply does_ext; [|apply does_calc]; reflexivity].
    assert (G : forall (xs' : list K) idxs', does p (if length xs' =? RESPONSE_COUNT then calc (Ok (xs', idxs')) else respond_p pr p n (S i) cs xs' idxs')
      (fun f => let* r := (if length xs' =? RESPONSE_COUNT then Ok (xs', idxs') else respond pr f n (S i) cs xs' idxs') in Ok (f, r))).
    { intros xs' idxs'. destruct (length xs' =? RESPONSE_COUNT); [eapply does_ext; [|apply does_calc]; reflexivity|]. apply IH. }
    destruct flag; [|apply G]. destruct (slice s 0 n) as [b|]; cbn [calc next bind]; [|eapply does_ext; [|apply does_calc]; reflexivity].
    destruct (bits_to_usize pr b) as [x|]; cbn [calc next bind]; [|eapply does_ext; [|apply does_calc]; reflexivity]. apply G.
Qed.
Theorem does_response {K : prime_ops} pr p cs (key : K) hc n : does p (response_1_p pr p cs key hc n) (fun f => let* r := response_1 pr f cs key hc n in Ok (f, r)).
Proof.
  unfold response_1_p, response_1. eapply does_ext; [|eapply does_next; [apply does_existing|intros ?; eapply does_next; [apply does_respond|intros (xs, idxs);
    instantiate (1 := fun r f => let* h := multi_mimc5_hash (fst r) key hc in Ok (f, (fst r, snd r, h)))]]].
  - intros f. cbn [bind]. destruct (respond pr f n 0 cs [] []) as [(xs, idxs)|]; cbn [bind fst snd]; [|reflexivity]. destruct (multi_mimc5_hash xs key hc); reflexivity.
  - cbn beta. cbn [fst snd]. destruct (multi_mimc5_hash xs key hc); cbn [calc next bind]; eapply does_ext; try apply does_calc; reflexivity.
Qed.
Theorem run_prepare_space pr p n d :
  (forall q, q <> p -> fst (run (prepare_space_p pr p n) d) q = d q) /\
  match prepare_space pr (content d p) n with
  | Ok g => snd (run (prepare_space_p pr p n) d) = Ok tt /\ fst (run (prepare_space_p pr p n) d) p = Some g
  | Panic => snd (run (prepare_space_p pr p n) d) = Panic
  end.
Proof.
  change (run (prepare_space_p pr p n) d) with (run (go count <- calc (pow2 pr n);
    go total <- calc (usz pr ((Z.of_nat n + 1) * count)); each (fun _ i => p_write p i [x00]) (seq 0 (Z.to_nat (total / 8))) tt) (put d p [])).
  assert (P0 : put d p [] p = Some []) by (unfold put; now rewrite Nat.eqb_refl).
  match goal with |- context [run ?m (put d p [])] => set (M := m) end.
  assert (D : does p M (fun f => let* count := pow2 pr n in let* total := usz pr ((Z.of_nat n + 1) * count) in
     Ok (fold_left (fun g i => write_at g i [x00]) (seq 0 (Z.to_nat (total / 8))) f, tt))).
  { unfold M. destruct (pow2 pr n) as [c|]; cbn [calc next bind]; [|eapply does_ext; [|apply does_calc]; reflexivity].
    destruct (usz pr ((Z.of_nat n + 1) * c)) as [t|]; cbn [calc next bind]; [|eapply does_ext; [|apply does_calc]; reflexivity].
    eapply does_ext; [|apply (does_each p _ (fun _ i f => Ok (write_at f i [x00], tt))); intros _ i; apply does_write].
    generalize (seq 0 (Z.to_nat (t / 8))) as l. induction l as [|i l IH]; intros f; [reflexivity|]. cbn [foldM fst snd bind fold_left]. apply IH. }
  destruct (D _ _ P0) as [F R]. split.
  - intros q Q. rewrite F by exact Q. unfold put. now rewrite (proj2 (Nat.eqb_neq q p) Q).
  - unfold prepare_space. destruct (pow2 pr n) as [c|]; cbn [bind] in *; [|exact R]. destruct (usz pr ((Z.of_nat n + 1) * c)); cbn [bind] in *; exact R.
Qed.

(** * Side by side on one file *)
(** The process uses only p, never panics, and keeps OK for what p holds, whoever else
    changes it meanwhile; what it returns satisfies Q. *)
Inductive safe {A} (p : place) (OK : file -> Prop) (Q : A -> Prop) : proc A -> Prop :=
| safe_end : forall a, Q a -> safe p OK Q (Halt (Ok a))
| safe_see : forall k, (forall f, OK f -> safe p OK Q (k (Some f))) -> safe p OK Q (See p k)
| safe_change : forall w m, (forall f, OK f -> OK (w (Some f))) -> safe p OK Q m -> safe p OK Q (Change p w m).
Lemma safe_next {A B} p OK (Q : A -> Prop) (R : B -> Prop) m k : safe p OK Q m -> (forall a, Q a -> safe p OK R (k a)) -> safe p OK R (next m k).
Proof. intros S F. induction S as [a QA|k' _ IH|w m W _ IH]; cbn [next]; [now apply F|now constructor|now constructor]. Qed.
Lemma safe_imp {A} p OK (Q R : A -> Prop) m : safe p OK Q m -> (forall a, Q a -> R a) -> safe p OK R m.
Proof. intros S F. induction S; constructor; auto. Qed.
Lemma safe_each {A S} p OK (I : nat -> S -> Prop) (f : S -> A -> proc S) : forall l i s,
  (forall j a s, nth_error l j = Some a -> I (i + j) s -> safe p OK (I (Datatypes.S (i + j))) (f s a)) -> I i s -> safe p OK (I (i + length l)) (each f l s).
Proof.
  induction l as [|a l IH]; intros i s F IS; cbn [each length]; [rewrite Nat.add_0_r; now constructor|].
  eapply safe_next; [pose proof (F 0 a s eq_refl) as F0; rewrite Nat.add_0_r in F0; now apply F0|]. intros s' IS'. replace (i + Datatypes.S (length l)) with (Datatypes.S i + length l) by lia. apply IH; [|exact IS'].
  intros j b s'' E. replace (Datatypes.S i + j) with (i + Datatypes.S j) by lia. now apply F.
Qed.
Definition all_safe {A} (p : place) (OK : file -> Prop) (Qs : nat -> A -> Prop) (s : shared A) : Prop :=
  (exists f, fst s p = Some f /\ OK f) /\ forall i m, nth_error (snd s) i = Some (Some m) -> safe p OK (Qs i) m.
Lemma safe_turn {A} p OK (Qs : nat -> A -> Prop) s s' : turn s s' -> all_safe p OK Qs s -> all_safe p OK Qs s'.
Proof.
  intros T ((f & P & O) & S). destruct T as [d ps i q k E|d ps i q w m E|d ps i m E _]; cbn [fst snd] in *.
  - split; [eauto|]. intros j m' E'. apply upd_nth in E'. destruct E' as [[-> E']|[_ E']]; [|now apply S]. injection E' as ->. specialize (S j _ E). inversion S; subst. rewrite P. auto.
  - specialize (S i _ E) as SI. inversion SI; subst. rewrite P. split.
    + exists (w (Some f)). cbn [fst]. unfold put. rewrite Nat.eqb_refl. auto.
    + intros j m' E'. cbn [snd] in E'. apply upd_nth in E'. destruct E' as [[-> E']|[_ E']]; [|now apply S]. injection E' as ->. assumption.
  - split; [eauto|]. intros j m' E'. apply upd_nth in E'. destruct E' as [[_ E']|[_ E']]; [discriminate E'|now apply S].
Qed.
Theorem safe_turns {A} p OK (Qs : nat -> A -> Prop) s s' : turns s s' -> all_safe p OK Qs s -> all_safe p OK Qs s'.
Proof. intros T. induction T; [auto|]. intros S. apply IHT. eapply safe_turn; eassumption. Qed.
(** Nor does it touch anything else. *)
Lemma safe_frame {A} p OK (Qs : nat -> A -> Prop) s s' : turns s s' -> all_safe p OK Qs s -> forall q, q <> p -> fst s' q = fst s q.
Proof.
  intros T. induction T as [|s s1 s2 T TS IH]; [auto|]. intros S q NQ. rewrite IH by (eauto using safe_turn). destruct S as [_ S]. destruct T as [d ps i r k E|d ps i r w m E|d ps i m E _]; cbn [fst snd] in *; try reflexivity.
  specialize (S i _ E). inversion S; subst. unfold put. match goal with |- context [q =? ?r] => now rewrite (proj2 (Nat.eqb_neq q r) NQ) end.
Qed.

Section Pieces.
Context (p : place) (L : nat) (fine : nat -> byte -> Prop).
Definition whole_file (f : file) : Prop := length f = L /\ forall i, i < L -> fine i (nth i f x00).
Notation Safe := (safe p whole_file).

Lemma safe_get idx buf : length buf = 1 -> Safe (fun b => exists c, b = [c] /\ (idx < L -> fine idx c)) (p_get p idx buf).
Proof.
  intros LB. destruct buf as [|c [|]]; try discriminate. constructor. intros f [LF F]. constructor. cbn [data]. rewrite read_into_1. eexists. split; [reflexivity|].
  intros I. rewrite (nth_indep f c x00) by lia. now apply F.
Qed.
Lemma safe_write idx e : idx < L -> fine idx e -> Safe (fun _ => True) (p_write p idx [e]).
Proof.
  intros I F. constructor; [|now constructor]. intros f [LF FF]. cbn [data]. split.
  - unfold write_at. rewrite !app_length, firstn_length, skipn_length. cbn [length]. unfold zeros. rewrite repeat_length. lia.
  - intros i IL. rewrite write_at_nth_any. cbn [length]. destruct (Nat.leb_spec idx i), (Nat.ltb_spec i (idx + 1)); cbn [andb]; try (now apply FF).
    assert (i = idx) by lia. subst i. now rewrite Nat.sub_diag.
Qed.

Section Slot.
Context (n y : nat).
Notation P := ((n + 1) * y).
Hypothesis FIT : P + (n + 1) <= 8 * L.
Hypothesis SMALL : (Z.of_nat P < two64)%Z.

(** Byte i of slot y is that of the bits l, the rest of the byte that of b. *)
Definition patch (l : list bool) (t i : nat) (b : list bool) (u : nat) : bool :=
  if (P <=? 8 * i + u) && (8 * i + u <? P + t) then nth (8 * i + u - P) l false else nth u b false.
Definition closed (l : list bool) : Prop := forall i b e, i < L -> fine i b ->
  (forall u, u < 8 -> nth u (byte_bits e) false = patch l (n + 1) i (byte_bits b) u) -> fine i e.
Lemma start_pos pr : usz pr ((Z.of_nat n + 1) * Z.of_nat y) = Ok (Z.of_nat P) /\ Z.to_nat (Z.of_nat P / 8) = P / 8 /\ Z.to_nat (Z.of_nat P mod 8) = P mod 8.
Proof using SMALL.
  clear FIT fine. replace ((Z.of_nat n + 1) * Z.of_nat y)%Z with (Z.of_nat P) by lia. rewrite usz_in by lia. change 8%Z with (Z.of_nat 8). now rewrite <- Nat2Z.inj_div, <- Nat2Z.inj_mod, !Nat2Z.id.
Qed.
Lemma one_byte bb : length bb = 8 -> exists e, pack bb = [e] /\ byte_bits e = bb.
Proof.
  intros L8. destruct (pack_length8 bb 1 L8) as [PL PB]. destruct (pack bb) as [|e [|]]; try discriminate. exists e. split; [reflexivity|]. cbn [bytes_to_bits flat_map] in PB. now rewrite app_nil_r in PB.
Qed.
Lemma nth_upd_bit (l : list bool) j b u : j < length l -> nth u (upd l j b) false = if u =? j then b else nth u l false.
Proof.
  intros J. assert (G := nth_upd l j u b). destruct (Nat.eqb_spec u j) as [->|NE].
  - rewrite Nat.eqb_refl in G. destruct (Nat.ltb_spec j (length l)); [|lia]. cbn [andb] in G. now apply nth_error_nth.
  - rewrite (proj2 (Nat.eqb_neq j u)) in G by congruence. cbn [andb] in G. destruct (nth_error l u) eqn:E; [rewrite (nth_error_nth _ _ _ E), (nth_error_nth _ _ _ G); reflexivity|].
    rewrite !nth_overflow; [reflexivity|now apply nth_error_None|rewrite upd_length; now apply nth_error_None].
Qed.
Definition marking (l : list bool) (t : nat) (s : nat * list byte * list bool * nat) : Prop :=
  let '(idx, buf, bb, j) := s in length buf = 1 /\ length bb = 8 /\ j < 8 /\ 8 * idx + j = P + t /\
  (idx < L -> exists b, fine idx b /\ forall u, u < 8 -> nth u bb false = patch l t idx (byte_bits b) u).
Lemma safe_mark_bit pr l t xb s : length l = n + 1 -> closed l -> nth_error l t = Some xb -> marking l t s -> Safe (marking l (S t)) (mark_bit_p pr p s xb).
Proof using FIT SMALL.
  intros LL CL E. destruct s as (((idx, buf), bb), j). intros (LB & L8 & J & PT & B). unfold mark_bit_p, set_index. rewrite L8. destruct (Nat.ltb_spec j 8); [|lia]. cbn [calc next].
  assert (T : t < n + 1) by (rewrite <- LL; apply nth_error_Some; congruence). assert (I : idx < L) by lia. destruct (B I) as (b & FB & BB).
  assert (L8' : length (upd bb j xb) = 8) by (now rewrite upd_length).
  assert (BB' : forall u, u < 8 -> nth u (upd bb j xb) false = patch l (S t) idx (byte_bits b) u).
  { intros u U. rewrite nth_upd_bit, BB by lia. unfold patch. destruct (Nat.eqb_spec u j) as [->|NE].
    - destruct (Nat.leb_spec P (8 * idx + j)), (Nat.ltb_spec (8 * idx + j) (P + S t)); try lia. cbn [andb]. replace (8 * idx + j - P) with t by lia. symmetry. now apply nth_error_nth.
    - destruct (Nat.leb_spec P (8 * idx + u)), (Nat.ltb_spec (8 * idx + u) (P + S t)), (Nat.ltb_spec (8 * idx + u) (P + t)); cbn [andb]; try reflexivity; lia. }
  destruct (Nat.eqb_spec (S j) 8) as [J8|J8].
  - rewrite bits_to_bytes_pack. cbn [calc next]. destruct (one_byte _ L8') as (e & PE & BE). rewrite PE.
    eapply safe_next; [apply (safe_write idx e I)|].
    + apply (CL idx b e I FB). intros u U. rewrite BE, BB' by exact U. unfold patch.
      destruct (Nat.leb_spec P (8 * idx + u)), (Nat.ltb_spec (8 * idx + u) (P + S t)), (Nat.ltb_spec (8 * idx + u) (P + (n + 1))); cbn [andb]; try reflexivity; lia.
    + intros _ _. eapply safe_next; [apply (safe_get (S idx) [e] eq_refl)|]. intros b' (c & -> & FC). constructor. unfold marking. rewrite bits_one, byte_bits_length. repeat split; try lia.
      intros I'. exists c. split; [now apply FC|]. intros u U. unfold patch. destruct (Nat.leb_spec P (8 * S idx + u)), (Nat.ltb_spec (8 * S idx + u) (P + S t)); cbn [andb]; try reflexivity; lia.
  - constructor. unfold marking. repeat split; try lia; try assumption. intros _. exists b. split; [exact FB|exact BB'].
Qed.
Lemma safe_mark_slot pr l : length l = n + 1 -> closed l -> Safe (fun _ => True) (mark_slot_p pr p n (Z.of_nat y) l).
Proof using FIT SMALL.
  intros LL CL. unfold mark_slot_p. destruct (start_pos pr) as (U & DI & MO). rewrite U. cbn [calc next]. rewrite DI, MO.
  pose proof (Nat.div_mod P 8 ltac:(lia)) as DM. pose proof (Nat.mod_upper_bound P 8 ltac:(lia)) as MB.
  eapply safe_next; [apply (safe_get _ [x00] eq_refl)|]. intros b (c & -> & FC). eapply safe_next.
  - apply (safe_each p whole_file (marking l) (mark_bit_p pr p) l 0).
    + intros t xb s E. now apply safe_mark_bit.
    + unfold marking. rewrite bits_one, byte_bits_length. repeat split; try lia. intros I. exists c. split; [now apply FC|]. intros u _. unfold patch.
      destruct (Nat.leb_spec P (8 * (P / 8) + u)), (Nat.ltb_spec (8 * (P / 8) + u) (P + 0)); cbn [andb]; try reflexivity; lia.
  - intros (((idx, buf), bb), j) (LB & L8 & J & PT & B). rewrite LL in *. cbn [Nat.add] in *. destruct (Nat.eqb_spec j 0); [now constructor|]. rewrite bits_to_bytes_pack. cbn [calc next].
    destruct (one_byte _ L8) as (e & PE & BE). rewrite PE. assert (I : idx < L) by lia. destruct (B I) as (b & FB & BB). apply safe_write; [exact I|]. apply (CL idx b e I FB). intros u UU. rewrite BE. now apply BB.
Qed.

(** The bits that were read: each byte of the slot is that of some content of that byte. *)
Definition piece (s : list bool) (t i : nat) (b : byte) : Prop := forall u, u < 8 -> P <= 8 * i + u < P + t -> nth (8 * i + u - P) s false = nth u (byte_bits b) false.
Definition seen (s : list bool) : Prop := length s = n + 1 /\ forall i, P < 8 * i + 8 -> 8 * i < P + (n + 1) -> exists b, fine i b /\ piece s (n + 1) i b.
Definition reading (t : nat) (s : list bool * nat * list byte * list bool * nat) : Prop :=
  let '(xs, idx, buf, bb, k) := s in length xs = t /\ length buf = 1 /\ k < 8 /\ 8 * idx + k = P + t /\
  (idx < L -> exists b, fine idx b /\ bb = byte_bits b /\ piece xs t idx b) /\ (forall i, i < idx -> P < 8 * i + 8 -> exists b, fine i b /\ piece xs t i b).
Lemma piece_snoc xs t i b x : length xs = t -> piece xs t i b -> (forall u, u < 8 -> 8 * i + u = P + t -> x = nth u (byte_bits b) false) -> piece (xs ++ [x]) (S t) i b.
Proof.
  intros LX PC X u U R. destruct (Nat.eq_dec (8 * i + u) (P + t)) as [E|NE].
  - rewrite E. replace (P + t - P) with t by lia. rewrite app_nth2, LX, Nat.sub_diag by lia. cbn [nth]. now apply X.
  - rewrite app_nth1 by lia. apply PC; [exact U|lia].
Qed.
Lemma safe_read_bit t a s : t < n + 1 -> reading t s -> Safe (reading (S t)) (read_bit_p p s a).
Proof using FIT SMALL.
  intros T. destruct s as ((((xs, idx), buf), bb), k). intros (LX & LB & K8 & PT & C & R). assert (I : idx < L) by lia. destruct (C I) as (b & FB & -> & PB). unfold read_bit_p, index.
  destruct (nth_error (byte_bits b) k) as [x|] eqn:E; [|apply nth_error_None in E; rewrite byte_bits_length in E; lia]. cbn [calc next].
  assert (PB' : piece (xs ++ [x]) (S t) idx b).
  { apply piece_snoc; [exact LX|exact PB|]. intros u U Q. assert (u = k) by lia. subst u. symmetry. now apply nth_error_nth. }
  assert (R' : forall i, i < idx -> P < 8 * i + 8 -> exists b, fine i b /\ piece (xs ++ [x]) (S t) i b).
  { intros i II PI. destruct (R i II PI) as (b' & FB' & PB''). exists b'. split; [exact FB'|]. apply piece_snoc; [exact LX|exact PB''|]. intros u U Q. lia. }
  destruct (Nat.eqb_spec (S k) 8).
  - eapply safe_next; [apply (safe_get (S idx) buf LB)|]. intros b' (c & -> & FC). constructor. unfold reading. rewrite app_length. cbn [length]. repeat split; try lia.
    + intros I'. exists c. split; [now apply FC|]. split; [apply bits_one|]. intros u U Q. lia.
    + intros i II PI. destruct (Nat.eq_dec i idx) as [->|]; [eauto|]. apply R'; lia.
  - constructor. unfold reading. rewrite app_length. cbn [length]. repeat split; try lia; eauto.
Qed.
Lemma safe_read_slot pr : Safe seen (read_slot_p pr p n (Z.of_nat y)).
Proof using FIT SMALL.
  unfold read_slot_p. destruct (start_pos pr) as (U & DI & MO). rewrite U. cbn [calc next]. rewrite DI, MO.
  pose proof (Nat.div_mod P 8 ltac:(lia)) as DM. pose proof (Nat.mod_upper_bound P 8 ltac:(lia)) as MB.
  eapply safe_next; [apply (safe_get _ [x00] eq_refl)|]. intros b (c & -> & FC). eapply safe_next.
  - apply (safe_each p whole_file reading (read_bit_p p) (seq 0 (n + 1)) 0).
    + intros t a s E. apply safe_read_bit. assert (t < length (seq 0 (n + 1))) by (apply nth_error_Some; congruence). rewrite seq_length in *. exact H.
    + unfold reading. cbn [length]. repeat split; try lia. intros I. exists c. split; [now apply FC|]. split; [apply bits_one|]. intros u _ Q. lia.
  - intros ((((xs, idx), buf), bb), k). rewrite seq_length. cbn [Nat.add]. intros (LX & LB & K8 & PT & C & R). constructor. split; [exact LX|]. intros i PI QI.
    destruct (Nat.lt_trichotomy i idx) as [II|[->|II]]; [now apply R| |lia]. destruct (C ltac:(lia)) as (b & FB & _ & PB). eauto.
Qed.
End Slot.

Section Ask.
Context {K : prime_ops} (pr : profile) (n : nat).
Hypothesis N : n <= 58.
Hypothesis LEN : (n + 1) * 2 ^ n <= 8 * L.
Lemma slot_fits y : y < 2 ^ n -> (n + 1) * y + (n + 1) <= 8 * L /\ (Z.of_nat ((n + 1) * y) < two64)%Z.
Proof using N LEN.
  clear fine. intros Y. pose proof (space_fits n N). assert ((n + 1) * (y + 1) <= (n + 1) * 2 ^ n) by (apply Nat.mul_le_mono_l; lia). lia.
Qed.
Definition good (cs : list Z) (x : K) (i : nat) : Prop :=
  exists y s, nth_error cs i = Some (Z.of_nat y) /\ y < 2 ^ n /\ seen n y s /\ nth n s false = true /\ x = of_Z (val (firstn n s)).
Lemma safe_respond cs0 : Forall (fun c => exists y, c = Z.of_nat y /\ y < 2 ^ n) cs0 -> forall cs pre xs idxs, pre ++ cs = cs0 -> Forall2 (good cs0) xs idxs ->
  Safe (fun r => Forall2 (good cs0) (fst r) (snd r)) (respond_p (K := K) pr p n (length pre) cs xs idxs).
Proof using N LEN.
  intros F. induction cs as [|c cs IH]; intros pre xs idxs E G; cbn [respond_p]; [now constructor|].
  assert (NC : nth_error cs0 (length pre) = Some c) by (rewrite <- E, nth_error_app2, Nat.sub_diag by lia; reflexivity).
  rewrite Forall_forall in F. destruct (F c (nth_error_In _ _ NC)) as (y & -> & Y). rewrite <- Forall_forall in F. destruct (slot_fits y Y) as [FIT SM].
  eapply safe_next; [apply (safe_read_slot n y FIT SM)|]. intros s SE. assert (LS := proj1 SE).
  unfold index. destruct (nth_error s n) as [b|] eqn:EB; [|apply nth_error_None in EB; lia]. cbn [calc next].
  assert (GO : forall xs' idxs', Forall2 (good cs0) xs' idxs' ->
    Safe (fun r => Forall2 (good cs0) (fst r) (snd r)) (if length xs' =? RESPONSE_COUNT then calc (Ok (xs', idxs')) else respond_p pr p n (S (length pre)) cs xs' idxs')).
  { intros xs' idxs' G'. destruct (length xs' =? RESPONSE_COUNT); [now constructor|]. specialize (IH (pre ++ [Z.of_nat y]) xs' idxs'). rewrite app_length in IH. cbn [length] in IH. rewrite Nat.add_1_r in IH.
    apply IH; [now rewrite <- app_assoc|exact G']. }
  destruct b; [|now apply GO]. unfold slice. destruct (Nat.leb_spec 0 n), (Nat.leb_spec n (length s)); try lia. cbn [andb calc next]. rewrite Nat.sub_0_r. cbn [skipn].
  rewrite bits_to_usize_val by (rewrite firstn_length; lia). cbn [calc next]. apply GO. apply Forall2_app; [exact G|]. constructor; [|constructor].
  exists y, s. repeat split; auto; [apply SE|]. now apply nth_error_nth.
Qed.
Theorem safe_response (RK : is_ring K) cs (key : K) hc : length hc = MIMC5_HASH_ROUNDS -> Forall (fun c => exists y, c = Z.of_nat y /\ y < 2 ^ n) cs ->
  Safe (fun r => Forall2 (good cs) (fst (fst r)) (snd (fst r))) (response_1_p pr p cs key hc n).
Proof using N LEN.
  intros HC F. unfold response_1_p. constructor. intros f _. cbn [next p_existing]. eapply safe_next; [apply (safe_respond cs F cs [] [] []); [reflexivity|constructor]|].
  intros (xs, idxs) G. rewrite (multi_mimc5_ok RK) by exact HC. constructor. exact G.
Qed.
End Ask.
End Pieces.

(** * Reading only *)
Lemma uses_get (rd wr : place -> Prop) p pos b : rd p -> uses rd wr (p_get p pos b).
Proof. intros R. split; [exact R|]. intros c. exact I. Qed.
Lemma uses_read_slot pr (rd wr : place -> Prop) p n y : rd p -> uses rd wr (read_slot_p pr p n y).
Proof.
  intros R. apply uses_next; [apply uses_calc|]. intros u. apply uses_next; [now apply uses_get|]. intros b. apply uses_next; [|intros ((((xs, i), b'), bb), k); apply uses_calc].
  apply uses_each. intros ((((xs, i), b'), bb), k) a. apply uses_next; [apply uses_calc|]. intros x. cbn beta zeta. destruct (S k =? 8); [|apply uses_calc]. apply uses_next; [now apply uses_get|]. intros c. apply uses_calc.
Qed.
Lemma uses_respond {K : prime_ops} pr (rd wr : place -> Prop) p n : rd p -> forall cs i (xs : list K) idxs, uses rd wr (respond_p pr p n i cs xs idxs).
Proof.
  intros R. induction cs as [|c cs IH]; intros i xs idxs; cbn [respond_p]; [apply uses_calc|]. apply uses_next; [now apply uses_read_slot|]. intros s. apply uses_next; [apply uses_calc|]. intros flag. apply uses_next.
  - destruct flag; [|apply uses_calc]. apply uses_next; [apply uses_calc|]. intros b. apply uses_next; [apply uses_calc|]. intros x. apply uses_calc.
  - intros (xs', idxs'). cbn beta iota. destruct (length xs' =? RESPONSE_COUNT); [apply uses_calc|apply IH].
Qed.
Theorem uses_response {K : prime_ops} pr (rd wr : place -> Prop) p cs (key : K) hc n : rd p -> uses rd wr (response_1_p pr p cs key hc n).
Proof.
  intros R. apply uses_next; [now apply uses_existing|]. intros _. apply uses_next; [now apply uses_respond|]. intros (xs, idxs). apply uses_next; [apply uses_calc|]. intros h. apply uses_calc.
Qed.

(** * The same accesses, written differently *)
Inductive same {A} : proc A -> proc A -> Prop :=
| same_halt : forall r, same (Halt r) (Halt r)
| same_see : forall p k k', (forall c, same (k c) (k' c)) -> same (See p k) (See p k')
| same_change : forall p w m m', same m m' -> same (Change p w m) (Change p w m').
Lemma same_refl {A} (m : proc A) : same m m.
Proof. induction m; constructor; auto. Qed.
Lemma same_next {A B} (m m' : proc A) (k k' : A -> proc B) : same m m' -> (forall a, same (k a) (k' a)) -> same (next m k) (next m' k').
Proof. intros S F. induction S as [r|p c c' _ IH|p w m m' _ IH]; cbn [next]; [destruct r; [apply F|constructor]|now constructor|now constructor]. Qed.
Lemma same_each {A B S} (f : S -> A -> proc S) (g : S -> B -> proc S) l l' : Forall2 (fun a b => forall s, same (f s a) (g s b)) l l' -> forall s, same (each f l s) (each g l' s).
Proof. intros F. induction F as [|a b l l' R F IH]; intros s; cbn [each]; [apply same_refl|]. apply same_next; [apply R|exact IH]. Qed.
Definition same_run {A} (x y : option (proc A)) : Prop := match x, y with Some m, Some m' => same m m' | None, None => True | _, _ => False end.
Lemma f2_upd {A B} (R : A -> B -> Prop) l m : Forall2 R l m -> forall i a b, R a b -> Forall2 R (upd l i a) (upd m i b).
Proof. intros F. induction F as [|x y l m Q F IH]; intros [|i] a b AB; cbn [upd]; constructor; auto. Qed.
Lemma f2_nth {A B} (R : A -> B -> Prop) l m : Forall2 R l m -> forall i a, nth_error l i = Some a -> exists b, nth_error m i = Some b /\ R a b.
Proof. intros F. induction F as [|x y l m Q F IH]; intros [|i] a E; try discriminate; cbn [nth_error] in *; [injection E as <-; eauto|now apply IH]. Qed.
Lemma same_turn {A} d (ps : list (option (proc A))) s ps' : turn (d, ps) s -> Forall2 same_run ps ps' -> exists ps1, turn (d, ps') (fst s, ps1) /\ Forall2 same_run (snd s) ps1.
Proof.
  intros T F. inversion T as [d0 ps0 i p k E|d0 ps0 i p w m E|d0 ps0 i m E NH]; subst; cbn [fst snd]; destruct (f2_nth _ _ _ F i _ E) as ([m'|] & E' & R); try contradiction; cbn [same_run] in R.
  - inversion R; subst. eexists. split; [apply T_see; exact E'|]. apply f2_upd; [exact F|]. cbn [same_run]. auto.
  - inversion R; subst. eexists. split; [apply T_change; exact E'|]. apply f2_upd; [exact F|]. cbn [same_run]. auto.
  - eexists. split; [apply (T_kill d ps' i m' E')|apply f2_upd; [exact F|exact I]]. intros r ->. inversion R; subst. now apply (NH r).
Qed.
Theorem same_turns {A} (s s1 : shared A) : turns s s1 -> forall ps', Forall2 same_run (snd s) ps' -> exists ps1, turns (fst s, ps') (fst s1, ps1) /\ Forall2 same_run (snd s1) ps1.
Proof.
  intros T. induction T as [s|s s1 s2 T TS IH]; intros ps' F; [exists ps'; split; [constructor|exact F]|]. destruct s as [d ps]. destruct (same_turn d ps s1 ps' T F) as (ps1 & T1 & F1).
  destruct (IH ps1 F1) as (ps2 & T2 & F2). exists ps2. split; [|exact F2]. econstructor; eassumption.
Qed.
Lemma same_done {A} (m : proc A) r : same (Halt r) m -> m = Halt r.
Proof. intros S. inversion S. reflexivity. Qed.
(** A schedule carried out: the i-th run makes its next access. *)
Definition move {A} (s : shared A) (i : nat) : shared A :=
  match nth_error (snd s) i with
  | Some (Some (See p k)) => (fst s, upd (snd s) i (Some (k (fst s p))))
  | Some (Some (Change p w m)) => (put (fst s) p (w (fst s p)), upd (snd s) i (Some m))
  | _ => s
  end.
Lemma moves {A} : forall l (s : shared A), turns s (fold_left move l s).
Proof.
  induction l as [|i l IH]; intros s; [constructor|]. cbn [fold_left]. unfold move at 2. destruct s as [d ps]. cbn [fst snd]. destruct (nth_error ps i) as [[[r|p k|p w m]|]|] eqn:E; try apply IH.
  - eapply T_more; [exact (T_see d ps i p k E)|apply IH].
  - eapply T_more; [exact (T_change d ps i p w m E)|apply IH].
Qed.
