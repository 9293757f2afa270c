(** Facts about whole uses of one space side by side. *)
From Coq Require Import Strings.Byte.
From Verif Require Import Base BytesFacts AnyLength Field Mimc MimcFacts Convert ConvertFacts Space SpaceFacts SpaceCrashFacts Paths Side SideFacts SpaceSide SpaceSideFacts.
Local Open Scope nat_scope.

Section Short.
Context (p : place) (L : nat) (fine : nat -> byte -> Prop).
(** The file may be shorter than the space: another run may be preparing it. *)
Definition short_file (f : file) : Prop := length f <= L /\ forall i, i < L -> fine i (nth i f x00).
Hypothesis ZERO : forall i, i < L -> fine i x00.
Notation Safe := (safe p short_file).

Lemma short_empty : short_file [].
Proof using ZERO. split; [cbn; lia|]. intros i I. destruct i; now apply ZERO. Qed.
Lemma short_get0 idx : Safe (fun b => exists c, b = [c] /\ (idx < L -> fine idx c)) (p_get p idx [x00]).
Proof.
  constructor. intros f [LF F]. constructor. cbn [data]. rewrite read_into_1. eexists. split; [reflexivity|]. exact (F idx).
Qed.
Lemma short_get idx buf : length buf = 1 -> Safe (fun b => exists c, b = [c]) (p_get p idx buf).
Proof.
  intros LB. destruct buf as [|c [|]]; try discriminate. constructor. intros f _. constructor. cbn [data]. rewrite read_into_1. eauto.
Qed.
Lemma short_write idx e : idx < L -> fine idx e -> Safe (fun _ => True) (p_write p idx [e]).
Proof using ZERO.
  intros I F. constructor; [|now constructor]. intros f [LF FF]. cbn [data]. split.
  - unfold write_at. rewrite !app_length, firstn_length, skipn_length. cbn [length]. unfold zeros. rewrite repeat_length. lia.
  - intros i IL. rewrite write_at_nth_any. cbn [length]. destruct (Nat.leb_spec idx i), (Nat.ltb_spec i (idx + 1)); cbn [andb]; try (now apply FF).
    assert (i = idx) by lia. subst i. now rewrite Nat.sub_diag.
Qed.
Lemma short_prepare pr n : n <= 58 -> (n + 1) * 2 ^ n / 8 <= L -> Safe (fun _ => True) (prepare_space_p pr p n).
Proof using ZERO.
  intros N LN. unfold prepare_space_p. cbn [p_truncate next]. constructor; [intros f _; apply short_empty|]. rewrite pow2_ok by lia. cbn [calc next].
  pose proof (space_fits n N) as FIT.
  replace ((Z.of_nat n + 1) * 2 ^ Z.of_nat n)%Z with (Z.of_nat ((n + 1) * 2 ^ n)) by (rewrite Nat2Z.inj_mul, Nat2Z.inj_pow; lia).
  rewrite usz_in by lia. cbn [calc next]. change 8%Z with (Z.of_nat 8). rewrite <- Nat2Z.inj_div, Nat2Z.id.
  eapply safe_imp; [apply (safe_each p short_file (fun _ _ => True) _ _ 0)|auto]; [|exact I].
  intros j x s E _. apply nth_error_In, in_seq in E. apply short_write; [lia|]. apply ZERO. lia.
Qed.

Section Slot.
Context (n y : nat).
Notation P := ((n + 1) * y).
Hypothesis FIT : P + (n + 1) <= 8 * L.
Hypothesis SMALL : (Z.of_nat P < two64)%Z.
(** A byte read behind the end of the file is the byte read before it.  It does no harm if
    no byte does, or if it is not used. *)
Hypothesis ONE : (forall i c, fine i c) \/ P mod 8 + (n + 1) <= 8.
Lemma one_end idx j t : 8 * idx + j = P + t -> j < 8 -> S j = 8 -> t < n + 1 -> (forall i c, fine i c) \/ S t = n + 1.
Proof using ONE.
  clear FIT SMALL ZERO. intros E J J8 T. destruct ONE as [A|A]; [now left|right]. pose proof (Nat.div_mod P 8 ltac:(lia)). lia.
Qed.
Definition marking_s (l : list bool) (t : nat) (s : nat * list byte * list bool * nat) : Prop :=
  let '(idx, buf, bb, j) := s in length buf = 1 /\ length bb = 8 /\ j < 8 /\ 8 * idx + j = P + t /\
  ((t = n + 1 /\ j = 0) \/ exists b, (idx < L -> fine idx b) /\ forall u, u < 8 -> nth u bb false = patch n y l t idx (byte_bits b) u).
Lemma short_mark_bit pr l t xb s : length l = n + 1 -> closed L fine n y l -> nth_error l t = Some xb -> marking_s l t s -> Safe (marking_s l (S t)) (mark_bit_p pr p s xb).
Proof using FIT SMALL ONE ZERO.
  intros LL CL E. destruct s as (((idx, buf), bb), j). intros (LB & L8 & J & PT & B). unfold mark_bit_p, set_index. rewrite L8. destruct (Nat.ltb_spec j 8); [|lia]. cbn [calc next].
  assert (T : t < n + 1) by (rewrite <- LL; apply nth_error_Some; congruence). assert (I : idx < L) by lia. destruct B as [[B _]|(b & FB & BB)]; [lia|]. specialize (FB I).
  assert (L8' : length (upd bb j xb) = 8) by (now rewrite upd_length).
  assert (BB' : forall u, u < 8 -> nth u (upd bb j xb) false = patch n y l (S t) idx (byte_bits b) u).
  { intros u U. rewrite (nth_upd_bit L fine n y FIT SMALL), BB by lia. unfold patch. destruct (Nat.eqb_spec u j) as [->|NE].
    - destruct (Nat.leb_spec P (8 * idx + j)), (Nat.ltb_spec (8 * idx + j) (P + S t)); try lia. cbn [andb]. replace (8 * idx + j - P) with t by lia. symmetry. now apply nth_error_nth.
    - destruct (Nat.leb_spec P (8 * idx + u)), (Nat.ltb_spec (8 * idx + u) (P + S t)), (Nat.ltb_spec (8 * idx + u) (P + t)); cbn [andb]; try reflexivity; lia. }
  destruct (Nat.eqb_spec (S j) 8) as [J8|J8].
  - rewrite bits_to_bytes_pack. cbn [calc next]. destruct (one_byte _ L8') as (e & PE & BE). rewrite PE.
    eapply safe_next; [apply (short_write idx e I)|].
    + apply (CL idx b e I FB). intros u U. rewrite BE, BB' by exact U. unfold patch.
      destruct (Nat.leb_spec P (8 * idx + u)), (Nat.ltb_spec (8 * idx + u) (P + S t)), (Nat.ltb_spec (8 * idx + u) (P + (n + 1))); cbn [andb]; try reflexivity; lia.
    + intros _ _. eapply safe_next; [apply (short_get (S idx) [e] eq_refl)|]. intros b' (c & ->). constructor. unfold marking_s. rewrite bits_one, byte_bits_length. repeat split; try lia.
      destruct (one_end idx j t PT J J8 T) as [A|A]; [right|left; split; [exact A|reflexivity]]. exists c. split; [intros _; apply A|]. intros u U. unfold patch. destruct (Nat.leb_spec P (8 * S idx + u)), (Nat.ltb_spec (8 * S idx + u) (P + S t)); cbn [andb]; try reflexivity; lia.
  - constructor. unfold marking_s. repeat split; try lia; try assumption. right. exists b. split; [intros _; exact FB|exact BB'].
Qed.
Lemma short_mark_slot pr l : length l = n + 1 -> closed L fine n y l -> Safe (fun _ => True) (mark_slot_p pr p n (Z.of_nat y) l).
Proof using FIT SMALL ONE ZERO.
  intros LL CL. unfold mark_slot_p. destruct (start_pos n y SMALL pr) as (U & DI & MO). rewrite U. cbn [calc next]. rewrite DI, MO.
  pose proof (Nat.div_mod P 8 ltac:(lia)) as DM. pose proof (Nat.mod_upper_bound P 8 ltac:(lia)) as MB.
  eapply safe_next; [apply short_get0|]. intros b (c & -> & FC). eapply safe_next.
  - apply (safe_each p short_file (marking_s l) (mark_bit_p pr p) l 0).
    + intros t xb s E. now apply short_mark_bit.
    + unfold marking_s. rewrite bits_one, byte_bits_length. repeat split; try lia. right. exists c. split; [exact FC|]. intros u _. unfold patch.
      destruct (Nat.leb_spec P (8 * (P / 8) + u)), (Nat.ltb_spec (8 * (P / 8) + u) (P + 0)); cbn [andb]; try reflexivity; lia.
  - intros (((idx, buf), bb), j) (LB & L8 & J & PT & B). rewrite LL in *. cbn [Nat.add] in *. destruct (Nat.eqb_spec j 0); [now constructor|]. rewrite bits_to_bytes_pack. cbn [calc next].
    destruct (one_byte _ L8) as (e & PE & BE). rewrite PE. assert (I : idx < L) by lia. destruct B as [[_ B]|(b & FB & BB)]; [contradiction|]. apply short_write; [exact I|]. apply (CL idx b e I (FB I)). intros u UU. rewrite BE. now apply BB.
Qed.

Definition reading_s (t : nat) (s : list bool * nat * list byte * list bool * nat) : Prop :=
  let '(xs, idx, buf, bb, k) := s in length xs = t /\ length buf = 1 /\ k < 8 /\ 8 * idx + k = P + t /\
  ((t = n + 1 /\ k = 0) \/ exists b, (idx < L -> fine idx b) /\ bb = byte_bits b /\ piece n y xs t idx b) /\ (forall i, i < idx -> P < 8 * i + 8 -> exists b, fine i b /\ piece n y xs t i b).
Lemma short_read_bit t a s : t < n + 1 -> reading_s t s -> Safe (reading_s (S t)) (read_bit_p p s a).
Proof using FIT SMALL ONE ZERO.
  intros T. destruct s as ((((xs, idx), buf), bb), k). intros (LX & LB & K8 & PT & C & R). assert (I : idx < L) by lia. destruct C as [[C _]|(b & FB & -> & PB)]; [lia|]. specialize (FB I). unfold read_bit_p, index.
  destruct (nth_error (byte_bits b) k) as [x|] eqn:E; [|apply nth_error_None in E; rewrite byte_bits_length in E; lia]. cbn [calc next].
  assert (PB' : piece n y (xs ++ [x]) (S t) idx b).
  { apply (piece_snoc L fine n y FIT SMALL); [exact LX|exact PB|]. intros u U Q. assert (u = k) by lia. subst u. symmetry. now apply nth_error_nth. }
  assert (R' : forall i, i < idx -> P < 8 * i + 8 -> exists b, fine i b /\ piece n y (xs ++ [x]) (S t) i b).
  { intros i II PI. destruct (R i II PI) as (b' & FB' & PB''). exists b'. split; [exact FB'|]. apply (piece_snoc L fine n y FIT SMALL); [exact LX|exact PB''|]. intros u U Q. lia. }
  destruct (Nat.eqb_spec (S k) 8).
  - eapply safe_next; [apply (short_get (S idx) buf LB)|]. intros b' (c & ->). constructor. unfold reading_s. rewrite app_length. cbn [length]. repeat split; try lia.
    + destruct (one_end idx k t PT K8 e T) as [A|A]; [right|left; split; [exact A|reflexivity]]. exists c. split; [intros _; apply A|]. split; [apply bits_one|]. intros u U Q. lia.
    + intros i II PI. destruct (Nat.eq_dec i idx) as [->|]; [eauto|]. apply R'; lia.
  - constructor. unfold reading_s. rewrite app_length. cbn [length]. repeat split; try lia; eauto 7.
Qed.
Lemma short_read_slot pr : Safe (seen fine n y) (read_slot_p pr p n (Z.of_nat y)).
Proof using FIT SMALL ONE ZERO.
  unfold read_slot_p. destruct (start_pos n y SMALL pr) as (U & DI & MO). rewrite U. cbn [calc next]. rewrite DI, MO.
  pose proof (Nat.div_mod P 8 ltac:(lia)) as DM. pose proof (Nat.mod_upper_bound P 8 ltac:(lia)) as MB.
  eapply safe_next; [apply short_get0|]. intros b (c & -> & FC). eapply safe_next.
  - apply (safe_each p short_file reading_s (read_bit_p p) (seq 0 (n + 1)) 0).
    + intros t a s E. apply short_read_bit. assert (t < length (seq 0 (n + 1))) by (apply nth_error_Some; congruence). rewrite seq_length in *. exact H.
    + unfold reading_s. cbn [length]. repeat split; try lia. right. exists c. split; [exact FC|]. split; [apply bits_one|]. intros u _ Q. lia.
  - intros ((((xs, idx), buf), bb), k). rewrite seq_length. cbn [Nat.add]. intros (LX & LB & K8 & PT & C & R). constructor. split; [exact LX|]. intros i PI QI.
    destruct (Nat.lt_trichotomy i idx) as [II|[->|II]]; [now apply R| |lia]. destruct C as [[_ C]|(b & FB & _ & PB)]; [lia|]. exists b. split; [apply FB; lia|exact PB].
Qed.
End Slot.

Section Ask.
Context {K : prime_ops} (pr : profile) (n : nat).
Hypothesis N : n <= 58.
Hypothesis LEN : (n + 1) * 2 ^ n <= 8 * L.
Hypothesis ONE : forall y, y < 2 ^ n -> (forall i c, fine i c) \/ ((n + 1) * y) mod 8 + (n + 1) <= 8.
Lemma short_respond cs0 : Forall (fun c => exists y, c = Z.of_nat y /\ y < 2 ^ n) cs0 -> forall cs pre xs idxs, pre ++ cs = cs0 -> Forall2 (good fine n cs0) xs idxs ->
  Safe (fun r => Forall2 (good fine n cs0) (fst r) (snd r)) (respond_p (K := K) pr p n (length pre) cs xs idxs).
Proof using N LEN ONE ZERO.
  intros F. induction cs as [|c cs IH]; intros pre xs idxs E G; cbn [respond_p]; [now constructor|].
  assert (NC : nth_error cs0 (length pre) = Some c) by (rewrite <- E, nth_error_app2, Nat.sub_diag by lia; reflexivity).
  rewrite Forall_forall in F. destruct (F c (nth_error_In _ _ NC)) as (y & -> & Y). rewrite <- Forall_forall in F. destruct (slot_fits L n N LEN y Y) as [FIT SM].
  eapply safe_next; [apply (short_read_slot n y FIT SM (ONE y Y))|]. intros s SE. assert (LS := proj1 SE).
  unfold index. destruct (nth_error s n) as [b|] eqn:EB; [|apply nth_error_None in EB; lia]. cbn [calc next].
  assert (GO : forall (xs' : list K) idxs', Forall2 (good fine n cs0) xs' idxs' ->
    Safe (fun r => Forall2 (good fine n cs0) (fst r) (snd r)) (if length xs' =? RESPONSE_COUNT then calc (Ok (xs', idxs')) else respond_p pr p n (S (length pre)) cs xs' idxs')).
  { intros xs' idxs' G'. destruct (length xs' =? RESPONSE_COUNT); [now constructor|]. specialize (IH (pre ++ [Z.of_nat y]) xs' idxs'). rewrite app_length in IH. cbn [length] in IH. rewrite Nat.add_1_r in IH.
    apply IH; [now rewrite <- app_assoc|exact G']. }
  destruct b; [|now apply GO]. unfold slice. destruct (Nat.leb_spec 0 n), (Nat.leb_spec n (length s)); try lia. cbn [andb calc next]. rewrite Nat.sub_0_r. cbn [skipn].
  rewrite bits_to_usize_val by (rewrite firstn_length; lia). cbn [calc next]. apply GO. apply Forall2_app; [exact G|]. constructor; [|constructor].
  exists y, s. repeat split; auto; [apply SE|]. now apply nth_error_nth.
Qed.
Theorem short_response (RK : is_ring K) cs (key : K) hc : length hc = MIMC5_HASH_ROUNDS -> Forall (fun c => exists y, c = Z.of_nat y /\ y < 2 ^ n) cs ->
  Safe (fun r => Forall2 (good fine n cs) (fst (fst r)) (snd (fst r))) (response_1_p pr p cs key hc n).
Proof using N LEN ONE ZERO.
  intros HC F. unfold response_1_p. constructor. intros f _. cbn [next p_existing]. eapply safe_next; [apply (short_respond cs F cs [] [] []); [reflexivity|constructor]|].
  intros (xs, idxs) G. rewrite (multi_mimc5_ok RK) by exact HC. constructor. exact G.
Qed.
End Ask.
End Short.

(** * Runs that begin by emptying the file *)
(** None has begun yet, or the file is as it should be. *)
Definition start_safe {A} (p : place) (OK : file -> Prop) (Qs : nat -> A -> Prop) (d0 : disk) (s : shared A) : Prop :=
  (fst s p = d0 p /\ forall i m, nth_error (snd s) i = Some (Some m) -> exists m', m = Change p (fun _ => []) m' /\ safe p OK (Qs i) m') \/
  all_safe p OK Qs s.
Lemma start_turn {A} p (OK : file -> Prop) (Qs : nat -> A -> Prop) (d0 : disk) (s s' : shared A) : OK [] -> turn s s' -> start_safe p OK Qs d0 s -> start_safe p OK Qs d0 s' /\ forall q, q <> p -> fst s' q = fst s q.
Proof.
  intros O T [[D S]|S].
  - destruct T as [d ps i q k E|d ps i q w m E|d ps i m E _]; cbn [fst snd] in *; destruct (S i _ E) as (m' & EM & SM); try discriminate EM.
    + injection EM as -> -> ->. split.
      * right. split; [exists []; split; [cbn [fst]; unfold put; now rewrite Nat.eqb_refl|exact O]|]. cbn [snd]. intros j m1 E'. apply upd_nth in E'. destruct E' as [[-> E']|[_ E']]; [now injection E' as ->|].
        destruct (S j _ E') as (m2 & -> & S2). constructor; [intros f _; exact O|exact S2].
      * intros q Q. unfold put. now rewrite (proj2 (Nat.eqb_neq q p) Q).
    + split; [|reflexivity]. left. split; [exact D|]. cbn [snd]. intros j m1 E'. apply upd_nth in E'. destruct E' as [[_ E']|[_ E']]; [discriminate E'|now apply S].
  - split; [right; now apply (safe_turn p OK Qs s s' T)|]. apply (safe_frame p OK Qs s s'); [econstructor; [exact T|constructor]|exact S].
Qed.
Theorem start_turns {A} p (OK : file -> Prop) (Qs : nat -> A -> Prop) (d0 : disk) (s s' : shared A) : OK [] -> turns s s' -> start_safe p OK Qs d0 s -> start_safe p OK Qs d0 s' /\ forall q, q <> p -> fst s' q = fst s q.
Proof.
  intros O T. induction T as [s|s s1 s2 T TS IH]; intros S; [split; [exact S|reflexivity]|]. destruct (start_turn p OK Qs d0 s s1 O T S) as [S1 F1]. destruct (IH S1) as [S2 F2]. split; [exact S2|]. intros q Q. rewrite F2 by exact Q. now apply F1.
Qed.
