(** Saving public data over a file with other contents, interrupted anywhere. *)
From Coq Require Import DecimalString Strings.String Strings.Byte Ascii.
From Coq Require Import List.
From Verif Require Import Base BytesFacts Sloth Common Depend Prover Verifier Merkle Postorage CommonFacts ChallengeFacts PostorageFacts LocalFacts.
Local Open Scope nat_scope.

Lemma nth_error_skipn {A} k : forall (l : list A) i, nth_error (skipn k l) i = nth_error l (k + i).
Proof. induction k as [|k IH]; intros [|a l] i; try reflexivity; [now destruct i|]. apply IH. Qed.

(** * When loading panics *)
Section Load.
Context (C : file).
Definition len_field : nat := Z.to_nat (le2z (firstn 8 C)).
Lemma load_short : length C < 16 + len_field -> load_data C = Panic.
Proof.
  intros S. unfold load_data, dec_bytes at 1. destruct (Nat.ltb_spec (length C) 8) as [A|A]; [reflexivity|]. cbn [bind].
  fold len_field. destruct (Z.ltb_spec (Z.of_nat (length (skipn 8 C))) (le2z (firstn 8 C))) as [B|B]; [reflexivity|]. cbn [bind].
  fold len_field. unfold dec_bytes. rewrite (proj2 (Nat.ltb_lt _ 8)); [reflexivity|]. rewrite !skipn_length in *. unfold len_field in *. lia.
Qed.
Lemma load_cases : 16 + len_field <= length C ->
  load_data C = let* (iv, _) := dec_bytes (skipn (8 + len_field) C) in
                let* key := undecimal (firstn len_field (skipn 8 C)) in Ok (key, iv).
Proof.
  intros S. unfold load_data, dec_bytes at 1. rewrite (proj2 (Nat.ltb_ge _ 8)) by lia. cbn [bind].
  rewrite (proj2 (Z.ltb_ge _ _)); [|rewrite skipn_length; unfold len_field in S; pose proof (le2z_range (firstn 8 C)); lia]. cbn [bind]. fold len_field.
  rewrite skipn_skipn'. reflexivity.
Qed.
(** The 8 bytes read as the length of the iv end in a byte of at least 48. *)
Lemma load_digit b : nth_error C (15 + len_field) = Some b -> (48 <= b2z b)%Z -> (Z.of_nat (length C) < 2 ^ 61)%Z -> load_data C = Panic.
Proof.
  intros N B L. assert (LL : 15 + len_field < length C) by (apply nth_error_Some; congruence).
  rewrite load_cases by lia. unfold dec_bytes. rewrite (proj2 (Nat.ltb_ge _ 8)) by (rewrite skipn_length; lia).
  rewrite (proj2 (Z.ltb_lt _ _)); [reflexivity|]. set (D := skipn (8 + len_field) C) in *.
  assert (LD : length D < length C) by (unfold D; rewrite skipn_length; lia). rewrite skipn_length.
  assert (N7 : nth_error D 7 = Some b) by (unfold D; rewrite nth_error_skipn; rewrite <- N; f_equal; lia).
  assert (X : (48 * 2 ^ 56 <= le2z (firstn 8 D))%Z).
  { destruct D as [|d0 [|d1 [|d2 [|d3 [|d4 [|d5 [|d6 [|d7 D']]]]]]]]; try discriminate. injection N7 as ->. cbn [firstn le2z].
    pose proof (b2z_range d0); pose proof (b2z_range d1); pose proof (b2z_range d2); pose proof (b2z_range d3);
    pose proof (b2z_range d4); pose proof (b2z_range d5); pose proof (b2z_range d6). lia. }
  lia.
Qed.
Lemma undecimal_nul l : In x00 l -> undecimal l = Panic.
Proof.
  intros I. unfold undecimal. destruct (NilZero.int_of_string (string_of_list_byte l)) as [d|] eqn:E; [|reflexivity]. exfalso.
  assert (SC : forall a l, string_of_list_byte (a :: l) = String (ascii_of_byte a) (string_of_list_byte l)) by reflexivity.
  assert (U : forall l u, In x00 l -> NilEmpty.uint_of_string (string_of_list_byte l) = Some u -> False).
  { clear -SC. induction l as [|a l IH]; intros u I E; [destruct I|]. rewrite SC in E. cbn [NilEmpty.uint_of_string] in E.
    destruct (NilEmpty.uint_of_string (string_of_list_byte l)) as [v|] eqn:Ev; [|discriminate E].
    destruct I as [->|I]; [discriminate E|]. now apply (IH v). }
  destruct l as [|a l]; [destruct I|]. rewrite SC in E. unfold NilZero.int_of_string in E.
  assert (Z : forall l d, In x00 l -> NilZero.uint_of_string (string_of_list_byte l) = Some d -> False).
  { intros l' d' I' E'. destruct l' as [|a' l']; [destruct I'|]. rewrite SC in E'. unfold NilZero.uint_of_string in E'. rewrite <- SC in E'. eapply U; eauto. }
  destruct (Ascii.eqb_spec (ascii_of_byte a) "-"%char) as [M|M].
  - destruct I as [->|I]; [discriminate M|]. destruct (NilZero.uint_of_string (string_of_list_byte l)) as [u|] eqn:V; [|discriminate]. eapply Z; eauto.
  - rewrite <- SC in E. destruct (NilZero.uint_of_string (string_of_list_byte (a :: l))) as [u|] eqn:V; [|discriminate]. eapply Z; eauto.
Qed.
(** There is a zero byte in the text of the key. *)
Lemma load_nul i : 8 <= i < 8 + len_field -> nth_error C i = Some x00 -> load_data C = Panic.
Proof.
  intros I N. destruct (Nat.lt_ge_cases (length C) (16 + len_field)) as [A|A]; [now apply load_short|]. rewrite load_cases by lia.
  destruct (dec_bytes _) as [(iv, r)|]; [|reflexivity]. cbn [bind]. rewrite undecimal_nul; [reflexivity|].
  apply nth_error_In with (n := i - 8). rewrite nth_error_firstn. rewrite (proj2 (Nat.ltb_lt _ _)) by lia. rewrite nth_error_skipn, <- N. f_equal. lia.
Qed.
End Load.

(** * The torn file *)
Section Torn.
Context (key : Z) (iv : list byte) (f : file).
Let d := decimal key.
Lemma torn_nth k i : i < k -> k <= saved_length key iv ->
  nth_error (save_data_upto k f key iv) i = nth_error (enc_bytes d ++ enc_bytes iv) i.
Proof.
  intros I K. unfold saved_length in K. unfold save_data_upto. rewrite write_start. fold d. fold d in K.
  assert (LE : length (enc_bytes d ++ enc_bytes iv) = 16 + length d + length iv) by (rewrite app_length, !enc_bytes_length; lia).
  rewrite nth_error_app1 by (rewrite firstn_length; lia). rewrite nth_error_firstn. now rewrite (proj2 (Nat.ltb_lt _ _)) by lia.
Qed.
Lemma torn_nth_old k i : k <= i -> k <= saved_length key iv -> nth_error (save_data_upto k f key iv) i = nth_error f i.
Proof.
  intros I K. unfold saved_length in K. unfold save_data_upto. rewrite write_start. fold d. fold d in K.
  assert (LE : length (enc_bytes d ++ enc_bytes iv) = 16 + length d + length iv) by (rewrite app_length, !enc_bytes_length; lia).
  rewrite nth_error_app2 by (rewrite firstn_length; lia). rewrite nth_error_skipn, firstn_length. f_equal. lia.
Qed.
Lemma torn_length k : k <= saved_length key iv -> length (save_data_upto k f key iv) = Nat.max k (length f).
Proof.
  intros K. unfold saved_length in K. unfold save_data_upto. rewrite write_start. rewrite app_length, skipn_length, firstn_length, app_length, !enc_bytes_length. lia.
Qed.
(** The key and the length of the iv were written: the iv is filled up with whatever the
    file contained. *)
Theorem torn_iv k : (Z.of_nat (length d) < 2 ^ 64)%Z -> (Z.of_nat (length iv) < 2 ^ 64)%Z -> 16 + length d <= k ->
  let j := k - (16 + length d) in
  load_data (save_data_upto k f key iv) =
    if (j <? length iv) && (length f <? saved_length key iv) then Panic
    else Ok (key, firstn j iv ++ firstn (length iv - j) (skipn (16 + length d + j) f)).
Proof.
  intros L1 L2 K j. unfold saved_length. fold d. unfold save_data_upto. rewrite write_start. fold d.
  assert (E : firstn k (enc_bytes d ++ enc_bytes iv) = enc_bytes d ++ enc_le 8 (Z.of_nat (length iv)) ++ firstn j iv).
  { rewrite firstn_app, firstn_all2 by (rewrite enc_bytes_length; lia). f_equal. unfold enc_bytes at 2. rewrite firstn_app.
    rewrite firstn_all2 by (rewrite enc_le_length, enc_bytes_length; lia). rewrite enc_le_length, enc_bytes_length. f_equal. f_equal. unfold j. lia. }
  rewrite E, <- !app_assoc. unfold load_data. rewrite dec_enc by exact L1. cbn [bind].
  set (r := firstn j iv ++ skipn _ f).
  assert (LR : length r = Nat.min j (length iv) + (length f - (16 + length d + Nat.min j (length iv)))).
  { unfold r. rewrite app_length, skipn_length, !app_length, enc_bytes_length, enc_le_length, firstn_length. lia. }
  unfold dec_bytes. rewrite (proj2 (Nat.ltb_ge _ 8)) by (rewrite app_length, enc_le_length; lia).
  rewrite firstn_app, enc_le_length, firstn_all2 by (rewrite enc_le_length; lia). cbn [Nat.sub firstn]. rewrite app_nil_r.
  rewrite enc_le_val by (change (256 ^ Z.of_nat 8)%Z with (2 ^ 64)%Z; lia).
  rewrite skipn_app, enc_le_length, skipn_all2 by (rewrite enc_le_length; lia). cbn [Nat.sub skipn app]. rewrite Nat2Z.id.
  destruct (Nat.ltb_spec j (length iv)) as [J|J]; cbn [andb].
  - destruct (Nat.ltb_spec (length f) (16 + length d + length iv)) as [F|F].
    + rewrite (proj2 (Z.ltb_lt _ _)) by lia. reflexivity.
    + rewrite (proj2 (Z.ltb_ge _ _)) by lia. cbn [bind]. unfold d. rewrite undecimal_decimal. cbn [bind]. do 2 f_equal.
      unfold r. rewrite firstn_app, firstn_length, Nat.min_l by lia. rewrite firstn_firstn, Nat.min_r by lia. f_equal. f_equal. f_equal.
      rewrite !app_length, enc_bytes_length, enc_le_length, firstn_length. unfold d. lia.
  - rewrite (proj2 (Z.ltb_ge _ _)) by lia. cbn [bind]. unfold d. rewrite undecimal_decimal. cbn [bind]. do 2 f_equal.
    unfold r. rewrite (firstn_all2 iv) by lia. rewrite firstn_app, Nat.sub_diag, firstn_all. cbn [firstn]. replace (length iv - j) with 0 by lia. reflexivity.
Qed.
End Torn.

(** The bytes of a saved file. *)
Lemma saved_digit key0 iv0 i : i < length (decimal key0) -> nth_error (enc_bytes (decimal key0) ++ enc_bytes iv0) (8 + i) = nth_error (decimal key0) i.
Proof.
  intros I. rewrite nth_error_app1 by (rewrite enc_bytes_length; lia). unfold enc_bytes. rewrite nth_error_app2 by (rewrite enc_le_length; lia).
  rewrite enc_le_length. f_equal. lia.
Qed.
Lemma saved_nul key0 iv0 : length iv0 < 256 -> nth_error (enc_bytes (decimal key0) ++ enc_bytes iv0) (9 + length (decimal key0)) = Some x00.
Proof.
  intros L. rewrite nth_error_app2 by (rewrite enc_bytes_length; lia). rewrite enc_bytes_length. unfold enc_bytes. rewrite nth_error_app1 by (rewrite enc_le_length; lia).
  replace (9 + length (decimal key0) - (8 + length (decimal key0))) with 1 by lia. cbn [enc_le nth_error].
  rewrite Z.div_small by lia. reflexivity.
Qed.

(** * Shipped keys *)
Lemma decimal_digits z : (0 <= z)%Z -> Forall (fun b => (48 <= b2z b)%Z) (decimal z).
Proof.
  intros Z0. unfold decimal.
  assert (U : forall u, Forall (fun b => (48 <= b2z b)%Z) (list_byte_of_string (NilEmpty.string_of_uint u))).
  { assert (SC : forall a l, list_byte_of_string (String a l) = byte_of_ascii a :: list_byte_of_string l) by reflexivity.
    induction u as [|u IH|u IH|u IH|u IH|u IH|u IH|u IH|u IH|u IH|u IH]; cbn [NilEmpty.string_of_uint]; [constructor|..]; rewrite SC; constructor; try exact IH; vm_compute; discriminate. }
  destruct z as [|p|p]; [vm_compute; repeat constructor; discriminate| |lia].
  cbn [Z.to_int NilZero.string_of_int]. unfold NilZero.string_of_uint. destruct (Pos.to_uint p); [repeat constructor; vm_compute; discriminate|..]; apply U.
Qed.
Definition mixed_len (k a b : nat) : Z := le2z (firstn k (enc_le 8 (Z.of_nat a)) ++ skipn k (enc_le 8 (Z.of_nat b))).
Lemma torn_field key iv key0 iv0 k : k <= saved_length key iv ->
  le2z (firstn 8 (save_data_upto k (enc_bytes (decimal key0) ++ enc_bytes iv0) key iv)) = mixed_len (Nat.min k 8) (length (decimal key)) (length (decimal key0)).
Proof.
  intros K. unfold mixed_len. f_equal. apply list_ext. intros i. rewrite nth_error_firstn.
  assert (H8 : forall (x : Z) y i, i < 8 -> nth_error (enc_bytes (decimal x) ++ enc_bytes y) i = nth_error (enc_le 8 (Z.of_nat (length (decimal x)))) i).
  { intros x y j J. rewrite nth_error_app1 by (rewrite enc_bytes_length; lia). unfold enc_bytes. rewrite nth_error_app1 by (rewrite enc_le_length; lia). reflexivity. }
  destruct (Nat.ltb_spec i 8) as [I|I].
  - destruct (Nat.lt_ge_cases i k) as [C|C].
    + rewrite torn_nth by assumption. rewrite H8 by lia. rewrite nth_error_app1 by (rewrite firstn_length, enc_le_length; lia).
      rewrite nth_error_firstn, (proj2 (Nat.ltb_lt _ _)) by lia. reflexivity.
    + rewrite torn_nth_old by assumption. rewrite H8 by lia. rewrite nth_error_app2 by (rewrite firstn_length, enc_le_length; lia).
      rewrite nth_error_skipn, firstn_length, enc_le_length. f_equal. lia.
  - symmetry. apply nth_error_None. rewrite app_length, firstn_length, skipn_length, !enc_le_length. lia.
Qed.
Definition key_lengths : list nat := [155; 309; 617].
(** k = 1: the field of 2 bytes is torn; afterwards it is the new one. *)
Definition mixed_ok (a b : nat) : bool :=
  forallb (fun k => Z.eqb (mixed_len k a b) (Z.of_nat (if k =? 1 then a mod 256 + 256 * (b / 256) else a))) (seq 1 8).
Lemma mixed_all : forallb (fun a => forallb (mixed_ok a) key_lengths) key_lengths = true.
Proof. vm_compute. reflexivity. Qed.
Theorem torn_other key iv key0 iv0 k : (0 <= key)%Z -> (0 <= key0)%Z ->
  In (length (decimal key)) key_lengths -> In (length (decimal key0)) key_lengths -> length (decimal key) <> length (decimal key0) ->
  length iv = 128 -> length iv0 = 128 ->
  0 < k < 16 + length (decimal key) -> load_data (save_data_upto k (save_data [] key0 iv0) key iv) = Panic.
Proof.
  intros KP KP0 IA IB NE L L0 K.
  replace (save_data [] key0 iv0) with (enc_bytes (decimal key0) ++ enc_bytes iv0) by (unfold save_data; rewrite write_start, skipn_nil, app_nil_r; reflexivity).
  set (a := length (decimal key)) in *. set (b := length (decimal key0)) in *.
  assert (SL : k <= saved_length key iv) by (unfold saved_length; fold a; lia).
  set (O := enc_bytes (decimal key0) ++ enc_bytes iv0). assert (LO : length O = b + 144) by (unfold O; rewrite app_length, !enc_bytes_length, L0; fold b; lia).
  set (C := save_data_upto k O key iv). assert (LC : length C = Nat.max k (b + 144)) by (unfold C; rewrite torn_length by exact SL; now rewrite LO).
  assert (F : len_field C = if k =? 1 then a mod 256 + 256 * (b / 256) else a).
  { unfold len_field, C, O. rewrite torn_field by exact SL. fold a b. pose proof mixed_all as M. rewrite forallb_forall in M. specialize (M a IA).
    rewrite forallb_forall in M. specialize (M b IB). unfold mixed_ok in M. rewrite forallb_forall in M.
    assert (I : In (Nat.min k 8) (seq 1 8)) by (apply in_seq; lia). specialize (M _ I). apply Z.eqb_eq in M. rewrite M.
    replace (Nat.min k 8 =? 1) with (k =? 1); [apply Nat2Z.id|]. destruct (Nat.eqb_spec k 1), (Nat.eqb_spec (Nat.min k 8) 1); lia. }
  assert (DG : forall i, k <= 8 + i -> i < b -> exists c, nth_error C (8 + i) = Some c /\ (48 <= b2z c)%Z).
  { intros i I B. unfold C. rewrite torn_nth_old by (auto; lia). unfold O. rewrite saved_digit by exact B.
    destruct (nth_error (decimal key0) i) as [c|] eqn:E; [|apply nth_error_None in E; fold b in E; lia]. exists c. split; [reflexivity|].
    pose proof (decimal_digits key0 KP0) as D. rewrite Forall_forall in D. apply D. now apply nth_error_In in E. }
  assert (NU : k <= 9 + b -> nth_error C (9 + b) = Some x00).
  { intros I. unfold C. rewrite torn_nth_old by (auto; lia). unfold O, b. apply saved_nul. lia. }
  assert (SM : (Z.of_nat (length C) < 2 ^ 61)%Z).
  { rewrite LC. assert (a <= 617 /\ b <= 617) as [A1 A2] by (cbn in IA, IB; lia). assert (X : (1000 < 2 ^ 61)%Z) by reflexivity. lia. }
  assert (USE : forall x, len_field C = x -> k <= 15 + x -> 7 + x < b -> load_data C = Panic).
  { intros x E1 E2 E3. destruct (DG (7 + x)) as (c & N & G); [lia|exact E3|]. apply (load_digit C c); [rewrite E1; exact N|exact G|exact SM]. }
  destruct (Nat.eqb_spec k 1) as [->|K1].
  - assert (V : forall p q, p = q -> q mod 256 + 256 * (b / 256) = p mod 256 + 256 * (b / 256)) by (intros; now subst).
    destruct IA as [A|[A|[A|[]]]], IB as [B|[B|[B|[]]]]; rewrite <- A, <- B in *; try (exfalso; lia).
    + change (len_field C = 411) in F. apply (load_nul C (9 + 309)); [rewrite F; lia|apply NU; lia].
    + change (len_field C = 667) in F. apply (load_nul C (9 + 617)); [rewrite F; lia|apply NU; lia].
    + change (len_field C = 53) in F. apply (USE 53); [exact F|lia|lia].
    + change (len_field C = 565) in F. apply (USE 565); [exact F|lia|lia].
    + change (len_field C = 105) in F. apply (USE 105); [exact F|lia|lia].
    + change (len_field C = 361) in F. apply (load_nul C (9 + 309)); [rewrite F; lia|apply NU; lia].
  - destruct (Nat.lt_ge_cases a b) as [AB|AB].
    + apply (USE a F); [lia|]. cbn in IA, IB. lia.
    + apply load_short. rewrite LC, F. cbn in IA, IB. lia.
Qed.
