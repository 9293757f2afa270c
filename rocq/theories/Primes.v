(** Primality certificates (Pocklington and Lucas), checked by computation. *)
From Verif Require Import Base Legendre Sloth NumTheory Primality Lucas.
From Coq Require Import Znumtheory.
Local Open Scope Z_scope.

Fixpoint nodup_Z (l : list Z) : bool :=
  match l with [] => true | x :: t => negb (existsb (Z.eqb x) t) && nodup_Z t end.
Lemma nodup_Z_ok l : nodup_Z l = true -> NoDup l.
Proof.
  induction l as [|x l IH]; intros E; [constructor|]. cbn in E. apply andb_true_iff in E as [A B]. constructor; [|auto].
  intros I. apply negb_true_iff in A. assert (X : existsb (Z.eqb x) l = true); [|congruence].
  apply existsb_exists. exists x. split; [exact I|apply Z.eqb_refl].
Qed.

(** [bls_r]: order of the BLS12-381 scalar field.  [key_264]: a modulus for the
    concrete instances in the examples. *)
Definition bls_r : Z := 52435875175126190479447740508185965837690552500527637822603658699938581184513.
Definition key_264 : Z := 29843616772178364444699076783084661204746590443310819069190317513873565597204567.
Lemma pr_2 : prime 2. Proof. apply (small_prime_ok 3). vm_compute. reflexivity. Qed.
Lemma pr_23 : prime 23. Proof. apply (small_prime_ok 6). vm_compute. reflexivity. Qed.
Lemma pr_17909 : prime 17909. Proof. apply (small_prime_ok 135). vm_compute. reflexivity. Qed.
Lemma pr_56249 : prime 56249. Proof. apply (small_prime_ok 239). vm_compute. reflexivity. Qed.
Lemma P_64_prime : prime P_64.
Proof.
  apply (pocklington P_64 [(2, 1, 2); (23, 1, 2); (17909, 1, 2); (56249, 1, 2)]).
  - apply pock_fast_ok. vm_cast_no_check (eq_refl true).
  - exact (Forall_cons _ pr_2 (Forall_cons _ pr_23 (Forall_cons _ pr_17909 (Forall_cons _ pr_56249 (Forall_nil _))))).
  - apply nodup_Z_ok. vm_compute. reflexivity.
Qed.
Lemma pr_11 : prime 11. Proof. apply (small_prime_ok 5). vm_compute. reflexivity. Qed.
Lemma pr_317 : prime 317. Proof. apply (small_prime_ok 19). vm_compute. reflexivity. Qed.
Lemma pr_138222779 : prime 138222779.
Proof.
  apply (pocklington 138222779 [(2, 1, 2); (23, 1, 2); (317, 1, 2)]).
  - apply pock_fast_ok. vm_cast_no_check (eq_refl true).
  - exact (Forall_cons _ pr_2 (Forall_cons _ pr_23 (Forall_cons _ pr_317 (Forall_nil _)))).
  - apply nodup_Z_ok. vm_compute. reflexivity.
Qed.
Lemma pr_270936309623130427155154727 : prime 270936309623130427155154727.
Proof.
  apply (pocklington 270936309623130427155154727 [(2, 1, 5); (11, 1, 2); (138222779, 1, 2)]).
  - apply pock_fast_ok. vm_cast_no_check (eq_refl true).
  - exact (Forall_cons _ pr_2 (Forall_cons _ pr_11 (Forall_cons _ pr_138222779 (Forall_nil _)))).
  - apply nodup_Z_ok. vm_compute. reflexivity.
Qed.
Lemma P_128_prime : prime P_128.
Proof.
  apply (lucas_prime P_128 270936309623130427155154727 2
    284966011836017917039797442435648636160
    284966011836017917039797442435648636161).
  - exact pr_270936309623130427155154727.
  - vm_cast_no_check (eq_refl true).
Qed.
Lemma pr_3 : prime 3. Proof. apply (small_prime_ok 3). vm_compute. reflexivity. Qed.
Lemma pr_5 : prime 5. Proof. apply (small_prime_ok 4). vm_compute. reflexivity. Qed.
Lemma pr_7 : prime 7. Proof. apply (small_prime_ok 4). vm_compute. reflexivity. Qed.
Lemma pr_1373 : prime 1373. Proof. apply (small_prime_ok 39). vm_compute. reflexivity. Qed.
Lemma pr_977485527518779 : prime 977485527518779.
Proof.
  apply (pocklington 977485527518779 [(2, 1, 2); (3, 2, 2); (23, 1, 2); (1373, 1, 2)]).
  - apply pock_fast_ok. vm_cast_no_check (eq_refl true).
  - exact (Forall_cons _ pr_2 (Forall_cons _ pr_3 (Forall_cons _ pr_23 (Forall_cons _ pr_1373 (Forall_nil _))))).
  - apply nodup_Z_ok. vm_compute. reflexivity.
Qed.
Lemma pr_877 : prime 877. Proof. apply (small_prime_ok 31). vm_compute. reflexivity. Qed.
Lemma pr_911 : prime 911. Proof. apply (small_prime_ok 32). vm_compute. reflexivity. Qed.
Lemma pr_45101354041134024898351 : prime 45101354041134024898351.
Proof.
  apply (pocklington 45101354041134024898351 [(2, 1, 3); (3, 1, 3); (5, 2, 3); (877, 1, 2); (911, 1, 2)]).
  - apply pock_fast_ok. vm_cast_no_check (eq_refl true).
  - exact (Forall_cons _ pr_2 (Forall_cons _ pr_3 (Forall_cons _ pr_5 (Forall_cons _ pr_877 (Forall_cons _ pr_911 (Forall_nil _)))))).
  - apply nodup_Z_ok. vm_compute. reflexivity.
Qed.
Lemma pr_86684802467059595854630621 : prime 86684802467059595854630621.
Proof.
  apply (lucas_prime 86684802467059595854630621 45101354041134024898351 2
    86684802467059595854630618
    86684802467059595854630619).
  - exact pr_45101354041134024898351.
  - vm_cast_no_check (eq_refl true).
Qed.
Lemma pr_45838516126009519107828155620881299 : prime 45838516126009519107828155620881299.
Proof.
  apply (lucas_prime 45838516126009519107828155620881299 86684802467059595854630621 2
    45838516126009519107828155620881296
    45838516126009519107828155620881297).
  - exact pr_86684802467059595854630621.
  - vm_cast_no_check (eq_refl true).
Qed.
Lemma pr_9409362084383199277388084035508581815483998006923411 : prime 9409362084383199277388084035508581815483998006923411.
Proof.
  apply (pocklington 9409362084383199277388084035508581815483998006923411 [(2, 1, 2); (3, 1, 2); (5, 1, 2); (7, 1, 2); (977485527518779, 1, 2); (45838516126009519107828155620881299, 1, 2)]).
  - apply pock_fast_ok. vm_cast_no_check (eq_refl true).
  - exact (Forall_cons _ pr_2 (Forall_cons _ pr_3 (Forall_cons _ pr_5 (Forall_cons _ pr_7 (Forall_cons _ pr_977485527518779 (Forall_cons _ pr_45838516126009519107828155620881299 (Forall_nil _))))))).
  - apply nodup_Z_ok. vm_compute. reflexivity.
Qed.
Lemma P_256_prime : prime P_256.
Proof.
  apply (lucas_prime P_256 9409362084383199277388084035508581815483998006923411 2
    79128031240076844063259589759962924441255910968111729611693920152825864722704
    79128031240076844063259589759962924441255910968111729611693920152825864722705).
  - exact pr_9409362084383199277388084035508581815483998006923411.
  - vm_cast_no_check (eq_refl true).
Qed.
Lemma pr_17 : prime 17. Proof. apply (small_prime_ok 6). vm_compute. reflexivity. Qed.
Lemma pr_31 : prime 31. Proof. apply (small_prime_ok 7). vm_compute. reflexivity. Qed.
Lemma pr_1849411881367 : prime 1849411881367.
Proof.
  apply (pocklington 1849411881367 [(2, 1, 3); (3, 1, 3); (7, 1, 2); (17, 1, 2); (31, 1, 2)]).
  - apply pock_fast_ok. vm_cast_no_check (eq_refl true).
  - exact (Forall_cons _ pr_2 (Forall_cons _ pr_3 (Forall_cons _ pr_7 (Forall_cons _ pr_17 (Forall_cons _ pr_31 (Forall_nil _)))))).
  - apply nodup_Z_ok. vm_compute. reflexivity.
Qed.
Lemma pr_543727093121899 : prime 543727093121899.
Proof.
  apply (pocklington 543727093121899 [(2, 1, 2); (3, 1, 2); (7, 2, 2); (1849411881367, 1, 2)]).
  - apply pock_fast_ok. vm_cast_no_check (eq_refl true).
  - exact (Forall_cons _ pr_2 (Forall_cons _ pr_3 (Forall_cons _ pr_7 (Forall_cons _ pr_1849411881367 (Forall_nil _))))).
  - apply nodup_Z_ok. vm_compute. reflexivity.
Qed.
Lemma pr_359 : prime 359. Proof. apply (small_prime_ok 20). vm_compute. reflexivity. Qed.
Lemma pr_7817 : prime 7817. Proof. apply (small_prime_ok 90). vm_compute. reflexivity. Qed.
Lemma pr_172582854218532991543 : prime 172582854218532991543.
Proof.
  apply (pocklington 172582854218532991543 [(2, 1, 3); (3, 1, 2); (359, 1, 2); (7817, 1, 2)]).
  - apply pock_fast_ok. vm_cast_no_check (eq_refl true).
  - exact (Forall_cons _ pr_2 (Forall_cons _ pr_3 (Forall_cons _ pr_359 (Forall_cons _ pr_7817 (Forall_nil _))))).
  - apply nodup_Z_ok. vm_compute. reflexivity.
Qed.
Lemma pr_3290515484715825847117584711316749753383111513392887184486797911 : prime 3290515484715825847117584711316749753383111513392887184486797911.
Proof.
  apply (pocklington 3290515484715825847117584711316749753383111513392887184486797911 [(2, 1, 13); (5, 1, 2); (23, 1, 2); (543727093121899, 1, 2); (172582854218532991543, 1, 2)]).
  - apply pock_fast_ok. vm_cast_no_check (eq_refl true).
  - exact (Forall_cons _ pr_2 (Forall_cons _ pr_5 (Forall_cons _ pr_23 (Forall_cons _ pr_543727093121899 (Forall_cons _ pr_172582854218532991543 (Forall_nil _)))))).
  - apply nodup_Z_ok. vm_compute. reflexivity.
Qed.
Lemma pr_6369419253629980028217843048331020909419109724307016815883218720436993447973834382554627 : prime 6369419253629980028217843048331020909419109724307016815883218720436993447973834382554627.
Proof.
  apply (lucas_prime 6369419253629980028217843048331020909419109724307016815883218720436993447973834382554627 3290515484715825847117584711316749753383111513392887184486797911 2
    6369419253629980028217843048331020909419109724307016815883218720436993447973834382554624
    6369419253629980028217843048331020909419109724307016815883218720436993447973834382554625).
  - exact pr_3290515484715825847117584711316749753383111513392887184486797911.
  - vm_cast_no_check (eq_refl true).
Qed.
Lemma pr_4499916238356380770751661976721119060573144233399989923256156695095146677590374125468184340762285455621 : prime 4499916238356380770751661976721119060573144233399989923256156695095146677590374125468184340762285455621.
Proof.
  apply (lucas_prime 4499916238356380770751661976721119060573144233399989923256156695095146677590374125468184340762285455621 6369419253629980028217843048331020909419109724307016815883218720436993447973834382554627 2
    4499916238356380770751661976721119060573144233399989923256156695095146677590374125468184340762285455618
    4499916238356380770751661976721119060573144233399989923256156695095146677590374125468184340762285455619).
  - exact pr_6369419253629980028217843048331020909419109724307016815883218720436993447973834382554627.
  - vm_cast_no_check (eq_refl true).
Qed.
Lemma pr_56940891256732071801930553256293481427873156536825286117328568550171059972645850367273746613183574945565251729009126567999571769295801807995949 : prime 56940891256732071801930553256293481427873156536825286117328568550171059972645850367273746613183574945565251729009126567999571769295801807995949.
Proof.
  apply (lucas_prime 56940891256732071801930553256293481427873156536825286117328568550171059972645850367273746613183574945565251729009126567999571769295801807995949 4499916238356380770751661976721119060573144233399989923256156695095146677590374125468184340762285455621 2
    56940891256732071801930553256293481427873156536825286117328568550171059972645850367273746613183574945565251729009126567999571769295801807995946
    56940891256732071801930553256293481427873156536825286117328568550171059972645850367273746613183574945565251729009126567999571769295801807995947).
  - exact pr_4499916238356380770751661976721119060573144233399989923256156695095146677590374125468184340762285455621.
  - vm_cast_no_check (eq_refl true).
Qed.
Lemma P_512_prime : prime P_512.
Proof.
  apply (pocklington P_512 [(56940891256732071801930553256293481427873156536825286117328568550171059972645850367273746613183574945565251729009126567999571769295801807995949, 1, 2)]).
  - apply pock_fast_ok. vm_cast_no_check (eq_refl true).
  - exact (Forall_cons _ pr_56940891256732071801930553256293481427873156536825286117328568550171059972645850367273746613183574945565251729009126567999571769295801807995949 (Forall_nil _)).
  - apply nodup_Z_ok. vm_compute. reflexivity.
Qed.
Lemma pr_19 : prime 19. Proof. apply (small_prime_ok 6). vm_compute. reflexivity. Qed.
Lemma pr_10177 : prime 10177. Proof. apply (small_prime_ok 102). vm_compute. reflexivity. Qed.
Lemma pr_20921 : prime 20921. Proof. apply (small_prime_ok 146). vm_compute. reflexivity. Qed.
Lemma pr_125527 : prime 125527.
Proof.
  apply (pocklington 125527 [(2, 1, 3); (3, 1, 2); (20921, 1, 2)]).
  - apply pock_fast_ok. vm_cast_no_check (eq_refl true).
  - exact (Forall_cons _ pr_2 (Forall_cons _ pr_3 (Forall_cons _ pr_20921 (Forall_nil _)))).
  - apply nodup_Z_ok. vm_compute. reflexivity.
Qed.
Lemma pr_47737 : prime 47737. Proof. apply (small_prime_ok 220). vm_compute. reflexivity. Qed.
Lemma pr_859267 : prime 859267.
Proof.
  apply (pocklington 859267 [(2, 1, 2); (3, 2, 2); (47737, 1, 2)]).
  - apply pock_fast_ok. vm_cast_no_check (eq_refl true).
  - exact (Forall_cons _ pr_2 (Forall_cons _ pr_3 (Forall_cons _ pr_47737 (Forall_nil _)))).
  - apply nodup_Z_ok. vm_compute. reflexivity.
Qed.
Lemma bls_r_prime : prime bls_r.
Proof.
  apply (pocklington bls_r [(2, 32, 5); (3, 1, 2); (11, 1, 2); (19, 1, 2); (10177, 1, 2); (125527, 1, 2); (859267, 1, 2)]).
  - apply pock_fast_ok. vm_cast_no_check (eq_refl true).
  - exact (Forall_cons _ pr_2 (Forall_cons _ pr_3 (Forall_cons _ pr_11 (Forall_cons _ pr_19 (Forall_cons _ pr_10177 (Forall_cons _ pr_125527 (Forall_cons _ pr_859267 (Forall_nil _)))))))).
  - apply nodup_Z_ok. vm_compute. reflexivity.
Qed.
Lemma key_264_prime : prime key_264.
Proof.
  apply (pocklington key_264 [(2, 1, 3); (3, 160, 2)]).
  - apply pock_fast_ok. vm_cast_no_check (eq_refl true).
  - exact (Forall_cons _ pr_2 (Forall_cons _ pr_3 (Forall_nil _))).
  - apply nodup_Z_ok. vm_compute. reflexivity.
Qed.
Lemma key_264_mod4 : key_264 mod 4 = 3. Proof. reflexivity. Qed.
Lemma key_264_big : 2 ^ 256 + 256 ^ 33 <= key_264 < 256 ^ 34. Proof. vm_compute. split; [discriminate|reflexivity]. Qed.
