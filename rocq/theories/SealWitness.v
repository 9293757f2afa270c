(** Concrete instances: they show that the hypotheses of the sealing theorems are
    met by real runs, and refute the unconditional expectations. *)
From Verif Require Import Base Legendre Sloth Common Depend Prover NumTheory SlothFacts BytesFacts
  DependSpec DependFacts DependDet VdeFacts SealSpec SealCore SealFile SealTop SealZero Primality.
From Coq Require Import Znumtheory String.
From Coq Require Import List.
Import ListNotations.
Local Open Scope nat_scope.

(** A small key: the prime 2^24 - 17, for units of three bytes. *)
Definition ex_key : Z := 16777199.
Lemma ex_key_prime : prime ex_key.
Proof. apply (small_prime_ok 2100). vm_compute. reflexivity. Qed.

(** A toy hash with 32-byte output (values below 2^23) and the constant zero hash. *)
Definition hsum (d : list byte) : list byte :=
  pad_to 32 (z2le ((le2z d * 1000003 + 17) mod 8388608)%Z).
Definition hzero (d : list byte) : list byte := zeros 32.
Lemma hsum_32 : hash32 hsum.
Proof.
  intros d. unfold hsum. apply pad_to_len.
  pose proof (Z.mod_pos_bound (le2z d * 1000003 + 17) 8388608 ltac:(lia)).
  assert (256 ^ 3 <= 256 ^ Z.of_nat 32)%Z by (apply Z.pow_le_mono_r; lia). change (256 ^ 3)%Z with 16777216%Z in *. lia.
Qed.
Lemma hsum_val d : le2z (hsum d) = ((le2z d * 1000003 + 17) mod 8388608)%Z.
Proof.
  unfold hsum. rewrite le2z_pad_to, le2z_z2le. apply Z.abs_eq.
  apply (Z.mod_pos_bound (le2z d * 1000003 + 17) 8388608). lia.
Qed.
Lemma hsum_small d : (0 <= le2z (hsum d) < 8388608)%Z.
Proof. rewrite hsum_val. apply Z.mod_pos_bound. lia. Qed.
Lemma hzero_32 : hash32 hzero. Proof. intros d. reflexivity. Qed.

(** Three blocks of two 2-byte units (3 bytes padded). *)
Definition ex_params (rounds ml cl ms cs : nat) : PosPara :=
  mkPosPara 12 2 4 4 3 6 6 rounds 2 "sloth" ml cl ms cs 2.
Lemma ex_geometry r ml cl ms cs : geometry (ex_params r ml cl ms cs) 3 2.
Proof. split; cbn; try lia; reflexivity. Qed.
Lemma ex_setting H pr r ml cl ms cs : hash32 H ->
  long_modes_fine (ex_params r ml cl ms cs) 3 -> short_modes_fine pr (ex_params r ml cl ms cs) 3 2 ->
  setting H pr (ex_params r ml cl ms cs) ex_key 3 2.
Proof.
  intros HH L S. split; auto; [apply ex_geometry|]. cbn [unit_pl ex_params].
  change (256 ^ Z.of_nat 3)%Z with 16777216%Z. unfold ex_key. lia.
Qed.
Lemma ex_sound : sound_key hsum ex_key.
Proof.
  split; [apply ex_key_prime|reflexivity|]. intros d. pose proof (hsum_small d). unfold ex_key. lia.
Qed.
Lemma ex_sound_zero : sound_key hzero ex_key.
Proof. split; [apply ex_key_prime|reflexivity|]. intros d. reflexivity. Qed.

(** Padded data: unit k holds the bytes k+1, 7 and a zero pad byte. *)
Definition ex_unit (k : nat) : list byte := [z2b (Z.of_nat k + 1); x07; x00].
Definition ex_file : file := flat_map ex_unit (seq 0 6).

Definition sealable_b (params : PosPara) (key : Z) (n m : nat) (f : file) : bool :=
  (n * block_pl params <=? length f) &&
  forallb (fun k => (le2z (unit_bytes params f k) <? key)%Z) (seq 0 (n * m)).
Lemma sealable_b_ok params key n m f : sealable_b params key n m f = true -> sealable params key n m f.
Proof.
  intros E. apply andb_true_iff in E as [A B]. split; [now apply Nat.leb_le|].
  intros k K. rewrite forallb_forall in B. apply Z.ltb_lt, B, in_seq. lia.
Qed.
Lemma ex_sealable r ml cl ms cs : sealable (ex_params r ml cl ms cs) ex_key 3 2 ex_file.
Proof. apply sealable_b_ok. vm_compute. reflexivity. Qed.
Lemma zero_sealable r ml cl ms cs : sealable (ex_params r ml cl ms cs) ex_key 3 2 (zeros 18).
Proof. apply sealable_b_ok. vm_compute. reflexivity. Qed.

Fixpoint bytes_eqb (a b : list byte) : bool :=
  match a, b with
  | [], [] => true
  | x :: a', y :: b' => (b2z x =? b2z y)%Z && bytes_eqb a' b'
  | _, _ => false
  end.
Lemma bytes_eqb_refl a : bytes_eqb a a = true.
Proof. induction a as [|x a IH]; [reflexivity|]. cbn. rewrite Z.eqb_refl. exact IH. Qed.
Lemma bytes_eqb_neq a b : bytes_eqb a b = false -> a <> b.
Proof. intros E ->. rewrite bytes_eqb_refl in E. discriminate. Qed.
Lemma bytes_eqb_eq a b : bytes_eqb a b = true -> a = b.
Proof.
  revert b. induction a as [|x a IH]; intros [|y b]; cbn; try discriminate; [reflexivity|].
  intros E. apply andb_true_iff in E as [A B]. apply Z.eqb_eq in A. f_equal; [now apply b2z_inj|auto].
Qed.

Definition no_zero (l : list Z) : bool := forallb (fun z => negb (z =? 0)%Z) l.
Lemma no_zero_ok l : no_zero l = true -> ~ In 0%Z l.
Proof. intros E I. unfold no_zero in E. rewrite forallb_forall in E. specialize (E _ I). discriminate. Qed.

(** seal, check the log, unseal and compare. *)
Definition trial (H : list byte -> list byte) (pr : profile) (params : PosPara) (key : Z) (f : file) : res (bool * bool) :=
  let* st := seal H pr params key [] f in
  let* g := unseal H pr params key [] (s_file st) in
  Ok (no_zero (s_log st), bytes_eqb g f).
Lemma trial_bad H pr params key f b : trial H pr params key f = Ok (b, false) ->
  exists st g, seal H pr params key [] f = Ok st /\ unseal H pr params key [] (s_file st) = Ok g /\ g <> f
   /\ (b = true -> ~ In 0%Z (s_log st)).
Proof.
  intros E. apply bind_ok in E as (st & E1 & E). apply bind_ok in E as (g & E2 & E). injection E as E3 E4.
  exists st, g. split; [exact E1|]. split; [exact E2|]. split; [now apply bytes_eqb_neq|]. intros ->. now apply no_zero_ok.
Qed.
Lemma trial_no_zero H pr params key f b : trial H pr params key f = Ok (true, b) ->
  exists st, seal H pr params key [] f = Ok st /\ ~ In 0%Z (s_log st).
Proof.
  intros E. apply bind_ok in E as (st & E1 & E). apply bind_ok in E as (g & E2 & E). injection E as E3 E4.
  exists st. split; [exact E1|]. now apply no_zero_ok.
Qed.

(** A normal run, random dependencies, two rounds. *)
Lemma run_random : trial hsum Debug (ex_params 2 0 0 0 10) ex_key ex_file = Ok (true, true).
Proof. vm_cast_no_check (@eq_refl (res (bool * bool)) (Ok (true, true))). Qed.
(** Deterministic long dependencies: corrupted. *)
Lemma run_mode1 : trial hsum Debug (ex_params 1 1 1 0 3) ex_key ex_file = Ok (true, false).
Proof. vm_cast_no_check (@eq_refl (res (bool * bool)) (Ok (true, false))). Qed.
(** Zero hash, zero file: corrupted. *)
Lemma run_zero : trial hzero Debug (ex_params 1 0 0 0 3) ex_key (zeros 18) = Ok (false, false).
Proof. vm_cast_no_check (@eq_refl (res (bool * bool)) (Ok (false, false))). Qed.
(** Deterministic short dependencies with as many blocks as units would be fine;
    here with no dependencies at all (mode_s = 5). *)
Lemma run_mode_s5 : trial hsum Debug (ex_params 1 0 2 5 3) ex_key ex_file = Ok (true, true).
Proof. vm_cast_no_check (@eq_refl (res (bool * bool)) (Ok (true, true))). Qed.

(** Unseal one block, then start again from the beginning. *)
Definition rerun (H : list byte -> list byte) (pr : profile) (params : PosPara) (key : Z) (f : file) : res (bool * bool) :=
  let* st := seal H pr params key [] f in
  let* g := unseal_range H pr params key [] 0 1 (s_file st) in
  let* g' := unseal H pr params key [] g in
  Ok (no_zero (s_log st), bytes_eqb g' f).
Lemma run_again : rerun hsum Debug (ex_params 1 0 0 0 3) ex_key ex_file = Ok (true, false).
Proof. vm_cast_no_check (@eq_refl (res (bool * bool)) (Ok (true, false))). Qed.

(** * Refutations *)
Theorem mode_l_1_corrupts : exists H params key f st g,
  setting H Debug params key 3 2 /\ sound_key H key /\ mode_l params = 1 /\ sealable params key 3 2 f /\
  seal H Debug params key [] f = Ok st /\ ~ In 0%Z (s_log st) /\
  unseal H Debug params key [] (s_file st) = Ok g /\ g <> f.
Proof.
  destruct (trial_bad _ _ _ _ _ _ run_mode1) as (st & g & A & B & C & D).
  exists hsum, (ex_params 1 1 1 0 3), ex_key, ex_file, st, g.
  split; [apply ex_setting; [apply hsum_32|cbn; lia|cbn; lia]|]. split; [apply ex_sound|]. split; [reflexivity|].
  split; [apply ex_sealable|]. auto.
Qed.
Theorem zero_corrupts : exists H params key f st g,
  setting H Debug params key 3 2 /\ sound_key H key /\ mode_l params = 0 /\ sealable params key 3 2 f /\
  seal H Debug params key [] f = Ok st /\
  unseal H Debug params key [] (s_file st) = Ok g /\ g <> f.
Proof.
  destruct (trial_bad _ _ _ _ _ _ run_zero) as (st & g & A & B & C & D).
  exists hzero, (ex_params 1 0 0 0 3), ex_key, (zeros 18), st, g.
  split; [apply ex_setting; [apply hzero_32|cbn; lia|cbn; lia]|]. split; [apply ex_sound_zero|]. split; [reflexivity|].
  split; [apply zero_sealable|]. auto.
Qed.
Theorem rerun_corrupts : exists H params key f st g g',
  setting H Debug params key 3 2 /\ sound_key H key /\ mode_l params = 0 /\ sealable params key 3 2 f /\
  seal H Debug params key [] f = Ok st /\ ~ In 0%Z (s_log st) /\
  unseal_range H Debug params key [] 0 1 (s_file st) = Ok g /\ unseal H Debug params key [] g = Ok g' /\ g' <> f.
Proof.
  pose proof run_again as E. apply bind_ok in E as (st & E1 & E). apply bind_ok in E as (g & E2 & E).
  apply bind_ok in E as (g' & E3 & E). injection E as E4 E5.
  exists hsum, (ex_params 1 0 0 0 3), ex_key, ex_file, st, g, g'.
  split; [apply ex_setting; [apply hsum_32|cbn; lia|cbn; lia]|]. split; [apply ex_sound|]. split; [reflexivity|].
  split; [apply ex_sealable|]. split; [exact E1|]. split; [now apply no_zero_ok|]. split; [exact E2|]. split; [exact E3|].
  now apply bytes_eqb_neq.
Qed.
