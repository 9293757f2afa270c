(** The parameter sets of gen_posdata and the moduli that go with them. *)
From Verif Require Import Base Sloth Common Prover BytesFacts SealSpec Primes.
From Coq Require Import Strings.String.
From Coq Require Import List Znumtheory.
Local Open Scope nat_scope.

(** Units per block of the four parameter sets. *)
Definition units_per_block (l : nat) : nat :=
  if l =? 1 then 64 else if l =? 4 then 256 else if l =? 16 then 1024 else 4 * 1024.

Ltac gp l := unfold gen_posdata, units_per_block; destruct (l =? 1); [|destruct (l =? 4); [|destruct (l =? 16)]];
  cbn [data_l unit_l block_l big_block_l unit_pl block_pl big_block_pl seal_rounds vde_rounds vde_mode mode_l cnt_l mode_s cnt_s leaves_to_prove_count].

Ltac conjs := repeat lazymatch goal with |- _ /\ _ => split end.
Theorem gen_posdata_geometry l :
  unit_l (gen_posdata l) = 63 /\ unit_pl (gen_posdata l) = 64 /\
  block_l (gen_posdata l) = units_per_block l * unit_l (gen_posdata l) /\
  block_pl (gen_posdata l) = units_per_block l * unit_pl (gen_posdata l) /\
  data_l (gen_posdata l) = 256 * block_l (gen_posdata l) /\
  0 < units_per_block l /\
  mode_l (gen_posdata l) = 0 /\ mode_s (gen_posdata l) = 0.
Proof. gp l; conjs; lia. Qed.
Theorem gen_posdata_big_blocks l : exists k,
  big_block_l (gen_posdata l) = k * unit_l (gen_posdata l) /\ big_block_pl (gen_posdata l) = k * unit_pl (gen_posdata l).
Proof. exists (128 * 128). gp l; conjs; lia. Qed.

Lemma gen_posdata_geom l : geometry (gen_posdata l) 256 (units_per_block l).
Proof.
  destruct (gen_posdata_geometry l) as (U & UP & B & BP & D & M & _). constructor.
  - rewrite B, U. lia.
  - rewrite D. apply Nat.div_mul. rewrite B, U. lia.
  - lia.
  - exact BP.
Qed.

Lemma P_512_fits : (2 ^ 511 + 2 ^ 509 < P_512 < 256 ^ 64)%Z.
Proof. split; vm_compute; reflexivity. Qed.
Theorem gen_posdata_setting H pr l : hash32 H -> setting H pr (gen_posdata l) P_512 256 (units_per_block l).
Proof.
  intros HH. destruct (gen_posdata_geometry l) as (U & UP & B & BP & D & M & ML & MS). constructor; auto.
  - apply gen_posdata_geom.
  - rewrite UP. pose proof P_512_fits. change (Z.of_nat 64) with 64%Z. lia.
  - unfold long_modes_fine. rewrite ML. left. change (Z.of_nat 256) with 256%Z. lia.
  - unfold short_modes_fine. rewrite MS. unfold units_per_block.
    destruct (l =? 1); [|destruct (l =? 4); [|destruct (l =? 16)]]; lia.
Qed.

Local Open Scope Z_scope.
Lemma moduli_partial :
  (forall p b, In (p, b) [(P_64, 64); (P_128, 128); (P_256, 256); (P_512, 512); (P_1024, 1024); (P_2048, 2048)] ->
     p mod 4 = 3 /\ 2 ^ (b - 1) <= p < 2 ^ b) /\
  prime P_64 /\ prime P_128 /\ prime P_256 /\ prime P_512.
Proof.
  split; [|split; [apply P_64_prime|split; [apply P_128_prime|split; [apply P_256_prime|apply P_512_prime]]]].
  intros p b I. cbn [In] in I.
  repeat (destruct I as [I|I]; [injection I as <- <-; split; [reflexivity|split; [vm_compute; discriminate|vm_compute; reflexivity]]|]).
  contradiction.
Qed.

Lemma shipped_sound H : hash32 H -> sound_key H P_512.
Proof.
  intros HH. split; [apply P_512_prime|reflexivity|]. intros d. pose proof (le2z_range (H d)) as R. rewrite HH in R.
  pose proof P_512_fits. assert (256 ^ Z.of_nat 32 < 2 ^ 511) by (vm_compute; reflexivity). lia.
Qed.
