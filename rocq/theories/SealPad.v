(** A padded file can be sealed. *)
From Verif Require Import Base Sloth Common Prover BytesFacts CommonFacts SealSpec Primes ParamFacts.
Local Open Scope nat_scope.

Lemma pad_sealable params key n m f g : 0 < unit_l params -> unit_pl params = unit_l params + 1 ->
  block_pl params = m * unit_pl params -> data_l params = n * (m * unit_l params) ->
  (256 ^ Z.of_nat (unit_l params) <= key)%Z ->
  copy_and_pad f (data_l params) (unit_l params) = Ok g ->
  length g = n * block_pl params /\ sealable params key n m g /\
  forall q, q < n * m -> unit_bytes params g q = read_file f (q * unit_l params) (unit_l params) ++ [x00].
Proof.
  intros U UP BP D K E. destruct (pad_unit f (data_l params) (unit_l params) g ltac:(lia) E) as [L P].
  assert (C : data_l params / unit_l params = n * m) by (rewrite D, Nat.mul_assoc; apply Nat.div_mul; lia).
  rewrite C in L, P. rewrite <- UP in L, P.
  assert (LL : length g = n * block_pl params) by (rewrite L, BP; lia).
  assert (UB : forall q, q < n * m -> unit_bytes params g q = read_file f (q * unit_l params) (unit_l params) ++ [x00]).
  { intros q Q. rewrite <- P by exact Q. unfold unit_bytes. symmetry. apply read_file_full. rewrite L. nia. }
  split; [exact LL|]. split; [|exact UB]. split; [lia|]. intros q Q. rewrite UB by exact Q.
  rewrite le2z_app, read_file_length. change (le2z [x00]) with 0%Z.
  pose proof (le2z_range (read_file f (q * unit_l params) (unit_l params))) as R. rewrite read_file_length in R. lia.
Qed.
Theorem gen_posdata_sealable l f g : let P := gen_posdata l in
  copy_and_pad f (data_l P) (unit_l P) = Ok g ->
  length g = 256 * block_pl P /\ sealable P P_512 256 (units_per_block l) g.
Proof.
  intros P E. destruct (gen_posdata_geometry l) as (U & UP & B & BP & D & M & _).
  destruct (pad_sealable P P_512 256 (units_per_block l) f g) as (A & S & _); auto.
  - unfold P. rewrite U. apply Nat.lt_0_succ.
  - unfold P. rewrite U, UP. reflexivity.
  - unfold P. rewrite D, B. reflexivity.
  - unfold P. rewrite U. change (Z.of_nat 63) with 63%Z. vm_compute. discriminate.
Qed.
