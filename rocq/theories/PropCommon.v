(** Properties C10-C13 and C21: byte helpers, parameters, padding. *)
From Coq Require Import Strings.String.
From Verif Require Import Base Common Prover BytesFacts CommonFacts ParamFacts.
Local Open Scope nat_scope.

(** C10 *)
Theorem C10_to_units_returns_exactly : forall data len,
  (exists us, to_units data len = Ok us) <-> 0 < len /\ Nat.divide len (length data).
Proof. exact to_units_iff. Qed.
Print Assumptions C10_to_units_returns_exactly.
Theorem C10_com_to : forall data len us, to_units data len = Ok us ->
  com_units us = data /\ Forall (fun u => length u = len) us.
Proof. exact to_units_props. Qed.
Print Assumptions C10_com_to.
Theorem C10_to_com : forall us len, 0 < len -> Forall (fun u => length u = len) us -> to_units (com_units us) len = Ok us.
Proof. exact to_com. Qed.
Print Assumptions C10_to_com.
Example C10_ex : to_units [x01; x02; x03; x04] 2 = Ok [[x01; x02]; [x03; x04]] /\ to_units [x01; x02; x03] 2 = Panic.
Proof. split; reflexivity. Qed.

(** C11: the value of every byte, hence the algebraic laws. *)
Theorem C11_xor_bytes : forall a b,
  length (vecu8_xor a b) = Nat.max (length a) (length b) /\
  forall k, b2z (nth k (vecu8_xor a b) x00) = Z.lxor (b2z (nth k a x00)) (b2z (nth k b x00)).
Proof. intros a b. split; [apply xor_length|]. intros k. rewrite xor_nth. apply bxor_val. Qed.
Print Assumptions C11_xor_bytes.
Theorem C11_xor_laws : forall a b c,
  vecu8_xor a b = vecu8_xor b a /\
  vecu8_xor a (vecu8_xor b c) = vecu8_xor (vecu8_xor a b) c /\
  vecu8_xor a [] = a /\
  vecu8_xor (vecu8_xor a b) b = a ++ zeros (length b - length a).
Proof. intros a b c. exact (conj (xor_comm a b) (conj (xor_assoc a b c) (conj (xor_nil a) (xor_twice a b)))). Qed.
Print Assumptions C11_xor_laws.
Example C11_ex : vecu8_xor [x0f; xff] [xf1; x0f; x33] = [xfe; xf0; x33].
Proof. reflexivity. Qed.

(** C12 *)
Theorem C12_read_file : forall f begin len,
  length (read_file f begin len) = len /\
  forall k, k < len -> nth_error (read_file f begin len) k = Some (nth (begin + k) f x00).
Proof. intros f b l. split; [apply read_file_length|]. intros k K. now apply read_file_nth. Qed.
Print Assumptions C12_read_file.
Example C12_ex : read_file [x01; x02; x03] 1 4 = [x02; x03; x00; x00].
Proof. reflexivity. Qed.

(** C13 *)
Theorem C13_gen_posdata : forall l, let P := gen_posdata l in exists units,
  0 < units /\
  block_l P = units * unit_l P /\ block_pl P = units * unit_pl P /\
  data_l P = 256 * block_l P /\ unit_pl P = unit_l P + 1 /\ 0 < unit_l P /\
  exists k, big_block_l P = k * unit_l P /\ big_block_pl P = k * unit_pl P.
Proof.
  intros l P. exists (units_per_block l). destruct (gen_posdata_geometry l) as (U & UP & B & BP & D & M & _).
  split; [exact M|]. split; [exact B|]. split; [exact BP|]. split; [exact D|]. fold P in U, UP.
  split; [rewrite U, UP; reflexivity|]. split; [rewrite U; apply Nat.lt_0_succ|]. apply gen_posdata_big_blocks.
Qed.
Print Assumptions C13_gen_posdata.
Theorem C13_settings : forall l, let P := gen_posdata l in
  seal_rounds P = 2 /\ vde_rounds P = 10 /\ vde_mode P = "sloth"%string /\
  mode_l P = 0 /\ cnt_l P = 0 /\ mode_s P = 0 /\ cnt_s P = 10 /\ leaves_to_prove_count P = 3.
Proof. intros l P. subst P. gp l; conjs; reflexivity. Qed.
Print Assumptions C13_settings.
Theorem C13_sizes :
  (forall l, unit_l (gen_posdata l) = 63 /\ big_block_l (gen_posdata l) = 63 * 128 * 128) /\
  data_l (gen_posdata 1) = 63 * 16 * 1024 * 1 /\ data_l (gen_posdata 4) = 63 * 16 * 1024 * 4 /\
  data_l (gen_posdata 16) = 63 * 16 * 1024 * 16 /\
  forall l, l <> 1 -> l <> 4 -> l <> 16 -> data_l (gen_posdata l) = 63 * 16 * 1024 * 64.
Proof.
  split; [intros l; gp l; conjs; reflexivity|]. do 3 (split; [reflexivity|]).
  intros l A B C. apply Nat.eqb_neq in A, B, C. unfold gen_posdata. now rewrite A, B, C.
Qed.
Print Assumptions C13_sizes.

(** C21 *)
Theorem C21_compress_pad : forall f data_l unit_l g, unit_l <> 0 ->
  copy_and_pad f data_l unit_l = Ok g ->
  copy_and_compress g data_l unit_l (unit_l + 1) = Ok (read_file f 0 (data_l / unit_l * unit_l)).
Proof. exact compress_pad. Qed.
Print Assumptions C21_compress_pad.
Theorem C21_compress_pad_identity : forall f data_l unit_l g, unit_l <> 0 ->
  Nat.divide unit_l data_l -> length f = data_l -> copy_and_pad f data_l unit_l = Ok g ->
  copy_and_compress g data_l unit_l (unit_l + 1) = Ok f.
Proof. exact compress_pad_id. Qed.
Print Assumptions C21_compress_pad_identity.
Theorem C21_padded_units : forall f data_l unit_l, unit_l <> 0 ->
  exists g, copy_and_pad f data_l unit_l = Ok g /\ length g = data_l / unit_l * (unit_l + 1) /\
  forall k, k < data_l / unit_l ->
    firstn (unit_l + 1) (skipn (k * (unit_l + 1)) g) = read_file f (k * unit_l) unit_l ++ [x00].
Proof. exact padded_units. Qed.
Print Assumptions C21_padded_units.
Example C21_ex : copy_and_pad [x01; x02; x03; x04; x05] 5 2 = Ok [x01; x02; x00; x03; x04; x00] /\
  copy_and_compress [x01; x02; x00; x03; x04; x00] 5 2 3 = Ok [x01; x02; x03; x04].
Proof. split; reflexivity. Qed.
