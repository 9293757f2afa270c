(** Vocabulary for stating the sealing theorems: geometry, admissible files and
    keys.  Nothing here refers to the loops of prover.rs. *)
From Verif Require Import Base Common.
From Coq Require Znumtheory.
Local Open Scope nat_scope.

(** n blocks of m units each, in the padded file. *)
Record geometry (params : PosPara) (n m : nat) : Prop := {
  g_block_l : block_l params <> 0;
  g_blocks : data_l params / block_l params = n;
  g_unit : 0 < unit_pl params;
  g_block_pl : block_pl params = m * unit_pl params
}.

(** The bytes of block k and of unit k (counted over the whole file). *)
Definition block_bytes (params : PosPara) (f : file) (k : nat) : list byte :=
  firstn (block_pl params) (skipn (k * block_pl params) f).
Definition unit_bytes (params : PosPara) (f : file) (k : nat) : list byte :=
  firstn (unit_pl params) (skipn (k * unit_pl params) f).

(** A file that can be sealed: long enough, and every unit is a number below the
    modulus. *)
Definition sealable (params : PosPara) (key : Z) (n m : nat) (f : file) : Prop :=
  n * block_pl params <= length f /\
  forall k, k < n * m -> (le2z (unit_bytes params f k) < key)%Z.

(** Byte-wise description of a file made of the first j blocks of [a] and
    everything after them from [b]. *)
Definition splice (params : PosPara) (j : nat) (a b : file) : file :=
  firstn (j * block_pl params) a ++ skipn (j * block_pl params) b.

(** Output sizes of the hash. *)
Definition hash32 (H : list byte -> list byte) : Prop := forall d, length (H d) = 32.

(** Long-dependency settings for which the dependency generator does not panic
    (n blocks). *)
Definition long_modes_fine (params : PosPara) (n : nat) : Prop :=
  match mode_l params with
  | 0 => (Z.of_nat n <= 65536)%Z \/ 1 <= cnt_l params <= 5
  | 1 => (Z.of_nat (cnt_l params) <= 2 ^ 62)%Z
  | 2 => cnt_l params <= 64
  | 3 => n <= 650
  | _ => True
  end.

(** Short-dependency settings (n blocks of m units); the deterministic modes build
    their table for n although it is used for m units. *)
Definition short_modes_fine (pr : profile) (params : PosPara) (n m : nat) : Prop :=
  match mode_s params with
  | 0 => (Z.of_nat m <= 65536)%Z
  | 1 => n = m \/ (m <= n /\ (cnt_s params = 0 \/ (cnt_s params = 1 /\ 2 <= m)))
  | 2 => (cnt_s params = 0 /\ m <= n) \/
         (pr = Release /\ n = m /\ cnt_s params <= 63 /\ (Z.of_nat n <= 2 ^ 62)%Z)
  | _ => m <= n
  end.

(** Everything sealing needs: n blocks of m units, a modulus that fits a unit. *)
Record setting (H : list byte -> list byte) (pr : profile) (params : PosPara) (key : Z) (n m : nat) : Prop := {
  set_hash : hash32 H;
  set_geom : geometry params n m;
  set_key : (1 < key <= 256 ^ Z.of_nat (unit_pl params))%Z;
  set_long : long_modes_fine params n;
  set_short : short_modes_fine pr params n m
}.

(** Keys for which the delay function is a permutation and masks are reduced.
    The last condition holds for every 32-byte hash when key >= 2^256. *)
Record sound_key (H : list byte -> list byte) (key : Z) : Prop := {
  sk_prime : Znumtheory.prime key;
  sk_mod4 : (key mod 4 = 3)%Z;
  sk_mask : forall d, (le2z (H d) < key)%Z
}.
