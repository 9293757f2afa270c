(** Vocabulary of C98. *)
From Verif Require Import Base Common.
Local Open Scope nat_scope.

(** Each of [n] consecutive pieces of [len] bytes fits into a buffer and starts at an offset
    that the file system can seek to. *)
Definition reachable (lim : Z) (n len : nat) : Prop :=
  forall i, i < n -> (Z.of_nat len < 2 ^ 63)%Z /\ (Z.of_nat (i * len) < lim)%Z.

(** A number of deterministic dependencies that the tables express without wrapping. *)
Definition sane_count (params : PosPara) : Prop :=
  (mode_l params = 1 -> (Z.of_nat (cnt_l params) <= 2 ^ 62)%Z) /\ (mode_l params = 2 -> cnt_l params <= 64).
