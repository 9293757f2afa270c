(** Specification of the dependency selection, independent of the loops in
    depend.rs: what is drawn from the hash and what is kept. *)
From Verif Require Import Base.
From Coq Require Import Sorted.
Local Open Scope nat_scope.

(** The number read from [step] consecutive bytes of a hash starting at byte i:
    the sum (not the positional value) of 256*j + byte(i+j). *)
Definition byte_at (h : list byte) (i : nat) : nat := Z.to_nat (b2z (nth i h x00)).
Definition candidate (h : list byte) (step i : nat) : nat :=
  list_sum (map (fun j => 256 * j + byte_at h (i + j)) (seq 0 step)).

(** The chain of 16-byte hashes: hash of the data, hash of that hash, ... *)
Fixpoint hash_chain (H : list byte -> list byte) (data : list byte) (r : nat) : list byte :=
  match r with
  | O => firstn 16 (H data)
  | S r' => firstn 16 (H (hash_chain H data r'))
  end.

(** All numbers that [rounds] hashes provide, in order. *)
Definition draws (H : list byte -> list byte) (data : list byte) (step rounds : nat) : list nat :=
  flat_map (fun r => map (fun k => candidate (hash_chain H data r) step (k * step))
                         (seq 0 ((16 + (step - 1)) / step))) (seq 0 rounds).

(** [l] is the increasing list of the distinct values of [v]. *)
Definition sorted_set_of (v l : list nat) : Prop :=
  StronglySorted lt l /\ forall x, In x l <-> In x v.

(** * Deterministic rules *)

(** Documented long distances that stay at or above zero, in order. *)
Definition back_by (dist : nat -> Z) (index count : nat) : list nat :=
  map (fun i => Z.to_nat (Z.of_nat index - dist i))
      (filter (fun i => (dist i <=? Z.of_nat index)%Z) (seq 0 count)).
Definition dist_1 (i : nat) : Z := 1 + 2 * Z.of_nat i.     (* 1, 3, 5, 7, ... *)
Definition dist_2 (i : nat) : Z := 1 + 2 ^ Z.of_nat i.     (* 2, 3, 5, 9, ... *)

(** Neighbours of [index] at odd distance, nearest first, left before right. *)
Definition nb_at (num index e : nat) : list nat :=
  (if 1 + 2 * e <=? index then [index - (1 + 2 * e)] else []) ++
  (if index + (1 + 2 * e) <? num then [index + (1 + 2 * e)] else []).
Definition odd_neighbours (num index : nat) : list nat :=
  flat_map (nb_at num index) (seq 0 (num + index)).

(** The longest prefix whose elements all satisfy [f]. *)
Fixpoint take_while {A} (f : A -> bool) (l : list A) : list A :=
  match l with
  | [] => []
  | a :: l' => if f a then a :: take_while f l' else []
  end.
(** index-2, index+1, index-5, index+7, index-17, ... *)
Definition alternating (index i : nat) : Z :=
  if Nat.even i then Z.of_nat index - 1 - 2 ^ Z.of_nat i else Z.of_nat index - 1 + 2 ^ Z.of_nat i.
