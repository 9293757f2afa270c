(** Shared vocabulary of the model: panics, machine integers, bytes, files.
    Nothing in this file models a particular function of /repo except where a
    comment says so; it fixes how Rust's primitive types are represented. *)
From Coq Require Export List ZArith Lia Bool Arith NArith.
From Coq Require Export Init.Byte.
From Coq Require Import Strings.Byte.
Export ListNotations.

(** A Rust computation returns a value or panics (index out of bounds, failed
    assertion, unwrap of an error, arithmetic overflow in a debug build). *)
Inductive res (A : Type) : Type :=
| Ok (a : A)
| Panic.
Arguments Ok {A} a.
Arguments Panic {A}.

Definition bind {A B : Type} (m : res A) (k : A -> res B) : res B :=
  match m with
  | Ok a => k a
  | Panic => Panic
  end.

Notation "'let*' x ':=' e 'in' k" := (bind e (fun x => k))
  (at level 200, x pattern, e at level 100, k at level 200, right associativity).

(** A [for] loop whose body may panic and updates the state [s]. *)
Fixpoint foldM {A S : Type} (f : S -> A -> res S) (l : list A) (s : S) : res S :=
  match l with
  | [] => Ok s
  | a :: l' => let* s' := f s a in foldM f l' s'
  end.

(** A loop that pushes one result per element. *)
Fixpoint mapM {A B : Type} (f : A -> res B) (l : list A) : res (list B) :=
  match l with
  | [] => Ok []
  | a :: l' => let* b := f a in let* bs := mapM f l' in Ok (b :: bs)
  end.

(** [v[i]] on a vector: panics out of bounds. *)
Definition index {A : Type} (l : list A) (i : nat) : res A :=
  match nth_error l i with
  | Some a => Ok a
  | None => Panic
  end.

(** [v[i] = a] on a vector: panics out of bounds. *)
Fixpoint upd {A : Type} (l : list A) (i : nat) (a : A) : list A :=
  match l, i with
  | [], _ => []
  | _ :: t, O => a :: t
  | h :: t, S i' => h :: upd t i' a
  end.
Definition set_index {A : Type} (l : list A) (i : nat) (a : A) : res (list A) :=
  if (i <? length l)%nat then Ok (upd l i a) else Panic.

(** [&v[i .. j]]: panics if i > j or j > len. *)
Definition slice {A : Type} (l : list A) (i j : nat) : res (list A) :=
  if (i <=? j)%nat && (j <=? length l)%nat
  then Ok (firstn (j - i) (skipn i l)) else Panic.

(** [(0..n).step_by(s)]: panics for s = 0. *)
Definition ceil_div (n s : nat) : nat := ((n + (s - 1)) / s)%nat.
Definition step_by (n s : nat) : res (list nat) :=
  match s with
  | O => Panic
  | _ => Ok (map (fun k => (k * s)%nat) (seq 0 (ceil_div n s)))
  end.

(** * Machine integers: 64-bit usize.  In a debug build an overflowing
    operation panics, in a release build it wraps. *)
Inductive profile : Set := Debug | Release.

Definition two64 : Z := 18446744073709551616%Z.

Definition usz (pr : profile) (z : Z) : res Z :=
  if ((0 <=? z) && (z <? two64))%Z then Ok z
  else match pr with
       | Debug => Panic
       | Release => Ok (z mod two64)%Z
       end.

(** * Bytes *)
Definition b2z (b : byte) : Z := Z.of_N (to_N b).
Definition z2b (z : Z) : byte :=
  match of_N (Z.to_N (z mod 256)) with
  | Some b => b
  | None => x00
  end.
Definition zeros (n : nat) : list byte := repeat x00 n.

(** [Integer::from_digits(bytes, Order::Lsf)] / [BigInt::from_bytes_le]. *)
Fixpoint le2z (l : list byte) : Z :=
  match l with
  | [] => 0
  | b :: t => b2z b + 256 * le2z t
  end%Z.

(** [z.to_digits::<u8>(Order::Lsf)]: minimal little-endian digits of |z|
    (no digit for 0). *)
Fixpoint z2le_fuel (n : nat) (z : Z) : list byte :=
  match n with
  | O => []
  | S n' => if (z <=? 0)%Z then [] else z2b z :: z2le_fuel n' (z / 256)
  end.
Definition z2le (z : Z) : list byte :=
  z2le_fuel (Z.to_nat (Z.log2 (Z.abs z)) + 1) (Z.abs z).

(** * Files: the list of bytes; reads past the end give nothing, writes past the
    end extend (a gap is filled with zeros, as POSIX does). *)
Definition file := list byte.

Definition write_at (f : file) (pos : nat) (buf : list byte) : file :=
  match buf with
  | [] => f
  | _ => firstn pos f ++ zeros (pos - length f) ++ buf ++ skipn (pos + length buf) f
  end.
