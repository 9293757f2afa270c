(** Counting the outcomes of the random draws: the vocabulary for statements about how
    likely a challenge is. *)
From Verif Require Import Base Common Depend Prover Verifier.
Local Open Scope nat_scope.

(** All sequences of k elements of l. *)
Fixpoint tuples {A} (l : list A) (k : nat) : list (list A) :=
  match k with
  | O => [[]]
  | S k' => flat_map (fun w => map (fun x => x :: w) l) (tuples l k')
  end.
(** All sequences of L draws from 0 .. q - 1; gen_range makes them equally likely. *)
Definition words (q L : nat) : list (list nat) := tuples (seq 0 q) L.
(** In how many cases something is so. *)
Definition count {A} (p : A -> bool) (l : list A) : nat := length (filter p l).
(** Binomial coefficients. *)
Fixpoint binom (n k : nat) : nat :=
  match n, k with
  | _, O => 1
  | O, S _ => 0
  | S n', S k' => binom n' k' + binom n' k
  end.
(** The challenge list of c indices from a .. b - 1 obtained with the draws w, if they are
    enough.  (length w + 1 rounds of the loop of verifier.rs 34-45 use length w draws.) *)
Definition drawn (c a b : nat) (w : list nat) : option (list nat) :=
  match create_challenges (S (length w)) c (a, b) (fun i => nth i w 0) with
  | Some (Ok l) => Some l
  | _ => None
  end.
Definition finished (c a b : nat) (w : list nat) : bool :=
  match drawn c a b w with Some _ => true | None => false end.
(** Whether the challenge is the list l. *)
Definition is_set (l : list nat) (o : option (list nat)) : bool :=
  match o with Some r => if list_eq_dec Nat.eq_dec r l then true else false | None => false end.
