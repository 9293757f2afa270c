(** Rank-1 constraint systems as built through ark_relations::r1cs (an external library):
    [ConstraintSystemRef::new_input_variable], [new_witness_variable] and
    [enforce_constraint].  In setup mode (parameter generation) the closures that compute
    values are not called; in proving mode a missing value makes the call return Err, which
    every caller in /repo unwraps: Err is [Panic] here.  A linear combination is the list of
    its terms (the library also merges equal variables, which does not change its value);
    [Inst i] is the i-th public input, the constant-one wire is [One]. *)
From Verif Require Import Base Field.

Inductive var : Set := One | Inst (i : nat) | Wit (i : nat).

Section R1cs.
Context {K : ops}.

Definition lc : Type := list (K * var).
Definition r1c : Type := lc * lc * lc.
Record cs : Type := mkCs {
  setup : bool;
  n_inst : nat;
  n_wit : nat;
  inst_val : list K;
  wit_val : list K;
  cons : list r1c
}.
Definition new_cs (setup : bool) : cs := mkCs setup 0 0 [] [] [].

(** Synthesis code: reads and extends the constraint system, may panic. *)
Definition M (A : Type) : Type := cs -> res (A * cs).
Definition ret {A} (a : A) : M A := fun s => Ok (a, s).
Definition bindM {A B} (m : M A) (k : A -> M B) : M B := fun s => let* (a, s) := m s in k a s.
Definition lift {A} (r : res A) : M A := fun s => let* a := r in Ok (a, s).

Definition new_witness (v : option K) : M var := fun s =>
  if setup s then Ok (Wit (n_wit s), mkCs true (n_inst s) (S (n_wit s)) (inst_val s) (wit_val s) (cons s))
  else match v with
       | None => Panic
       | Some x => Ok (Wit (n_wit s), mkCs false (n_inst s) (S (n_wit s)) (inst_val s) (wit_val s ++ [x]) (cons s))
       end.
Definition new_input (v : option K) : M var := fun s =>
  if setup s then Ok (Inst (n_inst s), mkCs true (S (n_inst s)) (n_wit s) (inst_val s) (wit_val s) (cons s))
  else match v with
       | None => Panic
       | Some x => Ok (Inst (n_inst s), mkCs false (S (n_inst s)) (n_wit s) (inst_val s ++ [x]) (wit_val s) (cons s))
       end.
Definition enforce (a b c : lc) : M unit := fun s =>
  Ok (tt, mkCs (setup s) (n_inst s) (n_wit s) (inst_val s) (wit_val s) (cons s ++ [(a, b, c)])).

(** [o.unwrap()] and [o.map(|e| ..)] where the closure may panic. *)
Definition unwrap {A} (o : option A) : res A := match o with Some a => Ok a | None => Panic end.
Definition omap (o : option K) (f : K -> res K) : res (option K) :=
  match o with None => Ok None | Some e => let* r := f e in Ok (Some r) end.

(** A [for] loop over synthesis code. *)
Fixpoint forM {A S : Type} (f : S -> A -> M S) (l : list A) (st : S) : M S :=
  match l with
  | [] => ret st
  | a :: l' => bindM (f st a) (fun st' => forM f l' st')
  end.

(** ** Meaning: when an assignment of the wires satisfies the constraints *)
Definition eval (a : var -> K) (l : lc) : K := fold_right (fun t r => fadd (fmul (fst t) (a (snd t))) r) f0 l.
Definition holds (a : var -> K) (c : r1c) : Prop := let '(x, y, z) := c in fmul (eval a x) (eval a y) = eval a z.
Definition sat (a : var -> K) (l : list r1c) : Prop := Forall (holds a) l.
(** The assignment computed by a run in proving mode. *)
Definition asg (s : cs) (v : var) : K :=
  match v with One => f1 | Inst i => nth i (inst_val s) f0 | Wit i => nth i (wit_val s) f0 end.
End R1cs.
Arguments cs K : clear implicits.
Arguments lc K : clear implicits.
Arguments r1c K : clear implicits.
Arguments M K A : clear implicits.

Notation "'let#' x ':=' e 'in' k" := (bindM e (fun x => k))
  (at level 200, x pattern, e at level 100, k at level 200, right associativity).
