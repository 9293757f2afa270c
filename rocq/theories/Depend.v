(** Model of proof_of_storage/src/proof_of_storage/depend.rs. *)
From Verif Require Import Base.
Local Open Scope nat_scope.

(** [usize::pow(2, i.try_into().unwrap())]: the exponent is a u32, the power a
    usize that overflows from 2^64 on. *)
Definition upow2 (pr : profile) (i : nat) : res Z :=
  if (Z.of_nat i <? 4294967296)%Z then usz pr (2 ^ Z.of_nat i) else Panic.

(** depend.rs 5-17. *)
Definition long_mode_1 (pr : profile) (index count : nat) : res (list nat) :=
  foldM (fun acc i =>
           let* t := usz pr (2 * Z.of_nat i) in
           let* dis := usz pr (1 + t) in
           if (dis <=? Z.of_nat index)%Z
           then Ok (acc ++ [Z.to_nat (Z.of_nat index - dis)])
           else Ok acc) (seq 0 count) [].

(** depend.rs 19-33. *)
Definition long_mode_2 (pr : profile) (index count : nat) : res (list nat) :=
  foldM (fun acc i =>
           let* t := upow2 pr i in
           let* dis := usz pr (1 + t) in
           if (dis <=? Z.of_nat index)%Z
           then Ok (acc ++ [Z.to_nat (Z.of_nat index - dis)])
           else Ok acc) (seq 0 count) [].

(** depend.rs 35-48. *)
Definition long_mode_3 (pr : profile) (index : nat) : res (list nat) :=
  let count := index / 10 in
  foldM (fun acc i =>
           let* t := upow2 pr i in
           let* dis := usz pr (1 + t) in
           if (dis <=? Z.of_nat index)%Z
           then Ok (acc ++ [Z.to_nat (Z.of_nat index - dis)])
           else Ok acc) (seq 0 count) [].

(** [into_iter().collect::<HashSet<_>>()...; res.sort()]: whatever order the hash
    set is iterated in, the sorted vector is the increasing list of the distinct
    values; computed here by insertion. *)
Fixpoint insert_uniq (x : nat) (l : list nat) : list nat :=
  match l with
  | [] => [x]
  | y :: l' => if x <? y then x :: l
               else if x =? y then l
               else y :: insert_uniq x l'
  end.
Definition sort_dedup (l : list nat) : list nat := fold_right insert_uniq [] l.

(** depend.rs 58-68 and 225-235. *)
Definition step_of (num : nat) : nat :=
  if (Z.of_nat num <=? 2 ^ 8)%Z then 1
  else if (Z.of_nat num <=? 2 ^ 16)%Z then 2
  else 3.

(** depend.rs 77-80 (also 99-102, 244-247, 268-271):
    [data_idx += j * 256 + data_hash[i+j]]. *)
Definition data_idx (h : list byte) (step i : nat) : res nat :=
  foldM (fun acc j =>
           let* b := index h (i + j) in
           Ok (acc + (j * 256 + Z.to_nat (b2z b)))) (seq 0 step) 0.

(** [x % m]: panics for m = 0. *)
Definition rem_nat (x m : nat) : res nat := if m =? 0 then Panic else Ok (x mod m).

(** depend.rs 74: [blake3_res.as_bytes()[..16].try_into().unwrap()]. *)
Definition hash16 (H : list byte -> list byte) (d : list byte) : res (list byte) := slice (H d) 0 16.

Section Random.
Variable H : list byte -> list byte.  (* blake3 *)

(** depend.rs 75-88 / 97-110: the loop over [i in (0..16).step_by(step)] with its
    early exit. *)
Fixpoint long_inner (h : list byte) (step index count : nat) (is : list nat)
         (v : list nat) (c : nat) : res (list nat * nat) :=
  match is with
  | [] => Ok (v, c)
  | i :: is' =>
      if c <? count then
        let* d := data_idx h step i in
        let* depend_idx := rem_nat d index in
        long_inner h step index count is' (v ++ [depend_idx]) (c + 1)
      else Ok (v, c)
  end.

(** depend.rs 90-115. *)
Fixpoint long_outer (rounds : nat) (h : list byte) (step index count : nat)
         (v : list nat) (c : nat) : res (list nat) :=
  match rounds with
  | O => Ok v
  | S rounds' =>
      let* h' := hash16 H h in
      let* is := step_by 16 step in
      let* (v', c') := long_inner h' step index count is v c in
      if count <=? c' then Ok v'
      else long_outer rounds' h' step index count v' c'
  end.

(** depend.rs 50-120.  [1..count/(8*step)] has count/(8*step) - 1 elements. *)
Definition long_mode_random (num : nat) (data : list byte) (index count : nat) : res (list nat) :=
  if index =? 0 then Ok [] else
  let step := step_of num in
  let* data_hash := hash16 H data in
  let* is := step_by 16 step in
  let* (v, c) := long_inner data_hash step index count is [] 0 in
  let* v' := long_outer (count / (8 * step) - 1) data_hash step index count v c in
  Ok (sort_dedup v').

(** depend.rs 242-257 / 266-281. *)
Fixpoint short_inner (h : list byte) (step num index count : nat) (is : list nat)
         (v : list nat) (c : nat) : res (list nat * nat) :=
  match is with
  | [] => Ok (v, c)
  | i :: is' =>
      if c <? count then
        let* d := data_idx h step i in
        let* depend_idx := rem_nat d num in
        if depend_idx =? index then short_inner h step num index count is' v c
        else short_inner h step num index count is' (v ++ [depend_idx]) (c + 1)
      else Ok (v, c)
  end.

(** depend.rs 259-286. *)
Fixpoint short_outer (rounds : nat) (h : list byte) (step num index count : nat)
         (v : list nat) (c : nat) : res (list nat) :=
  match rounds with
  | O => Ok v
  | S rounds' =>
      let* h' := hash16 H h in
      let* is := step_by 16 step in
      let* (v', c') := short_inner h' step num index count is v c in
      if count <=? c' then Ok v'
      else short_outer rounds' h' step num index count v' c'
  end.

(** depend.rs 221-290. *)
Definition short_depend_random (num : nat) (data : list byte) (index count : nat) : res (list nat) :=
  let step := step_of num in
  let* data_hash := hash16 H data in
  let* is := step_by 16 step in
  let* (v, c) := short_inner data_hash step num index count is [] 0 in
  let* v' := short_outer (count / (8 * step) - 1) data_hash step num index count v c in
  Ok (sort_dedup v').
End Random.

(** depend.rs 122-144. *)
Definition long_depend (pr : profile) (index count mode : nat) : res (list nat) :=
  if mode =? 1 then long_mode_1 pr index count
  else if mode =? 2 then long_mode_2 pr index count
  else if mode =? 3 then long_mode_3 pr index
  else Ok [].

(** depend.rs 146-190: the [loop]; None = out of fuel (excluded by a theorem).  The
    sums cannot overflow for num below 2^62 and are plain naturals here.  The final
    diagnostic loop (184-188) only prints. *)
Fixpoint short_mode_1_loop (fuel num index count epoch : nat) (v : list nat) : option (list nat) :=
  match fuel with
  | O => None
  | S fuel' =>
      if count <=? length v then Some v else
      let dis := 1 + 2 * epoch in
      if (index <? dis) && (num <=? index + dis) then Some v else
      let v1 := if dis <=? index then v ++ [index - dis] else v in
      if count <=? length v1 then Some v1 else
      let v2 := if index + dis <? num then v1 ++ [index + dis] else v1 in
      short_mode_1_loop fuel' num index count (epoch + 1) v2
  end.
Definition short_mode_1_fuel (num index : nat) : nat := num + index + 1.
Definition short_mode_1 (num index count : nat) : res (list nat) :=
  match short_mode_1_loop (short_mode_1_fuel num index) num index count 0 [] with
  | Some v => Ok v
  | None => Panic
  end.

(** depend.rs 192-219. *)
Fixpoint short_mode_2_loop (pr : profile) (num index : nat) (is : list nat) (flag : bool)
         (v : list nat) : res (list nat) :=
  match is with
  | [] => Ok v
  | i :: is' =>
      let* t1 := upow2 pr i in
      let* dis1 := usz pr (1 - t1) in
      let* t2 := upow2 pr i in
      let* dis2 := usz pr (1 + t2) in
      let* idx := if flag then usz pr (Z.of_nat index - dis1) else usz pr (Z.of_nat index - dis2) in
      if (Z.of_nat num <=? idx)%Z then Ok v
      else short_mode_2_loop pr num index is' (negb flag) (v ++ [Z.to_nat idx])
  end.
Definition short_mode_2 (pr : profile) (num index count : nat) : res (list nat) :=
  short_mode_2_loop pr num index (seq 0 count) false [].

(** depend.rs 293-312. *)
Definition short_depend (pr : profile) (num index count mode : nat) : res (list nat) :=
  if mode =? 1 then short_mode_1 num index count
  else if mode =? 2 then short_mode_2 pr num index count
  else Ok [].
