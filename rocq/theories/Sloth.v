(** Model of the sloth permutation and the byte-level delay function.
    proof_of_storage/src/vde/rug_sloth.rs and proof_of_storage/src/vde/rug_vde.rs
    (the versions used by sealing), proof_of_storage/src/vde/sloth.rs and
    numbig_vde.rs (num-bigint twins), compare_modpow.rs.

    rug's [%] and [/] on integers truncate: [Z.rem], [Z.quot].  [pow_mod] returns
    the non-negative residue: [Zpow_mod] (square-and-multiply, equal to a^e mod p
    for p > 1 by the standard library's Zpow_mod_correct).  A modulus of 0 panics
    in Rust; every theorem assumes p > 1. *)
From Verif Require Import Base Legendre.
From Coq Require Import Zpow_facts Strings.String.
From Coq Require Import List.
Local Open Scope Z_scope.

(** The constants of rug_sloth.rs lines 4-9. *)
Definition P_64 : Z := 13758676365741467507.
Definition P_128 : Z := 284966011836017917039797442435648636163.
Definition P_256 : Z := 79128031240076844063259589759962924441255910968111729611693920152825864722707.
Definition P_512 : Z := 10711734159436774894171334484137626675507759979749407253125221261168087448899876831488509454695461974257751111853456275453329348448922191916590010377596767.
Definition P_1024 : Z := 158297696608074679654124946564912202999139663277505984894261981349837992769596165683700437968679604111373729258655046764462137227577322861762501627230418997487671809885760928375348392323002752945263359796693275288611323927303851169352900910708127230034239565388759941444235878668699843286794016470366892082267.
Definition P_2048 : Z := 22287360226908822233992819736392944434475043692265646916055930477587645696682024041890820611728835974780990571065838330253841354283867699159271588286101147370436450708147936416639540332373863814027801664774471436354150618315722661359913455362721373024713389259210331115681727749894367904502907551083219287819263090154675250911168607561882294815102877332366368477130120481174929478405004375083454233478408080520257325818925705871467706311605717341130286381719809389913520035118471758580658821155908577746981648167876884576360004782560776732442189914352788858257527373771629598261282997979720455015240977446412661775607.

(** rug_sloth.rs 64-88. *)
Definition single_sloth (x p : Z) : Z :=
  let flag := legendre x p in
  let y :=
    if flag =? 1 then
      let y := Zpow_mod x (Z.quot (p + 1) 4) p in
      if Z.rem y 2 =? 1 then Z.rem (p - y) p else y
    else
      let xx := Z.rem (p - x) p in
      let y := Zpow_mod xx (Z.quot (p + 1) 4) p in
      if Z.rem y 2 =? 0 then Z.rem (p - y) p else y in
  if Z.rem y 2 =? 1 then Z.rem (y + 1) p else Z.rem (y - 1) p.

(** rug_sloth.rs 90-96. *)
Fixpoint sloth (y p : Z) (t : nat) : Z :=
  match t with
  | O => y
  | S t' => sloth (single_sloth y p) p t'
  end.

(** rug_sloth.rs 98-113.  Note the precedence in line 108:
    [p - (x.pow_mod(2,p) % p)]. *)
Definition single_sloth_inv (y p : Z) : Z :=
  let x := if Z.rem y 2 =? 1 then Z.rem (y + 1) p else Z.rem (y - 1) p in
  if Z.rem x 2 =? 1 then p - Z.rem (Zpow_mod x 2 p) p
  else Zpow_mod x 2 p.

(** rug_sloth.rs 115-121. *)
Fixpoint sloth_inv (y p : Z) (t : nat) : Z :=
  match t with
  | O => y
  | S t' => sloth_inv (single_sloth_inv y p) p t'
  end.

(** The tail of rug_vde.rs vde (15-18) and vde_inv (33-36): append zeros up to l
    bytes, never truncate. *)
Definition pad_to (l : nat) (bs : list byte) : list byte :=
  if (length bs <? l)%nat then bs ++ zeros (l - length bs) else bs.

(** rug_vde.rs 4-19.  Both branches on the mode string are the same in the code. *)
Definition vde (x : list byte) (p : Z) (t : nat) (mode : string) (l : nat) : list byte :=
  let cur_x := le2z x in
  let y := if String.eqb mode "sloth" then sloth cur_x p t else sloth cur_x p t in
  pad_to l (z2le y).

(** rug_vde.rs 21-37. *)
Definition vde_inv (y : list byte) (p : Z) (t : nat) (mode : string) (l : nat) : list byte :=
  let cur_y := le2z y in
  let x := if String.eqb mode "sloth" then sloth_inv cur_y p t else sloth_inv cur_y p t in
  pad_to l (z2le x).

(** * The num-bigint twin, vde/sloth.rs *)

(** sloth.rs 56-80. *)
Definition big_single_sloth (x p : Z) : Z :=
  let flag := legendre x p in
  let y :=
    if flag =? 1 then
      let y := Zpow_mod x (Z.quot (p + 1) 4) p in
      if Z.rem y 2 =? 1 then Z.rem (p - y) p else y
    else
      let xx := Z.rem (p - x) p in
      let y := Zpow_mod xx (Z.quot (p + 1) 4) p in
      if Z.rem y 2 =? 0 then Z.rem (p - y) p else y in
  if Z.rem y 2 =? 1 then Z.rem (y + 1) p else Z.rem (y - 1) p.

(** sloth.rs 82-88. *)
Fixpoint big_sloth (y p : Z) (t : nat) : Z :=
  match t with O => y | S t' => big_sloth (big_single_sloth y p) p t' end.

(** sloth.rs 90-105: the inverse squares with [pow(2)] and reduces the odd branch
    once more. *)
Definition big_single_sloth_inv (y p : Z) : Z :=
  let x := if Z.rem y 2 =? 1 then Z.rem (y + 1) p else Z.rem (y - 1) p in
  if Z.rem x 2 =? 1 then Z.rem (p - Z.rem (x ^ 2) p) p
  else Z.rem (x ^ 2) p.

(** sloth.rs 107-113. *)
Fixpoint big_sloth_inv (y p : Z) (t : nat) : Z :=
  match t with O => y | S t' => big_sloth_inv (big_single_sloth_inv y p) p t' end.

(** [BigInt::to_bytes_le().1]: like [z2le] but one zero byte for 0. *)
Definition big_bytes_le (z : Z) : list byte :=
  if z =? 0 then [x00] else z2le z.

(** numbig_vde.rs 34-50: chunk by chunk; [x[i .. i + l]] panics on a short tail. *)
Definition big_vde (x : list byte) (p : Z) (t : nat) (l : nat) : res (list byte) :=
  let* starts := step_by (length x) l in
  foldM (fun acc i =>
           let* buf := slice x i (i + l) in
           Ok (acc ++ pad_to l (big_bytes_le (big_sloth (le2z buf) p t)))) starts [].

(** numbig_vde.rs 52-68. *)
Definition big_vde_inv (y : list byte) (p : Z) (t : nat) (l : nat) : res (list byte) :=
  let* starts := step_by (length y) l in
  foldM (fun acc i =>
           let* buf := slice y i (i + l) in
           Ok (acc ++ pad_to l (big_bytes_le (big_sloth_inv (le2z buf) p t)))) starts [].

(** * compare_modpow.rs 16-27: fast_modpow.  [t & 1 == 1] is the lowest bit,
    [t / 2] truncates.  None = fuel exhausted. *)
Fixpoint fast_modpow_loop (fuel : nat) (x t p r : Z) : option Z :=
  match fuel with
  | O => None
  | S fuel' =>
      if 0 <? t then
        let r' := if Z.land t 1 =? 1 then Z.rem (r * x) p else r in
        fast_modpow_loop fuel' (Z.rem (x * x) p) (Z.quot t 2) p r'
      else Some r
  end.
Definition fast_modpow (x t p : Z) : option Z :=
  fast_modpow_loop (Z.to_nat (Z.log2 t) + 2) x t p 1.
