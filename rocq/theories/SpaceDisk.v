(** The functions of /repo/proof_of_space/src/proof_of_space/prover.rs that use the file of
    the space, once more, on a disk with room for so many more bytes and with every access
    recorded: one byte read or written at a position, and one evaluation of the delay
    function.  The room is counted as in Room.v.  The calls are those of Space.v in the
    same order. *)
From Verif Require Import Base Field Mimc Convert Space Room.
Local Open Scope nat_scope.

(** What is recorded. *)
Inductive act : Set := Get (pos : nat) | Put (pos : nat) | Df (x : nat).
(** The file of the space, the room left, and the record so far. *)
Record dstate := mkD { d_file : file; d_room : nat; d_acts : list act }.
(** A computation that may panic, leaving the disk as it is at that moment. *)
Definition disk_run (A : Type) : Type := dstate -> dstate * res A.
Definition pureD {A} (r : res A) : disk_run A := fun s => (s, r).
Definition bindD {A B} (m : disk_run A) (k : A -> disk_run B) : disk_run B := fun s =>
  match m s with (s', Ok a) => k a s' | (s', Panic) => (s', Panic) end.
Notation "'do' x '<-' e ';' k" := (bindD e (fun x => k)) (at level 200, x pattern, e at level 100, k at level 200, right associativity).
(** A [for] loop. *)
Fixpoint loopD {A S : Type} (f : S -> A -> disk_run S) (l : list A) (s : S) : disk_run S :=
  match l with
  | [] => pureD (Ok s)
  | a :: l' => do s' <- f s a; loopD f l' s'
  end.

(** seek and read into a one-byte buffer: prover.rs 86-87, 111-112, 157-158, 175-176. *)
Definition get (pos : nat) (buf : list byte) : disk_run (list byte) := fun s =>
  (mkD (d_file s) (d_room s) (d_acts s ++ [Get pos]), Ok (read_into (d_file s) pos buf)).
(** seek and write_all of a one-byte buffer: prover.rs 39, 104-105, 122-123. *)
Definition put (pos : nat) (buf : list byte) : disk_run unit := fun s =>
  let (fr, r) := write_room (d_file s, d_room s) pos buf in (mkD (fst fr) (snd fr) (d_acts s ++ [Put pos]), r).
(** The evaluation of mimc5_df: prover.rs 64. *)
Definition df (x : nat) : disk_run unit := fun s => (mkD (d_file s) (d_room s) (d_acts s ++ [Df x]), Ok tt).
(** OpenOptions with truncate: prover.rs 26-32. *)
Definition empty_file : disk_run unit := fun s => (mkD [] (length (d_file s) + d_room s) (d_acts s), Ok tt).

(** prover.rs 24-42. *)
Definition prepare_space_d (pr : profile) (n : nat) : disk_run unit :=
  do _ <- empty_file;
  do count <- pureD (pow2 pr n);
  do total <- pureD (usz pr ((Z.of_nat n + 1) * count));
  loopD (fun _ i => put i [x00]) (seq 0 (Z.to_nat (total / 8))) tt.

(** prover.rs 95-116, one iteration; the state is (yn_byte_idx, buf, buf_bits, j). *)
Definition mark_bit_d (pr : profile) (s : nat * list byte * list bool * nat) (xb : bool) : disk_run (nat * list byte * list bool * nat) :=
  let '(idx, buf, buf_bits, j) := s in
  do buf_bits <- pureD (set_index buf_bits j xb);
  let j := S j in
  if j =? 8 then
    do buf <- pureD (bits_to_bytes pr buf_bits);
    do _ <- put idx buf;
    let idx := S idx in
    do buf <- get idx buf;
    pureD (Ok (idx, buf, bytes_to_bits buf, 0))
  else pureD (Ok (idx, buf, buf_bits, j)).
(** prover.rs 73-125. *)
Definition mark_slot_d (pr : profile) (n : nat) (y : Z) (x_bits : list bool) : disk_run unit :=
  do yn_bit_idx <- pureD (usz pr ((Z.of_nat n + 1) * y));
  let idx := Z.to_nat (yn_bit_idx / 8) in
  let left_count := Z.to_nat (yn_bit_idx mod 8) in
  do buf <- get idx [x00];
  do (idx, _, buf_bits, j) <- loopD (mark_bit_d pr) x_bits (idx, buf, bytes_to_bits buf, left_count);
  if j =? 0 then pureD (Ok tt)
  else do buf <- pureD (bits_to_bytes pr buf_bits); put idx buf.
(** prover.rs 44-131. *)
Definition mark_space_d {K : prime_ops} (pr : profile) (key m : K) (df_constants : list K) (n : nat) : disk_run unit :=
  do count <- pureD (pow2 pr n);
  loopD (fun _ x =>
    do _ <- df x;
    do (y, x_bits) <- pureD (mark_target pr key m df_constants n (Z.of_nat x));
    mark_slot_d pr n y x_bits) (seq 0 (Z.to_nat count)) tt.

(** prover.rs 167-181, one iteration; the state is (x_bits, yn_byte_idx, buf, buf_bits, k). *)
Definition read_bit_d (s : list bool * nat * list byte * list bool * nat) (_ : nat) : disk_run (list bool * nat * list byte * list bool * nat) :=
  let '(x_bits, idx, buf, buf_bits, k) := s in
  do b <- pureD (index buf_bits k);
  let x_bits := x_bits ++ [b] in
  let k := S k in
  if k =? 8 then
    let idx := S idx in
    do buf <- get idx buf;
    pureD (Ok (x_bits, idx, buf, bytes_to_bits buf, 0))
  else pureD (Ok (x_bits, idx, buf, buf_bits, k)).
(** prover.rs 150-181. *)
Definition read_slot_d (pr : profile) (n : nat) (yn : Z) : disk_run (list bool) :=
  do yn_bit_idx <- pureD (usz pr ((Z.of_nat n + 1) * yn));
  let idx := Z.to_nat (yn_bit_idx / 8) in
  do buf <- get idx [x00];
  do (x_bits, _, _, _, _) <- loopD read_bit_d (seq 0 (n + 1)) ([], idx, buf, bytes_to_bits buf, Z.to_nat (yn_bit_idx mod 8));
  pureD (Ok x_bits).
(** prover.rs 148-197. *)
Fixpoint respond_d {K : prime_ops} (pr : profile) (n : nat) (i : nat) (challenges : list Z) (xs : list K) (idxs : list nat) : disk_run (list K * list nat) :=
  match challenges with
  | [] => pureD (Ok (xs, idxs))
  | yn :: rest =>
    do x_bits <- read_slot_d pr n yn;
    do flag <- pureD (index x_bits n);
    do (xs, idxs) <-
      (if flag then
        do bits <- pureD (slice x_bits 0 n);
        do x_usize <- pureD (bits_to_usize pr bits);
        pureD (Ok (xs ++ [of_Z x_usize], idxs ++ [i]))
      else pureD (Ok (xs, idxs)));
    if length xs =? RESPONSE_COUNT then pureD (Ok (xs, idxs))
    else respond_d pr n (S i) rest xs idxs
  end.
(** prover.rs 133-201. *)
Definition response_1_d {K : prime_ops} (pr : profile) (challenges : list Z) (key : K) (hash_constants : list K) (n : nat) : disk_run (list K * list nat * K) :=
  do (xs, idxs) <- respond_d pr n 0 challenges [] [];
  do h <- pureD (multi_mimc5_hash xs key hash_constants);
  pureD (Ok (xs, idxs, h)).
