(** The functions of /repo/proof_of_space/src/proof_of_space/prover.rs that use the file of
    the space, as runs side by side with others on the same disk: the calls of Space.v,
    access by access, in the sense of Side.v.  The program uses one fixed path, so two
    programs started in the same directory do work on the same file.  One access is the
    reading or the writing of one byte, as in the code; nothing locks the file. *)
From Verif Require Import Base Field Mimc Convert Space Paths Side.
Local Open Scope nat_scope.

(** seek and read into a one-byte buffer: prover.rs 86-87, 111-112, 157-158, 175-176. *)
Definition p_get (p : place) (pos : nat) (buf : list byte) : proc (list byte) := See p (fun c => Halt (Ok (read_into (data c) pos buf))).

(** prover.rs 24-42. *)
Definition prepare_space_p (pr : profile) (path : place) (n : nat) : proc unit :=
  go _ <- p_truncate path;
  go count <- calc (pow2 pr n);
  go total <- calc (usz pr ((Z.of_nat n + 1) * count));
  each (fun _ i => p_write path i [x00]) (seq 0 (Z.to_nat (total / 8))) tt.

(** prover.rs 95-116, one iteration; the state is (yn_byte_idx, buf, buf_bits, j). *)
Definition mark_bit_p (pr : profile) (path : place) (s : nat * list byte * list bool * nat) (xb : bool) : proc (nat * list byte * list bool * nat) :=
  let '(idx, buf, buf_bits, j) := s in
  go buf_bits <- calc (set_index buf_bits j xb);
  let j := S j in
  if j =? 8 then
    go buf <- calc (bits_to_bytes pr buf_bits);
    go _ <- p_write path idx buf;
    let idx := S idx in
    go buf <- p_get path idx buf;
    calc (Ok (idx, buf, bytes_to_bits buf, 0))
  else calc (Ok (idx, buf, buf_bits, j)).
(** prover.rs 73-125. *)
Definition mark_slot_p (pr : profile) (path : place) (n : nat) (y : Z) (x_bits : list bool) : proc unit :=
  go yn_bit_idx <- calc (usz pr ((Z.of_nat n + 1) * y));
  let idx := Z.to_nat (yn_bit_idx / 8) in
  let left_count := Z.to_nat (yn_bit_idx mod 8) in
  go buf <- p_get path idx [x00];
  go (idx, _, buf_bits, j) <- each (mark_bit_p pr path) x_bits (idx, buf, bytes_to_bits buf, left_count);
  if j =? 0 then calc (Ok tt)
  else go buf <- calc (bits_to_bytes pr buf_bits); p_write path idx buf.
(** prover.rs 44-131. *)
Definition mark_space_p {K : prime_ops} (pr : profile) (path : place) (key m : K) (df_constants : list K) (n : nat) : proc unit :=
  go _ <- p_existing path;
  go count <- calc (pow2 pr n);
  each (fun _ x =>
    go (y, x_bits) <- calc (mark_target pr key m df_constants n (Z.of_nat x));
    mark_slot_p pr path n y x_bits) (seq 0 (Z.to_nat count)) tt.

(** prover.rs 167-181, one iteration; the state is (x_bits, yn_byte_idx, buf, buf_bits, k). *)
Definition read_bit_p (path : place) (s : list bool * nat * list byte * list bool * nat) (_ : nat) : proc (list bool * nat * list byte * list bool * nat) :=
  let '(x_bits, idx, buf, buf_bits, k) := s in
  go b <- calc (index buf_bits k);
  let x_bits := x_bits ++ [b] in
  let k := S k in
  if k =? 8 then
    let idx := S idx in
    go buf <- p_get path idx buf;
    calc (Ok (x_bits, idx, buf, bytes_to_bits buf, 0))
  else calc (Ok (x_bits, idx, buf, buf_bits, k)).
(** prover.rs 150-181. *)
Definition read_slot_p (pr : profile) (path : place) (n : nat) (yn : Z) : proc (list bool) :=
  go yn_bit_idx <- calc (usz pr ((Z.of_nat n + 1) * yn));
  let idx := Z.to_nat (yn_bit_idx / 8) in
  go buf <- p_get path idx [x00];
  go (x_bits, _, _, _, _) <- each (read_bit_p path) (seq 0 (n + 1)) ([], idx, buf, bytes_to_bits buf, Z.to_nat (yn_bit_idx mod 8));
  calc (Ok x_bits).
(** prover.rs 148-197. *)
Fixpoint respond_p {K : prime_ops} (pr : profile) (path : place) (n : nat) (i : nat) (challenges : list Z) (xs : list K) (idxs : list nat) : proc (list K * list nat) :=
  match challenges with
  | [] => calc (Ok (xs, idxs))
  | yn :: rest =>
    go x_bits <- read_slot_p pr path n yn;
    go flag <- calc (index x_bits n);
    go (xs, idxs) <-
      (if flag then
        go bits <- calc (slice x_bits 0 n);
        go x_usize <- calc (bits_to_usize pr bits);
        calc (Ok (xs ++ [of_Z x_usize], idxs ++ [i]))
      else calc (Ok (xs, idxs)));
    if length xs =? RESPONSE_COUNT then calc (Ok (xs, idxs))
    else respond_p pr path n (S i) rest xs idxs
  end.
(** prover.rs 133-201. *)
Definition response_1_p {K : prime_ops} (pr : profile) (path : place) (challenges : list Z) (key : K) (hash_constants : list K) (n : nat) : proc (list K * list nat * K) :=
  go _ <- p_existing path;
  go (xs, idxs) <- respond_p pr path n 0 challenges [] [];
  go h <- calc (multi_mimc5_hash xs key hash_constants);
  calc (Ok (xs, idxs, h)).
