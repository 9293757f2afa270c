(** Model of /repo/proof_of_space/src/proof_of_space/prover.rs 24-201 (preparing and
    marking the space, first response), verifier.rs and pospace.rs.
    A file is the list of its bytes; timing and printing are not modelled. *)
From Verif Require Import Base Field Mimc Convert.

(** pospace.rs 17-21. *)
Definition CHALLENGE_COUNT : nat := 100.
Definition RESPONSE_COUNT : nat := 50.
Definition SPACE_N : nat := 20.

(** [base.pow(n.try_into().unwrap())] with base = 2: prover.rs 34-35 and 54-55. *)
Definition pow2 (pr : profile) (n : nat) : res Z :=
  if (Z.of_nat n <? 2 ^ 32)%Z then usz pr (2 ^ Z.of_nat n) else Panic.

(** prover.rs 24-42; the file is truncated first, so its previous content [f] is dropped;
    each write_all of one byte goes to the next position. *)
Definition prepare_space (pr : profile) (f : file) (n : nat) : res file :=
  let* count := pow2 pr n in
  let* total := usz pr ((Z.of_nat n + 1) * count) in
  Ok (fold_left (fun g i => write_at g i [x00]) (seq 0 (Z.to_nat (total / 8))) []).

(** [file.seek(pos); file.read(&mut buf)]: fills buf as far as the file goes. *)
Definition read_into (f : file) (pos : nat) (buf : list byte) : list byte :=
  let got := firstn (length buf) (skipn pos f) in got ++ skipn (length got) buf.

(** prover.rs 95-116, one iteration; the state is (file, yn_byte_idx, buf, buf_bits, j). *)
Definition mark_bit (pr : profile) (s : file * nat * list byte * list bool * nat) (xb : bool)
  : res (file * nat * list byte * list bool * nat) :=
  let '(f, idx, buf, buf_bits, j) := s in
  let* buf_bits := set_index buf_bits j xb in
  let j := S j in
  if (j =? 8)%nat then
    let* buf := bits_to_bytes pr buf_bits in
    let f := write_at f idx buf in
    let idx := S idx in
    let buf := read_into f idx buf in
    Ok (f, idx, buf, bytes_to_bits buf, 0%nat)
  else Ok (f, idx, buf, buf_bits, j).

(** prover.rs 73-125: writing the bits of x at slot y. *)
Definition mark_slot (pr : profile) (n : nat) (f : file) (y : Z) (x_bits : list bool) : res file :=
  let* yn_bit_idx := usz pr ((Z.of_nat n + 1) * y) in
  let idx := Z.to_nat (yn_bit_idx / 8) in
  let left_count := Z.to_nat (yn_bit_idx mod 8) in
  let buf := read_into f idx [x00] in
  let* (f, idx, buf, buf_bits, j) := foldM (mark_bit pr) x_bits (f, idx, buf, bytes_to_bits buf, left_count) in
  if (j =? 0)%nat then Ok f
  else let* buf := bits_to_bytes pr buf_bits in Ok (write_at f idx buf).

Section Space.
Context {K : prime_ops}.

(** [BigInteger256::to_bits_le]: 256 bits, least significant first. *)
Definition to_bits_le (y : K) : list bool := byte_bits_loop 256 (repr y).

(** prover.rs 60-82: the slot and the bits to write for x. *)
Definition mark_target (pr : profile) (key m : K) (df_constants : list K) (n : nat) (x : Z) : res (Z * list bool) :=
  let* y := mimc5_df (fadd (of_Z x) key) m df_constants in
  let* yn_bits := slice (to_bits_le y) 0 n in
  let* y_usize := bits_to_usize pr yn_bits in
  match usize_to_bits x n with
  | None => Panic
  | Some r => let* x_bits := r in Ok (y_usize, x_bits ++ [true])
  end.
(** prover.rs 44-131. *)
Definition mark_space (pr : profile) (f : file) (key m : K) (df_constants : list K) (n : nat) : res file :=
  let* count := pow2 pr n in
  foldM (fun f x =>
    let* (y, x_bits) := mark_target pr key m df_constants n (Z.of_nat x) in
    mark_slot pr n f y x_bits) (seq 0 (Z.to_nat count)) f.

(** prover.rs 167-181, one iteration; the state is (x_bits, yn_byte_idx, buf, buf_bits, k);
    x_bits holds the bits read so far, in order. *)
Definition read_bit (f : file) (s : list bool * nat * list byte * list bool * nat) (_ : nat)
  : res (list bool * nat * list byte * list bool * nat) :=
  let '(x_bits, idx, buf, buf_bits, k) := s in
  let* b := index buf_bits k in
  let x_bits := x_bits ++ [b] in
  let k := S k in
  if (k =? 8)%nat then
    let idx := S idx in
    let buf := read_into f idx buf in
    Ok (x_bits, idx, buf, bytes_to_bits buf, 0%nat)
  else Ok (x_bits, idx, buf, buf_bits, k).
(** prover.rs 150-181. *)
Definition read_slot (pr : profile) (f : file) (n : nat) (yn : Z) : res (list bool) :=
  let* yn_bit_idx := usz pr ((Z.of_nat n + 1) * yn) in
  let idx := Z.to_nat (yn_bit_idx / 8) in
  let buf := read_into f idx [x00] in
  let* (x_bits, _, _, _, _) := foldM (read_bit f) (seq 0 (n + 1)) ([], idx, buf, bytes_to_bits buf, Z.to_nat (yn_bit_idx mod 8)) in
  Ok x_bits.
(** prover.rs 148-197; the state is (x_response, idx_response); after RESPONSE_COUNT
    answers the loop stops; the counter [count] is the length of x_response. *)
Fixpoint respond (pr : profile) (f : file) (n : nat) (i : nat) (challenges : list Z) (xs : list K) (idxs : list nat)
  : res (list K * list nat) :=
  match challenges with
  | [] => Ok (xs, idxs)
  | yn :: rest =>
    let* x_bits := read_slot pr f n yn in
    let* flag := index x_bits n in
    let* (xs, idxs) :=
      if flag then
        let* bits := slice x_bits 0 n in
        let* x_usize := bits_to_usize pr bits in
        Ok (xs ++ [of_Z x_usize], idxs ++ [i])
      else Ok (xs, idxs) in
    if (length xs =? RESPONSE_COUNT)%nat then Ok (xs, idxs)
    else respond pr f n (S i) rest xs idxs
  end.
(** prover.rs 133-201. *)
Definition response_1 (pr : profile) (f : file) (challenges : list Z) (key : K) (hash_constants : list K) (n : nat)
  : res (list K * list nat * K) :=
  let* (xs, idxs) := respond pr f n 0 challenges [] [] in
  let* h := multi_mimc5_hash xs key hash_constants in
  Ok (xs, idxs, h).

(** verifier.rs 12-28; [rnd i j] is the j-th random choice for the i-th challenge. *)
Definition create_challenges (pr : profile) (rnd : nat -> nat -> bool) (n e : nat) : res (list Z) :=
  mapM (fun i => bits_to_usize pr (map (rnd i) (seq 0 e))) (seq 0 n).

(** What the Groth16 library's verify_proof returns. *)
Inductive verdict : Set := VOk (b : bool) | VErr.
(** verifier.rs 32-41. *)
Definition verify_input (key m : K) (challenges : list Z) (idx_response : list nat) (x_hash : K) : res (list K) :=
  let* yns := mapM (fun i => let* yn := index challenges i in Ok (of_Z yn)) idx_response in
  Ok ([key; m] ++ yns ++ [x_hash]).
(** verifier.rs 30-44; [backend pvk proof input] is the external verify_proof.
    [.is_ok()] looks only at the outer result. *)
Definition verify {PVK PROOF : Type} (backend : PVK -> PROOF -> list K -> verdict) (pvk : PVK) (proof : PROOF)
  (key m : K) (challenges : list Z) (idx_response : list nat) (x_hash : K) : res unit :=
  let* input := verify_input key m challenges idx_response x_hash in
  match backend pvk proof input with VOk _ => Ok tt | VErr => Panic end.
End Space.
