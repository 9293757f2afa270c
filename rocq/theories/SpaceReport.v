(** The result file of the proof of space: what pospace appends to it, and the five samples
    of test_pospace.  The file is opened with append(true) (pospace.rs 96-102).  Times are
    arbitrary texts. *)
From Coq Require Import Strings.String Strings.Byte.
From Coq Require Import List.
From Verif Require Import Base Field Mimc Space R1cs Circuits SpaceRun Postorage Report.
Local Open Scope nat_scope.

(** The seven measured times of pospace and the two that mark_space returns, printed. *)
Record space_times := mkTimes {
  c1 : list byte; c2 : list byte; c_df : list byte; c_file : list byte; c3 : list byte;
  c4 : list byte; c5 : list byte; c6 : list byte; c7 : list byte
}.

(** pospace.rs 76-86; [answered] is idx_response.len(). *)
Definition space_lines (answered : nat) (t : space_times) : list byte :=
  txt "N, " ++ num SPACE_N ++ txt ", data len (byte), " ++ decimal ((Z.of_nat SPACE_N + 1) * 2 ^ Z.of_nat SPACE_N / 8) ++ txt ", vde round, " ++ num MIMC5_DF_ROUNDS ++ newline ++
  txt "challenge count, " ++ num CHALLENGE_COUNT ++ txt ", response count, " ++ num RESPONSE_COUNT ++ txt ", success rate, " ++ num answered ++ txt "/" ++ num RESPONSE_COUNT ++ newline ++
  txt "[P] Prepare space, " ++ c1 t ++ newline ++
  txt "[P] Mark space, " ++ c2 t ++ newline ++
  txt "df cost, " ++ c_df t ++ txt ", file cost, " ++ c_file t ++ newline ++
  txt "[V] Create challenges, " ++ c3 t ++ newline ++
  txt "[P] -- Response 1 (return index and hash), " ++ c4 t ++ newline ++
  txt "[P] -- Response 2 (create params), " ++ c5 t ++ newline ++
  txt "[P] -- Response 2 (create proof), " ++ c6 t ++ newline ++
  txt "[V] Verify, " ++ c7 t ++ newline ++ newline.

Section Samples.
Context {K : prime_ops} (G : snark K).

(** What one sample draws at random and measures: the constants, key and m of
    pospace.rs 23-39, the bits of the challenges, the times. *)
Record sample := mkSample {
  df_constants : list K;
  hash_constants : list K;
  s_key : K;
  s_m : K;
  s_rnd : nat -> nat -> bool;
  s_times : space_times
}.

(** pospace.rs 41-87: the space file afterwards and the text appended to the result file.
    A panic happens before anything is appended. *)
Definition pospace_saving (pr : profile) (f : file) (s : sample) : res (file * list byte) :=
  let* f := prepare_space pr f SPACE_N in
  let* f := mark_space pr f (s_key s) (s_m s) (df_constants s) SPACE_N in
  let* challenges := create_challenges pr (s_rnd s) CHALLENGE_COUNT SPACE_N in
  let* (x_response, idx_response, x_hash) := response_1 pr f challenges (s_key s) (hash_constants s) SPACE_N in
  let* pk := construct_circuit G (df_constants s) (hash_constants s) in
  let* proof := response_2 G pk (s_key s) x_response (s_m s) (df_constants s) challenges idx_response (hash_constants s) in
  let* _ := verify (check G) pk proof (s_key s) (s_m s) challenges idx_response x_hash in
  Ok (f, space_lines (length idx_response) (s_times s)).

(** pospace.rs 105-110 over any list of samples (the code takes five): the result file and,
    if no sample panicked, the space file. *)
Fixpoint test_pospace (pr : profile) (samples : list sample) (f result : file) : file * res file :=
  match samples with
  | [] => (result, Ok f)
  | s :: rest =>
    match pospace_saving pr f s with
    | Ok (f', text) => test_pospace pr rest f' (result ++ text)
    | Panic => (result, Panic)
    end
  end.
End Samples.
