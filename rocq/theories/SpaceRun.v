(** Model of /repo/proof_of_space/src/proof_of_space/prover.rs 203-254 (parameters and
    proof) and of one run of the protocol, pospace.rs 41-87.  Timing, printing and the
    line appended to the result file are not modelled.  The Groth16 library is a
    parameter: what it computes from a constraint system is arbitrary. *)
From Verif Require Import Base Field Mimc Space R1cs Circuits.

(** [generate_random_parameters], [create_random_proof] and [verify_proof] of ark-groth16;
    an [Err] that the caller unwraps is [Panic].  [prepare_verifying_key] is part of
    [check]. *)
Record snark (K : prime_ops) : Type := mkSnark {
  PK : Type;
  PROOF : Type;
  generate : cs K -> res PK;
  prove : PK -> cs K -> res PROOF;
  check : PK -> PROOF -> list K -> verdict
}.
Arguments PK {K}. Arguments PROOF {K}. Arguments generate {K}. Arguments prove {K}. Arguments check {K}.

Section Run.
Context {K : prime_ops} (G : snark K).

(** prover.rs 203-224. *)
Definition construct_circuit (df_constants hash_constants : list K) : res (PK G) :=
  let* (_, s) := pospace_circuit None (repeat None RESPONSE_COUNT) None df_constants (repeat None RESPONSE_COUNT) hash_constants (new_cs true) in
  generate G s.
(** prover.rs 236: the yn of the responses. *)
Definition response_yn (challenges : list Z) (idx_response : list nat) : res (list (option K)) :=
  mapM (fun i => let* c := index challenges i in Ok (Some (of_Z c))) idx_response.
(** prover.rs 226-254. *)
Definition response_2 (pk : PK G) (key : K) (x_response : list K) (m : K) (df_constants : list K) (challenges : list Z)
  (idx_response : list nat) (hash_constants : list K) : res (PROOF G) :=
  let* yn := response_yn challenges idx_response in
  let* (_, s) := pospace_circuit (Some key) (map Some x_response) (Some m) df_constants yn hash_constants (new_cs false) in
  prove G pk s.
(** pospace.rs 41-71; the result is the content of the space file afterwards. *)
Definition pospace (pr : profile) (f : file) (df_constants hash_constants : list K) (key m : K) (rnd : nat -> nat -> bool) : res file :=
  let* f := prepare_space pr f SPACE_N in
  let* f := mark_space pr f key m df_constants SPACE_N in
  let* challenges := create_challenges pr rnd CHALLENGE_COUNT SPACE_N in
  let* (x_response, idx_response, x_hash) := response_1 pr f challenges key hash_constants SPACE_N in
  let* pk := construct_circuit df_constants hash_constants in
  let* proof := response_2 pk key x_response m df_constants challenges idx_response hash_constants in
  let* _ := verify (check G) pk proof key m challenges idx_response x_hash in
  Ok f.
End Run.
