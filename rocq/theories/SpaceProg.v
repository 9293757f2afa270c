(** A whole proof-of-space run, access by access: pospace.rs 41-71 of
    /repo/proof_of_space/src/proof_of_space with the file of the space on a disk that other
    runs use at the same time, in the sense of Side.v.  pospace takes the path as an argument,
    and its caller test_pospace (pospace.rs 89-110) passes the constant DATA_DIR, so two runs
    started in one directory work on the same file. *)
From Verif Require Import Base Field Mimc Convert Space R1cs Circuits SpaceRun Paths Side SpaceSide.
Local Open Scope nat_scope.

(** pospace.rs 42-60: prepare the space, mark it, answer the challenges.  Simplified: the
    challenges, drawn after the marking, are given. *)
Definition use_space_p {K : prime_ops} (pr : profile) (path : place) (key m : K) (df_constants : list K) (challenges : list Z) (hash_constants : list K) (n : nat) : proc (list K * list nat * K) :=
  go _ <- prepare_space_p pr path n;
  go _ <- mark_space_p pr path key m df_constants n;
  response_1_p pr path challenges key hash_constants n.
(** pospace.rs 41-71. *)
Definition pospace_p {K : prime_ops} (G : snark K) (pr : profile) (path : place) (df_constants hash_constants : list K) (key m : K) (rnd : nat -> nat -> bool) : proc unit :=
  go _ <- prepare_space_p pr path SPACE_N;
  go _ <- mark_space_p pr path key m df_constants SPACE_N;
  go challenges <- calc (create_challenges pr rnd CHALLENGE_COUNT SPACE_N);
  go (x_response, idx_response, x_hash) <- response_1_p pr path challenges key hash_constants SPACE_N;
  go pk <- calc (construct_circuit G df_constants hash_constants);
  go proof <- calc (response_2 G pk key x_response m df_constants challenges idx_response hash_constants);
  calc (let* _ := verify (check G) pk proof key m challenges idx_response x_hash in Ok tt).
