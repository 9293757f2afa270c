(** Model of /repo/proof_of_space/src/mimc/mimc_df.rs and mimc_hash.rs. *)
From Verif Require Import Base Field.

Section Mimc.
Context {K : ops}.

(** mimc_df.rs 3-4, mimc_hash.rs 6 and 8. *)
Definition MIMC3_DF_ROUNDS : nat := 322.
Definition MIMC5_DF_ROUNDS : nat := 10.
Definition MIMC5_HASH_ROUNDS : nat := 10.
Definition MIMC7_HASH_ROUNDS : nat := 91.

(** mimc_df.rs 11-20, one iteration; the state is (xl, xr). *)
Definition mimc3_df_round (constants : list K) (s : K * K) (i : nat) : res (K * K) :=
  let '(xl, xr) := s in
  let* c := index constants i in
  let tmp1 := fadd xl c in
  let tmp2 := fsquare tmp1 in
  let tmp2 := fmul tmp2 tmp1 in
  let tmp2 := fadd tmp2 xr in
  Ok (tmp2, xl).
(** mimc_df.rs 8-23. *)
Definition mimc3_df (xl xr : K) (constants : list K) : res K :=
  if (length constants =? MIMC3_DF_ROUNDS)%nat then
    let* (xl, _) := foldM (mimc3_df_round constants) (seq 0 MIMC3_DF_ROUNDS) (xl, xr) in Ok xl
  else Panic.

(** mimc_df.rs 28-39, one iteration. *)
Definition mimc5_df_round (constants : list K) (s : K * K) (i : nat) : res (K * K) :=
  let '(xl, xr) := s in
  let* c := index constants i in
  let tmp1 := fadd xl c in
  let tmp2 := fsquare tmp1 in
  let tmp5 := fsquare tmp2 in
  let tmp5 := fmul tmp5 tmp1 in
  let tmp5 := fadd tmp5 xr in
  Ok (tmp5, xl).
(** mimc_df.rs 25-42. *)
Definition mimc5_df (xl xr : K) (constants : list K) : res K :=
  if (length constants =? MIMC5_DF_ROUNDS)%nat then
    let* (xl, _) := foldM (mimc5_df_round constants) (seq 0 MIMC5_DF_ROUNDS) (xl, xr) in Ok xl
  else Panic.

(** mimc_hash.rs 12-29 and 46-62, the first lines of an iteration. *)
Definition hash_input (x_in key h : K) (constants : list K) (i : nat) : res K :=
  if (i =? 0)%nat then Ok (fadd x_in key)
  else let* c := index constants i in Ok (fadd (fadd h key) c).
(** mimc_hash.rs 10-32. *)
Definition mimc7_hash (x_in key : K) (constants : list K) : res K :=
  let* h := foldM (fun h i =>
    let* t := hash_input x_in key h constants i in
    let t2 := fsquare t in
    let t7 := fsquare t2 in
    let t7 := fmul t7 t2 in
    let t7 := fmul t7 t in
    Ok t7) (seq 0 MIMC7_HASH_ROUNDS) f0 in
  Ok (fadd h key).
(** mimc_hash.rs 44-65. *)
Definition mimc5_hash (x_in key : K) (constants : list K) : res K :=
  let* h := foldM (fun h i =>
    let* t := hash_input x_in key h constants i in
    let t2 := fsquare t in
    let t5 := fsquare t2 in
    let t5 := fmul t5 t in
    Ok t5) (seq 0 MIMC5_HASH_ROUNDS) f0 in
  Ok (fadd h key).

(** mimc_hash.rs 34-42. *)
Definition multi_mimc7_hash (x_inputs : list K) (key : K) (constants : list K) : res K :=
  foldM (fun r x => let* h := mimc7_hash x r constants in Ok (fadd (fadd r x) h)) x_inputs key.
(** mimc_hash.rs 67-75. *)
Definition multi_mimc5_hash (x_inputs : list K) (key : K) (constants : list K) : res K :=
  foldM (fun r x => let* h := mimc5_hash x r constants in Ok (fadd (fadd r x) h)) x_inputs key.
End Mimc.
