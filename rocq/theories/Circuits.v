(** Model of the circuits in /repo/proof_of_space/src/circuit. *)
From Verif Require Import Base Field Mimc R1cs.

Section DfCircuits.
Context {K : ops}.

(** The wires and values (xl, xl_value, xr, xr_value). *)
Definition df_state : Type := var * option K * var * option K.

(** mimc3_df_circuit.rs 37-85, one iteration with constant c; [public] is i == MIMC3_DF_ROUNDS - 1. *)
Definition df3_round (public : bool) (c : K) (st : df_state) : M K df_state :=
  let '(xl, xl_value, xr, xr_value) := st in
  let# tmp_value := lift (omap xl_value (fun e => Ok (fsquare (fadd e c)))) in
  let# tmp := new_witness tmp_value in
  let# _ := enforce [(f1, xl); (c, One)] [(f1, xl); (c, One)] [(f1, tmp)] in
  let# new_xl_value := lift (omap xl_value (fun e =>
    let* t := unwrap tmp_value in let* r := unwrap xr_value in Ok (fadd (fmul (fadd e c) t) r))) in
  let# new_xl := (if public then new_input new_xl_value else new_witness new_xl_value) in
  let# _ := enforce [(f1, tmp)] [(f1, xl); (c, One)] [(f1, new_xl); (fopp f1, xr)] in
  ret (new_xl, new_xl_value, xl, xl_value).
(** mimc3_df_circuit.rs 25-89. *)
Definition mimc3_df_circuit (xl_v xr_v : option K) (constants : list K) : M K unit :=
  if (length constants =? MIMC3_DF_ROUNDS)%nat then
    let# xl := new_witness xl_v in
    let# xr := new_witness xr_v in
    let# _ := forM (fun st i => let# c := lift (index constants i) in
                                df3_round (i =? MIMC3_DF_ROUNDS - 1)%nat c st)
                   (seq 0 MIMC3_DF_ROUNDS) (xl, xl_v, xr, xr_v) in
    ret tt
  else lift Panic.

(** mimc5_df_circuit.rs 37-98 and pospace_circuit.rs 75-114, one iteration with constant c;
    [public] is i == MIMC5_DF_ROUNDS - 1 in the former, false in the latter. *)
Definition df5_round (public : bool) (c : K) (st : df_state) : M K df_state :=
  let '(xl, xl_value, xr, xr_value) := st in
  let# tmp1_value := lift (omap xl_value (fun e => Ok (fsquare (fadd e c)))) in
  let# tmp1 := new_witness tmp1_value in
  let# _ := enforce [(f1, xl); (c, One)] [(f1, xl); (c, One)] [(f1, tmp1)] in
  let# tmp2_value := lift (omap tmp1_value (fun e => Ok (fsquare e))) in
  let# tmp2 := new_witness tmp2_value in
  let# _ := enforce [(f1, tmp1)] [(f1, tmp1)] [(f1, tmp2)] in
  let# new_xl_value := lift (omap xl_value (fun e =>
    let* t := unwrap tmp2_value in let* r := unwrap xr_value in Ok (fadd (fmul (fadd e c) t) r))) in
  let# new_xl := (if public then new_input new_xl_value else new_witness new_xl_value) in
  let# _ := enforce [(f1, tmp2)] [(f1, xl); (c, One)] [(f1, new_xl); (fopp f1, xr)] in
  ret (new_xl, new_xl_value, xl, xl_value).
(** mimc5_df_circuit.rs 25-102. *)
Definition mimc5_df_circuit (xl_v xr_v : option K) (constants : list K) : M K unit :=
  if (length constants =? MIMC5_DF_ROUNDS)%nat then
    let# xl := new_witness xl_v in
    let# xr := new_witness xr_v in
    let# _ := forM (fun st i => let# c := lift (index constants i) in
                                df5_round (i =? MIMC5_DF_ROUNDS - 1)%nat c st)
                   (seq 0 MIMC5_DF_ROUNDS) (xl, xl_v, xr, xr_v) in
    ret tt
  else lift Panic.
End DfCircuits.

Section HashCircuits.
Context {K : ops}.

(** mimc5_hash_circuit.rs 45-73 (the same lines in mimc7_hash_circuit.rs and
    pospace_circuit.rs 303-331): the wire t of round j. *)
Definition hash_t (constants : list K) (x_in : var) (x_in_val : option K) (key : var) (key_val : option K)
  (h : var) (h_val : option K) (j : nat) : M K (var * option K) :=
  if (j =? 0)%nat then
    let# t_val := lift (omap x_in_val (fun e => let* k := unwrap key_val in Ok (fadd e k))) in
    let# t := new_witness t_val in
    let# _ := enforce [(f1, x_in); (f1, key)] [(f1, One)] [(f1, t)] in
    ret (t, t_val)
  else
    let# c := lift (index constants j) in
    let# t_val := lift (omap h_val (fun e => let* k := unwrap key_val in Ok (fadd (fadd e k) c))) in
    let# t := new_witness t_val in
    let# _ := enforce [(f1, h); (f1, key); (c, One)] [(f1, One)] [(f1, t)] in
    ret (t, t_val).
(** mimc5_hash_circuit.rs 44-113, pospace_circuit.rs 302-371. *)
Definition hash5_round (constants : list K) (x_in : var) (x_in_val : option K) (key : var) (key_val : option K)
  (st : var * option K) (j : nat) : M K (var * option K) :=
  let '(h, h_val) := st in
  let# (t, t_val) := hash_t constants x_in x_in_val key key_val h h_val j in
  let# t2_val := lift (omap t_val (fun e => Ok (fsquare e))) in
  let# t2 := new_witness t2_val in
  let# _ := enforce [(f1, t)] [(f1, t)] [(f1, t2)] in
  let# t4_val := lift (omap t2_val (fun e => Ok (fsquare e))) in
  let# t4 := new_witness t4_val in
  let# _ := enforce [(f1, t2)] [(f1, t2)] [(f1, t4)] in
  let# t5_val := lift (omap t4_val (fun e => let* t := unwrap t_val in Ok (fmul e t))) in
  let# t5 := new_witness t5_val in
  let# _ := enforce [(f1, t4)] [(f1, t)] [(f1, t5)] in
  ret (t5, t5_val).
(** mimc7_hash_circuit.rs 44-125. *)
Definition hash7_round (constants : list K) (x_in : var) (x_in_val : option K) (key : var) (key_val : option K)
  (st : var * option K) (j : nat) : M K (var * option K) :=
  let '(h, h_val) := st in
  let# (t, t_val) := hash_t constants x_in x_in_val key key_val h h_val j in
  let# t2_val := lift (omap t_val (fun e => Ok (fsquare e))) in
  let# t2 := new_witness t2_val in
  let# _ := enforce [(f1, t)] [(f1, t)] [(f1, t2)] in
  let# t4_val := lift (omap t2_val (fun e => Ok (fsquare e))) in
  let# t4 := new_witness t4_val in
  let# _ := enforce [(f1, t2)] [(f1, t2)] [(f1, t4)] in
  let# t6_val := lift (omap t4_val (fun e => let* t := unwrap t2_val in Ok (fmul e t))) in
  let# t6 := new_witness t6_val in
  let# _ := enforce [(f1, t4)] [(f1, t2)] [(f1, t6)] in
  let# t7_val := lift (omap t6_val (fun e => let* t := unwrap t_val in Ok (fmul e t))) in
  let# t7 := new_witness t7_val in
  let# _ := enforce [(f1, t6)] [(f1, t)] [(f1, t7)] in
  ret (t7, t7_val).
(** mimc5_hash_circuit.rs 34-146 (mimc7_hash_circuit.rs 34-158, pospace_circuit.rs
    292-404): one input; [round] is the round above, [public] is i == len - 1. *)
Definition hash_block (round : var -> option K -> var -> option K -> var * option K -> nat -> M K (var * option K)) (rounds : nat)
  (public : bool) (st : var * option K) (x_in_val : option K) : M K (var * option K) :=
  let '(res, res_val) := st in
  let# x_in := new_witness x_in_val in
  let key_val := res_val in
  let# key := new_witness key_val in
  let h_val := Some f0 in
  let# h := new_witness h_val in
  let# (h, h_val) := forM (round x_in x_in_val key key_val) (seq 0 rounds) (h, h_val) in
  let# new_h_val := lift (omap h_val (fun e => let* k := unwrap key_val in Ok (fadd e k))) in
  let# new_h := new_witness new_h_val in
  let# _ := enforce [(f1, h); (f1, key)] [(f1, One)] [(f1, new_h)] in
  let# new_res_val := lift (omap res_val (fun e =>
    let* x := unwrap x_in_val in let* nh := unwrap new_h_val in Ok (fadd (fadd e x) nh))) in
  let# new_res := (if public then new_input new_res_val else new_witness new_res_val) in
  let# _ := enforce [(f1, res); (f1, x_in); (f1, new_h)] [(f1, One)] [(f1, new_res)] in
  ret (new_res, new_res_val).
(** mimc5_hash_circuit.rs 29-147, mimc7_hash_circuit.rs 29-159, pospace_circuit.rs 287-405. *)
Definition hash_blocks (round : var -> option K -> var -> option K -> var * option K -> nat -> M K (var * option K)) (rounds : nat)
  (key : option K) (x_inputs : list (option K)) : M K unit :=
  let# res := new_witness key in
  let# _ := forM (fun st i => let# x_in_val := lift (index x_inputs i) in
                              hash_block round rounds (i =? length x_inputs - 1)%nat st x_in_val)
                 (seq 0 (length x_inputs)) (res, key) in
  ret tt.
(** mimc5_hash_circuit.rs 25-151. *)
Definition mimc5_hash_circuit (x_inputs : list (option K)) (key : option K) (constants : list K) : M K unit :=
  if (length constants =? MIMC5_HASH_ROUNDS)%nat then hash_blocks (hash5_round constants) MIMC5_HASH_ROUNDS key x_inputs
  else lift Panic.
(** mimc7_hash_circuit.rs 25-163. *)
Definition mimc7_hash_circuit (x_inputs : list (option K)) (key : option K) (constants : list K) : M K unit :=
  if (length constants =? MIMC7_HASH_ROUNDS)%nat then hash_blocks (hash7_round constants) MIMC7_HASH_ROUNDS key x_inputs
  else lift Panic.
End HashCircuits.

Section PowCircuit.
Context {K : ops}.
(** pow_circuit.rs 9. *)
Definition POW_INPUT_SIZE : nat := 20.
(** pow_circuit.rs 34-40 and equal_circuit.rs 39-45: the u8 is given as an integer. *)
Definition u8_bit (bit : option Z) : option K :=
  match bit with
  | Some b => if (b =? 1)%Z then Some f1 else if (b =? 0)%Z then Some f0 else None
  | None => None
  end.
(** pow_circuit.rs 32-121, one iteration; the state is (y, y_val, g, g_val). *)
Definition pow_round (public : bool) (bit_in : option Z) (st : var * option K * var * option K) : M K (var * option K * var * option K) :=
  let '(y, y_val, g, g_val) := st in
  let bit_val := u8_bit bit_in in
  let# bit := new_witness bit_val in
  let# _ := enforce [(f1, bit)] [(f1, bit)] [(f1, bit)] in
  let# tmp1_val := lift (omap g_val (fun e => let* b := unwrap bit_val in Ok (fmul e b))) in
  let# tmp1 := new_witness tmp1_val in
  let# _ := enforce [(f1, g)] [(f1, bit)] [(f1, tmp1)] in
  let# tmp2_val := lift (omap tmp1_val (fun e => let* b := unwrap bit_val in Ok (fsub (fadd e f1) b))) in
  let# tmp2 := new_witness tmp2_val in
  let# _ := enforce [(f1, tmp1); (f1, One)] [(f1, One)] [(f1, tmp2); (f1, bit)] in
  let# newy_val := lift (omap tmp2_val (fun e => let* y := unwrap y_val in Ok (fmul e y))) in
  let# newy := (if public then new_input newy_val else new_witness newy_val) in
  let# _ := enforce [(f1, y)] [(f1, tmp2)] [(f1, newy)] in
  let# newg_val := lift (omap g_val (fun e => Ok (fsquare e))) in
  let# newg := new_witness newg_val in
  let# _ := enforce [(f1, g)] [(f1, g)] [(f1, newg)] in
  ret (newy, newy_val, newg, newg_val).
(** pow_circuit.rs 19-124. *)
Definition pow_circuit (g_v : option K) (x_bits : list (option Z)) : M K unit :=
  if (length x_bits =? POW_INPUT_SIZE)%nat then
    let# y := new_witness (Some f1) in
    let# g := new_witness g_v in
    let# _ := forM (fun st i => let# b := lift (index x_bits i) in pow_round (i =? POW_INPUT_SIZE - 1)%nat b st)
                   (seq 0 POW_INPUT_SIZE) (y, Some f1, g, g_v) in
    ret tt
  else lift Panic.

(** equal_circuit.rs 9. *)
Definition EQUAL_INPUT_SIZE : nat := 256.
(** equal_circuit.rs 82-89 and 93-100: a public input equal to the wire tmp2. *)
Definition expose (tmp2 : var) (v : option K) : M K unit :=
  let# x1 := new_input v in
  enforce [(f1, tmp2)] [(f1, One)] [(f1, x1)].
(** equal_circuit.rs 37-117, one iteration; the state is (two, two_val, x, x_val).
    [difficulty - 1] is usize arithmetic. *)
Definition equal_round (pr : profile) (x1 x2 : option K) (difficulty : Z) (bit_in : option Z) (i : nat)
  (st : var * option K * var * option K) : M K (var * option K * var * option K) :=
  let '(two, two_val, x, x_val) := st in
  let bit_val := u8_bit bit_in in
  let# bit := new_witness bit_val in
  let# _ := enforce [(f1, bit)] [(f1, bit)] [(f1, bit)] in
  let# tmp1_val := lift (omap bit_val (fun e => let* t := unwrap two_val in Ok (fmul e t))) in
  let# tmp1 := new_witness tmp1_val in
  let# _ := enforce [(f1, bit)] [(f1, two)] [(f1, tmp1)] in
  let# tmp2_val := lift (omap tmp1_val (fun e => let* x := unwrap x_val in Ok (fadd e x))) in
  let# tmp2 := new_witness tmp2_val in
  let# _ := enforce [(f1, tmp1); (f1, x)] [(f1, One)] [(f1, tmp2)] in
  let# d := lift (usz pr (difficulty - 1)) in
  let# _ := (if (Z.of_nat i =? d)%Z then expose tmp2 x1 else ret tt) in
  let# _ := (if (i =? EQUAL_INPUT_SIZE - 1)%nat then expose tmp2 x2 else ret tt) in
  let# newtwo_val := lift (omap two_val (fun e => Ok (fmul e (fadd f1 f1)))) in
  let# newtwo := new_witness newtwo_val in
  let# _ := enforce [(f1, two)] [(fadd f1 f1, One)] [(f1, newtwo)] in
  ret (newtwo, newtwo_val, tmp2, tmp2_val).
(** equal_circuit.rs 23-121. *)
Definition equal_circuit (pr : profile) (x1 x2 : option K) (x_bits : list (option Z)) (difficulty : Z) : M K unit :=
  if (length x_bits =? EQUAL_INPUT_SIZE)%nat then
    let# two := new_witness (Some f1) in
    let# x := new_witness (Some f0) in
    let# _ := forM (fun st i => let# b := lift (index x_bits i) in equal_round pr x1 x2 difficulty b i st)
                   (seq 0 EQUAL_INPUT_SIZE) (two, Some f1, x, Some f0) in
    ret tt
  else lift Panic.
End PowCircuit.

Section PospaceCircuit.
Context {K : prime_ops}.
(** pospace_circuit.rs 14 and pospace.rs 21. *)
Definition Y_SIZE : nat := 256.
Definition YN_SIZE : nat := 20.

(** pospace_circuit.rs 118-127 and 197-206: [size] little-endian bits of a value. *)
Definition value_bits (size : nat) (v : option K) : res (list (option bool)) :=
  match v with
  | None => Ok (repeat None size)
  | Some x => let bits := map (fun i => Z.testbit (repr x) (Z.of_nat i)) (seq 0 256) in
              mapM (fun i => let* b := index bits i in Ok (Some b)) (seq 0 size)
  end.
(** pospace_circuit.rs 137-147 and 217-227. *)
Definition bit_value (b : option bool) : option K :=
  match b with Some true => Some f1 | Some false => Some f0 | None => None end.
(** pospace_circuit.rs 148-183 and 228-262; the state is (y, y_val, two, two_val). *)
Definition bit_step (b : option bool) (st : var * option K * var * option K) : M K (var * option K * var * option K) :=
  let '(y, y_val, two, two_val) := st in
  let bit_val := bit_value b in
  let# bit := new_witness bit_val in
  let# _ := enforce [(f1, bit)] [(f1, bit)] [(f1, bit)] in
  let# tmp_val := lift (omap bit_val (fun e => let* t := unwrap two_val in let* y := unwrap y_val in Ok (fadd (fmul e t) y))) in
  let# tmp := new_witness tmp_val in
  let# _ := enforce [(f1, bit)] [(f1, two)] [(f1, tmp); (fopp f1, y)] in
  let# newtwo_val := lift (omap two_val (fun e => Ok (fmul e (fadd f1 f1)))) in
  let# newtwo := new_witness newtwo_val in
  let# _ := enforce [(f1, two)] [(fadd f1 f1, One)] [(f1, newtwo)] in
  ret (tmp, tmp_val, newtwo, newtwo_val).
(** pospace_circuit.rs 197-280; y is the wire of the outer loop at that point. *)
Definition yn_part (yn_in : option K) (y : var) : M K unit :=
  let# yn_bits_val := lift (value_bits YN_SIZE yn_in) in
  let# yn := new_witness (Some f0) in
  let# two := new_witness (Some f1) in
  let# _ := forM (fun st m =>
    let# b := lift (index yn_bits_val m) in
    let# (yn, yn_val, two, two_val) := bit_step b st in
    let# _ := (if (m =? length yn_bits_val - 1)%nat then
      let# yyn := new_input yn_in in
      let# _ := enforce [(f1, yyn)] [(f1, One)] [(f1, yn)] in
      enforce [(f1, yn)] [(f1, One)] [(f1, y)] else ret tt) in
    ret (yn, yn_val, two, two_val)) (seq 0 (length yn_bits_val)) (yn, Some f0, two, Some f1) in
  ret tt.
(** pospace_circuit.rs 118-282. *)
Definition y_part (xl_val yn_in : option K) : M K unit :=
  let# y_bits_val := lift (value_bits Y_SIZE xl_val) in
  let# y := new_witness (Some f0) in
  let# two := new_witness (Some f1) in
  let# _ := forM (fun st k =>
    let# b := lift (index y_bits_val k) in
    let# (y, y_val, two, two_val) := bit_step b st in
    let# _ := (if (k =? length y_bits_val - 1)%nat then
      let# yy := new_witness xl_val in
      enforce [(f1, y)] [(f1, One)] [(f1, yy)] else ret tt) in
    let# _ := (if (k =? YN_SIZE - 1)%nat then yn_part yn_in y else ret tt) in
    ret (y, y_val, two, two_val)) (seq 0 (length y_bits_val)) (y, Some f0, two, Some f1) in
  ret tt.
(** pospace_circuit.rs 53-285, one response.  yn[i] is indexed inside the last round. *)
Definition response_part (key : var) (key_val m_val : option K) (df_constants : list K) (yns : list (option K)) (x_val : option K) (i : nat) : M K unit :=
  let# x := new_witness x_val in
  let# xl_val := lift (omap key_val (fun e => let* x := unwrap x_val in Ok (fadd e x))) in
  let# xl := new_witness xl_val in
  let# _ := enforce [(f1, key); (f1, x)] [(f1, One)] [(f1, xl)] in
  let# xr := new_witness m_val in
  let# (_, xl_val, _, _) := forM (fun st j => let# c := lift (index df_constants j) in df5_round false c st)
    (seq 0 MIMC5_DF_ROUNDS) (xl, xl_val, xr, m_val) in
  let# yn_in := lift (index yns i) in
  y_part xl_val yn_in.
(** pospace_circuit.rs 42-409.  The field x_hash of the struct is not used by the code. *)
Definition pospace_circuit (key_val : option K) (xs : list (option K)) (m_val : option K) (df_constants : list K)
  (yns : list (option K)) (hash_constants : list K) : M K unit :=
  if (length df_constants =? MIMC5_DF_ROUNDS)%nat && (length hash_constants =? MIMC5_HASH_ROUNDS)%nat then
    let# key := new_input key_val in
    let# _ := new_input m_val in
    let# _ := forM (fun _ i => let# x_val := lift (index xs i) in
                               response_part key key_val m_val df_constants yns x_val i) (seq 0 (length xs)) tt in
    hash_blocks (hash5_round hash_constants) MIMC5_HASH_ROUNDS key_val xs
  else lift Panic.
End PospaceCircuit.

Section Sloth.
Context {K : prime_ops}.
(** sloth_circuit.rs 19-21; [inverse] is None exactly for zero. *)
Definition fmod (x m : K) : res K :=
  if (repr m =? 0)%Z then Panic else Ok (fsub x (fmul (fmul x (finv m)) m)).
(** sloth_circuit.rs 28-39: the value given to the witness. *)
Definition sloth_value (res_val p : option K) : res (option K) :=
  match res_val with
  | None => Ok None
  | Some r =>
    let* parity := fmod r (fadd f1 f1) in
    let* p := unwrap p in
    let* v := fmod (if (repr parity =? repr (f1 : K))%Z then fadd r f1 else fsub r f1) p in
    Ok (Some v)
  end.
(** sloth_circuit.rs 23-50 with T = 3 (line 9). *)
Definition sloth_circuit (y p : option K) : M K unit :=
  let# _ := new_input y in
  forM (fun _ _ => let# x_val := lift (sloth_value y p) in let# _ := new_witness x_val in ret tt) (seq 0 3) tt.
End Sloth.
