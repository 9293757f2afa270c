(** Properties C30-C39: challenges, the verifier's unsealing and its comparison with
    the original.  [block_units params m f k] are the m units of block k of f;
    [only i l] is the list with just the i-th element of l. *)
From Verif Require Import Base Sloth Common Depend Prover Verifier SealSpec SealTop SealPad ShortTable ChallengeFacts VerifierFacts
  ParallelFacts TableFacts SealVerify Primes ParamFacts SealWitness.
From Coq Require Import Sorted.
Local Open Scope nat_scope.

(** C30 *)
Theorem C30_challenges : forall fuel n a b draw l, create_challenges fuel n (a, b) draw = Some (Ok l) ->
  StronglySorted lt l /\ length l = n /\ Forall (fun x => a <= x < b) l.
Proof. exact challenges_sound. Qed.
Print Assumptions C30_challenges.
Example C30_ex : create_challenges 9 3 (10, 20) (fun i => i * i) = Some (Ok [10; 11; 14]).
Proof. reflexivity. Qed.

(** C31: the loop is still running after k iterations unless the first k draws hold n
    different values. *)
Theorem C31_returns_iff : forall k n a b draw, a < b ->
  (exists l, create_challenges (S k) n (a, b) draw = Some (Ok l)) <->
  n <= length (nodup Nat.eq_dec (map (fun i => a + draw i mod (b - a)) (seq 0 k))).
Proof. exact challenges_return. Qed.
Print Assumptions C31_returns_iff.
Theorem C31_diverges : forall fuel n a b draw, a < b -> b - a < n -> create_challenges fuel n (a, b) draw = None.
Proof. exact challenges_diverge. Qed.
Print Assumptions C31_diverges.
Theorem C31_empty_range : forall fuel n a b draw, b <= a -> 0 < n -> create_challenges (S fuel) n (a, b) draw = Some Panic.
Proof. exact challenges_empty. Qed.
Print Assumptions C31_empty_range.
Example C31_ex : 2 <= length (nodup Nat.eq_dec (map (fun i => 10 + (i * i) mod (20 - 10)) (seq 0 2))).
Proof. cbn. lia. Qed.

(** C32 *)
Theorem C32_aligned : forall q e bp, 0 < bp -> exists l, blocks_in_range (q * bp) e bp = Ok l /\ StronglySorted lt l /\
  forall k, In k l <-> exists x, q * bp <= x < e /\ k * bp <= x < (k + 1) * bp.
Proof. exact blocks_aligned. Qed.
Print Assumptions C32_aligned.
(** Any begin: nothing outside the range is selected, and only the block holding the
    last byte can be missing. *)
Theorem C32_unaligned : forall b e bp, 0 < bp -> exists l, blocks_in_range b e bp = Ok l /\
  (forall k, In k l -> exists x, b <= x < e /\ k * bp <= x < (k + 1) * bp) /\
  (forall k, ~ In k l -> (exists x, b <= x < e /\ k * bp <= x < (k + 1) * bp) -> k = (e - 1) / bp).
Proof. exact blocks_never_extra. Qed.
Print Assumptions C32_unaligned.
Theorem C32_all_blocks_refuted : exists b e bp l, 0 < bp /\ blocks_in_range b e bp = Ok l /\
  ~ (forall k, In k l <-> exists x, b <= x < e /\ k * bp <= x < (k + 1) * bp).
Proof.
  exists 5, 15, 10, [0]. split; [lia|]. split; [reflexivity|]. intros A. specialize (proj2 (A 1)) as B.
  assert (X : In 1 [0]) by (apply B; exists 12; lia). destruct X as [X|[]]. discriminate.
Qed.
Print Assumptions C32_all_blocks_refuted.
Theorem C32_zero_size : forall b e, b < e -> blocks_in_range b e 0 = Panic.
Proof. exact blocks_zero. Qed.
Print Assumptions C32_zero_size.

(** C33: every mode, every list of block numbers, each version of the code. *)
Theorem C33_batch_unseal : forall H pr params key iv n m, setting H pr params key n m ->
  forall f st, sound_key H key -> sealable params key n m f -> seal H pr params key iv f = Ok st -> ~ In 0%Z (s_log st) ->
  (mode_s params = 0 \/ (unit_l params <> 0 /\ block_l params / unit_l params = m)) ->
  forall ks, Forall (fun k => k < n) ks ->
  exists rs, mapM (single_unseal_prepare H pr params (s_file st)) ks = Ok rs /\
  batch_unseal H pr params key iv ks (map (fun r => snd (fst r)) rs) (map snd rs) (map (fun r => fst (fst r)) rs)
  = Ok (map (block_units params m f) ks).
Proof. intros H pr params key iv n m SET f st SK SE E NZ UT ks F. exact (batch_unseal_sealed H pr params key iv n m SET f st SK SE E NZ ks UT F). Qed.
Print Assumptions C33_batch_unseal.
Theorem C33_range : forall H pr params key iv n m, setting H pr params key n m ->
  forall f st, sound_key H key -> sealable params key n m f -> seal H pr params key iv f = Ok st -> ~ In 0%Z (s_log st) ->
  (mode_s params = 0 \/ (unit_l params <> 0 /\ block_l params / unit_l params = m)) ->
  forall q e, e <= n * block_pl params ->
  exists ks bls bids ds, batch_unseal_prepare H pr params (s_file st) (q * block_pl params) e = Ok (ks, bls, bids, ds) /\
  (forall k, In k ks <-> exists x, q * block_pl params <= x < e /\ k * block_pl params <= x < (k + 1) * block_pl params) /\
  StronglySorted lt ks /\
  batch_unseal H pr params key iv ks bids ds bls = Ok (map (block_units params m f) ks).
Proof. intros H pr params key iv n m SET f st SK SE E NZ UT q e L. exact (batch_unseal_range H pr params key iv n m SET f st SK SE E NZ q e UT L). Qed.
Print Assumptions C33_range.
Theorem C33_parallel : forall H pr params key iv n m, setting H pr params key n m ->
  forall f st, sound_key H key -> sealable params key n m f -> seal H pr params key iv f = Ok st -> ~ In 0%Z (s_log st) ->
  forall ks threads, threads <> 0 -> Forall (fun k => k < n) ks ->
  exists rs, mapM (single_unseal_prepare H pr params (s_file st)) ks = Ok rs /\
  forall r, batch_unseal_parallel H pr params key iv ks (map (fun r => snd (fst r)) rs) (map snd rs) threads (map (fun r => fst (fst r)) rs) r
  <-> r = Ok (map (block_units params m f) ks).
Proof. intros H pr params key iv n m SET f st SK SE E NZ ks threads TH F. exact (parallel_sealed H pr params key iv n m SET f st SK SE E NZ ks threads TH F). Qed.
Print Assumptions C33_parallel.
Example C33_ex : setting hsum Debug (ex_params 2 0 0 0 10) ex_key 3 2 /\ sound_key hsum ex_key /\
  sealable (ex_params 2 0 0 0 10) ex_key 3 2 ex_file /\
  (exists st, seal hsum Debug (ex_params 2 0 0 0 10) ex_key [] ex_file = Ok st /\ ~ In 0%Z (s_log st)) /\
  block_l (ex_params 2 0 0 0 10) / unit_l (ex_params 2 0 0 0 10) = 2 /\ Forall (fun k => k < 3) [2; 0; 2].
Proof.
  split; [apply ex_setting; [apply hsum_32|cbn; lia|cbn; lia]|]. split; [apply ex_sound|].
  split; [apply ex_sealable|]. split; [exact (trial_no_zero _ _ _ _ _ _ run_random)|]. split; [reflexivity|repeat constructor].
Qed.

(** C34 *)
Theorem C34_batch_verify : forall origin idx2 us bl ul,
  batch_verify origin idx2 us bl ul = Ok tt <->
  0 < ul /\ Nat.divide ul bl /\
  forall j, j < bl / ul -> exists c, nth_error us j = Some c /\
     firstn ul c = read_file origin (idx2 * bl + j * ul) ul.
Proof. exact batch_verify_iff. Qed.
Print Assumptions C34_batch_verify.
Example C34_ex : batch_verify [x01; x02; x03; x04; x05; x06; x07; x08] 1 [[x05; x06; xff]; [x07; x08; x09; x09]; [x01]] 4 2 = Ok tt
  /\ batch_verify [x01; x02; x03; x04; x05; x06; x07; x08] 1 [[x05; x06; xff]; [x07; x09]] 4 2 = Panic.
Proof. split; reflexivity. Qed.

(** C35 *)
Theorem C35_unseal_and_verify : forall H pr params key iv blocks_idx before deps origin bs,
  (mode_s params = 0 \/
   (block_l params <> 0 /\ unit_l params <> 0 /\ data_l params / block_l params = block_l params / unit_l params)) ->
  batch_unseal_and_verify H pr params key iv blocks_idx before deps origin bs = Ok tt <->
  exists out, batch_unseal H pr params key iv blocks_idx before deps bs = Ok out /\
  forall i o, nth_error out i = Some o -> exists idx2, nth_error blocks_idx i = Some idx2 /\
     batch_verify origin idx2 o (block_l params) (unit_l params) = Ok tt.
Proof. exact unseal_and_verify_iff. Qed.
Print Assumptions C35_unseal_and_verify.
(** The two functions build the table of unit dependencies for different lengths; for
    blocks of the right size this makes no difference under any rule under which a file
    of n blocks of m units can be sealed. *)
Theorem C35_any_rule : forall H pr params key iv blocks_idx before deps n m,
  short_modes_fine pr params n m -> block_l params <> 0 -> unit_l params <> 0 ->
  data_l params / block_l params = n -> block_l params / unit_l params = m ->
  forall origin bs, Forall (fun b => length b = m) bs ->
  batch_unseal_and_verify H pr params key iv blocks_idx before deps origin bs = Ok tt <->
  exists out, batch_unseal H pr params key iv blocks_idx before deps bs = Ok out /\
  forall i o, nth_error out i = Some o -> exists idx2, nth_error blocks_idx i = Some idx2 /\
     batch_verify origin idx2 o (block_l params) (unit_l params) = Ok tt.
Proof. exact unseal_and_verify_rows. Qed.
Print Assumptions C35_any_rule.
(** Three blocks of two units and one dependency on a neighbour: the tables differ. *)
Example C35_any_ex : let P := ex_params 2 0 0 1 1 in
  (short_modes_fine Debug P 3 2 /\ block_l P <> 0 /\ unit_l P <> 0 /\ data_l P / block_l P = 3 /\ block_l P / unit_l P = 2) /\
  bv_idxs_s Debug P <> bu_idxs_s Debug P /\
  match (let* origin := copy_and_compress ex_file (data_l P) (unit_l P) (unit_pl P) in
         let* st := seal hsum Debug P ex_key [] ex_file in
         let* r := single_unseal_prepare hsum Debug P (s_file st) 2 in
         Ok (origin, r)) with
  | Ok (origin, (b, before, deps)) => batch_unseal_and_verify hsum Debug P ex_key [] [2] [before] [deps] origin [b] = Ok tt
  | Panic => False end.
Proof.
  split; [|split; [vm_compute; discriminate|vm_compute; reflexivity]].
  split; [right; cbn; lia|]. cbn. repeat split; discriminate.
Qed.
(** A sealed block of the example is accepted, and not accepted as another block. *)
Example C35_ex : let P := ex_params 2 0 0 0 10 in
  match (let* origin := copy_and_compress ex_file (data_l P) (unit_l P) (unit_pl P) in
         let* st := seal hsum Debug P ex_key [] ex_file in
         let* r := single_unseal_prepare hsum Debug P (s_file st) 2 in
         Ok (origin, r)) with
  | Ok (origin, (b, before, deps)) =>
      batch_unseal_and_verify hsum Debug P ex_key [] [2] [before] [deps] origin [b] = Ok tt /\
      batch_unseal_and_verify hsum Debug P ex_key [] [1] [before] [deps] origin [b] = Panic
  | Panic => False end.
Proof. vm_compute. split; reflexivity. Qed.

(** C36 *)
Theorem C36_parallel_eq_sequential : forall H pr params key iv blocks_idx before deps threads blocks out, threads <> 0 ->
  (mode_s params = 0 \/
   (block_l params <> 0 /\ unit_l params <> 0 /\ data_l params / block_l params = block_l params / unit_l params)) ->
  batch_unseal H pr params key iv blocks_idx before deps blocks = Ok out ->
  forall r, batch_unseal_parallel H pr params key iv blocks_idx before deps threads blocks r <-> r = Ok out.
Proof. exact par_eq_seq. Qed.
Print Assumptions C36_parallel_eq_sequential.
Theorem C36_any_rule : forall H pr params key iv blocks_idx before deps n m,
  short_modes_fine pr params n m -> block_l params <> 0 -> unit_l params <> 0 ->
  data_l params / block_l params = n -> block_l params / unit_l params = m ->
  forall threads blocks out, threads <> 0 -> Forall (fun b => length b = m) blocks ->
  batch_unseal H pr params key iv blocks_idx before deps blocks = Ok out ->
  forall r, batch_unseal_parallel H pr params key iv blocks_idx before deps threads blocks r <-> r = Ok out.
Proof. exact par_eq_seq_rows. Qed.
Print Assumptions C36_any_rule.
(** No schedule gets stuck, and none runs longer than the total work. *)
Theorem C36_no_deadlock : forall H params key iv blocks_idx before deps threads blocks t p, threads <> 0 ->
  steps H params key iv blocks_idx before deps threads t (mkPool blocks (repeat Waiting (length blocks))) p ->
  finished p \/ exists q, step H params key iv blocks_idx before deps threads t p q.
Proof. exact par_no_deadlock. Qed.
Print Assumptions C36_no_deadlock.
Theorem C36_terminates : forall H params key iv blocks_idx before deps threads blocks t (run : nat -> pool) k,
  run 0 = mkPool blocks (repeat Waiting (length blocks)) ->
  (forall i, i < k -> step H params key iv blocks_idx before deps threads t (run i) (run (S i))) ->
  k <= fold_right (fun b acc => 2 + seal_rounds params * length b + acc) 0 blocks.
Proof. exact par_bounded. Qed.
Print Assumptions C36_terminates.
Example C36_ex : batch_unseal hsum Debug (ex_params 1 0 0 0 10) ex_key [] [1; 0] [[x01]; []] [[ [[x03]; [x04]] ]; []]
  [[[x05; x06; x00]; [x07; x08; x00]]; [[x09; x06; x00]; [x07; x0a; x00]]] <> Panic.
Proof. vm_compute. discriminate. Qed.

(** C37: block by block, a parallel call returns what the sequential code returns for
    that block alone, and the untouched input where the sequential code panics. *)
Theorem C37_blockwise : forall H pr params key iv blocks_idx before deps threads blocks out, threads <> 0 ->
  (mode_s params = 0 \/
   (block_l params <> 0 /\ unit_l params <> 0 /\ data_l params / block_l params = block_l params / unit_l params)) ->
  batch_unseal_parallel H pr params key iv blocks_idx before deps threads blocks (Ok out) ->
  length out = length blocks /\
  forall i b, nth_error blocks i = Some b ->
    nth_error out i = Some (match batch_unseal H pr params key iv (only i blocks_idx) (only i before) (only i deps) [b] with
                            | Ok [c] => c
                            | _ => b
                            end).
Proof. exact par_blockwise. Qed.
Print Assumptions C37_blockwise.
Theorem C37_any_rule : forall H pr params key iv blocks_idx before deps n m,
  short_modes_fine pr params n m -> block_l params <> 0 -> unit_l params <> 0 ->
  data_l params / block_l params = n -> block_l params / unit_l params = m ->
  forall threads blocks out, threads <> 0 -> Forall (fun b => length b = m) blocks ->
  batch_unseal_parallel H pr params key iv blocks_idx before deps threads blocks (Ok out) ->
  length out = length blocks /\
  forall i b, nth_error blocks i = Some b ->
    nth_error out i = Some (match batch_unseal H pr params key iv (only i blocks_idx) (only i before) (only i deps) [b] with
                            | Ok [c] => c
                            | _ => b
                            end).
Proof. exact par_blockwise_rows. Qed.
Print Assumptions C37_any_rule.
Theorem C37_sequential_panics : forall H pr params key iv blocks_idx before deps blocks,
  bu_idxs_s pr params <> Panic ->
  batch_unseal H pr params key iv blocks_idx before deps blocks = Panic <->
  exists i b, nth_error blocks i = Some b /\
    batch_unseal H pr params key iv (only i blocks_idx) (only i before) (only i deps) [b] = Panic.
Proof. exact seq_panics_iff. Qed.
Print Assumptions C37_sequential_panics.
Theorem C37_panics_iff : forall H pr params key iv blocks_idx before deps threads blocks,
  batch_unseal_parallel H pr params key iv blocks_idx before deps threads blocks Panic <->
  threads = 0 \/ bp_idxs_s pr params = Panic.
Proof. exact par_panics. Qed.
Print Assumptions C37_panics_iff.
(** A dependency block with too few units: the sequential call panics, the parallel
    one returns the sealed block as if it were the answer. *)
Definition short_dep_blocks : list (list (list byte)) := [[[x05; x06; x00]; [x07; x08; x00]]].
Theorem C37_panic_reported_refuted : exists H pr params key iv blocks_idx before deps blocks,
  batch_unseal H pr params key iv blocks_idx before deps blocks = Panic /\
  forall threads r, threads <> 0 -> batch_unseal_parallel H pr params key iv blocks_idx before deps threads blocks r <-> r = Ok blocks.
Proof.
  exists hsum, Debug, (ex_params 1 0 0 0 10), ex_key, [], [1], [[x01]], [[ [[x03]] ]], short_dep_blocks.
  split; [vm_compute; reflexivity|]. intros threads r TH.
  rewrite (par_result hsum Debug (ex_params 1 0 0 0 10) ex_key [] [1] [[x01]] [[ [[x03]] ]] threads short_dep_blocks [] r TH eq_refl).
  assert (X : map (result hsum (ex_params 1 0 0 0 10) ex_key [] [1] [[x01]] [[ [[x03]] ]] [] short_dep_blocks) (seq 0 (length short_dep_blocks))
     = short_dep_blocks) by (vm_compute; reflexivity).
  rewrite X. reflexivity.
Qed.
Print Assumptions C37_panic_reported_refuted.
(** Two blocks, the first with too short a dependency: the first comes back as it was, the
    second is unsealed. *)
Definition two_blocks : list (list (list byte)) := [[[x05; x06; x00]; [x07; x08; x00]]; [[x05; x06; x00]; [x07; x08; x00]]].
Definition two_results : list (list (list byte)) := map (result hsum (ex_params 1 0 0 0 10) ex_key [] [1; 0] [[x01]; []] [[ [[x03]] ]; []] [] two_blocks) (seq 0 2).
Definition units_same (a b : list (list byte)) : bool := if list_eq_dec (list_eq_dec Byte.byte_eq_dec) a b then true else false.
Example C37_ex : exists c, c <> nth 1 two_blocks [] /\ forall threads out, threads <> 0 ->
  (batch_unseal_parallel hsum Debug (ex_params 1 0 0 0 10) ex_key [] [1; 0] [[x01]; []] [[ [[x03]] ]; []] threads two_blocks (Ok out) <-> out = [nth 0 two_blocks []; c]).
Proof.
  assert (T : (length two_results =? 2) && units_same (nth 0 two_results []) (nth 0 two_blocks []) && negb (units_same (nth 1 two_results []) (nth 1 two_blocks [])) = true) by (vm_compute; reflexivity).
  assert (P : forall threads out, threads <> 0 -> (batch_unseal_parallel hsum Debug (ex_params 1 0 0 0 10) ex_key [] [1; 0] [[x01]; []] [[ [[x03]] ]; []] threads two_blocks (Ok out) <-> Ok out = Ok two_results)).
  { intros threads out TH. exact (par_result hsum Debug (ex_params 1 0 0 0 10) ex_key [] [1; 0] [[x01]; []] [[ [[x03]] ]; []] threads two_blocks [] (Ok out) TH eq_refl). }
  revert T P. generalize two_results. intros r T P. unfold units_same in T. destruct r as [|a [|b [|? ?]]]; try discriminate. cbn [nth] in T.
  destruct (list_eq_dec _ a _) as [A|] in T; [|discriminate]. destruct (list_eq_dec _ b _) as [|B] in T; [discriminate|].
  exists b. split; [exact B|]. intros threads out TH. rewrite (P threads out TH), <- A. split; [intros E; now injection E|intros ->; reflexivity].
Qed.

(** C38 *)
Theorem C38_batch_unseal_total : forall H pr params key iv m blocks_idx before deps bs,
  hash32 H -> (1 < key)%Z -> (forall d, le2z (H d) < key < 256 ^ Z.of_nat (unit_pl params))%Z ->
  unit_l params <> 0 -> short_modes_fine pr params (block_l params / unit_l params) m ->
  Forall (fun b => length b = m /\ Forall (fun u => length u = unit_pl params) b) bs ->
  length bs <= length blocks_idx -> length bs <= length before -> length bs <= length deps ->
  Forall (Forall (fun b => length b = m)) deps ->
  exists out, batch_unseal H pr params key iv blocks_idx before deps bs = Ok out /\ length out = length bs /\
    Forall (fun b => length b = m /\ Forall (fun u => length u = unit_pl params) b) out.
Proof. exact batch_unseal_any. Qed.
Print Assumptions C38_batch_unseal_total.
Example C38_ex : (forall d, le2z (hsum d) < ex_key < 256 ^ Z.of_nat (unit_pl (ex_params 1 0 0 0 10)))%Z /\
  short_modes_fine Debug (ex_params 1 0 0 0 10) 2 2.
Proof. split; [|cbn; lia]. intros d. split; [apply ex_sound|reflexivity]. Qed.

(** C39 *)
Theorem C39_too_few_blocks : forall H pr params key iv n m, geometry params n m ->
  forall f, mode_s params <> 0 -> 0 < n -> n < m -> 0 < seal_rounds params -> seal H pr params key iv f = Panic.
Proof. exact too_few_blocks. Qed.
Print Assumptions C39_too_few_blocks.
Theorem C39_mode_1_exact : forall H pr params key iv n m f, hash32 H -> geometry params n m ->
  (1 < key <= 256 ^ Z.of_nat (unit_pl params))%Z -> long_modes_fine params n -> mode_s params = 1 ->
  0 < n -> 0 < m -> 0 < seal_rounds params -> sealable params key n m f ->
  (exists st, seal H pr params key iv f = Ok st) <->
  n = m \/ (m < n /\ (cnt_s params = 0 \/ (cnt_s params = 1 /\ 2 <= m))).
Proof. exact mode_1_iff. Qed.
Print Assumptions C39_mode_1_exact.
(** The verifier builds its table for the units of a block; the rows it uses are the
    ones used for sealing, whenever sealing works at all. *)
Theorem C39_verifier_rows : forall pr params n m k, short_modes_fine pr params n m -> mode_s params <> 0 -> k < m ->
  short_depend pr m k (cnt_s params) (mode_s params) = short_depend pr n k (cnt_s params) (mode_s params).
Proof. exact short_rows_agree. Qed.
Print Assumptions C39_verifier_rows.
(** The verifier's table does not depend on the number of blocks: for parameter sets
    that differ in the data length only, it computes the same. *)
Theorem C39_verifier_table : forall H pr p data' key iv idx before deps blocks,
  let p' := mkPosPara data' (unit_l p) (block_l p) (big_block_l p) (unit_pl p) (block_pl p) (big_block_pl p) (seal_rounds p) (vde_rounds p)
              (vde_mode p) (mode_l p) (cnt_l p) (mode_s p) (cnt_s p) (leaves_to_prove_count p) in
  batch_unseal H pr p' key iv idx before deps blocks = batch_unseal H pr p key iv idx before deps blocks.
Proof. intros. reflexivity. Qed.
Print Assumptions C39_verifier_table.
Theorem C39_seal_returns_refuted : exists H pr params key iv f n m, hash32 H /\ geometry params n m /\
  (1 < key <= 256 ^ Z.of_nat (unit_pl params))%Z /\ sealable params key n m f /\ mode_s params = 1 /\
  seal H pr params key iv f = Panic.
Proof.
  exists hsum, Debug, (ex_params 1 0 0 1 10), ex_key, [], ex_file, 3, 2. split; [apply hsum_32|]. split; [apply ex_geometry|].
  split; [split; [reflexivity|discriminate]|]. split; [apply ex_sealable|]. split; [reflexivity|].
  apply (mode_1_too_many hsum Debug (ex_params 1 0 0 1 10) ex_key [] 3 2); [apply ex_geometry|cbn; lia..].
Qed.
Print Assumptions C39_seal_returns_refuted.
Example C39_ex : geometry (ex_params 1 0 0 1 1) 3 2 /\ short_modes_fine Debug (ex_params 1 0 0 1 1) 3 2.
Proof. split; [apply ex_geometry|]. cbn. lia. Qed.
