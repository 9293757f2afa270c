(** Model of proof_of_storage/src/proof_of_storage/verifier.rs. *)
From Verif Require Import Base Sloth Common Depend Prover.
Local Open Scope nat_scope.

(** verifier.rs 16-32: [rnd] supplies the random bytes.  The file is truncated
    first. *)
Definition create_random_file (rnd : nat -> byte) (data_len : nat) : file :=
  fold_left (fun f k => f ++ [rnd k]) (seq 0 data_len) [].

(** verifier.rs 34-45.  [draw i] is the i-th raw output of the generator;
    [gen_range(a..b)] maps it into the range and panics when the range is empty.
    The set is kept as the increasing list a BTreeSet iterates over.  None = still
    running after [fuel] iterations. *)
Fixpoint challenge_loop (fuel n a b : nat) (draw : nat -> nat) (i : nat) (set : list nat)
  : option (res (list nat)) :=
  match fuel with
  | O => None
  | S fuel' =>
      if length set <? n then
        if b <=? a then Some Panic
        else challenge_loop fuel' n a b draw (i + 1) (insert_uniq (a + draw i mod (b - a)) set)
      else Some (Ok set)
  end.
Definition create_challenges (fuel n : nat) (range : nat * nat) (draw : nat -> nat) : option (res (list nat)) :=
  challenge_loop fuel n (fst range) (snd range) draw 0 [].

(** verifier.rs 125-133: block numbers for the byte range [begin, end); the index
    division panics for block_pl = 0.  None = out of fuel. *)
Fixpoint blocks_idx_loop (fuel i idx_begin idx_end block_pl : nat) (acc : list nat) : option (res (list nat)) :=
  match fuel with
  | O => None
  | S fuel' =>
      if i * block_pl + idx_begin <? idx_end then
        if block_pl =? 0 then Some Panic
        else blocks_idx_loop fuel' (i + 1) idx_begin idx_end block_pl (acc ++ [i + idx_begin / block_pl])
      else Some (Ok acc)
  end.
Definition blocks_in_range (idx_begin idx_end block_pl : nat) : res (list nat) :=
  match blocks_idx_loop (idx_end - idx_begin + 1) 0 idx_begin idx_end block_pl [] with
  | Some r => r
  | None => Panic
  end.

(** verifier.rs 287-303 / 486-502: comparison of one unit.  None = out of fuel. *)
Fixpoint verify_unit_loop (fuel : nat) (ori cur : list byte) (unit_l k_ori k_cur k : nat) : option (res unit) :=
  match fuel with
  | O => None
  | S fuel' =>
      if k_ori <? length ori then
        match (let* x := index ori k_ori in
               let* y := index cur k_cur in
               if Byte.eqb x y then Ok tt else Panic) with
        | Panic => Some Panic
        | Ok _ =>
            let k_ori := k_ori + 1 in
            let k_cur := k_cur + 1 in
            let k := k + 1 in
            if k =? unit_l
            then verify_unit_loop fuel' ori cur unit_l k_ori (k_cur + 1) 0
            else verify_unit_loop fuel' ori cur unit_l k_ori k_cur k
        end
      else Some (Ok tt)
  end.
Definition verify_unit (ori cur : list byte) (unit_l : nat) : res unit :=
  match verify_unit_loop (length ori + 1) ori cur unit_l 0 0 0 with
  | Some r => r
  | None => Panic
  end.

(** [unseal_block[j]] is only evaluated when the original unit has a byte to
    compare (line 487). *)
Definition verify_block_units (origin_block unseal_block : list (list byte)) (unit_l : nat) : res unit :=
  foldM (fun _ j =>
           let* ori := index origin_block j in
           if length ori =? 0 then Ok tt else
           let* cur := index unseal_block j in
           verify_unit ori cur unit_l) (seq 0 (length origin_block)) tt.

(** verifier.rs 474-504. *)
Definition batch_verify (origin : file) (idx2 : nat) (unseal_block : list (list byte)) (block_l unit_l : nat) : res unit :=
  let origin_block := read_file origin (idx2 * block_l) block_l in
  let* origin_block := to_units origin_block unit_l in
  verify_block_units origin_block unseal_block unit_l.

Section Verifier.
Variable H : list byte -> list byte.
Variable pr : profile.
Variable params : PosPara.

(** verifier.rs 63-70, 148-155. *)
Definition verifier_idxs_l (block_cnt : nat) : res (list (list nat)) :=
  if negb (mode_l params =? 0)
  then create_long_depend pr block_cnt (cnt_l params) (mode_l params)
  else Ok [].

(** verifier.rs 72-80, 161-169. *)
Definition prepare_before_id (f : file) (idx2 : nat) : list byte :=
  if negb (idx2 =? 0)
  then H (read_file f ((idx2 - 1) * block_pl params) (block_pl params))
  else [].

(** verifier.rs 82-113, 171-202. *)
Definition prepare_depend_blocks (idxs_l : list (list nat)) (block_cnt : nat) (f : file)
           (before_block_id : list byte) (idx2 : nat) : res (list (list (list byte))) :=
  if mode_l params =? 0 then
    let* cur_idxs_l :=
      if idx2 =? 0 then Ok []
      else if cnt_l params =? 0 then long_mode_random H block_cnt before_block_id idx2 (idx2 / 10 + 1)
      else long_mode_random H block_cnt before_block_id idx2 (cnt_l params) in
    mapM (fun idx => to_units (read_file f (idx * block_pl params) (block_pl params)) (unit_pl params)) cur_idxs_l
  else
    let* row := index idxs_l idx2 in
    mapM (fun i => to_units (read_file f (i * block_pl params) (block_pl params)) (unit_pl params)) row.

(** verifier.rs 47-116. *)
Definition single_unseal_prepare (f : file) (block_idx : nat)
  : res (list (list byte) * list byte * list (list (list byte))) :=
  let* block := to_units (read_file f (block_idx * block_pl params) (block_pl params)) (unit_pl params) in
  let* block_cnt := nblocks params in
  let* idxs_l := verifier_idxs_l block_cnt in
  let before_block_id := prepare_before_id f block_idx in
  let* depend_blocks := prepare_depend_blocks idxs_l block_cnt f before_block_id block_idx in
  Ok (block, before_block_id, depend_blocks).

(** verifier.rs 118-208. *)
Definition batch_unseal_prepare (f : file) (idx_begin idx_end : nat)
  : res (list nat * list (list (list byte)) * list (list byte) * list (list (list (list byte)))) :=
  let* blocks_idx := blocks_in_range idx_begin idx_end (block_pl params) in
  let* blocks := mapM (fun idx2 => to_units (read_file f (idx2 * block_pl params) (block_pl params)) (unit_pl params)) blocks_idx in
  let* block_cnt := nblocks params in
  let* idxs_l := verifier_idxs_l block_cnt in
  let* both := mapM (fun idx2 =>
      let bid := prepare_before_id f idx2 in
      let* deps := prepare_depend_blocks idxs_l block_cnt f bid idx2 in
      Ok (bid, deps)) blocks_idx in
  Ok (blocks_idx, blocks, map fst both, map snd both).

Variable vde_key : Z.
Variable iv : list byte.
Variable blocks_idx : list nat.
Variable before_block_ids : list (list byte).
Variable depend_blocks : list (list (list (list byte))).

(** * batch_unseal *)

(** verifier.rs 310-317: table for [block_l / unit_l] units. *)
Definition bu_idxs_s : res (list (list nat)) :=
  if negb (mode_s params =? 0)
  then if unit_l params =? 0 then Panic
       else create_short_depend pr (block_l params / unit_l params) (cnt_s params) (mode_s params)
  else Ok [].

(** verifier.rs 331-365. *)
Definition bu_depend_data (idxs_s : list (list nat)) (i idx2 unit_cnt : nat)
           (cur_block : list (list byte)) (idx1 : nat) : res (list byte) :=
  let* deps := index depend_blocks i in
  let* long := foldM (fun acc b => let* u := index b idx1 in Ok (acc ++ u)) deps [] in
  let* idxs :=
    if negb (mode_s params =? 0) then index idxs_s idx1
    else if idx1 =? 0 then short_depend_random H unit_cnt [] idx1 (cnt_s params)
    else
      let* d := index cur_block (idx1 - 1) in
      short_depend_random H unit_cnt d idx1 (cnt_s params) in
  let* both := foldM (fun acc i => let* u := index cur_block i in Ok (acc ++ u)) idxs long in
  if idx1 =? 0 then
    if idx2 =? 0 then Ok (both ++ iv)
    else let* b := index before_block_ids i in Ok (both ++ b)
  else Ok both.

(** verifier.rs 328-372. *)
Definition bu_unit (idxs_s : list (list nat)) (i idx2 unit_cnt : nat)
           (cur_block : list (list byte)) (j : nat) : res (list (list byte)) :=
  let idx1 := unit_cnt - 1 - j in
  let* depend_data := bu_depend_data idxs_s i idx2 unit_cnt cur_block idx1 in
  let depend_data_hash := H depend_data in
  let* cur_unit := index cur_block idx1 in
  let vde_inv_res := vde_inv cur_unit vde_key (vde_rounds params) (vde_mode params) (unit_pl params) in
  let* new_unit := modsub vde_inv_res depend_data_hash vde_key in
  set_index cur_block idx1 new_unit.

(** verifier.rs 320-375: body of the loop over blocks; [blocks] is modified in
    place. *)
Definition bu_block (idxs_s : list (list nat)) (blocks : list (list (list byte))) (i : nat)
  : res (list (list (list byte))) :=
  let* idx2 := index blocks_idx i in
  let* cur_block := index blocks i in
  let unit_cnt := length cur_block in
  let* cur_block' :=
    foldM (fun cb _ => foldM (bu_unit idxs_s i idx2 unit_cnt) (seq 0 unit_cnt) cb)
          (seq 0 (seal_rounds params)) cur_block in
  set_index blocks i cur_block'.

(** verifier.rs 308-377. *)
Definition batch_unseal (blocks : list (list (list byte))) : res (list (list (list byte))) :=
  let* idxs_s := bu_idxs_s in
  foldM (bu_block idxs_s) (seq 0 (length blocks)) blocks.

(** * batch_unseal_and_verify *)

(** verifier.rs 211-218: table for [data_l / block_l]. *)
Definition bv_idxs_s : res (list (list nat)) :=
  if negb (mode_s params =? 0)
  then let* n := nblocks params in create_short_depend pr n (cnt_s params) (mode_s params)
  else Ok [].

(** verifier.rs 232-266. *)
Definition bv_depend_data (idxs_s : list (list nat)) (i idx2 unit_cnt : nat)
           (cur_block : list (list byte)) (idx1 : nat) : res (list byte) :=
  let* deps := index depend_blocks i in
  let* long := foldM (fun acc b => let* u := index b idx1 in Ok (acc ++ u)) deps [] in
  let* idxs :=
    if negb (mode_s params =? 0) then index idxs_s idx1
    else if idx1 =? 0 then short_depend_random H unit_cnt [] idx1 (cnt_s params)
    else
      let* d := index cur_block (idx1 - 1) in
      short_depend_random H unit_cnt d idx1 (cnt_s params) in
  let* both := foldM (fun acc i => let* u := index cur_block i in Ok (acc ++ u)) idxs long in
  if idx1 =? 0 then
    if idx2 =? 0 then Ok (both ++ iv)
    else let* b := index before_block_ids i in Ok (both ++ b)
  else Ok both.

(** verifier.rs 229-273. *)
Definition bv_unit (idxs_s : list (list nat)) (i idx2 unit_cnt : nat)
           (cur_block : list (list byte)) (j : nat) : res (list (list byte)) :=
  let idx1 := unit_cnt - 1 - j in
  let* depend_data := bv_depend_data idxs_s i idx2 unit_cnt cur_block idx1 in
  let depend_data_hash := H depend_data in
  let* cur_unit := index cur_block idx1 in
  let vde_inv_res := vde_inv cur_unit vde_key (vde_rounds params) (vde_mode params) (unit_pl params) in
  let* new_unit := modsub vde_inv_res depend_data_hash vde_key in
  set_index cur_block idx1 new_unit.

(** verifier.rs 221-305. *)
Definition bv_block (idxs_s : list (list nat)) (origin : file) (blocks : list (list (list byte))) (i : nat) : res unit :=
  let* idx2 := index blocks_idx i in
  let* cur_block := index blocks i in
  let unit_cnt := length cur_block in
  let* cur_block' :=
    foldM (fun cb _ => foldM (bv_unit idxs_s i idx2 unit_cnt) (seq 0 unit_cnt) cb)
          (seq 0 (seal_rounds params)) cur_block in
  let* origin_block := to_units (read_file origin (idx2 * block_l params) (block_l params)) (unit_l params) in
  verify_block_units origin_block cur_block' (unit_l params).

(** verifier.rs 210-306. *)
Definition batch_unseal_and_verify (origin : file) (blocks : list (list (list byte))) : res unit :=
  let* idxs_s := bv_idxs_s in
  foldM (fun _ i => bv_block idxs_s origin blocks i) (seq 0 (length blocks)) tt.

(** * batch_unseal_parallel *)

(** verifier.rs 380-387. *)
Definition bp_idxs_s : res (list (list nat)) :=
  if negb (mode_s params =? 0)
  then let* n := nblocks params in create_short_depend pr n (cnt_s params) (mode_s params)
  else Ok [].

(** verifier.rs 425-458. *)
Definition bp_depend_data (idxs_s : list (list nat)) (i idx2 unit_cnt : nat)
           (cur_block : list (list byte)) (idx1 : nat) : res (list byte) :=
  let* deps := index depend_blocks i in
  let* long := foldM (fun acc b => let* u := index b idx1 in Ok (acc ++ u)) deps [] in
  let* idxs :=
    if negb (mode_s params =? 0) then index idxs_s idx1
    else if idx1 =? 0 then short_depend_random H unit_cnt [] idx1 (cnt_s params)
    else
      let* d := index cur_block (idx1 - 1) in
      short_depend_random H unit_cnt d idx1 (cnt_s params) in
  let* both := foldM (fun acc i => let* u := index cur_block i in Ok (acc ++ u)) idxs long in
  if idx1 =? 0 then
    if idx2 =? 0 then Ok (both ++ iv)
    else let* b := index before_block_ids i in Ok (both ++ b)
  else Ok both.

(** verifier.rs 422-464: one unit. *)
Definition bp_unit (idxs_s : list (list nat)) (i idx2 unit_cnt : nat)
           (cur_block : list (list byte)) (j : nat) : res (list (list byte)) :=
  let idx1 := unit_cnt - 1 - j in
  let* depend_data := bp_depend_data idxs_s i idx2 unit_cnt cur_block idx1 in
  let depend_data_hash := H depend_data in
  let* cur_unit := index cur_block idx1 in
  let vde_inv_res := vde_inv cur_unit vde_key (vde_rounds params) (vde_mode params) (unit_pl params) in
  let* new_unit := modsub vde_inv_res depend_data_hash vde_key in
  set_index cur_block idx1 new_unit.

(** One job (the closure, verifier.rs 414-467).  [Running idx2 unit_cnt todo cur]:
    the job has taken its copy of the block (line 418) and still has the unit
    iterations [todo] to run.  [Dead]: the worker panicked; the thread pool replaces
    the thread and counts the job as finished.  No lock is poisoned: a worker can
    only panic while holding read guards (line 466 is in bounds), and read guards
    do not poison. *)
Inductive job :=
| Waiting
| Running (idx2 unit_cnt : nat) (todo : list nat) (cur : list (list byte))
| Done
| Dead.

Record pool := mkPool {
  p_blocks : list (list (list byte));  (* blocks_arc *)
  p_jobs : list job
}.

Definition is_running (j : job) : bool := match j with Running _ _ _ _ => true | _ => false end.

(** Transitions of the pool with [threads] workers and a FIFO queue.  Every access
    to [blocks_arc] happens under its lock, so each is one atomic step; the other
    shared values are never written (lines 391-399) and need no steps of their own. *)
Inductive step (threads : nat) (idxs_s : list (list nat)) : pool -> pool -> Prop :=
| step_start bs js i idx2 cur :
    nth_error js i = Some Waiting ->
    (forall k, k < i -> nth_error js k <> Some Waiting) ->
    length (filter is_running js) < threads ->
    index blocks_idx i = Ok idx2 -> index bs i = Ok cur ->
    step threads idxs_s (mkPool bs js)
         (mkPool bs (upd js i (Running idx2 (length cur)
            (concat (repeat (seq 0 (length cur)) (seal_rounds params))) cur)))
| step_start_panic bs js i :
    nth_error js i = Some Waiting ->
    (forall k, k < i -> nth_error js k <> Some Waiting) ->
    length (filter is_running js) < threads ->
    index blocks_idx i = Panic ->
    step threads idxs_s (mkPool bs js) (mkPool bs (upd js i Dead))
| step_work bs js i idx2 n j todo cur cur' :
    nth_error js i = Some (Running idx2 n (j :: todo) cur) ->
    bp_unit idxs_s i idx2 n cur j = Ok cur' ->
    step threads idxs_s (mkPool bs js) (mkPool bs (upd js i (Running idx2 n todo cur')))
| step_panic bs js i idx2 n j todo cur :
    nth_error js i = Some (Running idx2 n (j :: todo) cur) ->
    bp_unit idxs_s i idx2 n cur j = Panic ->
    step threads idxs_s (mkPool bs js) (mkPool bs (upd js i Dead))
| step_finish bs js i idx2 n cur :
    nth_error js i = Some (Running idx2 n [] cur) ->
    step threads idxs_s (mkPool bs js) (mkPool (upd bs i cur) (upd js i Done)).

Inductive steps (threads : nat) (idxs_s : list (list nat)) : pool -> pool -> Prop :=
| steps_refl p : steps threads idxs_s p p
| steps_cons p q r : step threads idxs_s p q -> steps threads idxs_s q r -> steps threads idxs_s p r.

Definition finished (p : pool) : Prop := Forall (fun j => j = Done \/ j = Dead) (p_jobs p).

(** verifier.rs 379-472: [Returns r] for some schedule, or a panic of the calling
    thread (table construction, or ThreadPool::new(0)). *)
Inductive batch_unseal_parallel (threads : nat) (blocks : list (list (list byte))) : res (list (list (list byte))) -> Prop :=
| bp_table_panic : bp_idxs_s = Panic -> batch_unseal_parallel threads blocks Panic
| bp_pool_panic t : bp_idxs_s = Ok t -> threads = 0 -> batch_unseal_parallel threads blocks Panic
| bp_returns t p : bp_idxs_s = Ok t -> threads <> 0 ->
    steps threads t (mkPool blocks (repeat Waiting (length blocks))) p -> finished p ->
    batch_unseal_parallel threads blocks (Ok (p_blocks p)).
End Verifier.
