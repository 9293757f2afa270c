(** Model of proof_of_storage/src/proof_of_storage/prover.rs.  Timing counters
    are not modelled. *)
From Verif Require Import Base Sloth Common Depend.
Local Open Scope nat_scope.

(** prover.rs 9-16. *)
Definition create_long_depend (pr : profile) (num count mode : nat) : res (list (list nat)) :=
  mapM (fun idx => long_depend pr idx count mode) (seq 0 num).

(** prover.rs 18-25. *)
Definition create_short_depend (pr : profile) (num count mode : nat) : res (list (list nat)) :=
  mapM (fun idx => short_depend pr num idx count mode) (seq 0 num).

(** prover.rs 27-48.  The new file is truncated first, so its previous content is
    irrelevant; each unit is appended.  [data_l / unit_l] panics for unit_l = 0. *)
Definition copy_and_pad (origin : file) (data_l unit_l : nat) : res file :=
  if unit_l =? 0 then Panic else
  let block_cnt := data_l / unit_l in
  Ok (fold_left (fun new cnt => new ++ (read_file origin (cnt * unit_l) unit_l ++ [x00]))
                (seq 0 block_cnt) []).

(** prover.rs 247-266. *)
Definition copy_and_compress (origin : file) (data_l unit_l unit_pl : nat) : res file :=
  if unit_l =? 0 then Panic else
  let block_cnt := data_l / unit_l in
  foldM (fun new cnt =>
           let buf := read_file origin (cnt * unit_pl) unit_pl in
           let* b := slice buf 0 unit_l in
           Ok (new ++ b)) (seq 0 block_cnt) [].

Section Prover.
Variable H : list byte -> list byte.  (* blake3_hash, common.rs 19-24 *)
Variable pr : profile.
Variable params : PosPara.
Variable vde_key : Z.
Variable iv : list byte.

(** prover.rs 65 and 283: [data_l / block_l]. *)
Definition nblocks : res nat :=
  if block_l params =? 0 then Panic else Ok (data_l params / block_l params).

(** prover.rs 69-76. *)
Definition seal_idxs_l (block_cnt : nat) : res (list (list nat)) :=
  if negb (mode_l params =? 0)
  then create_long_depend pr block_cnt (cnt_l params) (mode_l params)
  else Ok [].

(** prover.rs 77-84. *)
Definition seal_idxs_s (block_cnt : nat) : res (list (list nat)) :=
  if negb (mode_s params =? 0)
  then create_short_depend pr block_cnt (cnt_s params) (mode_s params)
  else Ok [].

(** One padded block read from the file and cut into units
    (prover.rs 91-95, 138-142, 151-155). *)
Definition read_block (f : file) (idx : nat) : res (list (list byte)) :=
  to_units (read_file f (idx * block_pl params) (block_pl params)) (unit_pl params).

(** prover.rs 103-162. *)
Definition seal_depend_blocks (idxs_l : list (list nat)) (block_cnt : nat) (f : file)
           (blocks_id : list (list byte)) (idx2 : nat) : res (list (list (list byte))) :=
  if mode_l params =? 0 then
    let* cur_idxs_l :=
      if idx2 =? 0 then Ok []
      else if cnt_l params =? 0 then
        let* d := index blocks_id (idx2 - 1) in
        long_mode_random H block_cnt d idx2 (idx2 / 10 + 1)
      else
        let* d := index blocks_id (idx2 - 1) in
        long_mode_random H block_cnt d idx2 (cnt_l params) in
    mapM (fun i => read_block f i) cur_idxs_l
  else
    let* row := index idxs_l idx2 in
    mapM (fun i => read_block f i) row.

(** prover.rs 168-205: the bytes that are hashed into the mask of unit [idx1]. *)
Definition seal_depend_data (idxs_s : list (list nat)) (depend_blocks : list (list (list byte)))
           (blocks_id : list (list byte)) (idx2 unit_cnt : nat)
           (cur_block : list (list byte)) (idx1 : nat) : res (list byte) :=
  let* long := foldM (fun acc b => let* u := index b idx1 in Ok (acc ++ u)) depend_blocks [] in
  let* idxs :=
    if negb (mode_s params =? 0) then index idxs_s idx1
    else if idx1 =? 0 then short_depend_random H unit_cnt [] idx1 (cnt_s params)
    else
      let* d := index cur_block (idx1 - 1) in
      short_depend_random H unit_cnt d idx1 (cnt_s params) in
  let* both := foldM (fun acc i => let* u := index cur_block i in Ok (acc ++ u)) idxs long in
  if idx1 =? 0 then
    if idx2 =? 0 then Ok (both ++ iv)
    else let* b := index blocks_id (idx2 - 1) in Ok (both ++ b)
  else Ok both.

(** State of the sealing loops.  [log] is a ghost field: the integers handed to
    the delay function so far (most recent first); nothing reads it. *)
Definition unit_state : Type := list (list byte) * list Z.

(** prover.rs 167-227: body of the loop over units. *)
Definition seal_unit (idxs_s : list (list nat)) (depend_blocks : list (list (list byte)))
           (blocks_id : list (list byte)) (idx2 unit_cnt : nat)
           (st : unit_state) (idx1 : nat) : res unit_state :=
  let (cur_block, log) := st in
  let* depend_data := seal_depend_data idxs_s depend_blocks blocks_id idx2 unit_cnt cur_block idx1 in
  let depend_data_hash := H depend_data in
  let* cur_unit := index cur_block idx1 in
  let* unit_modadd := modadd cur_unit depend_data_hash vde_key in
  let new_unit := vde unit_modadd vde_key (vde_rounds params) (vde_mode params) (unit_pl params) in
  let* cur_block' := set_index cur_block idx1 new_unit in
  Ok (cur_block', le2z unit_modadd :: log).

(** prover.rs 164-228. *)
Definition seal_block_rounds (idxs_s : list (list nat)) (depend_blocks : list (list (list byte)))
           (blocks_id : list (list byte)) (idx2 : nat) (st : unit_state) : res unit_state :=
  let unit_cnt := length (fst st) in
  foldM (fun st _ =>
           foldM (seal_unit idxs_s depend_blocks blocks_id idx2 unit_cnt) (seq 0 unit_cnt) st)
        (seq 0 (seal_rounds params)) st.

Record seal_state := mkSeal {
  s_file : file;
  s_ids : list (list byte);
  s_log : list Z
}.

(** prover.rs 88-242: body of the loop over blocks. *)
Definition seal_block (idxs_l idxs_s : list (list nat)) (block_cnt : nat)
           (st : seal_state) (idx2 : nat) : res seal_state :=
  let* cur_block := read_block (s_file st) idx2 in
  let* depend_blocks := seal_depend_blocks idxs_l block_cnt (s_file st) (s_ids st) idx2 in
  let* (cur_block', log') :=
    seal_block_rounds idxs_s depend_blocks (s_ids st) idx2 (cur_block, s_log st) in
  let bytes := com_units cur_block' in
  let* ids' := set_index (s_ids st) idx2 (H bytes) in
  Ok (mkSeal (write_at (s_file st) (idx2 * block_pl params) bytes) ids' log').

(** prover.rs 50-245, stopped after [upto] blocks (a crash between two blocks). *)
Definition seal_upto (upto : nat) (f : file) : res seal_state :=
  let* block_cnt := nblocks in
  let blocks_id := repeat [] block_cnt in
  let* idxs_l := seal_idxs_l block_cnt in
  let* idxs_s := seal_idxs_s block_cnt in
  foldM (seal_block idxs_l idxs_s block_cnt) (firstn upto (seq 0 block_cnt)) (mkSeal f blocks_id []).

(** prover.rs 50-245. *)
Definition seal (f : file) : res seal_state :=
  let* block_cnt := nblocks in
  let blocks_id := repeat [] block_cnt in
  let* idxs_l := seal_idxs_l block_cnt in
  let* idxs_s := seal_idxs_s block_cnt in
  foldM (seal_block idxs_l idxs_s block_cnt) (seq 0 block_cnt) (mkSeal f blocks_id []).

(** * Unsealing *)

(** prover.rs 286-293. *)
Definition unseal_idxs_l (block_cnt : nat) : res (list (list nat)) :=
  if negb (mode_l params =? 0)
  then create_long_depend pr block_cnt (cnt_l params) (mode_l params)
  else Ok [].

(** prover.rs 294-301. *)
Definition unseal_idxs_s (block_cnt : nat) : res (list (list nat)) :=
  if negb (mode_s params =? 0)
  then create_short_depend pr block_cnt (cnt_s params) (mode_s params)
  else Ok [].

(** prover.rs 307-320. *)
Definition unseal_before_id (f : file) (idx2 : nat) : list byte :=
  if negb (idx2 =? 0)
  then H (read_file f ((idx2 - 1) * block_pl params) (block_pl params))
  else [].

(** prover.rs 335-394.  With a deterministic mode the loop variable [i] itself is
    used as the block number (line 383), not [idxs_l[idx2][i]]. *)
Definition unseal_depend_blocks (idxs_l : list (list nat)) (block_cnt : nat) (f : file)
           (before_block_id : list byte) (idx2 : nat) : res (list (list (list byte))) :=
  if mode_l params =? 0 then
    let* cur_idxs_l :=
      if idx2 =? 0 then Ok []
      else if cnt_l params =? 0 then
        long_mode_random H block_cnt before_block_id idx2 (idx2 / 10 + 1)
      else
        long_mode_random H block_cnt before_block_id idx2 (cnt_l params) in
    mapM (fun i => let* k := index cur_idxs_l i in read_block f k) (seq 0 (length cur_idxs_l))
  else
    let* row := index idxs_l idx2 in
    mapM (fun i => read_block f i) (seq 0 (length row)).

(** prover.rs 401-437. *)
Definition unseal_depend_data (idxs_s : list (list nat)) (depend_blocks : list (list (list byte)))
           (before_block_id : list byte) (idx2 unit_cnt : nat)
           (cur_block : list (list byte)) (idx1 : nat) : res (list byte) :=
  let* long := foldM (fun acc b => let* u := index b idx1 in Ok (acc ++ u)) depend_blocks [] in
  let* idxs :=
    if negb (mode_s params =? 0) then index idxs_s idx1
    else if idx1 =? 0 then short_depend_random H unit_cnt [] idx1 (cnt_s params)
    else
      let* d := index cur_block (idx1 - 1) in
      short_depend_random H unit_cnt d idx1 (cnt_s params) in
  let* both := foldM (fun acc i => let* u := index cur_block i in Ok (acc ++ u)) idxs long in
  if idx1 =? 0 then
    if idx2 =? 0 then Ok (both ++ iv) else Ok (both ++ before_block_id)
  else Ok both.

(** prover.rs 398-454. *)
Definition unseal_unit (idxs_s : list (list nat)) (depend_blocks : list (list (list byte)))
           (before_block_id : list byte) (idx2 unit_cnt : nat)
           (cur_block : list (list byte)) (j : nat) : res (list (list byte)) :=
  let idx1 := unit_cnt - 1 - j in
  let* depend_data := unseal_depend_data idxs_s depend_blocks before_block_id idx2 unit_cnt cur_block idx1 in
  let depend_data_hash := H depend_data in
  let* cur_unit := index cur_block idx1 in
  let vde_inv_res := vde_inv cur_unit vde_key (vde_rounds params) (vde_mode params) (unit_pl params) in
  let* new_unit := modsub vde_inv_res depend_data_hash vde_key in
  set_index cur_block idx1 new_unit.

(** prover.rs 396-455. *)
Definition unseal_block_rounds (idxs_s : list (list nat)) (depend_blocks : list (list (list byte)))
           (before_block_id : list byte) (idx2 : nat) (cur_block : list (list byte))
  : res (list (list byte)) :=
  let unit_cnt := length cur_block in
  foldM (fun cb _ =>
           foldM (unseal_unit idxs_s depend_blocks before_block_id idx2 unit_cnt) (seq 0 unit_cnt) cb)
        (seq 0 (seal_rounds params)) cur_block.

(** prover.rs 304-469. *)
Definition unseal_block (idxs_l idxs_s : list (list nat)) (block_cnt : nat)
           (f : file) (i : nat) : res file :=
  let idx2 := block_cnt - 1 - i in
  let before_block_id := unseal_before_id f idx2 in
  let* cur_block := read_block f idx2 in
  let* depend_blocks := unseal_depend_blocks idxs_l block_cnt f before_block_id idx2 in
  let* cur_block' := unseal_block_rounds idxs_s depend_blocks before_block_id idx2 cur_block in
  Ok (write_at f (idx2 * block_pl params) (com_units cur_block')).

(** prover.rs 268-472 restricted to the loop iterations [from, from+n): [from = 0]
    with [n < block_cnt] is an interrupted run, [from > 0] a continued one. *)
Definition unseal_range (from n : nat) (f : file) : res file :=
  let* block_cnt := nblocks in
  let* idxs_l := unseal_idxs_l block_cnt in
  let* idxs_s := unseal_idxs_s block_cnt in
  foldM (unseal_block idxs_l idxs_s block_cnt) (firstn n (skipn from (seq 0 block_cnt))) f.

(** prover.rs 268-472. *)
Definition unseal (f : file) : res file :=
  let* block_cnt := nblocks in
  let* idxs_l := unseal_idxs_l block_cnt in
  let* idxs_s := unseal_idxs_s block_cnt in
  foldM (unseal_block idxs_l idxs_s block_cnt) (seq 0 block_cnt) f.
End Prover.
