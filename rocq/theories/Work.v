(** The work done by the delay function: the code of rug_sloth.rs, prover.rs and
    verifier.rs once more, with a record of what it hands to the expensive operations.
    Apart from the record these definitions are those of Legendre.v, Sloth.v, Prover.v and
    Verifier.v, as theorem C106_same shows. *)
From Verif Require Import Base Legendre Sloth Common Depend Prover Verifier.
From Coq Require Import Zpow_facts.
Local Open Scope nat_scope.

(** rug_sloth.rs 13-55, with the number of calls (the depth of the recursion) and the
    number of halvings (lines 24-27) over all calls. *)
Fixpoint legendre_w (fuel : nat) (x p : Z) : option (Z * nat * nat) :=
  match fuel with
  | O => None
  | S fuel' =>
      if (x =? 0)%Z then Some (0%Z, 1, 0)
      else if (x =? 1)%Z then Some (1%Z, 1, 0)
      else match strip2 (Z.to_nat (Z.log2 (Z.abs x)) + 2) x 0 with
           | None => None
           | Some (x', e) =>
               let s := level_sign x' e p in
               let p1 := Z.rem p x' in
               if (x' =? 1)%Z then Some (s, 1, Z.to_nat e)
               else match legendre_w fuel' p1 x' with
                    | None => None
                    | Some (v, c, h) => Some ((s * v)%Z, c + 1, h + Z.to_nat e)
                    end
           end
  end.

(** rug_sloth.rs 64-88 and 90-96, with the exponents given to pow_mod. *)
Definition single_sloth_w (x p : Z) : Z * list Z := (single_sloth x p, [Z.quot (p + 1) 4]).
Fixpoint sloth_w (y p : Z) (t : nat) : Z * list Z :=
  match t with
  | O => (y, [])
  | S t' => let (y', e) := single_sloth_w y p in let (r, es) := sloth_w y' p t' in (r, e ++ es)
  end.

(** rug_sloth.rs 98-113 and 115-121, with the exponents given to pow_mod. *)
Definition single_sloth_inv_w (y p : Z) : Z * list Z := (single_sloth_inv y p, [2%Z]).
Fixpoint sloth_inv_w (y p : Z) (t : nat) : Z * list Z :=
  match t with
  | O => (y, [])
  | S t' => let (x, e) := single_sloth_inv_w y p in let (r, es) := sloth_inv_w x p t' in (r, e ++ es)
  end.

(** compare_modpow.rs 16-27, with the number of modular multiplications (lines 20, 24). *)
Fixpoint fast_modpow_w (fuel : nat) (x t p r : Z) : option (Z * nat) :=
  match fuel with
  | O => None
  | S fuel' =>
      if (0 <? t)%Z then
        let r' := if (Z.land t 1 =? 1)%Z then Z.rem (r * x) p else r in
        let c := if (Z.land t 1 =? 1)%Z then 2 else 1 in
        match fast_modpow_w fuel' (Z.rem (x * x) p) (Z.quot t 2) p r' with
        | None => None
        | Some (v, c') => Some (v, c + c')
        end
      else Some (r, 0)
  end.

Section Work.
Variable H : list byte -> list byte.
Variable pr : profile.
Variable params : PosPara.
Variable vde_key : Z.
Variable iv : list byte.

(** prover.rs 398-454, with the integers handed to vde_inv, most recent first. *)
Definition unseal_unit_w (idxs_s : list (list nat)) (depend_blocks : list (list (list byte)))
           (before_block_id : list byte) (idx2 unit_cnt : nat)
           (st : unit_state) (j : nat) : res unit_state :=
  let (cur_block, log) := st in
  let idx1 := unit_cnt - 1 - j in
  let* depend_data := unseal_depend_data H params iv idxs_s depend_blocks before_block_id idx2 unit_cnt cur_block idx1 in
  let depend_data_hash := H depend_data in
  let* cur_unit := index cur_block idx1 in
  let vde_inv_res := vde_inv cur_unit vde_key (vde_rounds params) (vde_mode params) (unit_pl params) in
  let* new_unit := modsub vde_inv_res depend_data_hash vde_key in
  let* cur_block' := set_index cur_block idx1 new_unit in
  Ok (cur_block', le2z cur_unit :: log).

(** prover.rs 396-455. *)
Definition unseal_block_rounds_w (idxs_s : list (list nat)) (depend_blocks : list (list (list byte)))
           (before_block_id : list byte) (idx2 : nat) (st : unit_state) : res unit_state :=
  let unit_cnt := length (fst st) in
  foldM (fun st _ =>
           foldM (unseal_unit_w idxs_s depend_blocks before_block_id idx2 unit_cnt) (seq 0 unit_cnt) st)
        (seq 0 (seal_rounds params)) st.

(** prover.rs 304-469. *)
Definition unseal_block_w (idxs_l idxs_s : list (list nat)) (block_cnt : nat)
           (st : file * list Z) (i : nat) : res (file * list Z) :=
  let (f, log) := st in
  let idx2 := block_cnt - 1 - i in
  let before_block_id := unseal_before_id H params f idx2 in
  let* cur_block := read_block params f idx2 in
  let* depend_blocks := unseal_depend_blocks H params idxs_l block_cnt f before_block_id idx2 in
  let* (cur_block', log') := unseal_block_rounds_w idxs_s depend_blocks before_block_id idx2 (cur_block, log) in
  Ok (write_at f (idx2 * block_pl params) (com_units cur_block'), log').

(** prover.rs 268-472. *)
Definition unseal_w (f : file) : res (file * list Z) :=
  let* block_cnt := nblocks params in
  let* idxs_l := unseal_idxs_l pr params block_cnt in
  let* idxs_s := unseal_idxs_s pr params block_cnt in
  foldM (unseal_block_w idxs_l idxs_s block_cnt) (seq 0 block_cnt) (f, []).

Variable blocks_idx : list nat.
Variable before_block_ids : list (list byte).
Variable depend_blocks : list (list (list (list byte))).

(** verifier.rs 328-372. *)
Definition bu_unit_w (idxs_s : list (list nat)) (i idx2 unit_cnt : nat) (st : unit_state) (j : nat) : res unit_state :=
  let (cur_block, log) := st in
  let idx1 := unit_cnt - 1 - j in
  let* depend_data := bu_depend_data H params iv before_block_ids depend_blocks idxs_s i idx2 unit_cnt cur_block idx1 in
  let depend_data_hash := H depend_data in
  let* cur_unit := index cur_block idx1 in
  let vde_inv_res := vde_inv cur_unit vde_key (vde_rounds params) (vde_mode params) (unit_pl params) in
  let* new_unit := modsub vde_inv_res depend_data_hash vde_key in
  let* cur_block' := set_index cur_block idx1 new_unit in
  Ok (cur_block', le2z cur_unit :: log).

(** verifier.rs 320-375. *)
Definition bu_block_w (idxs_s : list (list nat)) (st : list (list (list byte)) * list Z) (i : nat)
  : res (list (list (list byte)) * list Z) :=
  let (blocks, log) := st in
  let* idx2 := index blocks_idx i in
  let* cur_block := index blocks i in
  let unit_cnt := length cur_block in
  let* (cur_block', log') :=
    foldM (fun st _ => foldM (bu_unit_w idxs_s i idx2 unit_cnt) (seq 0 unit_cnt) st)
          (seq 0 (seal_rounds params)) (cur_block, log) in
  let* blocks' := set_index blocks i cur_block' in
  Ok (blocks', log').

(** verifier.rs 308-377. *)
Definition batch_unseal_w (blocks : list (list (list byte))) : res (list (list (list byte)) * list Z) :=
  let* idxs_s := bu_idxs_s pr params in
  foldM (bu_block_w idxs_s) (seq 0 (length blocks)) (blocks, []).

(** verifier.rs 379-472: the steps of the thread pool (Verifier.v, [step]) labelled with the
    number of units finished, each of which calls vde_inv once (line 461). *)
Inductive step_w (threads : nat) (idxs_s : list (list nat)) : nat -> pool -> pool -> Prop :=
| sw_start bs js i idx2 cur :
    nth_error js i = Some Waiting ->
    (forall k, k < i -> nth_error js k <> Some Waiting) ->
    length (filter is_running js) < threads ->
    index blocks_idx i = Ok idx2 -> index bs i = Ok cur ->
    step_w threads idxs_s 0 (mkPool bs js)
         (mkPool bs (upd js i (Running idx2 (length cur)
            (concat (repeat (seq 0 (length cur)) (seal_rounds params))) cur)))
| sw_start_panic bs js i :
    nth_error js i = Some Waiting ->
    (forall k, k < i -> nth_error js k <> Some Waiting) ->
    length (filter is_running js) < threads ->
    index blocks_idx i = Panic ->
    step_w threads idxs_s 0 (mkPool bs js) (mkPool bs (upd js i Dead))
| sw_work bs js i idx2 n j todo cur cur' :
    nth_error js i = Some (Running idx2 n (j :: todo) cur) ->
    bp_unit H params vde_key iv before_block_ids depend_blocks idxs_s i idx2 n cur j = Ok cur' ->
    step_w threads idxs_s 1 (mkPool bs js) (mkPool bs (upd js i (Running idx2 n todo cur')))
| sw_panic bs js i idx2 n j todo cur :
    nth_error js i = Some (Running idx2 n (j :: todo) cur) ->
    bp_unit H params vde_key iv before_block_ids depend_blocks idxs_s i idx2 n cur j = Panic ->
    step_w threads idxs_s 0 (mkPool bs js) (mkPool bs (upd js i Dead))
| sw_finish bs js i idx2 n cur :
    nth_error js i = Some (Running idx2 n [] cur) ->
    step_w threads idxs_s 0 (mkPool bs js) (mkPool (upd bs i cur) (upd js i Done)).

(** Schedules with the number of units finished. *)
Inductive steps_w (threads : nat) (idxs_s : list (list nat)) : nat -> pool -> pool -> Prop :=
| sws_refl p : steps_w threads idxs_s 0 p p
| sws_cons a b p q r : step_w threads idxs_s a p q -> steps_w threads idxs_s b q r -> steps_w threads idxs_s (a + b) p r.
End Work.
