(** The two result files of the proof of storage: what test_postorage, seal_and_unseal and
    test_pipeline append to them.  Both files are opened with append(true) and
    create(true) (postorage.rs 209-225, 295-301), so every write goes to the end.  Times
    are arbitrary texts. *)
From Coq Require Import Strings.String Strings.Byte.
From Coq Require Import List.
From Verif Require Import Base Sloth Common Depend Prover Verifier Merkle Postorage Driver.
Local Open Scope nat_scope.

Definition txt (s : string) : list byte := list_byte_of_string s.
Definition newline : list byte := [x0a].
(** usize::to_string. *)
Definition num (n : nat) : list byte := decimal (Z.of_nat n).
(** usize division. *)
Definition quot (a b : nat) : res nat := if b =? 0 then Panic else Ok (a / b).

(** What seal or unseal returns about its cost, printed: the whole, then vde, file, depend,
    hash, block and modadd or modsub (prover.rs 244, 471). *)
Record costs := mkCosts {
  t_all : list byte;
  t_vde : list byte;
  t_file : list byte;
  t_depend : list byte;
  t_hash : list byte;
  t_block : list byte;
  t_mod : list byte
}.

(** The contents of the run file and of the statistics file. *)
Definition reports : Type := file * file.

Section Driver_reports.
Variable params : PosPara.

(** postorage.rs 229-231: the first line, then two lines with two divisions in the first of
    them; [fst] is the text written before a panic. *)
Definition samples_line : list byte := txt "-- SAMPLES, " ++ num 1 ++ newline ++ newline.
Definition lengths_line : res (list byte) :=
  let* n := quot (data_l params) (block_l params) in
  let* m := quot (block_l params) (unit_l params) in
  Ok (txt "(byte) data len, " ++ num (data_l params) ++ txt ", block len, " ++ num (block_l params) ++ txt ", block count, " ++ num n
      ++ txt ", unit len, " ++ num (unit_l params) ++ txt ", unit count, " ++ num m ++ newline).
Definition rounds_line : list byte :=
  txt "seal round, " ++ num (seal_rounds params) ++ txt ", vde rounds, " ++ num (vde_rounds params) ++ txt ", mode l, " ++ num (mode_l params)
  ++ txt ", cnt l, " ++ num (cnt_l params) ++ txt ", mode s, " ++ num (mode_s params) ++ txt ", cnt s, " ++ num (cnt_s params) ++ newline ++ newline.
(** postorage.rs 228-232. *)
Definition header (should_save : bool) (r : reports) : reports * res unit :=
  if should_save then
    let r := (fst r ++ samples_line, snd r) in
    match lengths_line with
    | Panic => (r, Panic)
    | Ok l => ((fst r ++ l ++ rounds_line, snd r), Ok tt)
    end
  else (r, Ok tt).

(** postorage.rs 140-143. *)
Definition cost_lines (s u : costs) : list byte :=
  txt "[P] Seal, " ++ t_all s ++ newline ++
  txt "vde, " ++ t_vde s ++ txt ", file, " ++ t_file s ++ txt ", depend, " ++ t_depend s ++ txt ", hash, " ++ t_hash s ++ txt ", block, " ++ t_block s ++ txt ", modadd, " ++ t_mod s ++ newline ++
  txt "[P] Unseal, " ++ t_all u ++ newline ++
  txt "vde inv, " ++ t_vde u ++ txt ", file, " ++ t_file u ++ txt ", depend, " ++ t_depend u ++ txt ", hash, " ++ t_hash u ++ txt ", block, " ++ t_block u ++ txt ", modsub, " ++ t_mod u ++ newline ++ newline.
(** postorage.rs 145-152. *)
Definition comma : list byte := txt ", ".
Definition stat_line (s u : costs) : res (list byte) :=
  let* n := quot (data_l params) (block_l params) in
  let* m := quot (block_l params) (unit_l params) in
  Ok (num (data_l params) ++ comma ++ num (block_l params) ++ comma ++ num n ++ comma ++ num (unit_l params) ++ comma ++ num m ++ comma ++
      num (seal_rounds params) ++ comma ++ txt (vde_mode params) ++ comma ++ num (mode_l params) ++ comma ++ num (cnt_l params) ++ comma ++ num (mode_s params) ++ comma ++ num (cnt_s params) ++ comma ++
      t_all s ++ comma ++ t_vde s ++ comma ++ t_file s ++ comma ++ t_depend s ++ comma ++ t_hash s ++ comma ++ t_block s ++ comma ++ t_mod s ++ comma ++
      t_all u ++ comma ++ t_vde u ++ comma ++ t_file u ++ comma ++ t_depend u ++ comma ++ t_hash u ++ comma ++ t_block u ++ comma ++ t_mod u ++ txt "," ++ newline).
(** postorage.rs 131-154, the part that writes results; it runs at the end of
    seal_and_unseal. *)
Definition costs_step (should_save : bool) (c : run_cfg) (s u : costs) (r : reports) : reports * res unit :=
  if r_seal c && r_unseal c && should_save then
    let r := (fst r ++ cost_lines s u, snd r) in
    match stat_line s u with
    | Panic => (r, Panic)
    | Ok l => ((fst r, snd r ++ l), Ok tt)
    end
  else (r, Ok tt).

Variable H : list byte -> list byte.   (* blake3_hash *)
Variable H2 : list byte -> list byte.  (* Sha256::hash *)
Variable pr : profile.
(** postorage.rs 187-249 with should_save_run_data. *)
Inductive test_postorage_saving (should_save : bool) (s u : costs) (c : run_cfg) (d : disk) (r : reports) : reports -> res disk -> Prop :=
| TS_header : forall r1, header should_save r = (r1, Panic) -> test_postorage_saving should_save s u c d r r1 Panic
| TS_seal_panic : forall r1, header should_save r = (r1, Ok tt) -> seal_step H pr params c d = Panic -> test_postorage_saving should_save s u c d r r1 Panic
| TS_costs_panic : forall r1 r2 d1, header should_save r = (r1, Ok tt) -> seal_step H pr params c d = Ok d1 ->
    costs_step should_save c s u r1 = (r2, Panic) -> test_postorage_saving should_save s u c d r r2 Panic
| TS_single_panic : forall r1 r2 d1, header should_save r = (r1, Ok tt) -> seal_step H pr params c d = Ok d1 ->
    costs_step should_save c s u r1 = (r2, Ok tt) -> single_step H pr params c d1 Panic -> test_postorage_saving should_save s u c d r r2 Panic
| TS_end : forall r1 r2 d1 o, header should_save r = (r1, Ok tt) -> seal_step H pr params c d = Ok d1 ->
    costs_step should_save c s u r1 = (r2, Ok tt) -> single_step H pr params c d1 (Ok tt) -> leaves_step H2 params c d1 o ->
    test_postorage_saving should_save s u c d r r2 (let* _ := o in Ok d1).

(** Runs one after the other that end well, with their parameters fixed; each has its own
    flag and measures its own times. *)
Inductive saving_history : disk * reports -> list (bool * costs * costs * run_cfg) -> disk * reports -> Prop :=
| SH_nil : forall dr, saving_history dr [] dr
| SH_cons : forall d r save s u c d1 r1 l dr, test_postorage_saving save s u c d r r1 (Ok d1) -> saving_history (d1, r1) l dr ->
    saving_history (d, r) ((save, s, u, c) :: l) dr.
End Driver_reports.

(** * The record of test_pipeline *)

(** The lines of postorage.rs 325, 332, 338, 342, 348, 369, 377, 391, 396, 409, 416, 422
    and 428. *)
Inductive stage :=
| Origin_tree | Sealing | Sealed_tree
| Challenge (i : nat) | Create | Response_1 | Response_2 | Verify_hash | Verify_path | Batch_unseal | Batch_verify
| Complete_unseal | Verify_tree.
(** The text of a line; [t] is the time, [v] the time spent in the delay function, which
    only two of the lines give. *)
Definition line (s : stage) (t v : list byte) : list byte :=
  match s with
  | Origin_tree => txt "[V] Generate origin merkle tree: " ++ t ++ newline
  | Sealing => txt "[P] Seal: " ++ t ++ txt ", Vde: " ++ v ++ newline
  | Sealed_tree => txt "[P] Generate sealed merkle tree: " ++ t ++ newline
  | Challenge i => newline ++ txt "-- CHALLENGE " ++ num i ++ txt " --" ++ newline ++ newline
  | Create => txt "[V] Create challenges: " ++ t ++ newline
  | Response_1 => txt "[P] Response 1 (hash): " ++ t ++ newline
  | Response_2 => txt "[P] Response 2 (create merkle proof): " ++ t ++ newline
  | Verify_hash => txt "[V] Verify hash: " ++ t ++ newline
  | Verify_path => txt "[V] Verify path: " ++ t ++ newline
  | Batch_unseal => txt "[V] Batch unseal: " ++ t ++ newline
  | Batch_verify => txt "[V] Batch verify: " ++ t ++ newline
  | Complete_unseal => newline ++ txt "[V] Complete unseal: " ++ t ++ txt ", Vde: " ++ v ++ newline
  | Verify_tree => txt "[V] Verify unsealed merkle tree: " ++ t ++ newline ++ newline ++ newline ++ newline
  end.
(** The text appended for a list of lines with their times. *)
Definition record (l : list (stage * list byte * list byte)) : list byte := concat (map (fun x => line (fst (fst x)) (snd (fst x)) (snd x)) l).

(** A computation, then its line, then the rest; a panic writes nothing more. *)
Definition wrote {A B} (c : res A) (s : stage) (k : A -> list stage * res B) : list stage * res B :=
  match c with
  | Ok a => let (l, o) := k a in (s :: l, o)
  | Panic => ([], Panic)
  end.

Section Pipeline_record.
Variable H : list byte -> list byte.   (* blake3_hash *)
Variable H2 : list byte -> list byte.  (* Sha256::hash *)
Variable pr : profile.
Variable params : PosPara.

(** postorage.rs 350-396. *)
Definition challenge_checks (sealed : file) (leaves : list (list byte)) (tree : list (list (nat * list byte))) (root : list byte)
           (r : byte) (idx : list nat) :=
  wrote (mapM (single_unseal_prepare H pr params sealed) idx) Response_1 (fun rs =>
  let response_data_hash_p := H (response_data r (map (fun x => fst (fst x)) rs)) in
  wrote (generate_merkle_proof idx tree) Response_2 (fun proof =>
  let response_data_hash_v := H (response_data r (map (fun x => fst (fst x)) rs)) in
  wrote (if list_eq_dec Byte.byte_eq_dec response_data_hash_p response_data_hash_v then Ok tt else Panic) Verify_hash (fun _ =>
  wrote (verify_merkle_proof H2 proof root idx leaves) Verify_path (fun _ => ([], Ok rs))))).
(** postorage.rs 350-416. *)
Inductive challenge_logged (parallel_num : nat) (origin sealed pub : file) (leaves : list (list byte)) (tree : list (list (nat * list byte)))
          (root : list byte) (r : byte) (idx : list nat) : list stage -> res unit -> Prop :=
| CL_checks : forall l, challenge_checks sealed leaves tree root r idx = (l, Panic) ->
    challenge_logged parallel_num origin sealed pub leaves tree root r idx l Panic
| CL_load : forall l rs, challenge_checks sealed leaves tree root r idx = (l, Ok rs) -> load_data pub = Panic ->
    challenge_logged parallel_num origin sealed pub leaves tree root r idx l Panic
| CL_go : forall l rs vde_key iv out l2 o,
    challenge_checks sealed leaves tree root r idx = (l, Ok rs) -> load_data pub = Ok (vde_key, iv) ->
    (if parallel_num =? 0
     then out = batch_unseal H pr params vde_key iv idx (map (fun x => snd (fst x)) rs) (map snd rs) (map (fun x => fst (fst x)) rs)
     else batch_unseal_parallel H pr params vde_key iv idx (map (fun x => snd (fst x)) rs) (map snd rs) parallel_num (map (fun x => fst (fst x)) rs) out) ->
    wrote out Batch_unseal (fun unsealed_blocks =>
      wrote (foldM (fun _ i =>
                let* k := index idx i in
                let* b := index unsealed_blocks i in
                batch_verify origin k b (block_l params) (unit_l params)) (seq 0 (length idx)) tt) Batch_verify (fun _ => ([], Ok tt))) = (l2, o) ->
    challenge_logged parallel_num origin sealed pub leaves tree root r idx (l ++ l2) o.
(** postorage.rs 341-417, from challenge number [i] on. *)
Inductive challenges_logged (parallel_num count n : nat) (origin sealed pub : file) (leaves : list (list byte))
          (tree : list (list (nat * list byte))) (root : list byte) : nat -> list (byte * (nat -> nat)) -> list stage -> res unit -> Prop :=
| CsL_nil : forall i, challenges_logged parallel_num count n origin sealed pub leaves tree root i [] [] (Ok tt)
| CsL_draw_panic : forall i r draw cs fuel, create_challenges fuel count (0, n) draw = Some Panic ->
    challenges_logged parallel_num count n origin sealed pub leaves tree root i ((r, draw) :: cs) [Challenge i] Panic
| CsL_panic : forall i r draw cs fuel idx l, create_challenges fuel count (0, n) draw = Some (Ok idx) ->
    challenge_logged parallel_num origin sealed pub leaves tree root r idx l Panic ->
    challenges_logged parallel_num count n origin sealed pub leaves tree root i ((r, draw) :: cs) (Challenge i :: Create :: l) Panic
| CsL_next : forall i r draw cs fuel idx l ls o, create_challenges fuel count (0, n) draw = Some (Ok idx) ->
    challenge_logged parallel_num origin sealed pub leaves tree root r idx l (Ok tt) ->
    challenges_logged parallel_num count n origin sealed pub leaves tree root (S i) cs ls o ->
    challenges_logged parallel_num count n origin sealed pub leaves tree root i ((r, draw) :: cs) (Challenge i :: Create :: l ++ ls) o.
(** postorage.rs 320-338. *)
Definition setup_logged (rnd_file rnd_iv : nat -> byte) (pub : file) :=
  let origin := create_random_file rnd_file (data_l params) in
  wrote (generate_merkle_tree_from_file H2 origin (data_l params) (block_l params)) Origin_tree (fun '(_, _, origin_root) =>
  wrote (let* padded := copy_and_pad origin (data_l params) (unit_l params) in
         let* (vde_key, iv) := prepare_params pr (unit_pl params) rnd_iv in
         let* st := seal H pr params vde_key iv padded in
         Ok (vde_key, iv, st)) Sealing (fun '(vde_key, iv, st) =>
  let pub := save_data pub vde_key iv in
  wrote (generate_merkle_tree_from_data H2 (s_ids st)) Sealed_tree (fun t =>
  ([], Ok (origin, origin_root, vde_key, iv, st, pub, t))))).
(** postorage.rs 420-428. *)
Definition finish_logged (origin_root : list byte) (vde_key : Z) (iv : list byte) (sealed : file) : list stage * res unit :=
  wrote (unseal H pr params vde_key iv sealed) Complete_unseal (fun u =>
  wrote (let* c := copy_and_compress u (data_l params) (unit_l params) (unit_pl params) in
         let* (_, _, unsealed_root) := generate_merkle_tree_from_file H2 c (data_l params) (block_l params) in
         if list_eq_dec Byte.byte_eq_dec origin_root unsealed_root then Ok tt else Panic) Verify_tree (fun _ => ([], Ok tt))).
(** postorage.rs 274-429: the lines appended to the run file, and how the run ends. *)
Inductive pipeline_logged (parallel_num count : nat) (rnd_file rnd_iv : nat -> byte) (pub : file) (cs : list (byte * (nat -> nat))) : list stage -> res unit -> Prop :=
| PL_setup : forall l, setup_logged rnd_file rnd_iv pub = (l, Panic) -> pipeline_logged parallel_num count rnd_file rnd_iv pub cs l Panic
| PL_challenges : forall l origin origin_root vde_key iv st pub' leaves tree root ls,
    setup_logged rnd_file rnd_iv pub = (l, Ok (origin, origin_root, vde_key, iv, st, pub', (leaves, tree, root))) ->
    challenges_logged parallel_num count (data_l params / block_l params) origin (s_file st) pub' leaves tree root 0 cs ls Panic ->
    pipeline_logged parallel_num count rnd_file rnd_iv pub cs (l ++ ls) Panic
| PL_end : forall l origin origin_root vde_key iv st pub' leaves tree root ls lf o,
    setup_logged rnd_file rnd_iv pub = (l, Ok (origin, origin_root, vde_key, iv, st, pub', (leaves, tree, root))) ->
    challenges_logged parallel_num count (data_l params / block_l params) origin (s_file st) pub' leaves tree root 0 cs ls (Ok tt) ->
    finish_logged origin_root vde_key iv (s_file st) = (lf, o) ->
    pipeline_logged parallel_num count rnd_file rnd_iv pub cs (l ++ ls ++ lf) o.
End Pipeline_record.
