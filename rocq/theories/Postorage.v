(** Model of proof_of_storage/src/proof_of_storage/postorage.rs.  Timing and the
    log files are not modelled; paths are the files they name. *)
From Coq Require Import DecimalString Strings.String Strings.Byte.
From Coq Require Import List.
From Verif Require Import Base Sloth Common Depend Prover Verifier Merkle.
Local Open Scope nat_scope.

(** Decimal text of an integer ([Integer::to_string]) and its parser
    ([Integer::from_str]; rug also accepts blanks, underscores and a leading plus,
    which never occur in what save_data writes: the model rejects them). *)
Definition decimal (z : Z) : list byte := list_byte_of_string (NilZero.string_of_int (Z.to_int z)).
Definition undecimal (l : list byte) : res Z :=
  match NilZero.int_of_string (string_of_list_byte l) with
  | Some d => Ok (Z.of_int d)
  | None => Panic
  end.

(** bincode 1.3 with its default configuration: a string or byte vector is its length
    as 8 little-endian bytes followed by the content; a struct is its fields in order;
    trailing bytes of the input are ignored. *)
Fixpoint enc_le (k : nat) (z : Z) : list byte :=
  match k with
  | O => []
  | S k' => z2b z :: enc_le k' (z / 256)
  end.
Definition enc_bytes (l : list byte) : list byte := enc_le 8 (Z.of_nat (length l)) ++ l.
Definition dec_bytes (l : list byte) : res (list byte * list byte) :=
  if length l <? 8 then Panic else
  let len := le2z (firstn 8 l) in
  let rest := skipn 8 l in
  if (Z.of_nat (length rest) <? len)%Z then Panic
  else Ok (firstn (Z.to_nat len) rest, skipn (Z.to_nat len) rest).

(** postorage.rs 57-75: the file is opened without truncation and written from its
    start.  [serialize_into] also fails for lengths of 2^64 and more, which no vector
    has. *)
Definition save_data (f : file) (vde_key : Z) (iv : list byte) : file :=
  write_at f 0 (enc_bytes (decimal vde_key) ++ enc_bytes iv).

(** postorage.rs 57-75 stopped after [k] bytes (a crash): bincode passes its pieces (length,
    text, length, single bytes) to the file in order and without a buffer. *)
Definition save_data_upto (k : nat) (f : file) (vde_key : Z) (iv : list byte) : file :=
  write_at f 0 (firstn k (enc_bytes (decimal vde_key) ++ enc_bytes iv)).

(** postorage.rs 77-86.  A string that is not UTF-8 fails in bincode instead of in
    from_str; both panic. *)
Definition load_data (f : file) : res (Z * list byte) :=
  let* (s, rest) := dec_bytes f in
  let* (iv, _) := dec_bytes rest in
  let* key := undecimal s in
  Ok (key, iv).

(** postorage.rs 88-116; [rnd] supplies the random bytes. *)
Definition prepare_params (pr : profile) (unit_pl : nat) (rnd : nat -> byte) : res (Z * list byte) :=
  let* bits := usz pr (Z.of_nat unit_pl * 8) in
  let vde_key :=
    if (bits =? 512)%Z then P_512
    else if (bits =? 1024)%Z then P_1024
    else if (bits =? 2048)%Z then P_2048
    else P_1024 in
  Ok (vde_key, fold_left (fun v k => v ++ [rnd k]) (seq 0 128) []).

Section Postorage.
Variable H : list byte -> list byte.   (* blake3_hash *)
Variable H2 : list byte -> list byte.  (* Sha256::hash *)
Variable pr : profile.
Variable params : PosPara.

(** postorage.rs 118-155.  [pub] and [unsealed] are the previous contents of these two
    files; the result is the sealed file, the public data, the unsealed file. *)
Definition seal_and_unseal (rnd : nat -> byte) (origin pub unsealed : file) (should_unseal : bool)
  : res (file * file * file) :=
  let* padded := copy_and_pad origin (data_l params) (unit_l params) in
  let* (vde_key, iv) := prepare_params pr (unit_pl params) rnd in
  let* st := seal H pr params vde_key iv padded in
  let pub := save_data pub vde_key iv in
  if should_unseal then
    let* u := unseal H pr params vde_key iv (s_file st) in
    let* c := copy_and_compress u (data_l params) (unit_l params) (unit_pl params) in
    Ok (u, pub, c)
  else Ok (s_file st, pub, unsealed).

(** postorage.rs 157-177 with parallel_num = 0 or more; a relation because the
    parallel run depends on the schedule. *)
Inductive unseal_single_and_verify (pub origin sealed : file) (parallel_num : nat) : res unit -> Prop :=
| USV_panic : (let* _ := load_data pub in
               let* _ := batch_unseal_prepare H pr params sealed (0 * block_pl params) (10 * block_pl params) in Ok tt) = Panic ->
    unseal_single_and_verify pub origin sealed parallel_num Panic
| USV_go : forall vde_key iv blocks_idx blocks before deps out,
    load_data pub = Ok (vde_key, iv) ->
    batch_unseal_prepare H pr params sealed (0 * block_pl params) (10 * block_pl params) = Ok (blocks_idx, blocks, before, deps) ->
    (if parallel_num =? 0
     then out = batch_unseal H pr params vde_key iv blocks_idx before deps blocks
     else batch_unseal_parallel H pr params vde_key iv blocks_idx before deps parallel_num blocks out) ->
    unseal_single_and_verify pub origin sealed parallel_num
      (let* unsealed_blocks := out in
       foldM (fun _ i =>
                let* k := index blocks_idx i in
                let* b := index unsealed_blocks i in
                batch_verify origin k b (block_l params) (unit_l params)) (seq 0 (length blocks_idx)) tt).

(** postorage.rs 179-185, for the challenge list drawn on line 182. *)
Definition merkle_tree_proof (origin unsealed : file) (indices_to_prove : list nat) : res unit :=
  let* (_, _, merkle_root) := generate_merkle_tree_from_file H2 origin (data_l params) (block_l params) in
  let* (leaves, tree, _) := generate_merkle_tree_from_file H2 unsealed (data_l params) (block_l params) in
  let* proof := generate_merkle_proof indices_to_prove tree in
  verify_merkle_proof H2 proof merkle_root indices_to_prove leaves.

(** postorage.rs 349-361 and 376-384: the bytes hashed into a response. *)
Definition response_data (r : byte) (blocks : list (list (list byte))) : list byte :=
  fold_left (fun acc b => fold_left (fun acc u => acc ++ u) b acc) blocks [r].

(** postorage.rs 376-393: what the verifier checks before unsealing. *)
Definition verify_response (response_data_hash_p : list byte) (r : byte) (blocks : list (list (list byte)))
           (proof : list (list byte)) (sealed_root : list byte) (indices : list nat) (sealed_leaves : list (list byte)) : res unit :=
  if list_eq_dec Byte.byte_eq_dec response_data_hash_p (H (response_data r blocks))
  then verify_merkle_proof H2 proof sealed_root indices sealed_leaves
  else Panic.

(** postorage.rs 334-417: one challenge, honest prover.  [leaves], [tree] and [root]
    belong to the tree over the block ids. *)
Definition challenge_prepare (sealed pub : file) (leaves : list (list byte)) (tree : list (list (nat * list byte))) (root : list byte)
           (r : byte) (idx : list nat)
  : res (Z * list byte * list (list (list byte) * list byte * list (list (list byte)))) :=
  let* rs := mapM (single_unseal_prepare H pr params sealed) idx in
  let hash_p := H (response_data r (map (fun x => fst (fst x)) rs)) in
  let* proof := generate_merkle_proof idx tree in
  let* _ := verify_response hash_p r (map (fun x => fst (fst x)) rs) proof root idx leaves in
  let* (vde_key, iv) := load_data pub in
  Ok (vde_key, iv, rs).
Inductive challenge (parallel_num : nat) (origin sealed pub : file) (leaves : list (list byte)) (tree : list (list (nat * list byte)))
          (root : list byte) (r : byte) (idx : list nat) : res unit -> Prop :=
| Ch_panic : challenge_prepare sealed pub leaves tree root r idx = Panic -> challenge parallel_num origin sealed pub leaves tree root r idx Panic
| Ch_go : forall vde_key iv rs out,
    challenge_prepare sealed pub leaves tree root r idx = Ok (vde_key, iv, rs) ->
    (if parallel_num =? 0
     then out = batch_unseal H pr params vde_key iv idx (map (fun x => snd (fst x)) rs) (map snd rs) (map (fun x => fst (fst x)) rs)
     else batch_unseal_parallel H pr params vde_key iv idx (map (fun x => snd (fst x)) rs) (map snd rs) parallel_num (map (fun x => fst (fst x)) rs) out) ->
    challenge parallel_num origin sealed pub leaves tree root r idx
      (let* unsealed_blocks := out in
       foldM (fun _ i =>
                let* k := index idx i in
                let* b := index unsealed_blocks i in
                batch_verify origin k b (block_l params) (unit_l params)) (seq 0 (length idx)) tt).
(** postorage.rs 334-418: all challenges; each is a random byte and the stream of the
    random generator its indices are drawn from. *)
Inductive challenges_run (parallel_num count n : nat) (origin sealed pub : file) (leaves : list (list byte))
          (tree : list (list (nat * list byte))) (root : list byte) : list (byte * (nat -> nat)) -> res unit -> Prop :=
| CR_nil : challenges_run parallel_num count n origin sealed pub leaves tree root [] (Ok tt)
| CR_draw_panic : forall r draw cs fuel, create_challenges fuel count (0, n) draw = Some Panic ->
    challenges_run parallel_num count n origin sealed pub leaves tree root ((r, draw) :: cs) Panic
| CR_panic : forall r draw cs fuel idx, create_challenges fuel count (0, n) draw = Some (Ok idx) ->
    challenge parallel_num origin sealed pub leaves tree root r idx Panic ->
    challenges_run parallel_num count n origin sealed pub leaves tree root ((r, draw) :: cs) Panic
| CR_next : forall r draw cs fuel idx o, create_challenges fuel count (0, n) draw = Some (Ok idx) ->
    challenge parallel_num origin sealed pub leaves tree root r idx (Ok tt) ->
    challenges_run parallel_num count n origin sealed pub leaves tree root cs o ->
    challenges_run parallel_num count n origin sealed pub leaves tree root ((r, draw) :: cs) o.

(** postorage.rs 310-331: everything before the challenges. *)
Definition pipeline_setup (rnd_file rnd_iv : nat -> byte) (pub : file) :=
  let origin := create_random_file rnd_file (data_l params) in
  let* (_, _, origin_root) := generate_merkle_tree_from_file H2 origin (data_l params) (block_l params) in
  let* padded := copy_and_pad origin (data_l params) (unit_l params) in
  let* (vde_key, iv) := prepare_params pr (unit_pl params) rnd_iv in
  let* st := seal H pr params vde_key iv padded in
  let pub := save_data pub vde_key iv in
  let* (leaves, tree, root) := generate_merkle_tree_from_data H2 (s_ids st) in
  Ok (origin, origin_root, vde_key, iv, st, pub, (leaves, tree, root)).
(** postorage.rs 420-428: everything after the challenges. *)
Definition pipeline_finish (origin_root : list byte) (vde_key : Z) (iv : list byte) (sealed : file) : res unit :=
  let* u := unseal H pr params vde_key iv sealed in
  let* c := copy_and_compress u (data_l params) (unit_l params) (unit_pl params) in
  let* (_, _, unsealed_root) := generate_merkle_tree_from_file H2 c (data_l params) (block_l params) in
  if list_eq_dec Byte.byte_eq_dec origin_root unsealed_root then Ok tt else Panic.
(** postorage.rs 274-429, for any parameter set, thread count, number of indices per
    challenge and list of challenges (the test uses gen_posdata(16), 10, 10 and 10).
    [challenges / 0] panics when block_l = 0, inside the setup already. *)
Inductive pipeline (parallel_num count : nat) (rnd_file rnd_iv : nat -> byte) (pub : file) (cs : list (byte * (nat -> nat))) : res unit -> Prop :=
| P_setup : pipeline_setup rnd_file rnd_iv pub = Panic -> pipeline parallel_num count rnd_file rnd_iv pub cs Panic
| P_run : forall origin origin_root vde_key iv st pub' leaves tree root o,
    pipeline_setup rnd_file rnd_iv pub = Ok (origin, origin_root, vde_key, iv, st, pub', (leaves, tree, root)) ->
    challenges_run parallel_num count (data_l params / block_l params) origin (s_file st) pub' leaves tree root cs o ->
    pipeline parallel_num count rnd_file rnd_iv pub cs (let* _ := o in pipeline_finish origin_root vde_key iv (s_file st)).
End Postorage.
