(** The prover's functions as the caller sees them: they take paths.  The other files of
    the model take the contents of the files; here the paths may name the same file, a
    file may be missing, and what a panicking call leaves behind is part of the result.

    A [place] is a file a path can name: two paths that lead to the same file (the same
    string, a link) are the same place.  Left out: directories and permissions, which
    make open fail for other reasons, and a full disk, for which see Room.v. *)
From Verif Require Import Base Sloth Common Depend Prover Merkle Postorage.
Local Open Scope nat_scope.

Definition place := nat.
Definition disk := place -> option file.
Definition put (d : disk) (p : place) (f : file) : disk := fun q => if q =? p then Some f else d q.
(** What an open file contains. *)
Definition content (d : disk) (p : place) : file := match d p with Some f => f | None => [] end.

(** A call: the disk it leaves and how it ends. *)
Definition call (A : Type) : Type := disk -> disk * res A.
Definition done {A} (a : A) : call A := fun d => (d, Ok a).
Definition pure {A} (r : res A) : call A := fun d => (d, r).
Definition andThen {A B} (c : call A) (k : A -> call B) : call B :=
  fun d => match c d with (d', Ok a) => k a d' | (d', Panic) => (d', Panic) end.
Notation "'do' x <- c ; k" := (andThen c (fun x => k)) (at level 200, x pattern, c at level 100, k at level 200).
Fixpoint loop {A S : Type} (f : S -> A -> call S) (l : list A) (s : S) : call S :=
  match l with
  | [] => done s
  | a :: l' => do s' <- f s a; loop f l' s'
  end.

(** OpenOptions with read (and write): prover.rs 29-32, 51-55, 248-251, 270-274,
    postorage.rs 78-81, merkle_tree.rs 10-13. *)
Definition open_existing (p : place) : call unit :=
  fun d => match d p with Some _ => (d, Ok tt) | None => (d, Panic) end.
(** OpenOptions with create and truncate: prover.rs 34-40, 253-259, verifier.rs 18-24. *)
Definition open_truncate (p : place) : call unit := fun d => (put d p [], Ok tt).
(** OpenOptions with create but without truncate: postorage.rs 67-72. *)
Definition open_create (p : place) : call unit := fun d => (put d p (content d p), Ok tt).
Definition look (p : place) : call file := fun d => (d, Ok (content d p)).
Definition store (p : place) (f : file) : call unit := fun d => (put d p f, Ok tt).
(** write_all on a handle whose cursor is at [pos]. *)
Definition write (p : place) (pos : nat) (buf : list byte) : call unit :=
  fun d => (put d p (write_at (content d p) pos buf), Ok tt).

(** prover.rs 27-48.  The origin is opened first, the new file is emptied, then the
    division by unit_l may panic; the new file's own cursor stands behind what has been
    written. *)
Definition copy_and_pad_at (origin new : place) (data_l unit_l : nat) : call unit :=
  do _ <- open_existing origin;
  do _ <- open_truncate new;
  do block_cnt <- pure (if unit_l =? 0 then Panic else Ok (data_l / unit_l));
  do _ <- loop (fun pos cnt =>
        do f <- look origin;
        let buf := read_file f (cnt * unit_l) unit_l ++ [x00] in
        do _ <- write new pos buf;
        done (pos + length buf)) (seq 0 block_cnt) 0;
  done tt.

(** prover.rs 247-266. *)
Definition copy_and_compress_at (origin new : place) (data_l unit_l unit_pl : nat) : call unit :=
  do _ <- open_existing origin;
  do _ <- open_truncate new;
  do block_cnt <- pure (if unit_l =? 0 then Panic else Ok (data_l / unit_l));
  do _ <- loop (fun pos cnt =>
        do f <- look origin;
        let buf := read_file f (cnt * unit_pl) unit_pl in
        do b <- pure (slice buf 0 unit_l);
        do _ <- write new pos b;
        done (pos + length b)) (seq 0 block_cnt) 0;
  done tt.

(** postorage.rs 64-75. *)
Definition save_data_at (p : place) (vde_key : Z) (iv : list byte) : call unit :=
  do _ <- open_create p;
  do f <- look p;
  store p (save_data f vde_key iv).

(** postorage.rs 77-86. *)
Definition load_data_at (p : place) : call (Z * list byte) :=
  do _ <- open_existing p;
  do f <- look p;
  pure (load_data f).

Section Paths.
Variable H : list byte -> list byte.   (* blake3_hash *)
Variable H2 : list byte -> list byte.  (* Sha256::hash *)
Variable pr : profile.
Variable params : PosPara.

(** prover.rs 50-245.  A block is written back at the end of its iteration, so a panic in
    an iteration leaves the blocks before it sealed. *)
Definition seal_at (path : place) (vde_key : Z) (iv : list byte) : call (list (list byte)) :=
  do _ <- open_existing path;
  do block_cnt <- pure (nblocks params);
  do idxs_l <- pure (seal_idxs_l pr params block_cnt);
  do idxs_s <- pure (seal_idxs_s pr params block_cnt);
  do st <- loop (fun (st : list (list byte) * list Z) idx2 =>
        do f <- look path;
        do st' <- pure (seal_block H params vde_key iv idxs_l idxs_s block_cnt (mkSeal f (fst st) (snd st)) idx2);
        do _ <- store path (s_file st');
        done (s_ids st', s_log st')) (seq 0 block_cnt) (repeat [] block_cnt, []);
  done (fst st).

(** prover.rs 268-472. *)
Definition unseal_at (path : place) (vde_key : Z) (iv : list byte) : call unit :=
  do _ <- open_existing path;
  do block_cnt <- pure (nblocks params);
  do idxs_l <- pure (unseal_idxs_l pr params block_cnt);
  do idxs_s <- pure (unseal_idxs_s pr params block_cnt);
  loop (fun _ i =>
        do f <- look path;
        do f' <- pure (unseal_block H params vde_key iv idxs_l idxs_s block_cnt f i);
        store path f') (seq 0 block_cnt) tt.

(** postorage.rs 118-155; the two result files are left out. *)
Definition seal_and_unseal_at (rnd : nat -> byte) (origin sealed unsealed pub : place) (should_unseal : bool) : call unit :=
  do _ <- copy_and_pad_at origin sealed (data_l params) (unit_l params);
  do (vde_key, iv) <- pure (prepare_params pr (unit_pl params) rnd);
  do _ <- seal_at sealed vde_key iv;
  do _ <- save_data_at pub vde_key iv;
  if should_unseal then
    do _ <- unseal_at sealed vde_key iv;
    copy_and_compress_at sealed unsealed (data_l params) (unit_l params) (unit_pl params)
  else done tt.

(** postorage.rs 179-185, for the challenge list drawn on line 182; generating a tree
    opens the file (merkle_tree.rs 10-13). *)
Definition merkle_tree_proof_at (origin unsealed : place) (indices_to_prove : list nat) : call unit :=
  do _ <- open_existing origin;
  do f <- look origin;
  do (_, _, merkle_root) <- pure (generate_merkle_tree_from_file H2 f (data_l params) (block_l params));
  do _ <- open_existing unsealed;
  do g <- look unsealed;
  do (leaves, tree, _) <- pure (generate_merkle_tree_from_file H2 g (data_l params) (block_l params));
  do proof <- pure (generate_merkle_proof indices_to_prove tree);
  pure (verify_merkle_proof H2 proof merkle_root indices_to_prove leaves).
End Paths.
