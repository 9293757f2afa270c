(** Runs side by side: several processes (or threads of one caller) at work on the same
    disk at the same time.  A run is a tree of single accesses to files, and a schedule
    picks which run makes its next access.  The calls are those of Paths.v, access by
    access.  Simplified: one read, and one write of a piece, is one access (a file system
    may split long ones); the verdicts of opening are those of Paths.v; nothing locks a
    file, and no file is deleted. *)
From Verif Require Import Base Sloth Common Depend Prover Postorage Paths.
Local Open Scope nat_scope.

(** What is left of a run: nothing, an access that looks at a file, or one that changes it. *)
Inductive proc (A : Type) : Type :=
| Halt (r : res A)
| See (p : place) (k : option file -> proc A)
| Change (p : place) (w : option file -> file) (next : proc A).
Arguments Halt {A} r. Arguments See {A} p k. Arguments Change {A} p w next.

Fixpoint next {A B} (m : proc A) (k : A -> proc B) : proc B :=
  match m with
  | Halt (Ok a) => k a
  | Halt Panic => Halt Panic
  | See p c => See p (fun f => next (c f) k)
  | Change p w m' => Change p w (next m' k)
  end.
Notation "'go' x <- c ; k" := (next c (fun x => k)) (at level 200, x pattern, c at level 100, k at level 200).
Definition calc {A} (r : res A) : proc A := Halt r.
Fixpoint each {A S : Type} (f : S -> A -> proc S) (l : list A) (s : S) : proc S :=
  match l with
  | [] => calc (Ok s)
  | a :: l' => go s' <- f s a; each f l' s'
  end.
Fixpoint all {A B : Type} (f : A -> proc B) (l : list A) : proc (list B) :=
  match l with
  | [] => calc (Ok [])
  | a :: l' => go b <- f a; go bs <- all f l'; calc (Ok (b :: bs))
  end.

(** * Accesses *)
Definition data (c : option file) : file := match c with Some f => f | None => [] end.
(** As open_existing, open_truncate, open_create and write in Paths.v. *)
Definition p_existing (p : place) : proc unit := See p (fun c => match c with Some _ => Halt (Ok tt) | None => Halt Panic end).
Definition p_truncate (p : place) : proc unit := Change p (fun _ => []) (Halt (Ok tt)).
Definition p_create (p : place) : proc unit := Change p data (Halt (Ok tt)).
Definition p_write (p : place) (pos : nat) (buf : list byte) : proc unit := Change p (fun c => write_at (data c) pos buf) (Halt (Ok tt)).
(** common.rs 78-84. *)
Definition p_read (p : place) (begin_idx len : nat) : proc (list byte) := See p (fun c => Halt (Ok (read_file (data c) begin_idx len))).

(** * The calls *)
(** prover.rs 27-48. *)
Definition pad_p (origin new : place) (data_l unit_l : nat) : proc unit :=
  go _ <- p_existing origin;
  go _ <- p_truncate new;
  go block_cnt <- calc (if unit_l =? 0 then Panic else Ok (data_l / unit_l));
  go _ <- each (fun pos cnt =>
        go b <- p_read origin (cnt * unit_l) unit_l;
        let buf := b ++ [x00] in
        go _ <- p_write new pos buf;
        calc (Ok (pos + length buf))) (seq 0 block_cnt) 0;
  calc (Ok tt).
(** prover.rs 247-266. *)
Definition compress_p (origin new : place) (data_l unit_l unit_pl : nat) : proc unit :=
  go _ <- p_existing origin;
  go _ <- p_truncate new;
  go block_cnt <- calc (if unit_l =? 0 then Panic else Ok (data_l / unit_l));
  go _ <- each (fun pos cnt =>
        go buf <- p_read origin (cnt * unit_pl) unit_pl;
        go b <- calc (slice buf 0 unit_l);
        go _ <- p_write new pos b;
        calc (Ok (pos + length b))) (seq 0 block_cnt) 0;
  calc (Ok tt).

(** postorage.rs 64-75: serialize_into writes to the file without a buffer: the length of
    the key, the key, the length of the iv, and the iv byte by byte (bincode). *)
Fixpoint pieces_p (p : place) (pos : nat) (pieces : list (list byte)) : proc unit :=
  match pieces with
  | [] => calc (Ok tt)
  | b :: l => go _ <- p_write p pos b; pieces_p p (pos + length b) l
  end.
Definition pub_pieces (vde_key : Z) (iv : list byte) : list (list byte) :=
  firstn 8 (enc_bytes (decimal vde_key)) :: skipn 8 (enc_bytes (decimal vde_key)) :: firstn 8 (enc_bytes iv) :: map (fun b => [b]) (skipn 8 (enc_bytes iv)).
Definition save_p (p : place) (vde_key : Z) (iv : list byte) : proc unit :=
  go _ <- p_create p;
  pieces_p p 0 (pub_pieces vde_key iv).

Section Side.
Variable H : list byte -> list byte.   (* blake3_hash *)
Variable pr : profile.
Variable params : PosPara.

(** prover.rs 91-95, 138-142, 151-155. *)
Definition read_block_p (path : place) (idx : nat) : proc (list (list byte)) :=
  go b <- p_read path (idx * block_pl params) (block_pl params);
  calc (to_units b (unit_pl params)).
(** prover.rs 103-162. *)
Definition seal_depend_p (path : place) (idxs_l : list (list nat)) (block_cnt : nat) (blocks_id : list (list byte)) (idx2 : nat)
  : proc (list (list (list byte))) :=
  go l <- calc (if mode_l params =? 0 then
      if idx2 =? 0 then Ok []
      else let* d := index blocks_id (idx2 - 1) in
           long_mode_random H block_cnt d idx2 (if cnt_l params =? 0 then idx2 / 10 + 1 else cnt_l params)
    else index idxs_l idx2);
  all (read_block_p path) l.
(** prover.rs 50-245. *)
Definition seal_p (path : place) (vde_key : Z) (iv : list byte) : proc (list (list byte)) :=
  go _ <- p_existing path;
  go block_cnt <- calc (nblocks params);
  go idxs_l <- calc (seal_idxs_l pr params block_cnt);
  go idxs_s <- calc (seal_idxs_s pr params block_cnt);
  go st <- each (fun (st : list (list byte) * list Z) idx2 =>
        go cur_block <- read_block_p path idx2;
        go depend_blocks <- seal_depend_p path idxs_l block_cnt (fst st) idx2;
        go (cur_block', log') <- calc (seal_block_rounds H params vde_key iv idxs_s depend_blocks (fst st) idx2 (cur_block, snd st));
        go ids' <- calc (set_index (fst st) idx2 (H (com_units cur_block')));
        go _ <- p_write path (idx2 * block_pl params) (com_units cur_block');
        calc (Ok (ids', log'))) (seq 0 block_cnt) (repeat [] block_cnt, []);
  calc (Ok (fst st)).

(** prover.rs 307-320. *)
Definition before_id_p (path : place) (idx2 : nat) : proc (list byte) :=
  if negb (idx2 =? 0) then go b <- p_read path ((idx2 - 1) * block_pl params) (block_pl params); calc (Ok (H b)) else calc (Ok []).
(** prover.rs 335-394. *)
Definition unseal_depend_p (path : place) (idxs_l : list (list nat)) (block_cnt : nat) (before_block_id : list byte) (idx2 : nat)
  : proc (list (list (list byte))) :=
  if mode_l params =? 0 then
    go l <- calc (if idx2 =? 0 then Ok []
                  else long_mode_random H block_cnt before_block_id idx2 (if cnt_l params =? 0 then idx2 / 10 + 1 else cnt_l params));
    all (fun i => go k <- calc (index l i); read_block_p path k) (seq 0 (length l))
  else
    go row <- calc (index idxs_l idx2);
    all (read_block_p path) (seq 0 (length row)).
(** prover.rs 268-472. *)
Definition unseal_p (path : place) (vde_key : Z) (iv : list byte) : proc unit :=
  go _ <- p_existing path;
  go block_cnt <- calc (nblocks params);
  go idxs_l <- calc (unseal_idxs_l pr params block_cnt);
  go idxs_s <- calc (unseal_idxs_s pr params block_cnt);
  each (fun _ i =>
        let idx2 := block_cnt - 1 - i in
        go before_block_id <- before_id_p path idx2;
        go cur_block <- read_block_p path idx2;
        go depend_blocks <- unseal_depend_p path idxs_l block_cnt before_block_id idx2;
        go cur_block' <- calc (unseal_block_rounds H params vde_key iv idxs_s depend_blocks before_block_id idx2 cur_block);
        p_write path (idx2 * block_pl params) (com_units cur_block')) (seq 0 block_cnt) tt.

(** postorage.rs 118-155; the two result files are left out. *)
Definition seal_and_unseal_p (rnd : nat -> byte) (origin sealed unsealed pub : place) (should_unseal : bool) : proc unit :=
  go _ <- pad_p origin sealed (data_l params) (unit_l params);
  go (vde_key, iv) <- calc (prepare_params pr (unit_pl params) rnd);
  go _ <- seal_p sealed vde_key iv;
  go _ <- save_p pub vde_key iv;
  if should_unseal then
    go _ <- unseal_p sealed vde_key iv;
    compress_p sealed unsealed (data_l params) (unit_l params) (unit_pl params)
  else calc (Ok tt).
End Side.

(** * Alone *)
Fixpoint run {A} (m : proc A) (d : disk) : disk * res A :=
  match m with
  | Halt r => (d, r)
  | See p k => run (k (d p)) d
  | Change p w m' => run m' (put d p (w (d p)))
  end.

(** * Side by side *)
(** The runs that were started; None for one that was killed. *)
Definition shared (A : Type) : Type := disk * list (option (proc A)).
Inductive turn {A} : shared A -> shared A -> Prop :=
| T_see : forall d ps i p k, nth_error ps i = Some (Some (See p k)) -> turn (d, ps) (d, upd ps i (Some (k (d p))))
| T_change : forall d ps i p w m, nth_error ps i = Some (Some (Change p w m)) -> turn (d, ps) (put d p (w (d p)), upd ps i (Some m))
| T_kill : forall d ps i m, nth_error ps i = Some (Some m) -> (forall r, m <> Halt r) -> turn (d, ps) (d, upd ps i None).
Inductive turns {A} : shared A -> shared A -> Prop :=
| T_none : forall s, turns s s
| T_more : forall s s' s'', turn s s' -> turns s' s'' -> turns s s''.
