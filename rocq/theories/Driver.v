(** The experiment driver test_postorage: one process run, and histories of runs that
    share the four data files. *)
From Verif Require Import Base Common Prover Verifier Merkle Postorage.
Local Open Scope nat_scope.

(** The files of postorage.rs 18-25 the driver reads and writes; None = no such file.
    Left out: the two result files, which are only appended to. *)
Record disk := mkDisk {
  d_origin : option file;
  d_sealed : option file;
  d_unsealed : option file;
  d_pub : option file
}.

(** The flags of one run (postorage.rs 187) and everything it draws at random: the
    original file, the iv, the leaves to prove.  Left out: should_save_run_data, which
    only concerns the result files. *)
Record run_cfg := mkRun {
  r_seal : bool;
  r_unseal : bool;
  r_leaves : bool;
  r_single : bool;
  r_parallel : nat;
  r_rnd_file : nat -> byte;
  r_rnd_iv : nat -> byte;
  r_draw : nat -> nat
}.

Section Driver.
Variable H : list byte -> list byte.   (* blake3_hash *)
Variable H2 : list byte -> list byte.  (* Sha256::hash *)
Variable pr : profile.
Variable params : PosPara.

(** A file that is opened with create(true). *)
Definition or_empty (f : option file) : file := match f with Some f => f | None => [] end.

(** postorage.rs 236-239.  A panic leaves the files in some state between, which is not
    modelled: the history ends there. *)
Definition seal_step (c : run_cfg) (d : disk) : res disk :=
  if r_seal c then
    let origin := create_random_file (r_rnd_file c) (data_l params) in
    let* (sealed, pub, unsealed) :=
      seal_and_unseal H pr params (r_rnd_iv c) origin (or_empty (d_pub d)) (or_empty (d_unsealed d)) (r_unseal c) in
    Ok (mkDisk (Some origin) (Some sealed) (if r_unseal c then Some unsealed else d_unsealed d) (Some pub))
  else Ok d.

(** postorage.rs 241-243; opening a missing file panics. *)
Definition single_step (c : run_cfg) (d : disk) (o : res unit) : Prop :=
  if r_single c then
    match d_pub d, d_origin d, d_sealed d with
    | Some pub, Some origin, Some sealed => unseal_single_and_verify H pr params pub origin sealed (r_parallel c) o
    | _, _, _ => o = Panic
    end
  else o = Ok tt.

(** postorage.rs 245-247 with 179-185; the indices are drawn before the trees are built,
    which makes no difference unless the drawing never ends: then there is
    no outcome. *)
Definition leaves_step (c : run_cfg) (d : disk) (o : res unit) : Prop :=
  if r_leaves c then
    match d_origin d, d_unsealed d with
    | Some origin, Some unsealed =>
      exists fuel idx, create_challenges fuel (leaves_to_prove_count params) (0, data_l params / block_l params) (r_draw c) = Some idx /\
      o = (let* idx := idx in merkle_tree_proof H2 params origin unsealed idx)
    | _, _ => o = Panic
    end
  else o = Ok tt.

(** postorage.rs 187-249: one run (SAMPLES = 1, line 227). *)
Inductive test_postorage (c : run_cfg) (d : disk) : res disk -> Prop :=
| TP_seal_panic : seal_step c d = Panic -> test_postorage c d Panic
| TP_single_panic : forall d1, seal_step c d = Ok d1 -> single_step c d1 Panic -> test_postorage c d Panic
| TP_end : forall d1 o, seal_step c d = Ok d1 -> single_step c d1 (Ok tt) -> leaves_step c d1 o ->
    test_postorage c d (let* _ := o in Ok d1).

(** Successful runs one after the other. *)
Inductive history : disk -> list run_cfg -> disk -> Prop :=
| Hist_nil : forall d, history d [] d
| Hist_cons : forall d c d1 cs d2, test_postorage c d (Ok d1) -> history d1 cs d2 -> history d (c :: cs) d2.
End Driver.
