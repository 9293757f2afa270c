(** Model of proof_of_storage/src/proof_of_storage/merkle_tree.rs and of what it
    calls in the crate rs_merkle 1.2 (MerkleTree::from_leaves, root, proof,
    MerkleProof::to_bytes, try_from, verify).  That crate's source is not part of
    /repo: its published algorithm (PartialTree::build_tree, utils::indices) is
    transcribed here, which DESIGN.md lists in the trusted base.  Its depth is
    computed in floating point; the model uses the exact logarithm. *)
From Verif Require Import Base Common.
From Coq Require Import Strings.Byte.
Local Open Scope nat_scope.

Notation hash := (list byte) (only parsing).

(** rs_merkle utils::indices::tree_depth. *)
Definition tree_depth (leaves_count : nat) : nat :=
  if leaves_count =? 1 then 1 else Nat.log2_up leaves_count.

(** utils::indices::sibling_index, parent_indices (Vec::dedup drops consecutive
    repetitions), utils::collections::difference. *)
Definition sibling (i : nat) : nat := if Nat.even i then i + 1 else i - 1.
Fixpoint dedup (l : list nat) : list nat :=
  match l with
  | a :: (b :: _) as t => if a =? b then dedup t else a :: dedup t
  | _ => l
  end.
Definition parent_indices (l : list nat) : list nat := dedup (map Nat.div2 l).
Definition mem (x : nat) (l : list nat) : bool := existsb (Nat.eqb x) l.
Definition difference (a b : list nat) : list nat := filter (fun x => negb (mem x b)) a.

(** sort_by on the index: stable. *)
Fixpoint insert_node (x : nat * hash) (l : list (nat * hash)) : list (nat * hash) :=
  match l with
  | [] => [x]
  | y :: t => if fst x <=? fst y then x :: l else y :: insert_node x t
  end.
Definition sort_nodes (l : list (nat * hash)) : list (nat * hash) := fold_right insert_node [] l.

(** utils::indices::proof_indices_by_layers (with uneven_layers inlined): the
    positions of the helper nodes the verifier expects, layer by layer. *)
Fixpoint proof_indices_by_layers (depth leaves_count : nat) (layer_nodes : list nat) : list (list nat) :=
  match depth with
  | O => []
  | S depth' =>
      let siblings := map sibling layer_nodes in
      let siblings :=
        if Nat.odd leaves_count && (last layer_nodes 0 =? leaves_count - 1) && negb (length layer_nodes =? 0)
        then removelast siblings else siblings in
      difference siblings layer_nodes
        :: proof_indices_by_layers depth' (ceil_div leaves_count 2) (parent_indices layer_nodes)
  end.

Section Merkle.
Variable H : list byte -> hash.  (* Sha256::hash *)

(** Hasher::concat_and_hash: a node without right sibling is passed up. *)
Definition concat_and_hash (l : hash) (r : option hash) : hash :=
  match r with
  | Some r => H (l ++ r)
  | None => l
  end.

(** PartialTree::build_tree, inner loop over the parents. *)
Fixpoint hash_parents (nodes : list hash) (i : nat) (parents : list nat) : option (list (nat * hash)) :=
  match parents with
  | [] => Some []
  | p :: ps =>
      match nth_error nodes (2 * i) with
      | Some l =>
          match hash_parents nodes (i + 1) ps with
          | Some rest => Some ((p, concat_and_hash l (nth_error nodes (2 * i + 1))) :: rest)
          | None => None
          end
      | None => None
      end
  end.
(** PartialTree::build_tree; the list of layers, the root layer last. *)
Fixpoint build_tree (depth : nat) (layers : list (list (nat * hash))) (current : list (nat * hash))
  : option (list (list (nat * hash))) :=
  match depth with
  | O => Some [current]
  | S depth' =>
      let current := sort_nodes (current ++ hd [] layers) in
      match hash_parents (map snd current) 0 (parent_indices (map fst current)) with
      | Some next =>
          match build_tree depth' (tl layers) next with
          | Some up => Some (current :: up)
          | None => None
          end
      | None => None
      end
  end.
Definition tree_root (t : list (list (nat * hash))) : option hash :=
  match last t [] with
  | (_, h) :: _ => Some h
  | [] => None
  end.

(** MerkleTree::from_leaves: append and commit on an empty tree. *)
Definition from_leaves (leaves : list hash) : list (list (nat * hash)) :=
  match leaves with
  | [] => []
  | _ => match build_tree (tree_depth (length leaves)) [combine (seq 0 (length leaves)) leaves] [] with
         | Some t => t
         | None => []
         end
  end.

(** PartialTree / MerkleTree::helper_node_layers and MerkleTree::proof. *)
Fixpoint helper_nodes (t : list (list (nat * hash))) (indices : list nat) : list hash :=
  match t with
  | [] => []
  | layer :: t' =>
      flat_map (fun i => match nth_error layer i with Some (_, h) => [h] | None => [] end)
               (difference (map sibling indices) indices)
        ++ helper_nodes t' (parent_indices indices)
  end.

(** MerkleProof::to_bytes, TryFrom<Vec<u8>>: 32-byte hashes one after the other. *)
Definition proof_to_bytes (p : list hash) : list byte := concat p.
Fixpoint chunks32 (fuel : nat) (l : list byte) : list hash :=
  match fuel with
  | O => []
  | S fuel' => match l with [] => [] | _ => firstn 32 l :: chunks32 fuel' (skipn 32 l) end
  end.
Definition proof_try_from (l : list byte) : option (list hash) :=
  if length l mod 32 =? 0 then Some (chunks32 (length l) l) else None.

(** MerkleProof::root, lines grouping the proof hashes by layer.  A proof that is too
    short makes the splice panic or the call fail; both end as None here. *)
Fixpoint proof_layers (idxs : list (list nat)) (proof : list hash) : option (list (list (nat * hash))) :=
  match idxs with
  | [] => Some []
  | l :: idxs' =>
      if length proof <? length l then None
      else match proof_layers idxs' (skipn (length l) proof) with
           | Some ls => Some (combine l (firstn (length l) proof) :: ls)
           | None => None
           end
  end.
(** The partial tree the verifier rebuilds (MerkleProof::root). *)
Definition proof_tree (proof : list hash) (indices : list nat) (leaf_hashes : list hash) (leaves_count : nat)
  : option (list (list (nat * hash))) :=
  if negb (length indices =? length leaf_hashes) then None
  else
    let leaf_tuples := sort_nodes (combine indices leaf_hashes) in
    let depth := tree_depth leaves_count in
    match proof_layers (proof_indices_by_layers depth leaves_count indices) proof with
    | None => None
    | Some [] => build_tree depth [leaf_tuples] []
    | Some (first :: ls) => build_tree depth (sort_nodes (first ++ leaf_tuples) :: ls) []
    end.
(** MerkleProof::verify. *)
Definition proof_verify (proof : list hash) (root : hash) (indices : list nat) (leaf_hashes : list hash) (leaves_count : nat) : bool :=
  match proof_tree proof indices leaf_hashes leaves_count with
  | Some t => match tree_root t with
              | Some r => if list_eq_dec Byte.byte_eq_dec r root then true else false
              | None => false
              end
  | None => false
  end.

(** merkle_tree.rs 26-31.  The root's unwrap panics for an empty list. *)
Definition generate_merkle_tree_from_data (leaf_values : list (list byte))
  : res (list hash * list (list (nat * hash)) * hash) :=
  let leaves := map H leaf_values in
  let t := from_leaves leaves in
  match tree_root t with
  | Some r => Ok (leaves, t, r)
  | None => Panic
  end.

(** merkle_tree.rs 9-24: leaf i is read at offset i + leaf_len. *)
Definition generate_merkle_tree_from_file (f : file) (data_len leaf_len : nat)
  : res (list hash * list (list (nat * hash)) * hash) :=
  let* starts := step_by data_len leaf_len in
  let leaf_values := map (fun i => read_file f (i + leaf_len) leaf_len) starts in
  let leaves := map H leaf_values in
  let t := from_leaves leaves in
  match tree_root t with
  | Some r => Ok (leaves, t, r)
  | None => Panic
  end.

(** merkle_tree.rs 33-38. *)
Definition generate_merkle_proof (indices_to_prove : list nat) (merkle_tree : list (list (nat * hash))) : res (list hash) :=
  match proof_try_from (proof_to_bytes (helper_nodes merkle_tree indices_to_prove)) with
  | Some p => Ok p
  | None => Panic
  end.

(** merkle_tree.rs 40-47. *)
Definition verify_merkle_proof (proof : list hash) (merkle_root : hash) (indices_to_prove : list nat) (leaves : list hash) : res unit :=
  let* leaves_to_prove := mapM (fun i => index leaves i) indices_to_prove in
  if proof_verify proof merkle_root indices_to_prove leaves_to_prove (length leaves) then Ok tt else Panic.
End Merkle.
