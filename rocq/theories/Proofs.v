(** Model of ssz-rs/src/merkleization/generalized_index.rs and proofs.rs.
    A generalized index is a usize. *)
From Coq Require Import List NArith Bool.
From Coq Require Import Strings.Byte.
From Verif Require Import Prelude Types Bitvec Ser De Impls Merkleize.
Import ListNotations.
Open Scope N_scope.

(** generalized_index.rs:70-72 *)
Definition log_2 (x : N) : option N := if x =? 0 then None else Some (N.log2 x).

(** generalized_index.rs:75-77 *)
Definition get_power_of_two_ceil (oc : bool) (x : N) : mres N := next_power_of_two oc x.

(** generalized_index.rs:88-90 *)
Definition default_generalized_index : N := 1.

(** generalized_index.rs:92-95 *)
Definition get_path_length (index : N) : mres N :=
  match log_2 index with
  | Some length => Ok length
  | None => Err InvalidGeneralizedIndex
  end.

(** generalized_index.rs:97-99: [index & (1 << position) > 0]. The shift overflows at 64. *)
Definition get_bit (oc : bool) (index position : N) : mres bool :=
  if position <? 64 then Ok (0 <? N.land index (N.shiftl 1 position))
  else if oc then Panic POverflow
  else Ok (0 <? N.land index (N.shiftl 1 (position mod 64))).

(** generalized_index.rs:101-107 *)
Definition sibling (index : N) : N := N.lxor index 1.
Definition parent (index : N) : N := index / 2.

(** proofs.rs:16-18 *)
Definition get_depth (i : N) : mres N :=
  match log_2 i with
  | Some d => Ok d
  | None => Err InvalidGeneralizedIndex
  end.

(** [a % b], [a / b] on usize *)
Definition urem {E} (a b : N) : res E N := if b =? 0 then Panic PDivZero else Ok (a mod b).
Definition udiv {E} (a b : N) : res E N := if b =? 0 then Panic PDivZero else Ok (a / b).

(** proofs.rs:20-22 *)
Definition get_index (oc : bool) (i depth : N) : mres N :=
  do p <- upow2 oc depth;
  urem i p.

(** proofs.rs:25-28 *)
Definition get_subtree_index (oc : bool) (i : N) : mres N :=
  do depth <- get_depth i;
  get_index oc i depth.

(** [while i > node_count { i /= 2; }], proofs.rs:38-40 *)
Fixpoint halve_until (fuel : nat) (i node_count : N) : mres N :=
  if node_count <? i then
    match fuel with
    | O => Panic PFuel
    | S fuel => halve_until fuel (i / 2) node_count
    end
  else Ok i.

(** proofs.rs:33-43 *)
Definition compute_local_merkle_coordinates (oc : bool) (i leaf_count : N) : mres (N * N * N) :=
  do twice <- umul oc 2 leaf_count;
  do node_count <- usub oc twice 1;
  do i <- halve_until (N.to_nat (N.size i)) i node_count;
  do depth <- get_depth i;
  do index <- get_index oc i depth;
  Ok (depth, index, i).

(** proofs.rs:170-177 and 45-51 *)
Record Proof_ : Type := MkProof { leaf : bytes; branch : list bytes; proof_index : N }.
Record Prover : Type := MkProver { proof : Proof_; witness : bytes }.

(** [Node::default()] *)
Definition default_node : bytes := zeros 32.

(** proofs.rs:126-134 *)
Definition prover_from (index : N) : Prover :=
  MkProver (MkProof default_node [] index) default_node.

(** proofs.rs:54-66 *)
Definition set_leaf (p : Prover) (node : bytes) : mres Prover :=
  do node <- to_node node;
  Ok (MkProver (MkProof node (branch (proof p)) (proof_index (proof p))) (witness p)).
Definition extend_branch (p : Prover) (node : bytes) : mres Prover :=
  do node <- to_node node;
  Ok (MkProver (MkProof (leaf (proof p)) (branch (proof p) ++ [node]) (proof_index (proof p)))
               (witness p)).
Definition set_witness (p : Prover) (node : bytes) : mres Prover :=
  do node <- to_node node;
  Ok (MkProver (proof p) node).
Definition set_index (p : Prover) (index : N) : Prover :=
  MkProver (MkProof (leaf (proof p)) (branch (proof p)) index) (witness p).

(** The traits [HashTreeRoot] (merkleize.rs:19-27), [GeneralizedIndexable]
    (generalized_index.rs:37-66) and [Prove] (proofs.rs:137-168) of one type, next to its
    [Serializable]. *)
Record SimpleSerialize : Type := {
  ser : Serializable;
  hash_tree_root : val -> mres bytes;
  is_composite_type : bool;
  item_length : N;
  chunk_count : mres N;
  compute_generalized_index : N -> Path -> mres N;
  chunks : val -> mres bytes;
  prove_element : val -> N -> Prover -> mres Prover;
  decoration : val -> option N
}.

Section Hash.
  Context (H : bytes -> bytes) (oc : bool).

  (** The loop at proofs.rs:107-111. *)
  Fixpoint extend_branches (n : nat) (tree : bytes) (target : N) (p : Prover) : mres Prover :=
    match n with
    | O => Ok p
    | S n =>
        do sibling <- (if negb (target mod 2 =? 0)
                       then tree_index oc tree (target - 1)
                       else do t <- uadd oc target 1; tree_index oc tree t);
        do p <- extend_branch p sibling;
        extend_branches n tree (target / 2) p
    end.

  (** proofs.rs:69-117 *)
  Definition compute_proof (T : SimpleSerialize) (data : val) (p : Prover) : mres Prover :=
    do chunk_count <- chunk_count T;
    do leaf_count <- next_power_of_two oc chunk_count;
    let parent_index := proof_index (proof p) in
    let decoration := decoration T data in
    do leaf_count <- match decoration with
                     | Some _ => umul oc leaf_count 2
                     | None => Ok leaf_count
                     end;
    do (local_depth, local_index, local_generalized_index)
       <- compute_local_merkle_coordinates oc parent_index leaf_count;
    let is_leaf_local := negb (local_generalized_index <? parent_index) in
    do p <- (if local_generalized_index <? parent_index then
               do parent_depth <- get_depth parent_index;
               do child_depth <- usub oc parent_depth local_depth;
               do node_count <- upow2 oc child_depth;
               do r <- urem parent_index node_count;
               do child_index <- uadd oc node_count r;
               do p <- prove_element T data local_index (set_index p child_index);
               Ok (set_index p parent_index)
             else Ok p);
    do chunks <- chunks T data;
    do tree <- compute_merkle_tree H oc chunks leaf_count;
    do tree <- match decoration with
               | Some decoration => tree_mix_in_decoration H oc tree decoration
               | None => Ok tree
               end;
    do p <- (if is_leaf_local then
               do node <- tree_index oc tree parent_index;
               set_leaf p node
             else Ok p);
    do p <- extend_branches (N.to_nat local_depth) tree local_generalized_index p;
    do root <- tree_index oc tree 1;
    set_witness p root.

  (** generalized_index.rs:62-65 *)
  Definition generalized_index (T : SimpleSerialize) (path : Path) : mres N :=
    compute_generalized_index T default_generalized_index path.

  (** proofs.rs:162-167 *)
  Definition prove (T : SimpleSerialize) (data : val) (path : Path) : mres (Proof_ * bytes) :=
    do index <- generalized_index T path;
    do p <- compute_proof T data (prover_from index);
    Ok (proof p, witness p).

  (** The loop at proofs.rs:216-225; [i] counts the nodes of the branch. *)
  Fixpoint derive_root (i : N) (nodes : list bytes) (index : N) (derived_root : bytes)
    : mres bytes :=
    match nodes with
    | [] => Ok derived_root
    | node :: r =>
        do p <- upow2 oc i;
        do q <- udiv index p;
        let derived_root := if negb (q mod 2 =? 0) then H (node ++ derived_root)
                            else H (derived_root ++ node) in
        derive_root (i + 1) r index derived_root
    end.

  (** proofs.rs:202-232 *)
  Definition is_valid_merkle_branch (leaf : bytes) (branch : list bytes) (depth index : N)
      (root : bytes) : mres unit :=
    if negb (blen branch =? depth) then Err InvalidProof
    else
      do derived_root <- derive_root 0 branch index leaf;
      if bytes_eqb derived_root root then Ok tt else Err InvalidProof.

  (** proofs.rs:190-199 *)
  Definition is_valid_merkle_branch_for_generalized_index (leaf : bytes) (branch : list bytes)
      (generalized_index : N) (root : bytes) : mres unit :=
    match log_2 generalized_index with
    | None => Err InvalidGeneralizedIndex
    | Some depth =>
        do index <- get_subtree_index oc generalized_index;
        is_valid_merkle_branch leaf branch depth index root
    end.

  (** proofs.rs:183-185 *)
  Definition verify (p : Proof_) (root : bytes) : mres unit :=
    is_valid_merkle_branch_for_generalized_index (leaf p) (branch p) (proof_index p) root.
End Hash.
