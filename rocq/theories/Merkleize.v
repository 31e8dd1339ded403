(** Model of ssz-rs/src/merkleization/merkleize.rs and of ssz-rs/build.rs.

    SHA-256 is a parameter [H]; [hasher.update(a); hasher.update(b); hasher.finalize_reset()] is
    [H (a ++ b)]. Positions inside buffers that exist in memory are unbounded numbers; sizes that
    are computed from type-level bounds use checked usize arithmetic. *)
From Coq Require Import List NArith Bool.
From Coq Require Import Strings.Byte.
From Verif Require Import Prelude Types Bitvec Ser De Impls.
Import ListNotations.
Open Scope N_scope.

Notation mres := (res MerkleizationError).

(** merkleize.rs:31-39 *)
Definition pack_bytes (buffer : bytes) : bytes :=
  let incomplete_chunk_len := blen buffer mod BYTES_PER_CHUNK in
  if negb (incomplete_chunk_len =? 0) then
    let bytes_to_pad := BYTES_PER_CHUNK - incomplete_chunk_len in
    buffer ++ zeros (N.to_nat bytes_to_pad)
  else buffer.

(** The conversion [From<SerializeError> for MerkleizationError], mod.rs:41-45, applied by [?]. *)
Definition ser_to_merkle (x : ser_result) : mres bytes :=
  match x with
  | (buffer, Ok _) => Ok buffer
  | (_, Err e) => Err (SerializationError e)
  | (_, Panic p) => Panic p
  end.

(** merkleize.rs:43-53 *)
Definition pack (T : Serializable) (values : list val) : mres bytes :=
  do buffer <- foldM (fun buffer value => ser_to_merkle (serialize T value buffer)) [] values;
  Ok (pack_bytes buffer).

(** [vec![0u8; n]]: allocations above isize::MAX bytes panic. *)
Definition alloc_zeros {E} (n : N) : res E bytes :=
  if n <? 2 ^ 63 then Ok (zeros (N.to_nat n)) else Panic PAlloc.

(** merkleize.rs:61 *)
Definition MAX_MERKLE_TREE_DEPTH : N := 64.

(** [slice.try_into::<Node>().expect(..)]: a Node is 32 bytes. *)
Definition to_node {E} (b : bytes) : res E bytes :=
  if blen b =? BYTES_PER_CHUNK then Ok b else Panic PExpect.

(** [usize::hash_tree_root] (uint.rs:58-62 with uint.rs:76-81). *)
Definition uint_chunks (size : N) (n : N) : mres bytes :=
  do root <- ser_to_merkle (serialize (uint_impl size) (VUint n) []);
  Ok (pack_bytes root).

Definition usize_hash_tree_root (n : N) : mres bytes :=
  do root <- uint_chunks 8 n;
  to_node root.

Section Hash.
  Context (H : bytes -> bytes).

  (** ** build.rs:14-24 *)
  Definition zero_hashes_step (buffer : bytes) (i : N) : mres bytes :=
    do focus <- slice (i * 32) ((i + 2) * 32) buffer;
    let source := takeN 32 focus in
    copy_at (i * 32 + 32) (H (source ++ source)) buffer.

  Definition compute_zero_hashes : mres bytes :=
    foldM zero_hashes_step (zeros (N.to_nat (MAX_MERKLE_TREE_DEPTH * 32)))
          (map N.of_nat (seq 0 (N.to_nat (MAX_MERKLE_TREE_DEPTH - 1)))).

  (** The static [CONTEXT] that the build script writes, merkleize.rs:63-77. *)
  Definition CONTEXT_of (r : mres bytes) : bytes :=
    match r with Ok b => b | _ => [] end.

  Context (CONTEXT : bytes).

  (** merkleize.rs:68-74 *)
  Definition context_index (i : N) : mres bytes :=
    slice (i * BYTES_PER_CHUNK) ((i + 1) * BYTES_PER_CHUNK) CONTEXT.

  Context (oc : bool).

  (** debug_assert!(b) *)
  Definition debug_assert (b : bool) : mres unit :=
    if oc && negb b then Panic PAssert else Ok tt.

  (** The body of the inner loop for an index [i <= last_index], merkleize.rs:122-181. *)
  Definition merkleize_pair (height k i last_index : N) (layer : bytes) : mres bytes :=
    let parent_index := i / 2 in
    let start := parent_index * BYTES_PER_CHUNK in
    if i <? last_index then
      do focus <- slice start ((i + 2) * BYTES_PER_CHUNK) layer;
      do children_index <- usub oc (blen focus) (2 * BYTES_PER_CHUNK);
      let parent := takeN children_index focus in
      let children := dropN children_index focus in
      let lhs := takeN BYTES_PER_CHUNK children in
      let rhs := dropN BYTES_PER_CHUNK children in
      if i =? 0 then copy_at (start + children_index) (H (lhs ++ rhs)) layer
      else
        do _ <- @slice MerkleizationError byte 0 BYTES_PER_CHUNK parent;
        copy_at start (H (lhs ++ rhs)) layer
    else
      do focus <- slice start ((i + 1) * BYTES_PER_CHUNK) layer;
      do children_index <- usub oc (blen focus) BYTES_PER_CHUNK;
      let parent := takeN children_index focus in
      let lhs := dropN children_index focus in
      let depth := height - k - 1 in
      do rhs <- context_index depth;
      if i =? 0 then copy_at (start + children_index) (H (lhs ++ rhs)) layer
      else
        do _ <- @slice MerkleizationError byte 0 BYTES_PER_CHUNK parent;
        copy_at start (H (lhs ++ rhs)) layer.

  (** [for i in (0..2usize.pow(k)).step_by(2)] with its [break], merkleize.rs:121-182.
      [limit] is [2usize.pow(k)]. *)
  Fixpoint merkleize_layer (fuel : nat) (height k limit i last_index : N) (layer : bytes)
    : mres bytes :=
    if i <? limit then
      if last_index <? i then Ok layer
      else
        match fuel with
        | O => Panic PFuel
        | S fuel =>
            do layer <- merkleize_pair height k i last_index layer;
            merkleize_layer fuel height k limit (i + 2) last_index layer
        end
    else Ok layer.

  (** [for k in (1..height).rev()], merkleize.rs:119-184. [n] layers remain, [k = n]. *)
  Fixpoint merkleize_layers (n : nat) (height last_index : N) (layer : bytes) : mres bytes :=
    match n with
    | O => Ok layer
    | S n' =>
        let k := N.of_nat n in
        do limit <- upow2 oc k;
        do layer <- merkleize_layer (S (N.to_nat last_index)) height k limit 0 last_index layer;
        merkleize_layers n' height (last_index / 2) layer
    end.

  (** merkleize.rs:96-191 *)
  Definition merkleize_chunks_with_virtual_padding (chunks : bytes) (leaf_count : N) : mres bytes :=
    do _ <- debug_assert (blen chunks mod BYTES_PER_CHUNK =? 0);
    do _ <- (if oc then do p <- next_power_of_two oc leaf_count; debug_assert (p =? leaf_count)
             else Ok tt);
    do _ <- debug_assert (trailing_zeros leaf_count <? MAX_MERKLE_TREE_DEPTH);
    let chunk_count := blen chunks / BYTES_PER_CHUNK in
    let height := trailing_zeros leaf_count + 1 in
    if chunk_count =? 0 then
      let depth := height - 1 in
      do root <- context_index depth;
      to_node root
    else
      let last_index := chunk_count - 1 in
      do layer <- merkleize_layers (N.to_nat (height - 1)) height last_index chunks;
      do root <- slice 0 BYTES_PER_CHUNK layer;
      to_node root.

  (** merkleize.rs:195-206 *)
  Definition merkleize (chunks : bytes) (limit : option N) : mres bytes :=
    do _ <- debug_assert (blen chunks mod BYTES_PER_CHUNK =? 0);
    let chunk_count := blen chunks / BYTES_PER_CHUNK in
    do leaf_count <- next_power_of_two oc chunk_count;
    match limit with
    | Some limit =>
        if limit <? chunk_count then Err (InputExceedsLimit limit)
        else
          do leaf_count <- next_power_of_two oc limit;
          merkleize_chunks_with_virtual_padding chunks leaf_count
    | None => merkleize_chunks_with_virtual_padding chunks leaf_count
    end.

  (** merkleize.rs:208-223, with [hash_nodes] (merkleize.rs:55-59). *)
  Definition mix_in_decoration (root : bytes) (decoration : N) : mres bytes :=
    match usize_hash_tree_root decoration with
    | Ok decoration_data => to_node (H (root ++ decoration_data))
    | Err _ => Panic PExpect
    | Panic p => Panic p
    end.

  Definition mix_in_length (root : bytes) (length : N) : mres bytes :=
    mix_in_decoration root length.
  Definition mix_in_selector (root : bytes) (selector : N) : mres bytes :=
    mix_in_decoration root selector.

  (** merkleize.rs:225-236, applied to [iter().enumerate()]: [i] counts the elements. *)
  Fixpoint fill_chunks (root : val -> mres bytes) (i : N) (elements : list val) (chunks : bytes)
    : mres bytes :=
    match elements with
    | [] => Ok chunks
    | elem :: r =>
        do chunk <- root elem;
        do chunks <- copy_at (i * BYTES_PER_CHUNK) chunk chunks;
        fill_chunks root (i + 1) r chunks
    end.

  Definition elements_to_chunks (root : val -> mres bytes) (elements : list val) (count : N)
    : mres bytes :=
    fill_chunks root 0 elements (zeros (N.to_nat (count * BYTES_PER_CHUNK))).

  (** ** Trees: merkleize.rs:238-326 *)

  (** merkleize.rs:261-277 *)
  Definition tree_range (index : N) : mres (N * N) :=
    do i <- usub oc index 1;
    do start <- umul oc i BYTES_PER_CHUNK;
    do fin <- umul oc index BYTES_PER_CHUNK;
    Ok (start, fin).

  Definition tree_index (tree : bytes) (index : N) : mres bytes :=
    do (start, fin) <- tree_range index;
    slice start fin tree.

  (** [self[index].copy_from_slice(node)]: panics unless the node has the length of the range. *)
  Definition tree_write (tree : bytes) (index : N) (node : bytes) : mres bytes :=
    do target <- tree_index tree index;
    if blen target =? blen node then
      do (start, _) <- tree_range index;
      copy_at start node tree
    else Panic PAssert.

  (** merkleize.rs:241-253 *)
  Definition tree_mix_in_decoration (tree : bytes) (decoration : N) : mres bytes :=
    do decoration_node <- usize_hash_tree_root decoration;
    do tree <- tree_write tree 3 decoration_node;
    do a <- tree_index tree 2;
    do b <- tree_index tree 3;
    tree_write tree 1 (H (a ++ b)).

  (** The body of the loop at merkleize.rs:308-324. *)
  Definition tree_step (buffer : bytes) (i : N) : mres bytes :=
    let parent_index := (i - 1) / 2 in
    let start := parent_index * BYTES_PER_CHUNK in
    do focus <- slice start ((i + 1) * BYTES_PER_CHUNK) buffer;
    do children_index <- usub oc (blen focus) (2 * BYTES_PER_CHUNK);
    let parent := takeN children_index focus in
    let children := dropN children_index focus in
    let lhs := takeN BYTES_PER_CHUNK children in
    let rhs := dropN BYTES_PER_CHUNK children in
    do _ <- @slice MerkleizationError byte 0 BYTES_PER_CHUNK parent;
    copy_at start (H (lhs ++ rhs)) buffer.

  (** The sequence [(1..n).rev().step_by(2)]. *)
  Definition rev_step_by_2 (n : N) : list N :=
    map (fun j => n - 1 - 2 * N.of_nat j) (seq 0 (N.to_nat (n / 2))).

  (** merkleize.rs:290-326 *)
  Definition compute_merkle_tree (chunks : bytes) (leaf_count : N) : mres bytes :=
    do _ <- debug_assert (blen chunks mod BYTES_PER_CHUNK =? 0);
    do _ <- (if oc then do p <- next_power_of_two oc leaf_count; debug_assert (p =? leaf_count)
             else Ok tt);
    do twice <- umul oc 2 leaf_count;
    do node_count <- usub oc twice 1;
    do interior_count <- usub oc node_count leaf_count;
    do leaf_start <- umul oc interior_count BYTES_PER_CHUNK;
    do size <- umul oc node_count BYTES_PER_CHUNK;
    do buffer <- alloc_zeros size;
    do buffer <- copy_at leaf_start chunks buffer;
    foldM tree_step buffer (rev_step_by_2 node_count).
End Hash.
