(** [hash_tree_root] and [prove] with a counter for the calls of the hash function.

    Each definition repeats the one of Merkleize.v, MerkImpls.v or Proofs.v with [hash] in place of
    [H]. CostProof.v shows that the results are the same, so that only the counter is new. *)
From Coq Require Import String List NArith Bool.
From Coq Require Import Strings.Byte.
From Verif Require Import Prelude Types Bitvec Ser De Impls Merkleize Proofs MerkImpls.
Import ListNotations.
Open Scope N_scope.

(** A result with the number of hashes computed on the way. *)
Definition tally (A : Type) : Type := (mres A * N)%type.

Definition free {A} (x : mres A) : tally A := (x, 0).

Definition tally_bind {A B} (x : tally A) (f : A -> tally B) : tally B :=
  match x with
  | (Ok a, n) => let y := f a in (fst y, n + snd y)
  | (Err e, n) => (Err e, n)
  | (Panic p, n) => (Panic p, n)
  end.

Notation "'run' x <- e ; k" := (tally_bind e (fun x => k))
  (at level 200, x name, e at level 100, k at level 200, right associativity).

Section Hash.
  Context (H : bytes -> bytes) (CONTEXT : bytes) (oc : bool).

  Definition hash (x : bytes) : tally bytes := (Ok (H x), 1).

  Definition merkleize_pair_c (height k i last_index : N) (layer : bytes) : tally bytes :=
    let parent_index := i / 2 in
    let start := parent_index * BYTES_PER_CHUNK in
    if i <? last_index then
      run focus <- free (slice start ((i + 2) * BYTES_PER_CHUNK) layer);
      run children_index <- free (usub oc (blen focus) (2 * BYTES_PER_CHUNK));
      let parent := takeN children_index focus in
      let children := dropN children_index focus in
      let lhs := takeN BYTES_PER_CHUNK children in
      let rhs := dropN BYTES_PER_CHUNK children in
      if i =? 0 then run h <- hash (lhs ++ rhs); free (copy_at (start + children_index) h layer)
      else
        run target <- free (@slice MerkleizationError byte 0 BYTES_PER_CHUNK parent);
        run h <- hash (lhs ++ rhs);
        free (copy_at start h layer)
    else
      run focus <- free (slice start ((i + 1) * BYTES_PER_CHUNK) layer);
      run children_index <- free (usub oc (blen focus) BYTES_PER_CHUNK);
      let parent := takeN children_index focus in
      let lhs := dropN children_index focus in
      let depth := height - k - 1 in
      run rhs <- free (context_index CONTEXT depth);
      if i =? 0 then run h <- hash (lhs ++ rhs); free (copy_at (start + children_index) h layer)
      else
        run target <- free (@slice MerkleizationError byte 0 BYTES_PER_CHUNK parent);
        run h <- hash (lhs ++ rhs);
        free (copy_at start h layer).

  Fixpoint merkleize_layer_c (fuel : nat) (height k limit i last_index : N) (layer : bytes)
    : tally bytes :=
    if i <? limit then
      if last_index <? i then free (Ok layer)
      else
        match fuel with
        | O => free (Panic PFuel)
        | S fuel =>
            run layer <- merkleize_pair_c height k i last_index layer;
            merkleize_layer_c fuel height k limit (i + 2) last_index layer
        end
    else free (Ok layer).

  Fixpoint merkleize_layers_c (n : nat) (height last_index : N) (layer : bytes) : tally bytes :=
    match n with
    | O => free (Ok layer)
    | S n' =>
        let k := N.of_nat n in
        run limit <- free (upow2 oc k);
        run layer <- merkleize_layer_c (S (N.to_nat last_index)) height k limit 0 last_index layer;
        merkleize_layers_c n' height (last_index / 2) layer
    end.

  Definition merkleize_chunks_with_virtual_padding_c (chunks : bytes) (leaf_count : N) : tally bytes :=
    run a <- free (debug_assert oc (blen chunks mod BYTES_PER_CHUNK =? 0));
    run b <- free (if oc then do p <- next_power_of_two oc leaf_count; debug_assert oc (p =? leaf_count)
                   else Ok tt);
    run c <- free (debug_assert oc (trailing_zeros leaf_count <? MAX_MERKLE_TREE_DEPTH));
    let chunk_count := blen chunks / BYTES_PER_CHUNK in
    let height := trailing_zeros leaf_count + 1 in
    if chunk_count =? 0 then
      let depth := height - 1 in
      run root <- free (context_index CONTEXT depth);
      free (to_node root)
    else
      let last_index := chunk_count - 1 in
      run layer <- merkleize_layers_c (N.to_nat (height - 1)) height last_index chunks;
      run root <- free (slice 0 BYTES_PER_CHUNK layer);
      free (to_node root).

  Definition merkleize_c (chunks : bytes) (limit : option N) : tally bytes :=
    run a <- free (debug_assert oc (blen chunks mod BYTES_PER_CHUNK =? 0));
    let chunk_count := blen chunks / BYTES_PER_CHUNK in
    run leaf_count <- free (next_power_of_two oc chunk_count);
    match limit with
    | Some limit =>
        if limit <? chunk_count then free (Err (InputExceedsLimit limit))
        else
          run leaf_count <- free (next_power_of_two oc limit);
          merkleize_chunks_with_virtual_padding_c chunks leaf_count
    | None => merkleize_chunks_with_virtual_padding_c chunks leaf_count
    end.

  Definition mix_in_decoration_c (root : bytes) (decoration : N) : tally bytes :=
    match usize_hash_tree_root decoration with
    | Ok decoration_data => run h <- hash (root ++ decoration_data); free (to_node h)
    | Err _ => free (Panic PExpect)
    | Panic p => free (Panic p)
    end.

  Fixpoint fill_chunks_c (root : val -> tally bytes) (i : N) (elements : list val) (chunks : bytes)
    : tally bytes :=
    match elements with
    | [] => free (Ok chunks)
    | elem :: r =>
        run chunk <- root elem;
        run chunks <- free (copy_at (i * BYTES_PER_CHUNK) chunk chunks);
        fill_chunks_c root (i + 1) r chunks
    end.

  Definition assemble_chunks_c (T : SimpleSerialize) (root : val -> tally bytes) (v : val) : tally bytes :=
    match v with
    | VSeq data =>
        if is_composite_type T
        then fill_chunks_c root 0 data (zeros (N.to_nat (blen data * BYTES_PER_CHUNK)))
        else free (pack (ser T) data)
    | _ => free m_ill_typed
    end.

  Definition vector_root_c (T : SimpleSerialize) (root : val -> tally bytes) (v : val) : tally bytes :=
    run chunks <- assemble_chunks_c T root v;
    merkleize_c chunks None.

  Definition list_root_c (T : SimpleSerialize) (root : val -> tally bytes) (n : N) (v : val) : tally bytes :=
    match v with
    | VSeq data =>
        run chunks <- assemble_chunks_c T root v;
        run data_root <- (if is_composite_type T then merkleize_c chunks (Some n)
                          else
                            run limit <- free (list_inherent_chunk_count oc T n);
                            merkleize_c chunks (Some limit));
        mix_in_decoration_c data_root (blen data)
    | _ => free m_ill_typed
    end.

  Definition bitvector_root_c (n : N) (v : val) : tally bytes :=
    run chunks <- free (bitvector_pack_bits n v);
    merkleize_c chunks (Some (bits_chunk_count n)).

  Definition bitlist_root_c (n : N) (v : val) : tally bytes :=
    match v with
    | VBits b =>
        run chunks <- free (bitlist_pack_bits n v);
        run data_root <- merkleize_c chunks (Some (bits_chunk_count n));
        mix_in_decoration_c data_root (bv_len b)
    | _ => free m_ill_typed
    end.

  Fixpoint fill_fields_c (i : N) (fields : list ((val -> tally bytes) * val)) (chunks : bytes)
    : tally bytes :=
    match fields with
    | [] => free (Ok chunks)
    | (root, v) :: r =>
        run chunk <- root v;
        run chunks <- free (copy_at (i * BYTES_PER_CHUNK) chunk chunks);
        fill_fields_c (i + 1) r chunks
    end.

  Definition container_chunks_c (roots : list (val -> tally bytes)) (v : val) : tally bytes :=
    match v with
    | VStruct l =>
        if Nat.eqb (List.length l) (List.length roots)
        then fill_fields_c 0 (combine roots l) (zeros (N.to_nat (blen roots * BYTES_PER_CHUNK)))
        else free m_ill_typed
    | _ => free m_ill_typed
    end.

  Definition container_root_c (roots : list (val -> tally bytes)) (v : val) : tally bytes :=
    run chunks <- container_chunks_c roots v;
    merkleize_c chunks None.

  Definition newtype_root_c (root : val -> tally bytes) (v : val) : tally bytes :=
    match v with
    | VNewtype x =>
        run chunks <- fill_fields_c 0 [(root, x)] (zeros 32);
        merkleize_c chunks None
    | _ => free m_ill_typed
    end.

  Definition option_chunks_c (root : val -> tally bytes) (v : val) : tally bytes :=
    match v with
    | VSome x => root x
    | VNone => free (Ok (zeros 32))
    | _ => free m_ill_typed
    end.

  Definition option_root_c (root : val -> tally bytes) (v : val) : tally bytes :=
    run c <- option_chunks_c root v;
    run root <- free (to_node c);
    match v with
    | VSome _ => mix_in_decoration_c root 1
    | _ => mix_in_decoration_c root 0
    end.

  Definition union_root_c (roots : list (option (val -> tally bytes))) (v : val) : tally bytes :=
    match v with
    | VVariant i x =>
        match nth_error roots (N.to_nat i) with
        | Some (Some root) => run r <- root x; mix_in_decoration_c r i
        | _ => free m_ill_typed
        end
    | VNone =>
        match roots with
        | None :: _ => mix_in_decoration_c default_node 0
        | _ => free m_ill_typed
        end
    | _ => free m_ill_typed
    end.

  Definition union_chunks_c (roots : list (option (val -> tally bytes))) (v : val) : tally bytes :=
    match v with
    | VVariant i x =>
        match nth_error roots (N.to_nat i) with
        | Some (Some root) => root x
        | _ => free m_ill_typed
        end
    | VNone =>
        match roots with
        | None :: _ => free (Ok default_node)
        | _ => free m_ill_typed
        end
    | _ => free m_ill_typed
    end.

  (** [hash_tree_root] of every type. *)
  Fixpoint root_c (t : ty) : val -> tally bytes :=
    match t with
    | TVector u _ | TArray u _ => vector_root_c (simple_serialize H CONTEXT oc u) (root_c u)
    | TList u n => list_root_c (simple_serialize H CONTEXT oc u) (root_c u) n
    | TBitvector n => bitvector_root_c n
    | TBitlist n => bitlist_root_c n
    | TContainer fs => container_root_c (map (fun f => root_c (snd f)) fs)
    | TNewtype u => newtype_root_c (root_c u)
    | TOption u => option_root_c (root_c u)
    | TUnion vs => union_root_c (map (option_map root_c) vs)
    | TTransparent ts => union_chunks_c (map Some (map root_c ts))
    | _ => fun v => free (hash_tree_root (simple_serialize H CONTEXT oc t) v)
    end.

  (** ** Proofs *)

  Definition tree_mix_in_decoration_c (tree : bytes) (decoration : N) : tally bytes :=
    run decoration_node <- free (usize_hash_tree_root decoration);
    run tree <- free (tree_write oc tree 3 decoration_node);
    run a <- free (tree_index oc tree 2);
    run b <- free (tree_index oc tree 3);
    run h <- hash (a ++ b);
    free (tree_write oc tree 1 h).

  Definition tree_step_c (buffer : bytes) (i : N) : tally bytes :=
    let parent_index := (i - 1) / 2 in
    let start := parent_index * BYTES_PER_CHUNK in
    run focus <- free (slice start ((i + 1) * BYTES_PER_CHUNK) buffer);
    run children_index <- free (usub oc (blen focus) (2 * BYTES_PER_CHUNK));
    let parent := takeN children_index focus in
    let children := dropN children_index focus in
    let lhs := takeN BYTES_PER_CHUNK children in
    let rhs := dropN BYTES_PER_CHUNK children in
    run target <- free (@slice MerkleizationError byte 0 BYTES_PER_CHUNK parent);
    run h <- hash (lhs ++ rhs);
    free (copy_at start h buffer).

  Fixpoint tree_steps_c (buffer : bytes) (l : list N) : tally bytes :=
    match l with
    | [] => free (Ok buffer)
    | i :: r => run buffer <- tree_step_c buffer i; tree_steps_c buffer r
    end.

  Definition compute_merkle_tree_c (chunks : bytes) (leaf_count : N) : tally bytes :=
    run a <- free (debug_assert oc (blen chunks mod BYTES_PER_CHUNK =? 0));
    run b <- free (if oc then do p <- next_power_of_two oc leaf_count; debug_assert oc (p =? leaf_count)
                   else Ok tt);
    run twice <- free (umul oc 2 leaf_count);
    run node_count <- free (usub oc twice 1);
    run interior_count <- free (usub oc node_count leaf_count);
    run leaf_start <- free (umul oc interior_count BYTES_PER_CHUNK);
    run size <- free (umul oc node_count BYTES_PER_CHUNK);
    run buffer <- free (alloc_zeros size);
    run buffer <- free (copy_at leaf_start chunks buffer);
    tree_steps_c buffer (rev_step_by_2 node_count).

  Definition compute_proof_c (T : SimpleSerialize) (chunks : val -> tally bytes)
      (prove_element : val -> N -> Prover -> tally Prover) (data : val) (p : Prover) : tally Prover :=
    run chunk_count <- free (chunk_count T);
    run leaf_count <- free (next_power_of_two oc chunk_count);
    let parent_index := proof_index (proof p) in
    let decoration := decoration T data in
    run leaf_count <- free (match decoration with
                            | Some _ => umul oc leaf_count 2
                            | None => Ok leaf_count
                            end);
    run local <- free (compute_local_merkle_coordinates oc parent_index leaf_count);
    let '(local_depth, local_index, local_generalized_index) := local in
    let is_leaf_local := negb (local_generalized_index <? parent_index) in
    run p <- (if local_generalized_index <? parent_index then
                run parent_depth <- free (get_depth parent_index);
                run child_depth <- free (usub oc parent_depth local_depth);
                run node_count <- free (upow2 oc child_depth);
                run r <- free (urem parent_index node_count);
                run child_index <- free (uadd oc node_count r);
                run p <- prove_element data local_index (set_index p child_index);
                free (Ok (set_index p parent_index))
              else free (Ok p));
    run chunks <- chunks data;
    run tree <- compute_merkle_tree_c chunks leaf_count;
    run tree <- match decoration with
                | Some decoration => tree_mix_in_decoration_c tree decoration
                | None => free (Ok tree)
                end;
    run p <- free (if is_leaf_local then
                     do node <- tree_index oc tree parent_index;
                     set_leaf p node
                   else Ok p);
    run p <- free (extend_branches oc (N.to_nat local_depth) tree local_generalized_index p);
    run root <- free (tree_index oc tree 1);
    free (set_witness p root).

  (** [chunks] of every type. *)
  Fixpoint chunks_c (t : ty) (v : val) : tally bytes :=
    match t with
    | TVector u _ | TArray u _ | TList u _ => assemble_chunks_c (simple_serialize H CONTEXT oc u) (root_c u) v
    | TContainer fs => container_chunks_c (map (fun f => root_c (snd f)) fs) v
    | TNewtype u => match v with VNewtype x => chunks_c u x | _ => free m_ill_typed end
    | TOption u => option_chunks_c (root_c u) v
    | TUnion vs => union_chunks_c (map (option_map root_c) vs) v
    | TTransparent ts => union_chunks_c (map Some (map root_c ts)) v
    | _ => free (chunks (simple_serialize H CONTEXT oc t) v)
    end.

  Definition seq_element_c (n : N) (proof : val -> Prover -> tally Prover) (v : val) (i : N) (p : Prover) : tally Prover :=
    match v with
    | VSeq data =>
        if n <=? i then free (Err InvalidInnerIndex)
        else
          run child <- free (index i data);
          proof child p
    | _ => free m_ill_typed
    end.

  Definition container_element_c (proofs : list (val -> Prover -> tally Prover)) (v : val) (i : N) (p : Prover)
    : tally Prover :=
    match v with
    | VStruct l =>
        if blen proofs <=? i then free (Err InvalidInnerIndex)
        else
          match nth_error (combine proofs l) (N.to_nat i) with
          | Some (proof, child) => proof child p
          | None => free m_ill_typed
          end
    | _ => free m_ill_typed
    end.

  (** [usize] has no parts and takes no hashes for its chunk. *)
  Definition usize_proof_c : val -> Prover -> tally Prover :=
    compute_proof_c usize_m (fun v => free (chunks usize_m v))
      (fun v i p => free (prove_element usize_m v i p)).

  Definition option_element_c (proof : val -> Prover -> tally Prover) (v : val) (i : N) (p : Prover) : tally Prover :=
    if 2 <=? i then free (Err InvalidInnerIndex)
    else
      match v with
      | VSome x => proof x p
      | VNone => usize_proof_c (VUint 0) p
      | _ => free m_ill_typed
      end.

  Definition union_element_c (proofs : list (option (val -> Prover -> tally Prover))) (v : val) (i : N) (p : Prover)
    : tally Prover :=
    if blen proofs <=? i then free (Err InvalidInnerIndex)
    else
      match v with
      | VVariant k x =>
          match nth_error proofs (N.to_nat k) with
          | Some (Some proof) => proof x p
          | _ => free m_ill_typed
          end
      | VNone => usize_proof_c (VUint 0) p
      | _ => free m_ill_typed
      end.

  (** [prove_element] of every type. *)
  Fixpoint element_c (t : ty) (v : val) (i : N) (p : Prover) : tally Prover :=
    let proof u := compute_proof_c (simple_serialize H CONTEXT oc u) (chunks_c u) (element_c u) in
    match t with
    | TVector u n | TArray u n | TList u n => seq_element_c n (proof u) v i p
    | TContainer fs => container_element_c (map (fun f => proof (snd f)) fs) v i p
    | TNewtype u => match v with VNewtype x => element_c u x i p | _ => free m_ill_typed end
    | TOption u => option_element_c (proof u) v i p
    | TUnion vs => union_element_c (map (option_map proof) vs) v i p
    | TTransparent ts => union_element_c (map Some (map proof ts)) v i p
    | _ => free (prove_element (simple_serialize H CONTEXT oc t) v i p)
    end.

  Definition proof_c (t : ty) : val -> Prover -> tally Prover :=
    compute_proof_c (simple_serialize H CONTEXT oc t) (chunks_c t) (element_c t).

  Definition prove_c (t : ty) (v : val) (path : Path) : tally (Proof_ * bytes) :=
    run index <- free (generalized_index (simple_serialize H CONTEXT oc t) path);
    run p <- proof_c t v (prover_from index);
    free (Ok (proof p, witness p)).
End Hash.
