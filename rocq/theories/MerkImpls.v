(** The [HashTreeRoot], [GeneralizedIndexable] and [Prove] impls of ssz-rs and of its derive
    macro, one definition per Rust impl, and the record for every SSZ type. *)
From Coq Require Import String List NArith Bool.
From Coq Require Import Strings.Byte.
From Verif Require Import Prelude Types Bitvec Ser De Impls Merkleize Proofs.
Import ListNotations.
Open Scope N_scope.

(** A value of another type: excluded by Rust. *)
Definition m_ill_typed {A} : mres A := Panic PIllTyped.

(** The default methods: generalized_index.rs:38-60, proofs.rs:147-158. *)
Definition default_item_length : N := BYTES_PER_CHUNK.
Definition default_chunk_count : mres N := Ok 1.
Definition default_compute_generalized_index (parent : N) (path : Path) : mres N :=
  match path with
  | [] => Ok parent
  | _ => Err (InvalidPath path)
  end.
Definition default_prove_element (v : val) (index : N) (p : Prover) : mres Prover :=
  Err NoInnerElement.
Definition default_decoration (v : val) : option N := None.

Section Hash.
  Context (H : bytes -> bytes) (CONTEXT : bytes) (oc : bool).

  Let merkleize := merkleize H CONTEXT oc.
  Let compute_proof := compute_proof H oc.

  (** ** bool: boolean.rs:45-75 *)
  Definition bool_chunks (v : val) : mres bytes :=
    match v with
    | VBool b => if b then Ok (x01 :: zeros 31) else Ok (zeros 32)
    | _ => m_ill_typed
    end.

  Definition bool_m : SimpleSerialize :=
    {| ser := bool_impl; hash_tree_root := bool_chunks; is_composite_type := false;
       item_length := size_hint bool_impl; chunk_count := default_chunk_count;
       compute_generalized_index := default_compute_generalized_index;
       chunks := bool_chunks; prove_element := default_prove_element;
       decoration := default_decoration |}.

  (** ** Unsigned integers: uint.rs:58-84 *)
  Definition uint_chunks_v (size : N) (v : val) : mres bytes :=
    match v with
    | VUint n => uint_chunks size n
    | _ => m_ill_typed
    end.

  Definition uint_m (size : N) : SimpleSerialize :=
    {| ser := uint_impl size;
       hash_tree_root := fun v => do root <- uint_chunks_v size v; to_node root;
       is_composite_type := false; item_length := size_hint (uint_impl size);
       chunk_count := default_chunk_count;
       compute_generalized_index := default_compute_generalized_index;
       chunks := uint_chunks_v size; prove_element := default_prove_element;
       decoration := default_decoration |}.

  Definition usize_m : SimpleSerialize := uint_m (bits_to_bytes (uint_bits Usize)).

  (** ** U256: uint.rs:139-162 *)
  Definition u256_chunks (v : val) : mres bytes :=
    match v with
    | VUint n => Ok (le_bytes 32 n)
    | _ => m_ill_typed
    end.

  Definition u256_m : SimpleSerialize :=
    {| ser := u256_impl;
       hash_tree_root := fun v => do root <- u256_chunks v; to_node root;
       is_composite_type := false; item_length := size_hint u256_impl;
       chunk_count := default_chunk_count;
       compute_generalized_index := default_compute_generalized_index;
       chunks := u256_chunks; prove_element := default_prove_element;
       decoration := default_decoration |}.

  (** ** Node: node.rs:43-62 *)
  Definition node_chunks (v : val) : mres bytes :=
    match v with
    | VNode b => Ok b
    | _ => m_ill_typed
    end.

  Definition node_m : SimpleSerialize :=
    {| ser := node_impl;
       hash_tree_root := fun v => do root <- node_chunks v; to_node root;
       is_composite_type := false; item_length := default_item_length;
       chunk_count := default_chunk_count;
       compute_generalized_index := default_compute_generalized_index;
       chunks := node_chunks; prove_element := default_prove_element;
       decoration := default_decoration |}.

  (** ** Vector, array, List *)

  (** vector.rs:214-221, list.rs:199-206, array.rs:124-131 *)
  Definition assemble_chunks (T : SimpleSerialize) (v : val) : mres bytes :=
    match v with
    | VSeq data =>
        if is_composite_type T then elements_to_chunks (hash_tree_root T) data (blen data)
        else pack (ser T) data
    | _ => m_ill_typed
    end.

  (** [(N * T::item_length() + 31) / 32]: vector.rs:242-244, list.rs:242-244, array.rs:93-95 *)
  Definition seq_chunk_count (T : SimpleSerialize) (n : N) : mres N :=
    do a <- umul oc n (item_length T);
    do b <- uadd oc a 31;
    Ok (b / 32).

  (** vector.rs:246-266, array.rs:97-117 *)
  Definition vector_compute_generalized_index (T : SimpleSerialize) (n : N)
      (parent : N) (path : Path) : mres N :=
    match path with
    | [] => Ok parent
    | next :: rest =>
        match next with
        | Index i =>
            if n <=? i then Err (InvalidPathElement next)
            else
              do a <- umul oc i (item_length T);
              let chunk_position := a / 32 in
              do count <- seq_chunk_count T n;
              do ceil <- get_power_of_two_ceil oc count;
              do b <- umul oc parent ceil;
              do child <- uadd oc b chunk_position;
              compute_generalized_index T child rest
        | elem => Err (InvalidPathElement elem)
        end
    end.

  (** vector.rs:277-284, list.rs:286-293, array.rs:133-140 *)
  Definition seq_prove_element (T : SimpleSerialize) (n : N) (v : val) (i : N) (p : Prover)
    : mres Prover :=
    match v with
    | VSeq data =>
        if n <=? i then Err InvalidInnerIndex
        else
          do child <- index i data;
          compute_proof T child p
    | _ => m_ill_typed
    end.

  (** vector.rs:223-236 *)
  Definition vector_hash_tree_root (T : SimpleSerialize) (v : val) : mres bytes :=
    do chunks <- assemble_chunks T v;
    merkleize chunks None.

  Definition vector_m (T : SimpleSerialize) (n : N) : SimpleSerialize :=
    {| ser := vector_impl oc (ser T) n; hash_tree_root := vector_hash_tree_root T;
       is_composite_type := true; item_length := default_item_length;
       chunk_count := seq_chunk_count T n;
       compute_generalized_index := vector_compute_generalized_index T n;
       chunks := assemble_chunks T; prove_element := seq_prove_element T n;
       decoration := default_decoration |}.

  (** array.rs:75-143: same code, but [is_composite_type] is that of the element. *)
  Definition array_m (T : SimpleSerialize) (n : N) : SimpleSerialize :=
    {| ser := array_impl oc (ser T) n; hash_tree_root := vector_hash_tree_root T;
       is_composite_type := is_composite_type T; item_length := default_item_length;
       chunk_count := seq_chunk_count T n;
       compute_generalized_index := vector_compute_generalized_index T n;
       chunks := assemble_chunks T; prove_element := seq_prove_element T n;
       decoration := default_decoration |}.

  (** list.rs:214-216 *)
  Definition list_inherent_chunk_count (T : SimpleSerialize) (n : N) : mres N :=
    do a <- umul oc n (size_hint (ser T));
    Ok (div_ceil a BYTES_PER_CHUNK).

  (** list.rs:218-236 *)
  Definition list_hash_tree_root (T : SimpleSerialize) (n : N) (v : val) : mres bytes :=
    match v with
    | VSeq data =>
        do chunks <- assemble_chunks T v;
        do data_root <- (if is_composite_type T then merkleize chunks (Some n)
                         else
                           do limit <- list_inherent_chunk_count T n;
                           merkleize chunks (Some limit));
        mix_in_length H data_root (blen data)
    | _ => m_ill_typed
    end.

  (** list.rs:246-275 *)
  Definition list_compute_generalized_index (T : SimpleSerialize) (n : N)
      (parent : N) (path : Path) : mres N :=
    match path with
    | [] => Ok parent
    | next :: rest =>
        match next with
        | Index i =>
            if n <=? i then Err (InvalidPathElement next)
            else
              do a <- umul oc i (item_length T);
              let chunk_position := a / 32 in
              do parent2 <- umul oc parent 2;
              do count <- seq_chunk_count T n;
              do ceil <- get_power_of_two_ceil oc count;
              do b <- umul oc parent2 ceil;
              do child <- uadd oc b chunk_position;
              compute_generalized_index T child rest
        | Length =>
            match rest with
            | [] => do a <- umul oc parent 2; uadd oc a 1
            | _ => Err (InvalidPath rest)
            end
        | elem => Err (InvalidPathElement elem)
        end
    end.

  (** list.rs:295-297 *)
  Definition list_decoration (v : val) : option N :=
    match v with
    | VSeq data => Some (blen data)
    | _ => None
    end.

  Definition list_m (T : SimpleSerialize) (n : N) : SimpleSerialize :=
    {| ser := list_impl oc (ser T) n; hash_tree_root := list_hash_tree_root T n;
       is_composite_type := true; item_length := default_item_length;
       chunk_count := seq_chunk_count T n;
       compute_generalized_index := list_compute_generalized_index T n;
       chunks := assemble_chunks T; prove_element := seq_prove_element T n;
       decoration := list_decoration |}.

  (** ** Bitvector: bitvector.rs:84-93, 170-213 *)
  Definition BITS_PER_CHUNK : N := 256.
  Definition bits_chunk_count (n : N) : N := div_ceil n BITS_PER_CHUNK.

  Definition bitvector_pack_bits (n : N) (v : val) : mres bytes :=
    do data <- ser_to_merkle (bitvector_serialize n v []);
    Ok (pack_bytes data).

  (** bitvector.rs:182-204: the elements behave like [bool]. *)
  Definition bitvector_compute_generalized_index (n : N) (parent : N) (path : Path) : mres N :=
    match path with
    | [] => Ok parent
    | next :: rest =>
        match next with
        | Index i =>
            if n <=? i then Err (InvalidPathElement next)
            else
              let chunk_position := i / 256 in
              do ceil <- get_power_of_two_ceil oc (bits_chunk_count n);
              do b <- umul oc parent ceil;
              do child <- uadd oc b chunk_position;
              default_compute_generalized_index child rest
        | elem => Err (InvalidPathElement elem)
        end
    end.

  Definition bitvector_m (n : N) : SimpleSerialize :=
    {| ser := bitvector_impl n;
       hash_tree_root := fun v =>
         do chunks <- bitvector_pack_bits n v;
         merkleize chunks (Some (bits_chunk_count n));
       is_composite_type := true; item_length := default_item_length;
       chunk_count := Ok (bits_chunk_count n);
       compute_generalized_index := bitvector_compute_generalized_index n;
       chunks := bitvector_pack_bits n; prove_element := default_prove_element;
       decoration := default_decoration |}.

  (** ** Bitlist: bitlist.rs:71-76, 103-106, 181-230 *)
  Definition bitlist_pack_bits (n : N) (v : val) : mres bytes :=
    match v with
    | VBits b =>
        do data <- ser_to_merkle (bitlist_serialize_with_length n b false []);
        Ok (pack_bytes data)
    | _ => m_ill_typed
    end.

  Definition bitlist_hash_tree_root (n : N) (v : val) : mres bytes :=
    match v with
    | VBits b =>
        do chunks <- bitlist_pack_bits n v;
        do data_root <- merkleize chunks (Some (bits_chunk_count n));
        mix_in_length H data_root (bv_len b)
    | _ => m_ill_typed
    end.

  (** bitlist.rs:194-217: no case for [Length]. *)
  Definition bitlist_compute_generalized_index (n : N) (parent : N) (path : Path) : mres N :=
    match path with
    | [] => Ok parent
    | next :: rest =>
        match next with
        | Index i =>
            if n <=? i then Err (InvalidPathElement next)
            else
              let chunk_position := i / 256 in
              do parent2 <- umul oc parent 2;
              do ceil <- get_power_of_two_ceil oc (bits_chunk_count n);
              do b <- umul oc parent2 ceil;
              do child <- uadd oc b chunk_position;
              default_compute_generalized_index child rest
        | elem => Err (InvalidPathElement elem)
        end
    end.

  Definition bitlist_decoration (v : val) : option N :=
    match v with
    | VBits b => Some (bv_len b)
    | _ => None
    end.

  Definition bitlist_m (n : N) : SimpleSerialize :=
    {| ser := bitlist_impl oc n; hash_tree_root := bitlist_hash_tree_root n;
       is_composite_type := true; item_length := default_item_length;
       chunk_count := Ok (bits_chunk_count n);
       compute_generalized_index := bitlist_compute_generalized_index n;
       chunks := bitlist_pack_bits n; prove_element := default_prove_element;
       decoration := bitlist_decoration |}.

  (** ** Derived struct with named fields *)

  (** ssz-rs-derive/src/lib.rs:326-342: one chunk per field. *)
  Fixpoint fill_fields (i : N) (fields : list (SimpleSerialize * val)) (chunks : bytes)
    : mres bytes :=
    match fields with
    | [] => Ok chunks
    | (T, v) :: r =>
        do chunk <- hash_tree_root T v;
        do chunks <- copy_at (i * BYTES_PER_CHUNK) chunk chunks;
        fill_fields (i + 1) r chunks
    end.

  Definition container_assemble_chunks (fields : list SimpleSerialize) (v : val) : mres bytes :=
    match v with
    | VStruct l =>
        if Nat.eqb (length l) (List.length fields)
        then fill_fields 0 (combine fields l)
                         (zeros (N.to_nat (blen fields * BYTES_PER_CHUNK)))
        else m_ill_typed
    | _ => m_ill_typed
    end.

  (** [match field { "a" => .., "b" => .., s => .. }], ssz-rs-derive/src/lib.rs:443-468. *)
  Fixpoint by_field (count i : N) (fields : list (string * SimpleSerialize)) (parent : N)
      (rest : Path) (field : string) : mres N :=
    match fields with
    | [] => Err (InvalidPathElement (Field field))
    | (name, T) :: r =>
        if String.eqb field name then
          let chunk_position := i in
          do ceil <- get_power_of_two_ceil oc count;
          do a <- umul oc parent ceil;
          do child <- uadd oc a chunk_position;
          compute_generalized_index T child rest
        else by_field count (i + 1) r parent rest field
    end.

  (** ssz-rs-derive/src/lib.rs:430-441 *)
  Definition container_compute_generalized_index (fields : list (string * SimpleSerialize))
      (parent : N) (path : Path) : mres N :=
    match path with
    | [] => Ok parent
    | next :: rest =>
        match next with
        | Field field => by_field (blen fields) 0 fields parent rest field
        | elem => Err (InvalidPathElement elem)
        end
    end.

  (** ssz-rs-derive/src/lib.rs:599-621 *)
  Definition container_prove_element (fields : list SimpleSerialize) (v : val) (i : N)
      (p : Prover) : mres Prover :=
    match v with
    | VStruct l =>
        if blen fields <=? i then Err InvalidInnerIndex
        else
          match nth_error (combine fields l) (N.to_nat i) with
          | Some (T, child) => compute_proof T child p
          | None => m_ill_typed
          end
    | _ => m_ill_typed
    end.

  Definition container_m (fields : list (string * SimpleSerialize)) : SimpleSerialize :=
    let types := map snd fields in
    {| ser := container_impl oc (map ser types);
       hash_tree_root := fun v =>
         do chunks <- container_assemble_chunks types v;
         merkleize chunks None;
       is_composite_type := true; item_length := default_item_length;
       chunk_count := Ok (blen fields);
       compute_generalized_index := container_compute_generalized_index fields;
       chunks := container_assemble_chunks types;
       prove_element := container_prove_element types;
       decoration := default_decoration |}.

  (** ** Derived newtype struct: ssz-rs-derive/src/lib.rs:326-347, 471-478, 559-568, 625-641.
      [is_composite_type] and [item_length] are the defaults. *)
  Definition unwrap {A} (f : val -> mres A) (v : val) : mres A :=
    match v with VNewtype x => f x | _ => m_ill_typed end.

  Definition newtype_m (T : SimpleSerialize) : SimpleSerialize :=
    {| ser := newtype_impl (ser T);
       hash_tree_root := unwrap (fun x =>
         do chunks <- fill_fields 0 [(T, x)] (zeros 32);
         merkleize chunks None);
       is_composite_type := true; item_length := default_item_length;
       chunk_count := chunk_count T;
       compute_generalized_index := compute_generalized_index T;
       chunks := unwrap (chunks T);
       prove_element := fun v i p => unwrap (fun x => prove_element T x i p) v;
       decoration := fun v => match v with VNewtype x => decoration T x | _ => None end |}.

  (** ** Option: union.rs:77-168 *)
  Definition option_chunks (T : SimpleSerialize) (v : val) : mres bytes :=
    match v with
    | VSome x => hash_tree_root T x
    | VNone => Ok (zeros 32)
    | _ => m_ill_typed
    end.

  Definition option_hash_tree_root (T : SimpleSerialize) (v : val) : mres bytes :=
    do c <- option_chunks T v;
    do root <- to_node c;
    match v with
    | VSome _ => mix_in_selector H root 1
    | _ => mix_in_selector H root 0
    end.

  (** The unit variant: union.rs:106-112, ssz-rs-derive/src/lib.rs:504-510. *)
  Definition none_generalized_index (child : N) (rest : Path) : mres N :=
    match rest with
    | [] => Ok child
    | _ => Err (InvalidPath rest)
    end.

  (** [PathElement::Selector]: union.rs:117-123, ssz-rs-derive/src/lib.rs:530-536. *)
  Definition selector_generalized_index (parent : N) (rest : Path) : mres N :=
    match rest with
    | [] => do a <- umul oc parent 2; uadd oc a 1
    | _ => Err (InvalidPath rest)
    end.

  Definition option_compute_generalized_index (T : SimpleSerialize) (parent : N) (path : Path)
    : mres N :=
    match path with
    | [] => Ok parent
    | next :: rest =>
        match next with
        | Index i =>
            if 2 <=? i then Err (InvalidPathElement next)
            else
              do child <- umul oc parent 2;
              if i =? 0 then none_generalized_index child rest
              else if i =? 1 then compute_generalized_index T child rest
              else Panic PUnreachable
        | Selector => selector_generalized_index parent rest
        | elem => Err (InvalidPathElement elem)
        end
    end.

  Definition option_prove_element (T : SimpleSerialize) (v : val) (i : N) (p : Prover)
    : mres Prover :=
    if 2 <=? i then Err InvalidInnerIndex
    else
      match v with
      | VSome x => compute_proof T x p
      | VNone => compute_proof usize_m (VUint 0) p
      | _ => m_ill_typed
      end.

  Definition option_decoration (v : val) : option N :=
    match v with
    | VSome _ => Some 1
    | _ => Some 0
    end.

  Definition option_m (T : SimpleSerialize) : SimpleSerialize :=
    {| ser := option_impl (ser T); hash_tree_root := option_hash_tree_root T;
       is_composite_type := true; item_length := default_item_length;
       chunk_count := default_chunk_count;
       compute_generalized_index := option_compute_generalized_index T;
       chunks := option_chunks T; prove_element := option_prove_element T;
       decoration := option_decoration |}.

  (** ** Derived enum *)

  (** ssz-rs-derive/src/lib.rs:350-400 (without [transparent]) *)
  Definition union_hash_tree_root (variants : list (option SimpleSerialize)) (v : val)
    : mres bytes :=
    match v with
    | VVariant i x =>
        match nth_error variants (N.to_nat i) with
        | Some (Some T) => do root <- hash_tree_root T x; mix_in_selector H root i
        | _ => m_ill_typed
        end
    | VNone =>
        match variants with
        | None :: _ => mix_in_selector H default_node 0
        | _ => m_ill_typed
        end
    | _ => m_ill_typed
    end.

  (** ssz-rs-derive/src/lib.rs:368-383 *)
  Definition union_chunks (variants : list (option SimpleSerialize)) (v : val) : mres bytes :=
    match v with
    | VVariant i x =>
        match nth_error variants (N.to_nat i) with
        | Some (Some T) => hash_tree_root T x
        | _ => m_ill_typed
        end
    | VNone =>
        match variants with
        | None :: _ => Ok default_node
        | _ => m_ill_typed
        end
    | _ => m_ill_typed
    end.

  (** ssz-rs-derive/src/lib.rs:484-542 *)
  Definition union_compute_generalized_index (variants : list (option SimpleSerialize))
      (parent : N) (path : Path) : mres N :=
    match path with
    | [] => Ok parent
    | next :: rest =>
        match next with
        | Index i =>
            if blen variants <=? i then Err (InvalidPathElement next)
            else
              do child <- umul oc parent 2;
              match nth_error variants (N.to_nat i) with
              | Some (Some T) => compute_generalized_index T child rest
              | Some None => none_generalized_index child rest
              | None => Panic PUnreachable
              end
        | Selector => selector_generalized_index parent rest
        | elem => Err (InvalidPathElement elem)
        end
    end.

  (** ssz-rs-derive/src/lib.rs:647-691 *)
  Definition union_prove_element (variants : list (option SimpleSerialize)) (v : val) (i : N)
      (p : Prover) : mres Prover :=
    if blen variants <=? i then Err InvalidInnerIndex
    else
      match v with
      | VVariant k x =>
          match nth_error variants (N.to_nat k) with
          | Some (Some T) => compute_proof T x p
          | _ => m_ill_typed
          end
      | VNone => compute_proof usize_m (VUint 0) p
      | _ => m_ill_typed
      end.

  (** ssz-rs-derive/src/lib.rs:654-675, 695-701 *)
  Definition union_decoration (v : val) : option N :=
    match v with
    | VVariant i _ => Some i
    | _ => Some 0
    end.

  Definition union_m (variants : list (option SimpleSerialize)) : SimpleSerialize :=
    {| ser := union_impl (map (option_map ser) variants);
       hash_tree_root := union_hash_tree_root variants;
       is_composite_type := true; item_length := default_item_length;
       chunk_count := default_chunk_count;
       compute_generalized_index := union_compute_generalized_index variants;
       chunks := union_chunks variants; prove_element := union_prove_element variants;
       decoration := union_decoration |}.

  (** ** Derived transparent enum: only [hash_tree_root] differs from other enums
      (ssz-rs-derive/src/lib.rs:355-358). *)
  Definition transparent_m (types : list SimpleSerialize) : SimpleSerialize :=
    let variants := map Some types in
    {| ser := transparent_impl (map ser types);
       hash_tree_root := union_chunks variants;
       is_composite_type := true; item_length := default_item_length;
       chunk_count := default_chunk_count;
       compute_generalized_index := union_compute_generalized_index variants;
       chunks := union_chunks variants; prove_element := union_prove_element variants;
       decoration := union_decoration |}.

  (** ** All types *)
  Fixpoint simple_serialize (t : ty) : SimpleSerialize :=
    match t with
    | TBool => bool_m
    | TUint w => uint_m (bits_to_bytes (uint_bits w))
    | TU256 => u256_m
    | TNode => node_m
    | TVector t n => vector_m (simple_serialize t) n
    | TArray t n => array_m (simple_serialize t) n
    | TList t n => list_m (simple_serialize t) n
    | TBitvector n => bitvector_m n
    | TBitlist n => bitlist_m n
    | TContainer fs => container_m (map (fun f => (fst f, simple_serialize (snd f))) fs)
    | TNewtype t => newtype_m (simple_serialize t)
    | TOption t => option_m (simple_serialize t)
    | TUnion vs => union_m (map (option_map simple_serialize) vs)
    | TTransparent ts => transparent_m (map simple_serialize ts)
    end.
End Hash.

(** The library built with the hash function [H]: its static table comes from build.rs. *)
Definition ssz (H : bytes -> bytes) (oc : bool) (t : ty) : SimpleSerialize :=
  simple_serialize H (CONTEXT_of (compute_zero_hashes H)) oc t.

(** [v.hash_tree_root()], [T::generalized_index(path)], [v.prove(path)] *)
Definition ssz_hash_tree_root (H : bytes -> bytes) (oc : bool) (t : ty) (v : val) : mres bytes :=
  hash_tree_root (ssz H oc t) v.
Definition ssz_generalized_index (H : bytes -> bytes) (oc : bool) (t : ty) (path : Path)
  : mres N := generalized_index (ssz H oc t) path.
Definition ssz_prove (H : bytes -> bytes) (oc : bool) (t : ty) (v : val) (path : Path)
  : mres (Proof_ * bytes) := prove H oc (ssz H oc t) v path.
