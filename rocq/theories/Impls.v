(** The [Serializable] impls of ssz-rs and of its derive macro, one definition per Rust impl,
    and the record for every SSZ type. *)
From Coq Require Import List NArith Bool.
From Coq Require Import Strings.Byte.
From Verif Require Import Prelude Types Bitvec Ser De.
Import ListNotations.
Open Scope N_scope.

Definition ill_typed (buffer : bytes) : ser_result := (buffer, Panic PIllTyped).

(** ** bool: ssz-rs/src/boolean.rs:12-43 *)
Definition bool_serialize (v : val) (buffer : bytes) : ser_result :=
  match v with
  | VBool b => (buffer ++ [if b then x01 else x00], Ok 1)
  | _ => ill_typed buffer
  end.

Definition bool_deserialize (encoding : bytes) : res DeserializeError val :=
  match encoding with
  | [] => Err (ExpectedFurtherInput 0 1)
  | [b] => if byte_eqb b x00 then Ok (VBool false)
           else if byte_eqb b x01 then Ok (VBool true)
           else Err (InvalidByte b)
  | _ => Err (AdditionalInput (blen encoding) 1)
  end.

Definition bool_impl : Serializable :=
  {| is_variable_size := false; size_hint := 1;
     serialize := bool_serialize; deserialize := bool_deserialize |}.

(** ** Unsigned integers: ssz-rs/src/uint.rs:12-56. [usize] has 64 bits. *)
Definition uint_bits (w : uint_ty) : N :=
  match w with
  | U8 => 8 | U16 => 16 | U32 => 32 | U64 => 64 | U128 => 128 | Usize => 64
  end.

(** uint.rs:12-15 *)
Definition bits_to_bytes (count : N) : N := count / 8.

Definition uint_serialize (size : N) (v : val) (buffer : bytes) : ser_result :=
  match v with
  | VUint n => (buffer ++ le_bytes (N.to_nat size) n, Ok size)
  | _ => ill_typed buffer
  end.

Definition uint_impl (size : N) : Serializable :=
  {| is_variable_size := false; size_hint := size;
     serialize := uint_serialize size;
     deserialize := fun e => do n <- uint_deserialize size e; Ok (VUint n) |}.

(** ** U256: ssz-rs/src/uint.rs:95-137. Same code shape with a 32-byte integer. *)
Definition U256_BYTE_COUNT : N := 32.
Definition u256_impl : Serializable := uint_impl U256_BYTE_COUNT.

(** ** Node: ssz-rs/src/merkleization/node.rs:3-41 *)
Definition BYTES_PER_CHUNK : N := 32.

Definition node_serialize (v : val) (buffer : bytes) : ser_result :=
  match v with
  | VNode b => (buffer ++ b, Ok BYTES_PER_CHUNK)
  | _ => ill_typed buffer
  end.

Definition node_deserialize (encoding : bytes) : res DeserializeError val :=
  if blen encoding <? BYTES_PER_CHUNK then
    Err (ExpectedFurtherInput (blen encoding) BYTES_PER_CHUNK)
  else if BYTES_PER_CHUNK <? blen encoding then
    Err (AdditionalInput (blen encoding) BYTES_PER_CHUNK)
  else do b <- slice 0 BYTES_PER_CHUNK encoding; Ok (VNode b).

Definition node_impl : Serializable :=
  {| is_variable_size := false; size_hint := BYTES_PER_CHUNK;
     serialize := node_serialize; deserialize := node_deserialize |}.

(** ** Vector and array *)

(** vector.rs:161-175 and array.rs:28-42 (the same code). *)
Definition vector_serialize (oc : bool) (T : Serializable) (n : N) (v : val) (buffer : bytes)
  : ser_result :=
  match v with
  | VSeq l =>
      if n =? 0 then (buffer, Err (SInvalidType (InvalidBound n)))
      else serialize_elements oc (map (fun x => (T, x)) l) buffer
  | _ => ill_typed buffer
  end.

(** [TryFrom<Vec<T>> for Vector<T, N>], vector.rs:38-52: returns the data with the error. *)
Definition vector_try_from {A} (n : N) (data : list A) : res (list A * Error) (list A) :=
  if n =? 0 then Err (data, EType (InvalidBound n))
  else if negb (blen data =? n) then Err (data, EInstance (Exact n (blen data)))
  else Ok data.

(** The length check of a fixed-size element type, vector.rs:185-199, array.rs:53-67. *)
Definition check_fixed_length (T : Serializable) (n : N) (encoding : bytes)
  : res DeserializeError unit :=
  if negb (is_variable_size T) then
    let expected_length := n * size_hint T in
    if blen encoding <? expected_length then
      Err (ExpectedFurtherInput (blen encoding) expected_length)
    else if expected_length <? blen encoding then
      Err (AdditionalInput (blen encoding) expected_length)
    else Ok tt
  else Ok tt.

(** The conversion of the error at vector.rs:201-206. *)
Definition vector_try_from_err {A} (e : list A * Error) : DeserializeError :=
  match snd e with
  | EDeserialize e => e
  | EInstance e => DInvalidInstance e
  | EType e => DInvalidType e
  end.

(** vector.rs:177-208 *)
Definition vector_deserialize (oc : bool) (T : Serializable) (n : N) (encoding : bytes)
  : res DeserializeError val :=
  if n =? 0 then Err (DInvalidType (InvalidBound n))
  else
    do _ <- check_fixed_length T n encoding;
    do inner <- deserialize_homogeneous_composite oc T encoding;
    do data <- map_err vector_try_from_err (vector_try_from n inner);
    Ok (VSeq data).

Definition vector_impl (oc : bool) (T : Serializable) (n : N) : Serializable :=
  {| is_variable_size := is_variable_size T; size_hint := size_hint T * n;
     serialize := vector_serialize oc T n; deserialize := vector_deserialize oc T n |}.

(** array.rs:44-73: [Vec::try_into::<[T; N]>] fails when the length differs from N. *)
Definition array_deserialize (oc : bool) (T : Serializable) (n : N) (encoding : bytes)
  : res DeserializeError val :=
  if n =? 0 then Err (DInvalidType (InvalidBound n))
  else
    do _ <- check_fixed_length T n encoding;
    do elements <- deserialize_homogeneous_composite oc T encoding;
    if blen elements =? n then Ok (VSeq elements)
    else Err (DInvalidInstance (Exact n (blen elements))).

(** array.rs:15-73 *)
Definition array_impl (oc : bool) (T : Serializable) (n : N) : Serializable :=
  {| is_variable_size := is_variable_size T; size_hint := size_hint T * n;
     serialize := vector_serialize oc T n; deserialize := array_deserialize oc T n |}.

(** ** List *)

(** list.rs:150-164 *)
Definition list_serialize (oc : bool) (T : Serializable) (n : N) (v : val) (buffer : bytes)
  : ser_result :=
  match v with
  | VSeq l =>
      if n <? blen l then (buffer, Err (SInvalidInstance (Bounded n (blen l))))
      else serialize_elements oc (map (fun x => (T, x)) l) buffer
  | _ => ill_typed buffer
  end.

(** [TryFrom<Vec<T>> for List<T, N>], list.rs:65-79 *)
Definition list_try_from {A} (n : N) (data : list A) : res (list A * Error) (list A) :=
  if n <? blen data then Err (data, EInstance (Bounded n (blen data)))
  else Ok data.

(** list.rs:166-193 *)
Definition list_deserialize (oc : bool) (T : Serializable) (n : N) (encoding : bytes)
  : res DeserializeError val :=
  do _ <- (if negb (is_variable_size T) then
             do remainder <- rem_len encoding (size_hint T);
             if negb (remainder =? 0) then
               do expected <- usub oc (blen encoding) remainder;
               Err (AdditionalInput (blen encoding) expected)
             else Ok tt
           else Ok tt);
  do result <- deserialize_homogeneous_composite oc T encoding;
  if n <? blen result then Err (DInvalidInstance (Bounded n (blen result)))
  else
    match list_try_from n result with
    | Ok data => Ok (VSeq data)
    | Err (_, EInstance e) => Err (DInvalidInstance e)
    | Err _ => Panic PUnreachable
    | Panic p => Panic p
    end.

Definition list_impl (oc : bool) (T : Serializable) (n : N) : Serializable :=
  {| is_variable_size := true; size_hint := 0;
     serialize := list_serialize oc T n; deserialize := list_deserialize oc T n |}.

(** ** Bitvector *)

(** bitvector.rs:22-24 *)
Definition bitvector_byte_length (bound : N) : N := div_ceil bound 8.

(** bitvector.rs:120-132: writes one byte per 8 live bits, but reports ceil(N / 8). *)
Definition bitvector_serialize (n : N) (v : val) (buffer : bytes) : ser_result :=
  match v with
  | VBits b =>
      if n =? 0 then (buffer, Err (SInvalidType (InvalidBound n)))
      else (buffer ++ bv_load_chunks b, Ok (bitvector_byte_length n))
  | _ => ill_typed buffer
  end.

(** bitvector.rs:134-168. [encoding.last().unwrap()] panics on an empty input. *)
Definition bitvector_deserialize (n : N) (encoding : bytes) : res DeserializeError val :=
  if n =? 0 then Err (DInvalidType (InvalidBound n))
  else
    let expected_length := bitvector_byte_length n in
    if blen encoding <? expected_length then
      Err (ExpectedFurtherInput (blen encoding) expected_length)
    else if expected_length <? blen encoding then
      Err (AdditionalInput (blen encoding) expected_length)
    else
      let result := bv_store_chunks (bv_repeat_false n) encoding in
      let remainder_count := n mod 8 in
      if negb (remainder_count =? 0) then
        match last_opt encoding with
        | None => Panic PExpect
        | Some last_byte =>
            let remainder_bits := N.shiftr (byte_to_N last_byte) remainder_count in
            if negb (remainder_bits =? 0) then Err (InvalidByte last_byte)
            else Ok (VBits result)
        end
      else Ok (VBits result).

Definition bitvector_impl (n : N) : Serializable :=
  {| is_variable_size := false; size_hint := bitvector_byte_length n;
     serialize := bitvector_serialize n; deserialize := bitvector_deserialize n |}.

(** ** Bitlist *)

(** bitlist.rs:19-22: [(bound + 8 - 1 + 1) / 8] *)
Definition bitlist_byte_length {E} (oc : bool) (bound : N) : res E N :=
  do a <- uadd oc bound 8;
  do b <- usub oc a 1;
  do c <- uadd oc b 1;
  Ok (c / 8).

(** [*last |= 1u8 << m] on the last byte of the buffer, bitlist.rs:95-96. *)
Definition or_last (m : N) (buffer : bytes) : res SerializeError bytes :=
  match rev buffer with
  | [] => Panic PExpect
  | last :: r => Ok (rev r ++ [byte_of_N (N.lor (byte_to_N last) (N.shiftl 1 m))])
  end.

(** bitlist.rs:78-101: the raw bytes of the bit vector are copied, dead bits included. *)
Definition bitlist_serialize_with_length (n : N) (b : bitvec) (with_length_bit : bool)
    (buffer : bytes) : ser_result :=
  if n <? bv_len b then (buffer, Err (SInvalidInstance (Bounded n (bv_len b))))
  else
    let start_len := blen buffer in
    let buffer := buffer ++ bv_raw b in
    if with_length_bit then
      let marker_index := bv_len b mod 8 in
      if marker_index =? 0 then
        let buffer := buffer ++ [x01] in
        (buffer, Ok (blen buffer - start_len))
      else
        match or_last marker_index buffer with
        | Ok buffer => (buffer, Ok (blen buffer - start_len))
        | Err e => (buffer, Err e)
        | Panic p => (buffer, Panic p)
        end
    else (buffer, Ok (blen buffer - start_len)).

(** bitlist.rs:132-136 *)
Definition bitlist_serialize (n : N) (v : val) (buffer : bytes) : ser_result :=
  match v with
  | VBits b => bitlist_serialize_with_length n b true buffer
  | _ => ill_typed buffer
  end.

(** bitlist.rs:138-179 *)
Definition bitlist_deserialize (oc : bool) (n : N) (encoding : bytes)
  : res DeserializeError val :=
  match rev encoding with
  | [] => Err (ExpectedFurtherInput 0 1)
  | last_byte :: rev_prefix =>
      do max_len <- bitlist_byte_length oc n;
      if max_len <? blen encoding then Err (AdditionalInput (blen encoding) max_len)
      else
        let prefix := rev rev_prefix in
        if byte_eqb last_byte x00 then Err (InvalidByte last_byte)
        else
          let result := bv_from_slice prefix in
          let last := bv_from_element last_byte in
          do bit_length <- usub oc 8 (bv_trailing_zeros last);
          do additional_members <- usub oc bit_length 1;
          let total_members := bv_len result + additional_members in
          if n <? total_members then Err (DInvalidInstance (Bounded n total_members))
          else
            do members <- slice 0 additional_members (bv_bits last);
            Ok (VBits (bv_extend result members))
  end.

Definition bitlist_impl (oc : bool) (n : N) : Serializable :=
  {| is_variable_size := true; size_hint := 0;
     serialize := bitlist_serialize n; deserialize := bitlist_deserialize oc n |}.

(** ** Derived struct with named fields: ssz-rs-derive/src/lib.rs:41-56, 124-157, 252-297 *)
Definition container_serialize (oc : bool) (fields : list Serializable) (v : val)
    (buffer : bytes) : ser_result :=
  match v with
  | VStruct l =>
      if Nat.eqb (List.length l) (List.length fields)
      then serialize_elements oc (combine fields l) buffer
      else ill_typed buffer
  | _ => ill_typed buffer
  end.

Definition sumN (l : list N) : N := fold_right N.add 0 l.

Definition container_impl (oc : bool) (fields : list Serializable) : Serializable :=
  {| is_variable_size := existsb is_variable_size fields;
     size_hint := if existsb is_variable_size fields then 0 else sumN (map size_hint fields);
     serialize := container_serialize oc fields;
     deserialize := fun e => do vs <- container_deserialize oc fields e; Ok (VStruct vs) |}.

(** ** Derived newtype struct: ssz-rs-derive/src/lib.rs:30-36, 109-119, 252-297 *)
Definition newtype_impl (T : Serializable) : Serializable :=
  {| is_variable_size := is_variable_size T;
     size_hint := if is_variable_size T then 0 else size_hint T;
     serialize := fun v buffer =>
       match v with VNewtype x => serialize T x buffer | _ => ill_typed buffer end;
     deserialize := fun e => do v <- deserialize T e; Ok (VNewtype v) |}.

(** [u8::serialize] of a selector. *)
Definition u8_serialize (x : N) (buffer : bytes) : ser_result := (buffer ++ le_bytes 1 x, Ok 1).

(** A selector byte followed by a value: union.rs:37-41, ssz-rs-derive/src/lib.rs:69-74. *)
Definition selector_serialize (selector : N) (T : Serializable) (v : val) (buffer : bytes)
  : ser_result :=
  ser_bind (u8_serialize selector buffer) (fun buffer selector_bytes =>
  ser_bind (serialize T v buffer) (fun buffer value_bytes =>
  (buffer, Ok (selector_bytes + value_bytes)))).

(** ** Option: ssz-rs/src/union.rs:21-75 *)
Definition option_serialize (T : Serializable) (v : val) (buffer : bytes) : ser_result :=
  match v with
  | VSome x => selector_serialize 1 T x buffer
  | VNone => u8_serialize 0 buffer
  | _ => ill_typed buffer
  end.

Definition option_deserialize (T : Serializable) (encoding : bytes)
  : res DeserializeError val :=
  match encoding with
  | [] => Err (ExpectedFurtherInput 0 1)
  | b :: rest =>
      if byte_eqb b x00 then
        if negb (blen encoding =? 1) then Err (AdditionalInput (blen encoding) 1)
        else Ok VNone
      else if byte_eqb b x01 then do v <- deserialize T rest; Ok (VSome v)
      else Err (InvalidByte b)
  end.

Definition option_impl (T : Serializable) : Serializable :=
  {| is_variable_size := true; size_hint := 0;
     serialize := option_serialize T; deserialize := option_deserialize T |}.

(** ** Derived enum: ssz-rs-derive/src/lib.rs:58-96, 158-237, 263-307.
    [variants] lists the declared variants, [None] for the unit variant. The macro writes the
    unit variant with selector 0 whatever its position; validation (lib.rs:822-824) forces
    position 0, so the model uses the position for both. Selectors are [i as u8]. *)
Definition union_serialize (variants : list (option Serializable)) (v : val) (buffer : bytes)
  : ser_result :=
  match v with
  | VVariant i x =>
      match nth_error variants (N.to_nat i) with
      | Some (Some T) => selector_serialize (i mod 256) T x buffer
      | _ => ill_typed buffer
      end
  | VNone =>
      match variants with
      | None :: _ => u8_serialize 0 buffer
      | _ => ill_typed buffer
      end
  | _ => ill_typed buffer
  end.

Definition union_deserialize (variants : list (option Serializable)) (encoding : bytes)
  : res DeserializeError val :=
  match encoding with
  | [] => Err (ExpectedFurtherInput 0 1)
  | b :: rest =>
      match nth_error variants (N.to_nat (byte_to_N b)) with
      | Some (Some T) => do v <- deserialize T rest; Ok (VVariant (byte_to_N b) v)
      | Some None =>
          if negb (blen encoding =? 1) then Err (AdditionalInput (blen encoding) 1)
          else Ok VNone
      | None => Err (InvalidByte b)
      end
  end.

Definition union_impl (variants : list (option Serializable)) : Serializable :=
  {| is_variable_size := true; size_hint := 0;
     serialize := union_serialize variants; deserialize := union_deserialize variants |}.

(** ** Derived transparent enum: ssz-rs-derive/src/lib.rs:63-66, 159-180, 263-307 *)
Definition transparent_serialize (variants : list Serializable) (v : val) (buffer : bytes)
  : ser_result :=
  match v with
  | VVariant i x =>
      match nth_error variants (N.to_nat i) with
      | Some T => serialize T x buffer
      | None => ill_typed buffer
      end
  | _ => ill_typed buffer
  end.

(** Tries the variants of [l], which is in reverse declaration order: the head of [l] is the
    variant with number [length of the tail]. *)
Fixpoint try_variants (l : list Serializable) (encoding : bytes) : res DeserializeError val :=
  match l with
  | [] => Err NoMatchingVariant
  | T :: r =>
      match deserialize T encoding with
      | Ok v => Ok (VVariant (blen r) v)
      | Err _ => try_variants r encoding
      | Panic p => Panic p
      end
  end.

Definition transparent_deserialize (variants : list Serializable) (encoding : bytes)
  : res DeserializeError val :=
  match encoding with
  | [] => Err (ExpectedFurtherInput 0 1)
  | _ => try_variants (rev variants) encoding
  end.

Definition transparent_impl (variants : list Serializable) : Serializable :=
  {| is_variable_size := true; size_hint := 0;
     serialize := transparent_serialize variants;
     deserialize := transparent_deserialize variants |}.

(** ** All types *)
Fixpoint serializable (oc : bool) (t : ty) : Serializable :=
  match t with
  | TBool => bool_impl
  | TUint w => uint_impl (bits_to_bytes (uint_bits w))
  | TU256 => u256_impl
  | TNode => node_impl
  | TVector t n => vector_impl oc (serializable oc t) n
  | TArray t n => array_impl oc (serializable oc t) n
  | TList t n => list_impl oc (serializable oc t) n
  | TBitvector n => bitvector_impl n
  | TBitlist n => bitlist_impl oc n
  | TContainer fs => container_impl oc (map (fun f => serializable oc (snd f)) fs)
  | TNewtype t => newtype_impl (serializable oc t)
  | TOption t => option_impl (serializable oc t)
  | TUnion vs => union_impl (map (option_map (serializable oc)) vs)
  | TTransparent ts => transparent_impl (map (serializable oc) ts)
  end.

(** [ssz_rs::serialize(&v)] and [T::deserialize(b)]. *)
Definition ssz_serialize (oc : bool) (t : ty) (v : val) : res SerializeError bytes :=
  serialize_to_vec (serializable oc t) v.

Definition ssz_deserialize (oc : bool) (t : ty) (b : bytes) : res DeserializeError val :=
  deserialize (serializable oc t) b.
