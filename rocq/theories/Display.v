(** Texts of error messages: [Display] of the error types.

    Rust's formatting of numbers and derived [Debug] output are written out here. In the [Debug]
    output of a field name ASCII characters are treated as in Rust; bytes of other characters are
    copied, while Rust escapes some of them. *)
From Coq Require Import String Ascii.
From Coq Require Import List NArith Bool.
From Coq Require Import DecimalString DecimalN HexadecimalString HexadecimalN.
From Verif Require Import Prelude Types Ser Text.
Import ListNotations.
Open Scope string_scope.
Open Scope N_scope.

(** [{n:x}] *)
Definition lower_hex (n : N) : string := HexadecimalString.NilZero.string_of_uint (N.to_hex_uint n).

(** error.rs:58-66 *)
Definition type_error_text (e : TypeError) : string :=
  match e with
  | InvalidBound size => "the type for this value is invalid with bound " ++ decimal size
  end.

(** error.rs:80-93 *)
Definition instance_error_text (e : InstanceError) : string :=
  match e with
  | Exact required provided =>
      "required " ++ decimal required ++ " elements for this type but " ++ decimal provided ++ " elements given"
  | Bounded bound provided =>
      decimal provided ++ " elements given for a type with (inclusive) upper bound " ++ decimal bound
  end.

(** ser.rs:34-45 *)
Definition serialize_error_text (e : SerializeError) : string :=
  match e with
  | MaximumEncodedLengthReached size =>
      "the encoded length is " ++ decimal size ++ " which meets or exceeds the maximum length " ++ decimal MAXIMUM_LENGTH
  | SInvalidInstance err => "invalid instance: " ++ instance_error_text err
  | SInvalidType err => "invalid type: " ++ type_error_text err
  end.

(** de.rs:44-61 *)
Definition deserialize_error_text (e : DeserializeError) : string :=
  match e with
  | ExpectedFurtherInput provided expected =>
      "expected at least " ++ decimal expected ++ " byte(s) when decoding but provided only " ++ decimal provided ++ " byte(s)"
  | AdditionalInput provided expected =>
      decimal provided ++ " byte(s) given but only expected (up to) " ++ decimal expected ++ " byte(s)"
  | InvalidByte b => "invalid byte " ++ lower_hex (byte_to_N b) ++ " when decoding data of the expected type"
  | DInvalidInstance err => "invalid instance: " ++ instance_error_text err
  | DInvalidType err => "invalid type: " ++ type_error_text err
  | InvalidOffsetsLength len =>
      "the offsets length provided " ++ decimal len ++ " is not a multiple of the size per length offset "
      ++ decimal BYTES_PER_LENGTH_OFFSET ++ " bytes"
  | OffsetNotIncreasing start fin => "invalid offset points to byte " ++ decimal fin ++ " before byte " ++ decimal start
  | MissingOffset => "an offset was missing when deserializing a variable-sized type"
  | NoMatchingVariant => "no corresponding variant of the requested enum was present"
  end.

(** [Debug] of a character of a string *)
Definition escape_char (c : ascii) : string :=
  let n := N_of_ascii c in
  if n =? 0 then "\0"
  else if n =? 9 then "\t"
  else if n =? 10 then "\n"
  else if n =? 13 then "\r"
  else if n =? 34 then String "\" (String c "")
  else if n =? 92 then "\\"
  else if (n <? 32) || (n =? 127) then "\u{" ++ lower_hex n ++ "}"
  else String c "".

Fixpoint escape (s : string) : string :=
  match s with
  | EmptyString => ""
  | String c r => escape_char c ++ escape r
  end.

Definition quote : ascii := ascii_of_N 34.

Definition string_debug (s : string) : string := String quote (escape s ++ String quote "").

(** generalized_index.rs:8-19, derived *)
Definition path_element_debug (e : PathElement) : string :=
  match e with
  | Index i => "Index(" ++ decimal i ++ ")"
  | Field name => "Field(" ++ string_debug name ++ ")"
  | Length => "Length"
  | Selector => "Selector"
  end.

(** [Vec<PathElement>] *)
Definition path_debug (p : Path) : string := "[" ++ String.concat ", " (map path_element_debug p) ++ "]".

(** merkleization/mod.rs:47-68 *)
Definition merkleization_error_text (e : MerkleizationError) : string :=
  match e with
  | SerializationError err => "failed to serialize value: " ++ serialize_error_text err
  | InputExceedsLimit size => "data exceeds the declared limit " ++ decimal size
  | InvalidProof => "merkle proof verification failed"
  | InvalidGeneralizedIndex => "invalid generalized index"
  | InvalidPathElement element => "invalid path element " ++ path_element_debug element
  | InvalidPath path => "invalid path " ++ path_debug path
  | InvalidInnerIndex =>
      "requested to compute proof for an inner element outside the bounds of what this type supports"
  | NoInnerElement => "requested to compute proof for an inner element which does not exist for this type"
  | NotChunkable => "requested to compute chunks for a type which does not support this"
  end.

(** error.rs:3-16: all variants *)
Inductive AnyError : Type :=
| ASerialize (e : SerializeError)
| ADeserialize (e : DeserializeError)
| AMerkleization (e : MerkleizationError)
| AInstance (e : InstanceError)
| AType (e : TypeError).

(** error.rs:36-46 *)
Definition error_text (e : AnyError) : string :=
  match e with
  | ASerialize err => "could not serialize: " ++ serialize_error_text err
  | ADeserialize err => "could not deserialize: " ++ deserialize_error_text err
  | AMerkleization err => "merkleization error: " ++ merkleization_error_text err
  | AInstance err => "error constructing instance: " ++ instance_error_text err
  | AType err => "type error: " ++ type_error_text err
  end.
