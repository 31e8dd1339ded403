(** Model of ssz-rs/src/ser.rs and of the trait [Serializable] (ssz-rs/src/lib.rs:143-152). *)
From Coq Require Import List NArith Bool.
From Verif Require Import Prelude Types.
Import ListNotations.
Open Scope N_scope.

(** [serialize(&self, buffer: &mut Vec<u8>) -> Result<usize, SerializeError>]: the buffer after
    the call and the outcome. The buffer is kept on every outcome because the caller can look at
    it after an error. *)
Definition ser_result : Type := bytes * res SerializeError N.

(** ssz-rs/src/lib.rs:143-152, with [Serialize] (ser.rs:51-56) and [Deserialize] (de.rs:66-72).
    [size_hint] is an unbounded number: types whose size overflows usize are not modelled. *)
Record Serializable : Type := {
  is_variable_size : bool;
  size_hint : N;
  serialize : val -> bytes -> ser_result;
  deserialize : bytes -> res DeserializeError val
}.

(** Sequencing of two writes to the same buffer with [?] in between. *)
Definition ser_bind (x : ser_result) (f : bytes -> N -> ser_result) : ser_result :=
  match x with
  | (buf, Ok n) => f buf n
  | (buf, Err e) => (buf, Err e)
  | (buf, Panic p) => (buf, Panic p)
  end.

(** ser.rs:8 *)
Definition BYTES_PER_LENGTH_OFFSET : N := 4.
(** ser.rs:9 *)
Definition MAXIMUM_LENGTH : N := 2 ^ (8 * BYTES_PER_LENGTH_OFFSET).

(** ser.rs:60-63 *)
Inductive Part : Type :=
| PFixed (data : bytes)
| POffset (length : N).

(** ser.rs:65-71 *)
Record Serializer : Type := {
  parts : list Part;
  variable : bytes;
  fixed_lengths_sum : N;
  variable_lengths_sum : N
}.

(** [Serializer::default()] *)
Definition serializer_default : Serializer :=
  {| parts := []; variable := []; fixed_lengths_sum := 0; variable_lengths_sum := 0 |}.

(** [u32::serialize] (uint.rs:29-34) as called at ser.rs:88. *)
Definition u32_serialize (x : N) (buffer : bytes) : ser_result :=
  (buffer ++ le_bytes 4 x, Ok 4).

(** [a + b] on u32. *)
Definition u32_add {E} (oc : bool) (a b : N) : res E N :=
  if a + b <? 2 ^ 32 then Ok (a + b)
  else if oc then Panic POverflow else Ok ((a + b) mod 2 ^ 32).

(** The loop at ser.rs:82-95. *)
Fixpoint write_parts (oc : bool) (ps : list Part) (running_length : N) (buffer : bytes)
  : ser_result :=
  match ps with
  | [] => (buffer, Ok 0)
  | PFixed data :: r => write_parts oc r running_length (buffer ++ data)
  | POffset offset :: r =>
      ser_bind (u32_serialize running_length buffer) (fun buffer bytes_written =>
      (* debug_assert_eq!, ser.rs:89 *)
      if oc && negb (bytes_written =? BYTES_PER_LENGTH_OFFSET) then (buffer, Panic PAssert)
      else
        match u32_add oc running_length (offset mod 2 ^ 32) with
        | Ok running_length => write_parts oc r running_length buffer
        | Err e => (buffer, Err e)
        | Panic p => (buffer, Panic p)
        end)
  end.

(** [Serializer::serialize], ser.rs:74-100. The sums of in-memory lengths cannot overflow usize. *)
Definition serializer_serialize (oc : bool) (s : Serializer) (buffer : bytes) : ser_result :=
  let total_size := fixed_lengths_sum s + variable_lengths_sum s in
  if MAXIMUM_LENGTH <=? total_size then (buffer, Err (MaximumEncodedLengthReached total_size))
  else
    ser_bind (write_parts oc (parts s) (fixed_lengths_sum s mod 2 ^ 32) buffer) (fun buffer _ =>
    (buffer ++ variable s, Ok total_size)).

(** [Serializer::with_element], ser.rs:102-117. The element buffer starts empty. *)
Definition with_element (S : Serializable) (s : Serializer) (v : val)
  : res SerializeError Serializer :=
  match serialize S v [] with
  | (_, Err e) => Err e
  | (_, Panic p) => Panic p
  | (element_buffer, Ok _) =>
      let element_buffer_len := blen element_buffer in
      if is_variable_size S then
        Ok {| parts := parts s ++ [POffset element_buffer_len];
              variable := variable s ++ element_buffer;
              fixed_lengths_sum := fixed_lengths_sum s + BYTES_PER_LENGTH_OFFSET;
              variable_lengths_sum := variable_lengths_sum s + element_buffer_len |}
      else
        Ok {| parts := parts s ++ [PFixed element_buffer];
              variable := variable s;
              fixed_lengths_sum := fixed_lengths_sum s + element_buffer_len;
              variable_lengths_sum := variable_lengths_sum s |}
  end.

(** The body shared by the composite impls: feed the elements, then serialize
    (vector.rs:169-173, array.rs:36-40, list.rs:158-162, ssz-rs-derive/src/lib.rs:48-56). *)
Definition serialize_elements (oc : bool) (elements : list (Serializable * val)) (buffer : bytes)
  : ser_result :=
  match foldM (fun s e => with_element (fst e) s (snd e)) serializer_default elements with
  | Ok s => serializer_serialize oc s buffer
  | Err e => (buffer, Err e)
  | Panic p => (buffer, Panic p)
  end.

(** The convenience function [ssz_rs::serialize], lib.rs:181-188. *)
Definition serialize_to_vec (S : Serializable) (v : val) : res SerializeError bytes :=
  match serialize S v [] with
  | (buf, Ok _) => Ok buf
  | (_, Err e) => Err e
  | (_, Panic p) => Panic p
  end.
