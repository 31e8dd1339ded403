(** [serialize] with a counter of the bytes that are written, to the buffer of the caller, to the buffers
    of elements, and to the variable part of the serializer.

    ser.rs:60-117 and the [Serialize] impls. Each definition repeats the one of Ser.v or Impls.v with the counting writers of the elements in
    place of their [serialize]. SerCostProof.v shows that the results are the same. *)
From Coq Require Import List NArith Bool.
From Verif Require Import Prelude Types Ser Impls.
Import ListNotations.
Open Scope N_scope.

Definition writer : Type := val -> bytes -> ser_result * N.

(** A function that only appends to its buffer. *)
Definition appending (f : bytes -> ser_result) (buffer : bytes) : ser_result * N :=
  let y := f buffer in (y, blen (fst y) - blen buffer).

Definition without_writing (r : ser_result) : ser_result * N := (r, 0).

(** A fixed part is moved. A variable part is copied behind the others. *)
Definition with_element_c (is_variable : bool) (w : writer) (s : Serializer) (v : val)
  : res SerializeError Serializer * N :=
  match w v [] with
  | ((_, Err e), n) => (Err e, n)
  | ((_, Panic p), n) => (Panic p, n)
  | ((element_buffer, Ok _), n) =>
      let element_buffer_len := blen element_buffer in
      if is_variable then
        (Ok {| parts := parts s ++ [POffset element_buffer_len];
               variable := variable s ++ element_buffer;
               fixed_lengths_sum := fixed_lengths_sum s + BYTES_PER_LENGTH_OFFSET;
               variable_lengths_sum := variable_lengths_sum s + element_buffer_len |},
         n + element_buffer_len)
      else
        (Ok {| parts := parts s ++ [PFixed element_buffer];
               variable := variable s;
               fixed_lengths_sum := fixed_lengths_sum s + element_buffer_len;
               variable_lengths_sum := variable_lengths_sum s |}, n)
  end.

Fixpoint with_elements_c (s : Serializer) (elements : list (bool * writer * val)) : res SerializeError Serializer * N :=
  match elements with
  | [] => (Ok s, 0)
  | (f, w, v) :: r =>
      match with_element_c f w s v with
      | (Ok s, n) => let y := with_elements_c s r in (fst y, n + snd y)
      | (Err e, n) => (Err e, n)
      | (Panic p, n) => (Panic p, n)
      end
  end.

Definition serialize_elements_c (oc : bool) (elements : list (bool * writer * val)) (buffer : bytes) : ser_result * N :=
  match with_elements_c serializer_default elements with
  | (Ok s, n) => let y := appending (serializer_serialize oc s) buffer in (fst y, n + snd y)
  | (Err e, n) => ((buffer, Err e), n)
  | (Panic p, n) => ((buffer, Panic p), n)
  end.

Definition selector_c (selector : N) (w : writer) (v : val) (buffer : bytes) : ser_result * N :=
  let x := appending (u8_serialize selector) buffer in
  match fst x with
  | (buffer, Ok selector_bytes) =>
      let y := w v buffer in
      (ser_bind (fst y) (fun buffer value_bytes => (buffer, Ok (selector_bytes + value_bytes))), snd x + snd y)
  | _ => x
  end.

Fixpoint encode_c (oc : bool) (t : ty) : writer :=
  match t with
  | TVector u n | TArray u n => fun v buffer =>
      match v with
      | VSeq l =>
          if n =? 0 then without_writing (buffer, Err (SInvalidType (InvalidBound n)))
          else serialize_elements_c oc (map (fun x => (is_variable_size (serializable oc u), encode_c oc u, x)) l) buffer
      | _ => without_writing (ill_typed buffer)
      end
  | TList u n => fun v buffer =>
      match v with
      | VSeq l =>
          if n <? blen l then without_writing (buffer, Err (SInvalidInstance (Bounded n (blen l))))
          else serialize_elements_c oc (map (fun x => (is_variable_size (serializable oc u), encode_c oc u, x)) l) buffer
      | _ => without_writing (ill_typed buffer)
      end
  | TContainer fs => fun v buffer =>
      match v with
      | VStruct l =>
          if Nat.eqb (List.length l) (List.length fs)
          then serialize_elements_c oc
                 (combine (map (fun f => (is_variable_size (serializable oc (snd f)), encode_c oc (snd f))) fs) l) buffer
          else without_writing (ill_typed buffer)
      | _ => without_writing (ill_typed buffer)
      end
  | TNewtype u => fun v buffer =>
      match v with VNewtype x => encode_c oc u x buffer | _ => without_writing (ill_typed buffer) end
  | TOption u => fun v buffer =>
      match v with
      | VSome x => selector_c 1 (encode_c oc u) x buffer
      | VNone => appending (u8_serialize 0) buffer
      | _ => without_writing (ill_typed buffer)
      end
  | TUnion vs => fun v buffer =>
      match v with
      | VVariant i x =>
          match nth_error (map (option_map (encode_c oc)) vs) (N.to_nat i) with
          | Some (Some w) => selector_c (i mod 256) w x buffer
          | _ => without_writing (ill_typed buffer)
          end
      | VNone =>
          match vs with
          | None :: _ => appending (u8_serialize 0) buffer
          | _ => without_writing (ill_typed buffer)
          end
      | _ => without_writing (ill_typed buffer)
      end
  | TTransparent ts => fun v buffer =>
      match v with
      | VVariant i x =>
          match nth_error (map (encode_c oc) ts) (N.to_nat i) with
          | Some w => w x buffer
          | None => without_writing (ill_typed buffer)
          end
      | _ => without_writing (ill_typed buffer)
      end
  | _ => fun v => appending (serialize (serializable oc t) v)
  end.
