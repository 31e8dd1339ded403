(** [deserialize] with a counter: every call of a [deserialize] counts the bytes that it is given, and at
    least 1. Calls for elements, fields and variants are counted as well, also those that fail.

    Each definition repeats the one of De.v or Impls.v with the counting decoders of the elements in
    place of their [deserialize]. DeCostProof.v shows that the results are the same. *)
From Coq Require Import List NArith Bool.
From Coq Require Import Strings.Byte.
From Verif Require Import Prelude Types Bitvec Ser De Impls.
Import ListNotations.
Open Scope N_scope.

(** A result with the work done. *)
Definition dtally (A : Type) : Type := (res DeserializeError A * N)%type.

Definition at_no_cost {A} (x : res DeserializeError A) : dtally A := (x, 0).

Definition dbind {A B} (x : dtally A) (f : A -> dtally B) : dtally B :=
  match x with
  | (Ok a, n) => let y := f a in (fst y, n + snd y)
  | (Err e, n) => (Err e, n)
  | (Panic p, n) => (Panic p, n)
  end.

Notation "'seek' x <- e ; k" := (dbind e (fun x => k))
  (at level 200, x name, e at level 100, k at level 200, right associativity).

Definition decoder : Type := bytes -> dtally val.

Fixpoint mapM_c {A B} (f : A -> dtally B) (l : list A) : dtally (list B) :=
  match l with
  | [] => at_no_cost (Ok [])
  | x :: r => seek y <- f x; seek ys <- mapM_c f r; at_no_cost (Ok (y :: ys))
  end.

(** [T] is asked for its size only. *)
Definition fixed_elements_c (oc : bool) (T : Serializable) (f : decoder) (encoding : bytes) : dtally (list val) :=
  seek u <- at_no_cost (if oc then
                          do r <- rem_len encoding (size_hint T);
                          if r =? 0 then Ok tt else Panic PAssert
                        else Ok tt);
  seek cs <- at_no_cost (chunks_exact (size_hint T) encoding);
  mapM_c f cs.

Definition span_c (f : decoder) (encoding : bytes) (span : N * N) : dtally val :=
  let '(start, fin) := span in
  if fin <? start then at_no_cost (Err (OffsetNotIncreasing start fin))
  else seek s <- at_no_cost (slice start fin encoding); f s.

Definition variable_elements_c (f : decoder) (encoding : bytes) : dtally (list val) :=
  match encoding with
  | [] => at_no_cost (Ok [])
  | _ =>
      match get_range 0 BYTES_PER_LENGTH_OFFSET encoding with
      | None => at_no_cost (Err (ExpectedFurtherInput (blen encoding) BYTES_PER_LENGTH_OFFSET))
      | Some first =>
          seek offsets_len <- at_no_cost (u32_deserialize first);
          if blen encoding <? offsets_len then
            at_no_cost (Err (ExpectedFurtherInput (blen encoding) offsets_len))
          else if negb (offsets_len mod BYTES_PER_LENGTH_OFFSET =? 0) then
            at_no_cost (Err (InvalidOffsetsLength offsets_len))
          else
            seek offset_bytes <- at_no_cost (slice 0 offsets_len encoding);
            seek cs <- at_no_cost (chunks_exact BYTES_PER_LENGTH_OFFSET offset_bytes);
            seek offsets <- at_no_cost (mapM u32_deserialize cs);
            mapM_c (span_c f encoding) (windows2 (offsets ++ [blen encoding]))
      end
  end.

Definition elements_c (oc : bool) (T : Serializable) (f : decoder) (encoding : bytes) : dtally (list val) :=
  if is_variable_size T then variable_elements_c f encoding else fixed_elements_c oc T f encoding.

Definition vector_c (oc : bool) (T : Serializable) (f : decoder) (n : N) : decoder := fun encoding =>
  if n =? 0 then at_no_cost (Err (DInvalidType (InvalidBound n)))
  else
    seek u <- at_no_cost (check_fixed_length T n encoding);
    seek inner <- elements_c oc T f encoding;
    at_no_cost (do data <- map_err vector_try_from_err (vector_try_from n inner); Ok (VSeq data)).

Definition array_c (oc : bool) (T : Serializable) (f : decoder) (n : N) : decoder := fun encoding =>
  if n =? 0 then at_no_cost (Err (DInvalidType (InvalidBound n)))
  else
    seek u <- at_no_cost (check_fixed_length T n encoding);
    seek elements <- elements_c oc T f encoding;
    at_no_cost (if blen elements =? n then Ok (VSeq elements)
                else Err (DInvalidInstance (Exact n (blen elements)))).

Definition list_c (oc : bool) (T : Serializable) (f : decoder) (n : N) : decoder := fun encoding =>
  seek u <- at_no_cost (if negb (is_variable_size T) then
                          do remainder <- rem_len encoding (size_hint T);
                          if negb (remainder =? 0) then
                            do expected <- usub oc (blen encoding) remainder;
                            Err (AdditionalInput (blen encoding) expected)
                          else Ok tt
                        else Ok tt);
  seek result <- elements_c oc T f encoding;
  at_no_cost
    (if n <? blen result then Err (DInvalidInstance (Bounded n (blen result)))
     else
       match list_try_from n result with
       | Ok data => Ok (VSeq data)
       | Err (_, EInstance e) => Err (DInvalidInstance e)
       | Err _ => Panic PUnreachable
       | Panic p => Panic p
       end).

Fixpoint fields_c (encoding : bytes) (spans : list N) (i : N) (fields : list decoder) : dtally (list val) :=
  match fields with
  | [] => at_no_cost (Ok [])
  | f :: r =>
      seek start <- at_no_cost (index (2 * i) spans);
      seek fin <- at_no_cost (index (2 * i + 1) spans);
      seek s <- at_no_cost (slice start fin encoding);
      seek v <- f s;
      seek vs <- fields_c encoding spans (i + 1) r;
      at_no_cost (Ok (v :: vs))
  end.

Definition container_c (oc : bool) (Ts : list Serializable) (fs : list decoder) : decoder := fun encoding =>
  seek d <- at_no_cost (foldM (parse oc encoding) container_deserializer_default Ts);
  seek spans <- at_no_cost (finalize oc encoding d);
  seek vs <- fields_c encoding spans 0 fs;
  at_no_cost (Ok (VStruct vs)).

Definition newtype_c (f : decoder) : decoder := fun encoding =>
  seek v <- f encoding; at_no_cost (Ok (VNewtype v)).

Definition option_c (f : decoder) : decoder := fun encoding =>
  match encoding with
  | [] => at_no_cost (Err (ExpectedFurtherInput 0 1))
  | b :: rest =>
      if byte_eqb b x00 then
        at_no_cost (if negb (blen encoding =? 1) then Err (AdditionalInput (blen encoding) 1) else Ok VNone)
      else if byte_eqb b x01 then seek v <- f rest; at_no_cost (Ok (VSome v))
      else at_no_cost (Err (InvalidByte b))
  end.

Definition union_c (fs : list (option decoder)) : decoder := fun encoding =>
  match encoding with
  | [] => at_no_cost (Err (ExpectedFurtherInput 0 1))
  | b :: rest =>
      match nth_error fs (N.to_nat (byte_to_N b)) with
      | Some (Some f) => seek v <- f rest; at_no_cost (Ok (VVariant (byte_to_N b) v))
      | Some None =>
          at_no_cost (if negb (blen encoding =? 1) then Err (AdditionalInput (blen encoding) 1) else Ok VNone)
      | None => at_no_cost (Err (InvalidByte b))
      end
  end.

(** A variant that does not match costs what it took to find out. *)
Fixpoint try_c (l : list decoder) : decoder := fun encoding =>
  match l with
  | [] => at_no_cost (Err NoMatchingVariant)
  | f :: r =>
      match f encoding with
      | (Ok v, n) => (Ok (VVariant (blen r) v), n)
      | (Err _, n) => let y := try_c r encoding in (fst y, n + snd y)
      | (Panic p, n) => (Panic p, n)
      end
  end.

Definition transparent_c (fs : list decoder) : decoder := fun encoding =>
  match encoding with
  | [] => at_no_cost (Err (ExpectedFurtherInput 0 1))
  | _ => try_c (rev fs) encoding
  end.

(** One call, with the calls that it makes. *)
Definition call (f : decoder) : decoder := fun encoding =>
  let y := f encoding in (fst y, N.max 1 (blen encoding) + snd y).

Fixpoint decode_c (oc : bool) (t : ty) : decoder :=
  call
    (match t with
     | TVector u n => vector_c oc (serializable oc u) (decode_c oc u) n
     | TArray u n => array_c oc (serializable oc u) (decode_c oc u) n
     | TList u n => list_c oc (serializable oc u) (decode_c oc u) n
     | TContainer fs => container_c oc (map (fun f => serializable oc (snd f)) fs) (map (fun f => decode_c oc (snd f)) fs)
     | TNewtype u => newtype_c (decode_c oc u)
     | TOption u => option_c (decode_c oc u)
     | TUnion vs => union_c (map (option_map (decode_c oc)) vs)
     | TTransparent ts => transparent_c (map (decode_c oc) ts)
     | _ => fun encoding => at_no_cost (deserialize (serializable oc t) encoding)
     end).
