(** Model of ssz-rs/src/de.rs. *)
From Coq Require Import List NArith Bool.
From Verif Require Import Prelude Types Ser.
Import ListNotations.
Open Scope N_scope.

(** Integer decoding of [size] bytes, uint.rs:36-56 (the same code for every width). *)
Definition uint_deserialize (size : N) (encoding : bytes) : res DeserializeError N :=
  if blen encoding <? size then Err (ExpectedFurtherInput (blen encoding) size)
  else if size <? blen encoding then Err (AdditionalInput (blen encoding) size)
  else do b <- slice 0 size encoding; Ok (le_value b).

Definition u32_deserialize : bytes -> res DeserializeError N := uint_deserialize 4.

(** [encoding.len() % n]: remainder by zero panics. *)
Definition rem_len {E} (encoding : bytes) (n : N) : res E N :=
  if n =? 0 then Panic PDivZero else Ok (blen encoding mod n).

(** de.rs:74-87. The debug assertion also evaluates the remainder. *)
Definition deserialize_fixed_homogeneous_composite (oc : bool) (T : Serializable)
    (encoding : bytes) : res DeserializeError (list val) :=
  do _ <- (if oc then
             do r <- rem_len encoding (size_hint T);
             if r =? 0 then Ok tt else Panic PAssert
           else Ok tt);
  do cs <- chunks_exact (size_hint T) encoding;
  mapM (deserialize T) cs.

(** One iteration of the loop at de.rs:125-136. *)
Definition deserialize_span (T : Serializable) (encoding : bytes) (span : N * N)
  : res DeserializeError val :=
  let '(start, fin) := span in
  if fin <? start then Err (OffsetNotIncreasing start fin)
  else do s <- slice start fin encoding; deserialize T s.

(** de.rs:89-138 *)
Definition deserialize_variable_homogeneous_composite (T : Serializable) (encoding : bytes)
  : res DeserializeError (list val) :=
  match encoding with
  | [] => Ok []
  | _ =>
      match get_range 0 BYTES_PER_LENGTH_OFFSET encoding with
      | None => Err (ExpectedFurtherInput (blen encoding) BYTES_PER_LENGTH_OFFSET)
      | Some first =>
          do offsets_len <- u32_deserialize first;
          if blen encoding <? offsets_len then
            Err (ExpectedFurtherInput (blen encoding) offsets_len)
          else if negb (offsets_len mod BYTES_PER_LENGTH_OFFSET =? 0) then
            Err (InvalidOffsetsLength offsets_len)
          else
            do offset_bytes <- slice 0 offsets_len encoding;
            do cs <- chunks_exact BYTES_PER_LENGTH_OFFSET offset_bytes;
            do offsets <- mapM u32_deserialize cs;
            mapM (deserialize_span T encoding) (windows2 (offsets ++ [blen encoding]))
      end
  end.

(** de.rs:140-149 *)
Definition deserialize_homogeneous_composite (oc : bool) (T : Serializable) (encoding : bytes)
  : res DeserializeError (list val) :=
  if is_variable_size T then deserialize_variable_homogeneous_composite T encoding
  else deserialize_fixed_homogeneous_composite oc T encoding.

(** de.rs:151-155 *)
Inductive Segment : Type :=
| SFixed (start fin : N)
| SOffset.

(** de.rs:164-169 *)
Record ContainerDeserializer : Type := {
  segments : list Segment;
  offsets : list N;
  total_bytes_read : N
}.

Definition container_deserializer_default : ContainerDeserializer :=
  {| segments := []; offsets := []; total_bytes_read := 0 |}.

Definition last_opt {A} (l : list A) : option A :=
  match rev l with
  | [] => None
  | x :: _ => Some x
  end.

(** de.rs:185-206: the checks of an offset against the previous one. The two subtractions
    [encoding.len() - previous_offset] and [encoding.len() - next_offset] build the error value
    and underflow exactly when they are reached. *)
Definition check_offset (oc : bool) (encoding : bytes) (prev : option N) (next_offset : N)
  : res DeserializeError unit :=
  match prev with
  | None => Ok tt
  | Some previous_offset =>
      if next_offset <? previous_offset then
        Err (OffsetNotIncreasing previous_offset next_offset)
      else if blen encoding <? previous_offset then
        do provided <- usub oc (blen encoding) previous_offset;
        do expected <- usub oc next_offset previous_offset;
        Err (ExpectedFurtherInput provided expected)
      else if blen encoding <? next_offset then
        do provided <- usub oc (blen encoding) next_offset;
        do expected <- usub oc next_offset previous_offset;
        Err (ExpectedFurtherInput provided expected)
      else Ok tt
  end.

(** [ContainerDeserializer::parse], de.rs:173-231. The argument of [ok_or] at de.rs:179 is
    evaluated before [get] is inspected. *)
Definition parse (oc : bool) (encoding : bytes) (d : ContainerDeserializer) (T : Serializable)
  : res DeserializeError ContainerDeserializer :=
  let start := total_bytes_read d in
  if is_variable_size T then
    do fin <- uadd oc start BYTES_PER_LENGTH_OFFSET;
    do provided <- usub oc (blen encoding) start;
    match get_range start fin encoding with
    | None => Err (ExpectedFurtherInput provided BYTES_PER_LENGTH_OFFSET)
    | Some target =>
        do next_offset <- u32_deserialize target;
        do _ <- check_offset oc encoding (last_opt (offsets d)) next_offset;
        Ok {| segments := segments d ++ [SOffset];
              offsets := offsets d ++ [next_offset];
              total_bytes_read := fin |}
    end
  else
    let encoded_length := size_hint T in
    do fin <- uadd oc (total_bytes_read d) encoded_length;
    if blen encoding <? total_bytes_read d then
      Err (ExpectedFurtherInput (blen encoding) (total_bytes_read d))
    else if blen encoding <? fin then
      do provided <- usub oc (blen encoding) (total_bytes_read d);
      Err (ExpectedFurtherInput provided encoded_length)
    else
      Ok {| segments := segments d ++ [SFixed start fin];
            offsets := offsets d;
            total_bytes_read := fin |}.

(** The loop of [finalize], de.rs:242-271: spans, remaining offsets, total. *)
Fixpoint finalize_loop (oc : bool) (encoding : bytes) (segs : list Segment) (offs : list N)
    (total : N) (spans : list N) : res DeserializeError (N * list N) :=
  match segs with
  | [] => Ok (total, spans)
  | SFixed start fin :: r => finalize_loop oc encoding r offs total (spans ++ [start; fin])
  | SOffset :: r =>
      match offs with
      | [] => Err MissingOffset
      | [_] => Err MissingOffset
      | start :: ((fin :: _) as offs') =>
          if blen encoding <? start then Err (ExpectedFurtherInput (blen encoding) start)
          else if blen encoding <? fin then Err (ExpectedFurtherInput (blen encoding) fin)
          else
            do size <- usub oc fin start;
            do total <- uadd oc total size;
            finalize_loop oc encoding r offs' total (spans ++ [start; fin])
      end
  end.

(** [ContainerDeserializer::finalize], de.rs:237-287 *)
Definition finalize (oc : bool) (encoding : bytes) (d : ContainerDeserializer)
  : res DeserializeError (list N) :=
  do (total, spans) <- finalize_loop oc encoding (segments d) (offsets d ++ [blen encoding])
                         (total_bytes_read d) [];
  if blen encoding <? total then Err (ExpectedFurtherInput (blen encoding) total)
  else if total <? blen encoding then Err (AdditionalInput (blen encoding) total)
  else Ok spans.

(** The struct literal of the derived impl, ssz-rs-derive/src/lib.rs:134-142 and 152-154:
    field number [i] is decoded from encoding[spans[2*i]..spans[2*i+1]]. *)
Fixpoint deserialize_fields (encoding : bytes) (spans : list N) (i : N) (fields : list Serializable)
  : res DeserializeError (list val) :=
  match fields with
  | [] => Ok []
  | T :: r =>
      do start <- index (2 * i) spans;
      do fin <- index (2 * i + 1) spans;
      do s <- slice start fin encoding;
      do v <- deserialize T s;
      do vs <- deserialize_fields encoding spans (i + 1) r;
      Ok (v :: vs)
  end.

(** Derived [deserialize] of a struct with named fields, ssz-rs-derive/src/lib.rs:144-156. *)
Definition container_deserialize (oc : bool) (fields : list Serializable) (encoding : bytes)
  : res DeserializeError (list val) :=
  do d <- foldM (parse oc encoding) container_deserializer_default fields;
  do spans <- finalize oc encoding d;
  deserialize_fields encoding spans 0 fields.
