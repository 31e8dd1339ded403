(** What is wrong with an input that cannot be decoded. Independent of the model.

    [fault checks t b e] holds if [e] names something that is wrong with [b] as an encoding of [t], or
    with the piece of [b] that belongs to some part of the value; the numbers in [e] are those of
    the input. Which of several faults is reported is not said here. *)
From Coq Require Import List NArith Bool.
From Coq Require Import Strings.Byte.
From Verif Require Import Prelude Types SpecSer SpecDecode.
Import ListNotations.
Open Scope N_scope.

Definition wrong_length (size : N) (b : bytes) (e : DeserializeError) : Prop :=
  (blen b < size /\ e = ExpectedFurtherInput (blen b) size) \/
  (size < blen b /\ e = AdditionalInput (blen b) size).

(** ** Collections *)

Definition first_offset (b : bytes) : N := number (sub_bytes b 0 4).

(** Offsets with the next one or the end of the input. *)
Definition offset_pairs (b : bytes) : list (N * N) :=
  neighbours (map (fun i => number (sub_bytes b (4 * i) 4)) (count_to (first_offset b / 4)) ++ [blen b]).

Section Elements.
  Context (variable : bool) (size : N) (f : bytes -> DeserializeError -> Prop).

  Definition found_elements (b : bytes) : N :=
    if variable then match b with [] => 0 | _ => first_offset b / 4 end else blen b / size.

  Definition bad_elements (b : bytes) (e : DeserializeError) : Prop :=
    if variable then
      b <> [] /\
      ((blen b < 4 /\ e = ExpectedFurtherInput (blen b) 4) \/
       (4 <= blen b /\ blen b < first_offset b /\ e = ExpectedFurtherInput (blen b) (first_offset b)) \/
       (4 <= blen b /\ first_offset b mod 4 <> 0 /\ e = InvalidOffsetsLength (first_offset b)) \/
       (4 <= blen b /\ first_offset b <= blen b /\ first_offset b mod 4 = 0 /\
        exists start fin, In (start, fin) (offset_pairs b) /\
          ((fin < start /\ e = OffsetNotIncreasing start fin) \/
           (start <= fin <= blen b /\ f (sub_bytes b start (fin - start)) e))))
    else
      exists i, i < blen b / size /\ f (sub_bytes b (i * size) size) e.
End Elements.

(** ** Containers *)

Definition bad_fields (checks : bool) (fields : list ((bool * N) * (bytes -> DeserializeError -> Prop)))
    (b : bytes) (e : DeserializeError) : Prop :=
  let layout := map fst fields in
  let head := total (map head_size layout) in
  let offsets := head_offsets b 0 layout in
  let first := hd (blen b) offsets in
  (* the input ends inside the head *)
  (exists pre x post, layout = pre ++ x :: post /\
     let p := total (map head_size pre) in
     p <= blen b /\ blen b < p + head_size x /\ e = ExpectedFurtherInput (blen b - p) (head_size x)) \/
  (exists start fin, In (start, fin) (neighbours offsets) /\ fin < start /\ e = OffsetNotIncreasing start fin) \/
  (* an offset behind the input, reported with the difference that wrapped around *)
  (checks = false /\ exists start fin, In (start, fin) (neighbours offsets) /\ start <= fin /\ blen b < fin /\
     e = ExpectedFurtherInput (2 ^ 64 + blen b - (if blen b <? start then start else fin)) (fin - start)) \/
  (exists o, In o offsets /\ blen b < o /\ e = ExpectedFurtherInput (blen b) o) \/
  (* the variable part does not start after the head *)
  (head <= blen b /\ first <= blen b /\ wrong_length (head + (blen b - first)) b e) \/
  (exists f s, In (f, s) (combine fields (field_spans 0 layout (offsets ++ [blen b]))) /\
     head <= blen b /\ first = head /\ Forall (fun p => fst p <= snd p) (neighbours (offsets ++ [blen b])) /\
     snd f (sub_bytes b (fst s) (snd s)) e).

(** ** All types *)
Fixpoint fault (checks : bool) (t : ty) (b : bytes) (e : DeserializeError) {struct t} : Prop :=
  match t with
  | TBool => wrong_length 1 b e \/ (exists x, b = [x] /\ 1 < byte_to_N x /\ e = InvalidByte x)
  | TUint w => wrong_length (N.of_nat (spec_uint_size w)) b e
  | TU256 | TNode => wrong_length 32 b e
  | TVector u n | TArray u n =>
      (spec_variable u = false /\ wrong_length (n * fixed_size u) b e) \/
      bad_elements (spec_variable u) (fixed_size u) (fault checks u) b e \/
      (spec_variable u = true /\ found_elements true 0 b <> n /\
       e = DInvalidInstance (Exact n (found_elements true 0 b)))
  | TList u n =>
      (spec_variable u = false /\ blen b mod fixed_size u <> 0 /\
       e = AdditionalInput (blen b) (blen b - blen b mod fixed_size u)) \/
      bad_elements (spec_variable u) (fixed_size u) (fault checks u) b e \/
      (n < found_elements (spec_variable u) (fixed_size u) b /\
       e = DInvalidInstance (Bounded n (found_elements (spec_variable u) (fixed_size u) b)))
  | TBitvector n =>
      wrong_length ((n + 7) / 8) b e \/
      (exists p x, b = p ++ [x] /\ n mod 8 <> 0 /\ 2 ^ (n mod 8) <= byte_to_N x /\ blen b = (n + 7) / 8 /\
         e = InvalidByte x)
  | TBitlist n =>
      (b = [] /\ e = ExpectedFurtherInput 0 1) \/
      (n / 8 + 1 < blen b /\ e = AdditionalInput (blen b) (n / 8 + 1)) \/
      (exists p, b = p ++ [x00] /\ e = InvalidByte x00) \/
      (exists p x, b = p ++ [x] /\ x <> x00 /\ n < 8 * blen p + N.log2 (byte_to_N x) /\
         e = DInvalidInstance (Bounded n (8 * blen p + N.log2 (byte_to_N x))))
  | TContainer fs =>
      bad_fields checks (map (fun f => ((spec_variable (snd f), fixed_size (snd f)), fault checks (snd f))) fs) b e
  | TNewtype u => fault checks u b e
  | TOption u =>
      (b = [] /\ e = ExpectedFurtherInput 0 1) \/
      (exists r, b = x00 :: r /\ r <> [] /\ e = AdditionalInput (blen b) 1) \/
      (exists r, b = x01 :: r /\ fault checks u r e) \/
      (exists x r, b = x :: r /\ 1 < byte_to_N x /\ e = InvalidByte x)
  | TUnion vs =>
      (b = [] /\ e = ExpectedFurtherInput 0 1) \/
      (exists x r, b = x :: r /\
         match nth_error (map (option_map (fault checks)) vs) (N.to_nat (byte_to_N x)) with
         | Some (Some f) => f r e
         | Some None => r <> [] /\ e = AdditionalInput (blen b) 1
         | None => e = InvalidByte x
         end)
  | TTransparent ts =>
      (b = [] /\ e = ExpectedFurtherInput 0 1) \/
      (b <> [] /\ e = NoMatchingVariant /\ forall f, In f (map (fault checks) ts) -> exists e', f b e')
  end.
