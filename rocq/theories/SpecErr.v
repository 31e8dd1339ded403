(** What a decode error says, and the types whose decoding is safe. Independent of the model. *)
From Coq Require Import List NArith Bool.
From Verif Require Import Prelude Types SpecSer.
Import ListNotations.
Open Scope N_scope.

(** The error [e] is a true statement about the input [b] (or about a part of it). *)
Definition truthful (b : bytes) (e : DeserializeError) : Prop :=
  match e with
  | ExpectedFurtherInput provided expected => provided < expected
  | AdditionalInput provided expected => expected < provided
  | InvalidByte x => In x b
  | DInvalidInstance (Exact required provided) => provided <> required
  | DInvalidInstance (Bounded bound provided) => bound < provided
  | OffsetNotIncreasing start fin => fin < start
  | InvalidOffsetsLength n => n mod 4 <> 0
  | DInvalidType _ => False
  | MissingOffset => False
  | NoMatchingVariant => True
  end.

(** No vector, array or list with elements of a variable-size type. *)
Fixpoint no_variable_collection (t : ty) : bool :=
  match t with
  | TVector u _ | TArray u _ | TList u _ => negb (spec_variable u) && no_variable_collection u
  | TNewtype u | TOption u => no_variable_collection u
  | TContainer fs => forallb (fun f => no_variable_collection (snd f)) fs
  | TUnion vs =>
      forallb (fun o => match o with Some u => no_variable_collection u | None => true end) vs
  | TTransparent ts => forallb no_variable_collection ts
  | _ => true
  end.

(** Every container has at most one variable-size field. *)
Fixpoint single_variable (t : ty) : bool :=
  match t with
  | TVector u _ | TArray u _ | TList u _ | TNewtype u | TOption u => single_variable u
  | TContainer fs =>
      (blen (filter (fun f => spec_variable (snd f)) fs) <=? 1) &&
      forallb (fun f => single_variable (snd f)) fs
  | TUnion vs =>
      forallb (fun o => match o with Some u => single_variable u | None => true end) vs
  | TTransparent ts => forallb single_variable ts
  | _ => true
  end.
