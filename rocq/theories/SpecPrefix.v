(** Types whose encodings show where they end. *)
From Coq Require Import List NArith Bool.
From Verif Require Import Prelude Types SpecSer.
Import ListNotations.

(** Whether the last variable-size field, if there is one, shows its end. Each field comes with its
    variable-size flag and whether it shows its end. *)
Fixpoint end_shown (fields : list (bool * bool)) : bool :=
  match fields with
  | [] => true
  | (variable, shown) :: rest =>
      if existsb fst rest then end_shown rest else negb variable || shown
  end.

(** The end of a list, a bit list or an untagged enum is the end of the input; all other types
    show their end unless their last variable-size part does not. *)
Fixpoint self_delimiting (t : ty) : bool :=
  match t with
  | TBool | TUint _ | TU256 | TNode | TBitvector _ => true
  | TList _ _ | TBitlist _ | TTransparent _ => false
  | TVector t _ | TArray t _ | TNewtype t | TOption t => self_delimiting t
  | TUnion vs => forallb (fun v => match v with Some t => self_delimiting t | None => true end) vs
  | TContainer fs => end_shown (map (fun f => (spec_variable (snd f), self_delimiting (snd f))) fs)
  end.
