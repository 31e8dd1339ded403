(** The byte strings that the decoders of ssz-rs accept for a value: the encodings of the SSZ
    specification, except that an empty list of variable-size elements may also be written as a
    first offset of zero followed by anything. Independent of the model. *)
From Coq Require Import List NArith Bool.
From Coq Require Import Strings.Byte.
From Verif Require Import Prelude Types Bitvec SpecSer.
Import ListNotations.
Open Scope N_scope.

Fixpoint accepted (t : ty) (v : val) (b : bytes) {struct t} : Prop :=
  match t, v with
  | TVector u _, VSeq l | TArray u _, VSeq l =>
      exists bodies : list bytes,
        Forall2 (accepted u) l bodies /\
        spec_compose (map (pair (spec_variable u)) bodies) = Some b
  | TList u _, VSeq l =>
      (exists bodies : list bytes,
         Forall2 (accepted u) l bodies /\
         spec_compose (map (pair (spec_variable u)) bodies) = Some b)
      \/ (spec_variable u = true /\ l = [] /\ exists rest, b = [x00; x00; x00; x00] ++ rest)
  | TContainer fs, VStruct l =>
      List.length fs = List.length l /\
      exists bodies : list bytes,
        Forall2 (fun (P : bytes -> Prop) b => P b)
          (map (fun fx : (val -> bytes -> Prop) * val => fst fx (snd fx))
               (combine (map (fun f => accepted (snd f)) fs) l)) bodies /\
        spec_compose (combine (map (fun f => spec_variable (snd f)) fs) bodies) = Some b
  | TNewtype u, VNewtype x => accepted u x b
  | TOption u, VSome x => exists b', b = x01 :: b' /\ accepted u x b'
  | TUnion vs, VVariant i x =>
      match nth_error (map (option_map accepted) vs) (N.to_nat i) with
      | Some (Some R) => exists b', b = byte_of_N i :: b' /\ R x b'
      | _ => False
      end
  | TTransparent ts, VVariant i x =>
      match nth_error (map accepted ts) (N.to_nat i) with
      | Some R => R x b
      | None => False
      end
  | _, _ => spec_serialize t v = Some b
  end.
