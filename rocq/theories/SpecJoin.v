(** The part of a value that a path leads to, where it has a node of its own. *)
From Coq Require Import String List NArith Bool.
From Verif Require Import Prelude Types Bitvec SpecSer SpecMerkle SpecPack.
Import ListNotations.
Open Scope N_scope.

(** Basic elements share chunks, and bits, lengths and selectors are not values of a type. *)
Fixpoint part_at (t : ty) (v : val) (path : Path) : option (ty * val) :=
  match path with
  | [] => Some (t, v)
  | p :: rest =>
      match peel t v, p with
      | (TVector u _, VSeq l), Index i | (TArray u _, VSeq l), Index i | (TList u _, VSeq l), Index i =>
          if item_basic u then None
          else match nth_error l (N.to_nat i) with
               | Some x => part_at u x rest
               | None => None
               end
      | (TContainer fs, VStruct l), Field name =>
          match field_position name fs with
          | Some (pos, u) =>
              match nth_error l (N.to_nat pos) with
              | Some x => part_at u x rest
              | None => None
              end
          | None => None
          end
      | (TOption u, VSome x), Index i => if i =? 1 then part_at u x rest else None
      | (TUnion vs, VVariant k x), Index i =>
          if i =? k then
            match nth_error vs (N.to_nat i) with
            | Some (Some u) => part_at u x rest
            | _ => None
            end
          else None
      | _, _ => None
      end
  end.
