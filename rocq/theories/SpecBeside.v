(** Values that differ only in the part that a path addresses. *)
From Coq Require Import String List NArith Bool.
From Coq Require Import Strings.Byte.
From Verif Require Import Prelude Types Bitvec Valid SpecSer SpecMerkle SpecPack.
Import ListNotations.
Open Scope N_scope.

(** The lists have the same length, and the same entries except those of [at_]. *)
Definition same_but {A} (at_ : N -> Prop) (l m : list A) : Prop :=
  length l = length m /\ forall j, ~ at_ j -> nth_error l (N.to_nat j) = nth_error m (N.to_nat j).

(** [v] and [w] agree in everything but the part, or the chunk that holds it: elements of 256 bits
    and less that share the chunk of the addressed element may differ, and so may bits. *)
Fixpoint agree_off (t : ty) (v w : val) (path : Path) : Prop :=
  match path with
  | [] => True
  | p :: rest =>
      match peel t v, peel t w, p with
      | (TVector u _, VSeq l), (_, VSeq m), Index i | (TArray u _, VSeq l), (_, VSeq m), Index i
      | (TList u _, VSeq l), (_, VSeq m), Index i =>
          if item_basic u then same_but (fun j => j * fixed_size u / 32 = i * fixed_size u / 32) l m
          else
            same_but (eq i) l m /\
            match nth_error l (N.to_nat i), nth_error m (N.to_nat i) with
            | Some x, Some y => agree_off u x y rest
            | _, _ => True
            end
      | (TBitvector _, VBits a), (_, VBits b), Index i | (TBitlist _, VBits a), (_, VBits b), Index i =>
          same_but (fun j => j / 256 = i / 256) (bv_bits a) (bv_bits b)
      | (TContainer fs, VStruct l), (_, VStruct m), Field name =>
          match field_position name fs with
          | Some (pos, u) =>
              same_but (eq pos) l m /\
              match nth_error l (N.to_nat pos), nth_error m (N.to_nat pos) with
              | Some x, Some y => agree_off u x y rest
              | _, _ => True
              end
          | None => False
          end
      | (TOption u, VSome x), (_, VSome y), Index i => i = 1 /\ agree_off u x y rest
      | (TUnion vs, VVariant k x), (_, VVariant k' y), Index i =>
          i = k /\ k = k' /\
          match nth_error vs (N.to_nat k) with
          | Some (Some u) => agree_off u x y rest
          | _ => False
          end
      | _, _, _ => False
      end
  end.

(** [w] comes about from [v] by changes of parts that the paths address, in any number and order. *)
Inductive changes (t : ty) (paths : list Path) : val -> val -> Prop :=
| unchanged v : changes t paths v v
| changed v u w path : In path paths -> valid t u -> agree_off t v u path -> changes t paths u w -> changes t paths v w.

(** Lists, or lists of bits, with the same entries except in the chunk of entry [i]. The lengths may
    differ, as after an element is added or removed. *)
Definition same_entries (t : ty) (v w : val) (i : N) : Prop :=
  match peel t v, peel t w with
  | (TList u _, VSeq l), (_, VSeq m) =>
      forall j, (if item_basic u then j * fixed_size u / 32 <> i * fixed_size u / 32 else j <> i) ->
      nth_error l (N.to_nat j) = nth_error m (N.to_nat j)
  | (TBitlist _, VBits a), (_, VBits b) =>
      forall j, j / 256 <> i / 256 -> nth_error (bv_bits a) (N.to_nat j) = nth_error (bv_bits b) (N.to_nat j)
  | _, _ => False
  end.

Definition entry_count (t : ty) (v : val) : N :=
  match snd (peel t v) with VSeq l => blen l | VBits b => blen (bv_bits b) | _ => 0 end.
