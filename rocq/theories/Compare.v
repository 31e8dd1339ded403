(** Equality and order of values. [List] and [Vector] compare their [Vec] (ssz-rs/src/list.rs:16,
    54-63, ssz-rs/src/vector.rs:18, 30-36), the bit types their [BitVec] (ssz-rs/src/bitlist.rs:27,
    ssz-rs/src/bitvector.rs:36), which looks at the live bits only. Structs and enums belong to the
    user of the crate; they are taken to derive [PartialEq], [Eq], [PartialOrd] and [Ord]. The
    comparison of values of different Rust types, which does not compile, is given some answer. *)
From Coq Require Import List NArith Bool.
From Coq Require Import Strings.Byte.
From Verif Require Import Prelude Types Bitvec.
Import ListNotations.
Open Scope N_scope.

Section Slices.
  Context {A : Type} (eq : A -> A -> bool) (cmp : A -> A -> comparison).

  (** [==] on slices *)
  Fixpoint slice_eq (l m : list A) : bool :=
    match l, m with
    | [], [] => true
    | x :: l', y :: m' => eq x y && slice_eq l' m'
    | _, _ => false
    end.

  (** [cmp] on slices: the first difference decides, then the length. Derived comparisons of
      structs go through the fields in the same way. *)
  Fixpoint slice_cmp (l m : list A) : comparison :=
    match l, m with
    | [], [] => Eq
    | [], _ :: _ => Lt
    | _ :: _, [] => Gt
    | x :: l', y :: m' => match cmp x y with Eq => slice_cmp l' m' | o => o end
    end.
End Slices.

Definition bool_cmp (a b : bool) : comparison :=
  match a, b with
  | false, true => Lt
  | true, false => Gt
  | _, _ => Eq
  end.

Definition byte_cmp (a b : byte) : comparison := byte_to_N a ?= byte_to_N b.


(** [None] is smaller than [Some], a unit variant smaller than the others. *)
Definition kind (v : val) : N :=
  match v with
  | VBool _ => 0 | VUint _ => 1 | VNode _ => 2 | VSeq _ => 3 | VBits _ => 4 | VStruct _ => 5
  | VNewtype _ => 6 | VNone => 7 | VSome _ => 8 | VVariant _ _ => 9
  end.

(** [==] *)
Fixpoint ssz_eq (v w : val) {struct v} : bool :=
  match v, w with
  | VBool a, VBool b => Bool.eqb a b
  | VUint a, VUint b => a =? b
  | VNode a, VNode b => bytes_eqb a b
  | VSeq l, VSeq m => slice_eq ssz_eq l m
  | VBits a, VBits b => bv_eqb a b
  | VStruct l, VStruct m => slice_eq ssz_eq l m
  | VNewtype x, VNewtype y => ssz_eq x y
  | VNone, VNone => true
  | VSome x, VSome y => ssz_eq x y
  | VVariant i x, VVariant j y => (i =? j) && ssz_eq x y
  | _, _ => false
  end.

(** [cmp] *)
Fixpoint ssz_cmp (v w : val) {struct v} : comparison :=
  match v, w with
  | VBool a, VBool b => bool_cmp a b
  | VUint a, VUint b => a ?= b
  | VNode a, VNode b => slice_cmp byte_cmp a b
  | VSeq l, VSeq m => slice_cmp ssz_cmp l m
  | VBits a, VBits b => slice_cmp bool_cmp (bv_bits a) (bv_bits b)
  | VStruct l, VStruct m => slice_cmp ssz_cmp l m
  | VNewtype x, VNewtype y => ssz_cmp x y
  | VNone, VNone => Eq
  | VSome x, VSome y => ssz_cmp x y
  | VVariant i x, VVariant j y => match i ?= j with Eq => ssz_cmp x y | o => o end
  | _, _ => kind v ?= kind w
  end.
