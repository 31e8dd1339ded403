(** What equality and order of values are expected to be, without the code that compares. *)
From Coq Require Import List NArith Bool.
From Verif Require Import Prelude Types Bitvec.
Import ListNotations.
Open Scope N_scope.

(** The same value, up to bits that are stored beyond the length of bitvectors and bitlists. *)
Inductive same_value : val -> val -> Prop :=
| same_bool b : same_value (VBool b) (VBool b)
| same_uint n : same_value (VUint n) (VUint n)
| same_node b : same_value (VNode b) (VNode b)
| same_seq l m : Forall2 same_value l m -> same_value (VSeq l) (VSeq m)
| same_bits a b : bv_bits a = bv_bits b -> same_value (VBits a) (VBits b)
| same_struct l m : Forall2 same_value l m -> same_value (VStruct l) (VStruct m)
| same_newtype v w : same_value v w -> same_value (VNewtype v) (VNewtype w)
| same_none : same_value VNone VNone
| same_some v w : same_value v w -> same_value (VSome v) (VSome w)
| same_variant i v w : same_value v w -> same_value (VVariant i v) (VVariant i w).

(** [l] comes before [m] in lexicographic order: it ends first, or is smaller at the first
    position where they differ. *)
Definition lexicographic {A} (same before : A -> A -> Prop) (l m : list A) : Prop :=
  exists p q r s, l = p ++ r /\ m = q ++ s /\ Forall2 same p q /\
    match r, s with
    | [], _ :: _ => True
    | x :: _, y :: _ => before x y
    | _, [] => False
    end.

Definition bool_before (a b : bool) : Prop := a = false /\ b = true.
Definition byte_before (a b : Byte.byte) : Prop := byte_to_N a < byte_to_N b.

(** The order of values that derived comparisons are documented to have. *)
Inductive value_before : val -> val -> Prop :=
| before_bool a b : bool_before a b -> value_before (VBool a) (VBool b)
| before_uint a b : a < b -> value_before (VUint a) (VUint b)
| before_node a b : lexicographic eq byte_before a b -> value_before (VNode a) (VNode b)
| before_seq p q r s : Forall2 same_value p q -> ends_before r s -> value_before (VSeq (p ++ r)) (VSeq (q ++ s))
| before_bits a b : lexicographic eq bool_before (bv_bits a) (bv_bits b) -> value_before (VBits a) (VBits b)
| before_struct p q r s : Forall2 same_value p q -> ends_before r s -> value_before (VStruct (p ++ r)) (VStruct (q ++ s))
| before_newtype v w : value_before v w -> value_before (VNewtype v) (VNewtype w)
| before_some v w : value_before v w -> value_before (VSome v) (VSome w)
| before_none_some v : value_before VNone (VSome v)
| before_unit i v : value_before VNone (VVariant i v)
| before_variant i j v w : i < j -> value_before (VVariant i v) (VVariant j w)
| before_payload i v w : value_before v w -> value_before (VVariant i v) (VVariant i w)
with ends_before : list val -> list val -> Prop :=
| ends_first y s : ends_before [] (y :: s)
| ends_smaller x y r s : value_before x y -> ends_before (x :: r) (y :: s).
