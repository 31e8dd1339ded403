(** Which declarations the derive macro should accept, and as what type. Independent of the model
    in Derive.v, of which only the syntax is used. *)
From Coq Require Import String.
From Coq Require Import List NArith Bool.
From Verif Require Import Prelude Types Derive.
Import ListNotations.
Open Scope N_scope.

(** The attribute is written #[ssz...]. *)
Definition names_ssz (a : Attribute) : Prop := exists rest, attr_path a = "ssz"%string :: rest.

Definition no_ssz (attrs : list Attribute) : Prop := forall a, In a attrs -> ~ names_ssz a.

Definition plain_fields (l : list FieldDecl) : Prop := forall f, In f l -> no_ssz (field_attrs f).

(** A variant with one unnamed field of type [t]. *)
Definition payload (v : Variant) (t : ty) : Prop :=
  no_ssz (variant_attrs v) /\ exists f, variant_fields v = Unnamed [f] /\ field_ty f = t /\ no_ssz (field_attrs f).

(** The variant [None]. *)
Definition none_variant (v : Variant) : Prop :=
  no_ssz (variant_attrs v) /\ variant_fields v = Unit /\ variant_ident v = "None"%string.

(** A struct or enum without helper attribute declares the type [t]. *)
Inductive declares : Data -> ty -> Prop :=
| declares_container fields :
    fields <> [] -> plain_fields fields ->
    declares (DStruct (Named fields)) (TContainer (map (fun f => (field_name f, field_ty f)) fields))
| declares_newtype f :
    plain_fields [f] -> declares (DStruct (Unnamed [f])) (TNewtype (field_ty f))
| declares_union vs ts :
    1 <= blen vs <= 127 -> Forall2 payload vs ts -> declares (DEnum vs) (TUnion (map Some ts))
| declares_union_with_none v vs ts :
    1 <= blen vs <= 126 -> none_variant v -> Forall2 payload vs ts ->
    declares (DEnum (v :: vs)) (TUnion (None :: map Some ts)).

(** An enum with the attribute #[ssz(transparent)] declares the type [t]. *)
Inductive declares_transparent : Data -> ty -> Prop :=
| declares_enum vs ts :
    1 <= blen vs <= 127 -> Forall2 payload vs ts ->
    declares_transparent (DEnum vs) (TTransparent ts).

(** The attribute is #[ssz(transparent, ..., transparent)] with [n] arguments. *)
Definition transparent_attr (a : Attribute) (n : nat) : Prop :=
  attr_meta a = Some (MList (repeat (NPath false [("transparent"%string, false)]) n)).

(** The attributes that are written #[ssz...] have together [n] arguments, all [transparent]. *)
Inductive helper_count : list Attribute -> nat -> Prop :=
| helper_none : helper_count [] 0
| helper_other a l n : ~ names_ssz a -> helper_count l n -> helper_count (a :: l) n
| helper_ssz a l m n : names_ssz a -> transparent_attr a m -> helper_count l n -> helper_count (a :: l) (m + n).

(** The types written in a declaration. *)
Definition types_in (f : Fields) : list ty :=
  match f with
  | Named l | Unnamed l => map field_ty l
  | Unit => []
  end.

Definition declared_types (d : Data) : list ty :=
  match d with
  | DStruct f => types_in f
  | DEnum vs => flat_map (fun v => types_in (variant_fields v)) vs
  | DUnion => []
  end.
