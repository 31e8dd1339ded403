(** Model of the validation in ssz-rs-derive/src/lib.rs and of the choice of the impls that the
    macro emits. The emitted impls are modelled in Impls.v and MerkImpls.v.

    A declaration is the part of [syn::DeriveInput] that the macro looks at. The type of a field
    stands for itself: it is a type of Types.v. *)
From Coq Require Import String.
From Coq Require Import List NArith Bool.
From Verif Require Import Prelude Types.
Import ListNotations.
Open Scope N_scope.

(** One constructor per panic of the macro; a panic aborts the compilation. *)
Inductive DerivePanic : Type :=
| UnparsableAttribute          (* attr.parse_meta().unwrap() *)
| NotAList                     (* only list-like attributes are supported *)
| LiteralArgument              (* literals unsupported in attributes *)
| UnsupportedArgument          (* unsupported argument to helper attribute *)
| ArgumentPathNotPlain         (* assert! on the path of an argument *)
| ArgumentsOfArgument          (* no arguments are supported to attribute symbols *)
| UnsupportedHelper (name : string)
| TooManyHelpers               (* only one argument to the helper attribute is allowed *)
| TransparentNotEnum
| NoFields                     (* ssz_rs containers with no fields are illegal *)
| AttributeOnField
| UnsupportedStruct            (* structs with unit or multiple unnnamed fields *)
| NoVariants
| TooManyVariants
| AttributeOnVariant
| NotOneType                   (* enums can only have 1 type per variant *)
| TransparentUnit
| UnitAfterUnnamed             (* found unit variant that conflicts with previous .. *)
| DuplicateUnit
| NotNone                      (* variant identifier is invalid: must be `None` *)
| UnitNotFirst
| UnitAlone                    (* more than 1 selector if the first is `None` *)
| NamedVariant
| RustUnion
| NotSupported                 (* unimplemented!, unreachable! and index panics *).

(** ** Declarations *)

(** [Attribute::parse_meta] of an attribute, as far as it is inspected (lib.rs:897-922). *)
Inductive NestedMeta : Type :=
| NPath (leading_colon : bool) (segments : list (string * bool)) (* identifier, has arguments *)
| NOtherMeta
| NLit.

Inductive Meta : Type :=
| MPath
| MList (nested : list NestedMeta)
| MNameValue.

Record Attribute : Type := MkAttribute {
  attr_path : list string;      (* identifiers of the path segments *)
  attr_meta : option Meta       (* None: does not parse *)
}.

Record FieldDecl : Type := MkField {
  field_name : string;          (* empty for unnamed fields *)
  field_ty : ty;
  field_attrs : list Attribute
}.

Inductive Fields : Type :=
| Named (fields : list FieldDecl)
| Unnamed (fields : list FieldDecl)
| Unit.

Record Variant : Type := MkVariant {
  variant_ident : string;
  variant_fields : Fields;
  variant_attrs : list Attribute
}.

Inductive Data : Type :=
| DStruct (fields : Fields)
| DEnum (variants : list Variant)
| DUnion.

Record DeriveInput : Type := MkInput { input_attrs : list Attribute; input_data : Data }.

(** ** Attributes *)

Inductive HelperAttr : Type := Transparent.

Definition SSZ_HELPER_ATTRIBUTE : string := "ssz".

(** lib.rs:730-740 *)
Definition is_ssz_attr (f : Attribute) : bool :=
  match attr_path f with
  | ident :: _ => String.eqb ident SSZ_HELPER_ATTRIBUTE
  | [] => false
  end.
Definition filter_ssz_attrs (attrs : list Attribute) : list Attribute := filter is_ssz_attr attrs.

(** lib.rs:888-893 *)
Definition parse_helper_attr (ident : string) : res DerivePanic HelperAttr :=
  if String.eqb ident "transparent" then Ok Transparent else Err (UnsupportedHelper ident).

(** lib.rs:903-918 *)
Definition helper_of_argument (arg : NestedMeta) : res DerivePanic HelperAttr :=
  match arg with
  | NPath leading_colon segments =>
      if leading_colon then Err ArgumentPathNotPlain
      else
        match segments with
        | [(ident, has_arguments)] =>
            if has_arguments : bool then Err ArgumentsOfArgument else parse_helper_attr ident
        | _ => Err ArgumentPathNotPlain
        end
  | NOtherMeta => Err UnsupportedArgument
  | NLit => Err LiteralArgument
  end.

(** [iter.map(f).collect()] for a closure that may panic. *)
Fixpoint map_panic {A B} (f : A -> res DerivePanic B) (l : list A) : res DerivePanic (list B) :=
  match l with
  | [] => Ok []
  | a :: r =>
      do b <- f a;
      do bs <- map_panic f r;
      Ok (b :: bs)
  end.

(** lib.rs:895-924 *)
Definition extract_helper_attrs (attrs : list Attribute) : res DerivePanic (list HelperAttr) :=
  do ls <- map_panic
    (fun attr =>
       match attr_meta attr with
       | None => Err UnparsableAttribute
       | Some (MList nested) => map_panic helper_of_argument nested
       | Some _ => Err NotAList
       end) (filter_ssz_attrs attrs);
  Ok (concat ls).

(** ** Validation *)

(** lib.rs:742-747 *)
Definition validate_no_attrs (fields : list FieldDecl) : res DerivePanic unit :=
  match flat_map (fun field => filter_ssz_attrs (field_attrs field)) fields with
  | [] => Ok tt
  | _ => Err AttributeOnField
  end.

(** [Fields::iter] *)
Definition fields_of (f : Fields) : list FieldDecl :=
  match f with
  | Named l | Unnamed l => l
  | Unit => []
  end.

(** lib.rs:726-728 *)
Definition is_valid_none_identifier (ident : string) : bool := String.eqb ident "None".

(** The loop at lib.rs:791-836; [i] counts the variants. *)
Fixpoint validate_variants (is_transparent : bool) (count i : N)
    (none_forbidden already_has_none : bool) (variants : list Variant) : res DerivePanic unit :=
  match variants with
  | [] => Ok tt
  | variant :: r =>
      match filter_ssz_attrs (variant_attrs variant) with
      | _ :: _ => Err AttributeOnVariant
      | [] =>
          do _ <- validate_no_attrs (fields_of (variant_fields variant));
          match variant_fields variant with
          | Unnamed inner =>
              let none_forbidden := if i =? 0 then true else none_forbidden in
              if negb (blen inner =? 1) then Err NotOneType
              else
                do _ <- validate_no_attrs inner;
                validate_variants is_transparent count (i + 1) none_forbidden already_has_none r
          | Unit =>
              if is_transparent then Err TransparentUnit
              else if none_forbidden then Err UnitAfterUnnamed
              else if already_has_none then Err DuplicateUnit
              else if negb (is_valid_none_identifier (variant_ident variant)) then Err NotNone
              else if negb (i =? 0) then Err UnitNotFirst
              else if count <? 2 then Err UnitAlone
              else validate_variants is_transparent count (i + 1) none_forbidden true r
          | Named _ => Err NamedVariant
          end
      end
  end.

(** lib.rs:754-840 *)
Definition validate_derive_input (data : Data) (helper_attrs : list HelperAttr)
  : res DerivePanic unit :=
  if 1 <? blen helper_attrs then Err TooManyHelpers
  else
    let is_transparent := match helper_attrs with Transparent :: _ => true | [] => false end in
    if is_transparent && negb (match data with DEnum _ => true | _ => false end)
    then Err TransparentNotEnum
    else
      match data with
      | DStruct (Named fields) =>
          match fields with
          | [] => Err NoFields
          | _ => validate_no_attrs fields
          end
      | DStruct (Unnamed fields) =>
          if blen fields =? 1 then validate_no_attrs fields else Err UnsupportedStruct
      | DStruct Unit => Err UnsupportedStruct
      | DEnum variants =>
          if blen variants =? 0 then Err NoVariants
          else if 127 <? blen variants then Err TooManyVariants
          else validate_variants is_transparent (blen variants) 0 false false variants
      | DUnion => Err RustUnion
      end.

(** ** Which impls are emitted

    The [match]es on the data in derive_serialize_impl, derive_deserialize_impl,
    derive_variable_size_impl, derive_size_hint_impl, derive_merkleization_impl,
    derive_generalized_indexable_impl and derive_prove_impl (lib.rs:22-724) make the same case
    distinction: named fields, newtype, enum with or without [transparent]. The result is the
    type of Types.v whose impls are modelled. *)
Definition variant_ty (v : Variant) : res DerivePanic (option ty) :=
  match variant_fields v with
  | Unnamed (f :: _) => Ok (Some (field_ty f))
  | Unit => Ok None
  | _ => Err NotSupported
  end.

Definition payload_ty (v : Variant) : res DerivePanic ty :=
  match variant_fields v with
  | Unnamed (f :: _) => Ok (field_ty f)
  | _ => Err NotSupported
  end.

Definition derived_ty (data : Data) (helper_attr : option HelperAttr) : res DerivePanic ty :=
  match data with
  | DStruct (Named fields) => Ok (TContainer (map (fun f => (field_name f, field_ty f)) fields))
  | DStruct (Unnamed [f]) => Ok (TNewtype (field_ty f))
  | DStruct _ => Err NotSupported
  | DEnum variants =>
      match helper_attr with
      | Some Transparent => do ts <- map_panic payload_ty variants; Ok (TTransparent ts)
      | None => do vs <- map_panic variant_ty variants; Ok (TUnion vs)
      end
  | DUnion => Err NotSupported
  end.

(** [#[derive(Serializable)]], [#[derive(HashTreeRoot)]]: lib.rs:932-962. *)
Definition derive_with_attrs (input : DeriveInput) : res DerivePanic ty :=
  do helper_attrs <- extract_helper_attrs (input_attrs input);
  do _ <- validate_derive_input (input_data input) helper_attrs;
  derived_ty (input_data input) (hd_error helper_attrs).

(** [#[derive(SimpleSerialize)]], [#[derive(GeneralizedIndexable)]], [#[derive(Prove)]]:
    lib.rs:967-1030. *)
Definition derive_without_attrs (input : DeriveInput) : res DerivePanic ty :=
  do _ <- validate_derive_input (input_data input) [];
  derived_ty (input_data input) None.
