@head lemmas
(** Proofs of the properties of the derive macro. The statements are repeated in PropDerive.v. *)
From Coq Require Import String.
From Coq Require Import List NArith ZArith Bool Lia.
From Verif Require Import Prelude Types SpecSer Valid Derive SpecDerive DeriveProof.
Import ListNotations.
Open Scope N_scope.

@head theorems
(** Properties of the derive macro. Only theorems, each proved in DeriveThms.v, and examples that
    show their hypotheses can be met. *)
From Coq Require Import String.
From Coq Require Import List NArith Bool.
From Verif Require Import Prelude Types SpecSer Valid Derive SpecDerive DeriveThms.
Import ListNotations.
Open Scope N_scope.

@raw
(** Declarations for the examples. *)
Definition ssz_transparent : Attribute :=
  MkAttribute ["ssz"%string] (Some (MList [NPath false [("transparent"%string, false)]])).
Definition doc : Attribute := MkAttribute ["doc"%string] None.
Definition checkpoint : Data :=
  DStruct (Named [MkField "epoch" (TUint U64) [doc]; MkField "root" (TVector (TUint U8) 32) []]).
Definition wrapper : Data := DStruct (Unnamed [MkField "" (TList (TUint U64) 8) []]).
Definition choice : Data :=
  DEnum [MkVariant "None" Unit [doc]; MkVariant "A" (Unnamed [MkField "" (TUint U16) []]) []].
Definition versions : Data :=
  DEnum [MkVariant "V1" (Unnamed [MkField "" (TUint U16) []]) []; MkVariant "V2" (Unnamed [MkField "" (TUint U32) []]) []].
Definition many (n : nat) : Data :=
  DEnum (repeat (MkVariant "A" (Unnamed [MkField "" TBool []]) []) n).

@text C50: the validation accepts exactly containers with at least one named field, newtypes and
    unions of 1 to 127 variants with at most a leading None followed by another variant. No
    [ssz] attribute may occur inside.

@thm C50_validation
forall d, validate_derive_input d [] = Ok tt <-> exists t, declares d t
@proof
  exact validate_plain.

@text With [transparent], exactly enums of 1 to 127 variants that all have a payload.

@thm C50_validation_transparent
forall d, validate_derive_input d [Transparent] = Ok tt <-> exists t, declares_transparent d t
@proof
  exact validate_transparent.

@text More than one helper attribute is never accepted.

@thm C50_validation_helpers
forall d h1 h2 hs, validate_derive_input d (h1 :: h2 :: hs) = Err TooManyHelpers
@proof
  exact validate_helpers.

@text The macros that take no helper attributes (SimpleSerialize, GeneralizedIndexable, Prove)
    expand to the impls of type [t] exactly when the declaration declares [t].

@thm C50_derive
forall attrs d t, derive_without_attrs (MkInput attrs d) = Ok t <-> declares d t
@proof
  exact derive_plain_ok.

@text The macros that take them (Serializable, HashTreeRoot): without [transparent] the same, with
    a single [transparent] a transparent enum, and nothing else expands.

@thm C50_derive_attrs
forall attrs d t,
  derive_with_attrs (MkInput attrs d) = Ok t <->
  (helper_count attrs 0 /\ declares d t) \/ (helper_count attrs 1 /\ declares_transparent d t)
@proof
  exact derive_attrs_ok.

@text The validation is what rejects: whatever passes it expands.

@thm C50_rejection
forall input,
  derive_without_attrs input <> Err NotSupported /\ derive_with_attrs input <> Err NotSupported
@proof
  exact derive_supported.

@example C50_example_accepted
derive_without_attrs (MkInput [doc] checkpoint) =
    Ok (TContainer [("epoch"%string, TUint U64); ("root"%string, TVector (TUint U8) 32)]) /\
  derive_without_attrs (MkInput [] wrapper) = Ok (TNewtype (TList (TUint U64) 8)) /\
  derive_without_attrs (MkInput [] choice) = Ok (TUnion [None; Some (TUint U16)]) /\
  derive_with_attrs (MkInput [doc; ssz_transparent] versions) = Ok (TTransparent [TUint U16; TUint U32]) /\
  derive_without_attrs (MkInput [doc; ssz_transparent] versions) = Ok (TUnion [Some (TUint U16); Some (TUint U32)]) /\
  validate_derive_input (many 127) [] = Ok tt
@proof
  repeat split; vm_compute; reflexivity.

@example C50_example_rejected
derive_without_attrs (MkInput [] (DStruct (Named []))) = Err NoFields /\
  derive_without_attrs (MkInput [] (DStruct Unit)) = Err UnsupportedStruct /\
  derive_without_attrs (MkInput [] (DEnum [MkVariant "None" Unit []])) = Err UnitAlone /\
  derive_without_attrs (MkInput [] (many 128)) = Err TooManyVariants /\
  derive_with_attrs (MkInput [ssz_transparent] choice) = Err TransparentUnit /\
  derive_with_attrs (MkInput [ssz_transparent] checkpoint) = Err TransparentNotEnum /\
  derive_with_attrs (MkInput [ssz_transparent; ssz_transparent] versions) = Err TooManyHelpers
@proof
  repeat split; vm_compute; reflexivity.

@text C55: a derived type is legal when the types in the declaration are and its size is in range.
    [legal] is what the other properties assume of types.

@thm C55_legal
forall input t,
  derive_without_attrs input = Ok t \/ derive_with_attrs input = Ok t ->
  Forall (fun u => legal u = true) (declared_types (input_data input)) ->
  fixed_size t <= MAX_SIZE ->
  legal t = true
@proof
  exact derive_legal.

@example C55_example
derive_without_attrs (MkInput [] choice) = Ok (TUnion [None; Some (TUint U16)]) /\
  Forall (fun u => legal u = true) (declared_types choice) /\
  fixed_size (TUnion [None; Some (TUint U16)]) <= MAX_SIZE
@proof
  split; [vm_compute; reflexivity|]. split; [|vm_compute; discriminate].
  apply Forall_forall. intros u [<-|[]]. vm_compute. reflexivity.
