(** Proofs of the properties of the derive macro. The statements are repeated in PropDerive.v. *)
From Coq Require Import String.
From Coq Require Import List NArith ZArith Bool Lia.
From Verif Require Import Prelude Types SpecSer Valid Derive SpecDerive DeriveProof.
Import ListNotations.
Open Scope N_scope.

(** Declarations for the examples. *)
Definition ssz_transparent : Attribute :=
  MkAttribute ["ssz"%string] (Some (MList [NPath false [("transparent"%string, false)]])).
Definition doc : Attribute := MkAttribute ["doc"%string] None.
Definition checkpoint : Data :=
  DStruct (Named [MkField "epoch" (TUint U64) [doc]; MkField "root" (TVector (TUint U8) 32) []]).
Definition wrapper : Data := DStruct (Unnamed [MkField "" (TList (TUint U64) 8) []]).
Definition choice : Data :=
  DEnum [MkVariant "None" Unit [doc]; MkVariant "A" (Unnamed [MkField "" (TUint U16) []]) []].
Definition versions : Data :=
  DEnum [MkVariant "V1" (Unnamed [MkField "" (TUint U16) []]) []; MkVariant "V2" (Unnamed [MkField "" (TUint U32) []]) []].
Definition many (n : nat) : Data :=
  DEnum (repeat (MkVariant "A" (Unnamed [MkField "" TBool []]) []) n).

Lemma c50_validation :
  forall d, validate_derive_input d [] = Ok tt <-> exists t, declares d t.
Proof.
  exact validate_plain.
Qed.

Lemma c50_validation_transparent :
  forall d, validate_derive_input d [Transparent] = Ok tt <-> exists t, declares_transparent d t.
Proof.
  exact validate_transparent.
Qed.

Lemma c50_validation_helpers :
  forall d h1 h2 hs, validate_derive_input d (h1 :: h2 :: hs) = Err TooManyHelpers.
Proof.
  exact validate_helpers.
Qed.

Lemma c50_derive :
  forall attrs d t, derive_without_attrs (MkInput attrs d) = Ok t <-> declares d t.
Proof.
  exact derive_plain_ok.
Qed.

Lemma c50_derive_attrs :
  forall attrs d t,
  derive_with_attrs (MkInput attrs d) = Ok t <->
  (helper_count attrs 0 /\ declares d t) \/ (helper_count attrs 1 /\ declares_transparent d t).
Proof.
  exact derive_attrs_ok.
Qed.

Lemma c50_rejection :
  forall input,
  derive_without_attrs input <> Err NotSupported /\ derive_with_attrs input <> Err NotSupported.
Proof.
  exact derive_supported.
Qed.

Lemma c55_legal :
  forall input t,
  derive_without_attrs input = Ok t \/ derive_with_attrs input = Ok t ->
  Forall (fun u => legal u = true) (declared_types (input_data input)) ->
  fixed_size t <= MAX_SIZE ->
  legal t = true.
Proof.
  exact derive_legal.
Qed.
