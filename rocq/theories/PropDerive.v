(** Properties of the derive macro. Only theorems, each proved in DeriveThms.v, and examples that
    show their hypotheses can be met. *)
From Coq Require Import String.
From Coq Require Import List NArith Bool.
From Verif Require Import Prelude Types SpecSer Valid Derive SpecDerive DeriveThms.
Import ListNotations.
Open Scope N_scope.

(**     unions of 1 to 127 variants with at most a leading None followed by another variant. No
    [ssz] attribute may occur inside. *)

Theorem C50_validation :
  forall d, validate_derive_input d [] = Ok tt <-> exists t, declares d t.
Proof. exact c50_validation. Qed.
Print Assumptions C50_validation.

(**  *)

Theorem C50_validation_transparent :
  forall d, validate_derive_input d [Transparent] = Ok tt <-> exists t, declares_transparent d t.
Proof. exact c50_validation_transparent. Qed.
Print Assumptions C50_validation_transparent.

(**  *)

Theorem C50_validation_helpers :
  forall d h1 h2 hs, validate_derive_input d (h1 :: h2 :: hs) = Err TooManyHelpers.
Proof. exact c50_validation_helpers. Qed.
Print Assumptions C50_validation_helpers.

(**     expand to the impls of type [t] exactly when the declaration declares [t]. *)

Theorem C50_derive :
  forall attrs d t, derive_without_attrs (MkInput attrs d) = Ok t <-> declares d t.
Proof. exact c50_derive. Qed.
Print Assumptions C50_derive.

(**     a single [transparent] a transparent enum, and nothing else expands. *)

Theorem C50_derive_attrs :
  forall attrs d t,
  derive_with_attrs (MkInput attrs d) = Ok t <->
  (helper_count attrs 0 /\ declares d t) \/ (helper_count attrs 1 /\ declares_transparent d t).
Proof. exact c50_derive_attrs. Qed.
Print Assumptions C50_derive_attrs.

(**  *)

Theorem C50_rejection :
  forall input,
  derive_without_attrs input <> Err NotSupported /\ derive_with_attrs input <> Err NotSupported.
Proof. exact c50_rejection. Qed.
Print Assumptions C50_rejection.

Example C50_example_accepted :
  derive_without_attrs (MkInput [doc] checkpoint) =
    Ok (TContainer [("epoch"%string, TUint U64); ("root"%string, TVector (TUint U8) 32)]) /\
  derive_without_attrs (MkInput [] wrapper) = Ok (TNewtype (TList (TUint U64) 8)) /\
  derive_without_attrs (MkInput [] choice) = Ok (TUnion [None; Some (TUint U16)]) /\
  derive_with_attrs (MkInput [doc; ssz_transparent] versions) = Ok (TTransparent [TUint U16; TUint U32]) /\
  derive_without_attrs (MkInput [doc; ssz_transparent] versions) = Ok (TUnion [Some (TUint U16); Some (TUint U32)]) /\
  validate_derive_input (many 127) [] = Ok tt.
Proof.
  repeat split; vm_compute; reflexivity.
Qed.

Example C50_example_rejected :
  derive_without_attrs (MkInput [] (DStruct (Named []))) = Err NoFields /\
  derive_without_attrs (MkInput [] (DStruct Unit)) = Err UnsupportedStruct /\
  derive_without_attrs (MkInput [] (DEnum [MkVariant "None" Unit []])) = Err UnitAlone /\
  derive_without_attrs (MkInput [] (many 128)) = Err TooManyVariants /\
  derive_with_attrs (MkInput [ssz_transparent] choice) = Err TransparentUnit /\
  derive_with_attrs (MkInput [ssz_transparent] checkpoint) = Err TransparentNotEnum /\
  derive_with_attrs (MkInput [ssz_transparent; ssz_transparent] versions) = Err TooManyHelpers.
Proof.
  repeat split; vm_compute; reflexivity.
Qed.

(**     [legal] is what the other properties assume of types. *)

Theorem C55_legal :
  forall input t,
  derive_without_attrs input = Ok t \/ derive_with_attrs input = Ok t ->
  Forall (fun u => legal u = true) (declared_types (input_data input)) ->
  fixed_size t <= MAX_SIZE ->
  legal t = true.
Proof. exact c55_legal. Qed.
Print Assumptions C55_legal.

Example C55_example :
  derive_without_attrs (MkInput [] choice) = Ok (TUnion [None; Some (TUint U16)]) /\
  Forall (fun u => legal u = true) (declared_types choice) /\
  fixed_size (TUnion [None; Some (TUint U16)]) <= MAX_SIZE.
Proof.
  split; [vm_compute; reflexivity|]. split; [|vm_compute; discriminate].
  apply Forall_forall. intros u [<-|[]]. vm_compute. reflexivity.
Qed.
