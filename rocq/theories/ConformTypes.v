(** The structs of the integration tests.

    Written by tools/gen_conformance.py from ssz-rs/tests/containers.rs:9-52. These are tests of the model, not proofs about
    the code. *)
From Coq Require Import String List NArith Bool.
From Verif Require Import Prelude Types Conform.
Import ListNotations.
Open Scope N_scope.

Definition SingleFieldTestStruct : ty :=
  TContainer
    [("a"%string, (TUint U8))].

Definition SmallTestStruct : ty :=
  TContainer
    [("a"%string, (TUint U16));
     ("b"%string, (TUint U16))].

Definition FixedTestStruct : ty :=
  TContainer
    [("a"%string, (TUint U8));
     ("b"%string, (TUint U64));
     ("c"%string, (TUint U32))].

Definition VarTestStruct : ty :=
  TContainer
    [("a"%string, (TUint U16));
     ("b"%string, (TList (TUint U16) 1024));
     ("c"%string, (TUint U8))].

Definition ComplexTestStruct : ty :=
  TContainer
    [("a"%string, (TUint U16));
     ("b"%string, (TList (TUint U16) 128));
     ("c"%string, (TUint U8));
     ("d"%string, (TList (TUint U8) 256));
     ("e"%string, VarTestStruct);
     ("f"%string, (TVector FixedTestStruct 4));
     ("g"%string, (TVector VarTestStruct 2))].

Definition BitsStruct : ty :=
  TContainer
    [("a"%string, (TBitlist 5));
     ("b"%string, (TBitvector 2));
     ("c"%string, (TBitvector 1));
     ("d"%string, (TBitlist 6));
     ("e"%string, (TBitvector 8))].
