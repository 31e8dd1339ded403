(** A checker that runs the integration tests of the crate (ssz-rs/tests) on the model.

    The files Conform1.v, ... hold the tests themselves; see tools/gen_conformance.py. Each test is evaluated
    when its file is compiled ([Eval vm_compute]) and compared with [true]; the build fails if a
    test fails. The evaluation is not part of a proof, because re-checking it without the virtual
    machine would take hours. *)
From Coq Require Import List NArith Bool.
From Coq Require Import Strings.Byte.
From Verif Require Import Prelude Types Bitvec Compare Ser De Impls Merkleize Proofs MerkImpls Lib Sha256.
Import ListNotations.
Open Scope N_scope.

(** ** Literals *)

(** [n] bytes, the first one in the low bits of [x]. *)
Fixpoint hex (n : nat) (x : N) : bytes :=
  match n with
  | O => []
  | S n => byte_of_N (N.land x 255) :: hex n (N.shiftr x 8)
  end.
Arguments hex n%nat x%N.

Definition bits (n : N) (x : N) : val := VBits (BitVec (hex (N.to_nat ((n + 7) / 8)) x) n).

Definition uints (l : list N) : val := VSeq (map VUint l).

(** ** Comparison, [assert_eq!] in the tests *)
Definition val_eqb : val -> val -> bool := ssz_eq.

(** ** Tests with a value *)

(** The type, the value, its encoding and its root. *)
Definition accept_test : Type := ty * val * bytes * bytes.

(** The table written by build.rs, computed once. *)
Definition zero_table : bytes := Eval vm_compute in CONTEXT_of (compute_zero_hashes sha256).

Definition ok_bytes {E} (x : res E bytes) (b : bytes) : bool :=
  match x with Ok a => bytes_eqb a b | _ => false end.

Definition ok_val {E} (x : res E val) (v : val) : bool :=
  match x with Ok w => val_eqb w v | _ => false end.

(** With and without overflow checks. The root is computed with overflow checks and debug
    assertions switched on, as in a test build. *)
Definition accept_passes (x : accept_test) : bool :=
  let '(t, v, encoding, root) := x in
  forallb (fun oc => ok_bytes (ssz_serialize oc t v) encoding && ok_val (ssz_deserialize oc t encoding) v)
          [true; false] &&
  ok_bytes (hash_tree_root (simple_serialize sha256 zero_table true t) v) root.

(** ** Tests of invalid encodings: [deserialize] must fail *)
Definition reject_test : Type := ty * bytes.

Definition fails {E A} (x : res E A) : bool :=
  match x with Err _ => true | _ => false end.

Definition reject_passes (x : reject_test) : bool :=
  forallb (fun oc => fails (ssz_deserialize oc (fst x) (snd x))) [true; false].
