(** Errors, SSZ types and values. *)
From Coq Require Import List NArith Bool String.
From Verif Require Import Prelude.
Import ListNotations.
Open Scope N_scope.

(** ** Errors *)

(** ssz-rs/src/error.rs:51-56 *)
Inductive TypeError : Type :=
| InvalidBound (n : N).

(** ssz-rs/src/error.rs:71-78 *)
Inductive InstanceError : Type :=
| Exact (required provided : N)
| Bounded (bound provided : N).

(** ssz-rs/src/ser.rs:11-32 *)
Inductive SerializeError : Type :=
| MaximumEncodedLengthReached (n : N)
| SInvalidInstance (e : InstanceError)
| SInvalidType (e : TypeError).

(** ssz-rs/src/de.rs:8-42 *)
Inductive DeserializeError : Type :=
| ExpectedFurtherInput (provided expected : N)
| AdditionalInput (provided expected : N)
| InvalidByte (b : Byte.byte)
| DInvalidInstance (e : InstanceError)
| DInvalidType (e : TypeError)
| InvalidOffsetsLength (n : N)
| OffsetNotIncreasing (start fin : N)
| MissingOffset
| NoMatchingVariant.

(** ssz-rs/src/merkleization/generalized_index.rs:7-19 *)
Inductive PathElement : Type :=
| Index (i : N)
| Field (name : string)
| Length
| Selector.

Definition Path := list PathElement.

(** ssz-rs/src/merkleization/mod.rs:17-45 *)
Inductive MerkleizationError : Type :=
| SerializationError (e : SerializeError)
| InputExceedsLimit (n : N)
| InvalidProof
| InvalidGeneralizedIndex
| InvalidPathElement (e : PathElement)
| InvalidPath (p : Path)
| InvalidInnerIndex
| NoInnerElement
| NotChunkable.

(** ssz-rs/src/error.rs:3-16 (the variants used by the constructors) *)
Inductive Error : Type :=
| EDeserialize (e : DeserializeError)
| EInstance (e : InstanceError)
| EType (e : TypeError).

(** ** Bit vectors

    [bitvec::BitVec<u8, Lsb0>]: the raw bytes that hold the live bits and the number of live
    bits. Bit [i] lives in bit [i mod 8] of byte [i / 8]. The last byte may hold dead bits. *)
Record bitvec : Type := BitVec { bv_raw : bytes; bv_len : N }.

(** ** Types

    The Rust types for which the crate and its derive macro implement the SSZ traits.
    Unsigned integers: ssz-rs/src/uint.rs:88-93. *)
Inductive uint_ty : Type := U8 | U16 | U32 | U64 | U128 | Usize.

(** Enum variants are listed in declaration order; [None] stands for the unit variant. *)
Inductive ty : Type :=
| TBool
| TUint (w : uint_ty)
| TU256
| TNode
| TVector (t : ty) (n : N)            (* Vector<T, N> *)
| TArray (t : ty) (n : N)             (* [T; N] *)
| TList (t : ty) (n : N)              (* List<T, N> *)
| TBitvector (n : N)
| TBitlist (n : N)
| TContainer (fs : list (string * ty))(* derived struct with named fields *)
| TNewtype (t : ty)                   (* derived struct with one unnamed field *)
| TOption (t : ty)                    (* Option<T> *)
| TUnion (vs : list (option ty))      (* derived enum *)
| TTransparent (ts : list ty).        (* derived enum with #[ssz(transparent)] *)

(** ** Values *)
Inductive val : Type :=
| VBool (b : bool)
| VUint (n : N)                       (* uints and U256 *)
| VNode (b : bytes)
| VSeq (l : list val)                 (* Vector, array, List *)
| VBits (b : bitvec)                  (* Bitvector, Bitlist *)
| VStruct (l : list val)
| VNewtype (v : val)
| VNone                               (* Option::None, the unit variant of an enum *)
| VSome (v : val)                     (* Option::Some *)
| VVariant (i : N) (v : val).         (* variant number i of an enum *)

(** Induction principles that see through the nested lists. *)
Definition opt_holds {A} (P : A -> Prop) (o : option A) : Prop :=
  match o with Some t => P t | None => True end.

Section ty_ind.
  Context (P : ty -> Prop).
  Context (HBool : P TBool) (HUint : forall w, P (TUint w)) (HU256 : P TU256) (HNode : P TNode).
  Context (HVector : forall t n, P t -> P (TVector t n)).
  Context (HArray : forall t n, P t -> P (TArray t n)).
  Context (HList : forall t n, P t -> P (TList t n)).
  Context (HBitvector : forall n, P (TBitvector n)) (HBitlist : forall n, P (TBitlist n)).
  Context (HContainer : forall fs, Forall (fun f => P (snd f)) fs -> P (TContainer fs)).
  Context (HNewtype : forall t, P t -> P (TNewtype t)).
  Context (HOption : forall t, P t -> P (TOption t)).
  Context (HUnion : forall vs, Forall (opt_holds P) vs -> P (TUnion vs)).
  Context (HTransparent : forall ts, Forall P ts -> P (TTransparent ts)).

  Fixpoint ty_ind' (t : ty) : P t :=
    match t with
    | TBool => HBool
    | TUint w => HUint w
    | TU256 => HU256
    | TNode => HNode
    | TVector t n => HVector t n (ty_ind' t)
    | TArray t n => HArray t n (ty_ind' t)
    | TList t n => HList t n (ty_ind' t)
    | TBitvector n => HBitvector n
    | TBitlist n => HBitlist n
    | TContainer fs =>
        HContainer fs
          ((fix go (l : list (string * ty)) : Forall (fun f => P (snd f)) l :=
              match l with
              | [] => Forall_nil _
              | f :: r => Forall_cons f (ty_ind' (snd f)) (go r)
              end) fs)
    | TNewtype t => HNewtype t (ty_ind' t)
    | TOption t => HOption t (ty_ind' t)
    | TUnion vs =>
        HUnion vs
          ((fix go (l : list (option ty)) : Forall (opt_holds P) l :=
              match l with
              | [] => Forall_nil _
              | o :: r =>
                  @Forall_cons _ (opt_holds P) o r
                    (match o return opt_holds P o with
                     | Some t => ty_ind' t
                     | None => I
                     end) (go r)
              end) vs)
    | TTransparent ts =>
        HTransparent ts
          ((fix go (l : list ty) : Forall P l :=
              match l with
              | [] => Forall_nil _
              | t :: r => Forall_cons t (ty_ind' t) (go r)
              end) ts)
    end.
End ty_ind.
