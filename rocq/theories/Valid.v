(** Which model values the Rust types can hold ([typed]), which of them satisfy the bounds of
    the SSZ type ([valid]), and which types are legal SSZ types ([legal]). Part of the
    specification; shares only the data types with the model. *)
From Coq Require Import List NArith Bool.
From Verif Require Import Prelude Types Bitvec SpecSer.
Import ListNotations.
Open Scope N_scope.

(** Range of an unsigned integer type. *)
Definition uint_bound (w : uint_ty) : N :=
  match w with
  | U8 => 2 ^ 8 | U16 => 2 ^ 16 | U32 => 2 ^ 32 | U64 => 2 ^ 64 | U128 => 2 ^ 128
  | Usize => 2 ^ 64
  end.

(** [v] is a value that the Rust type [t] can hold in memory. [Vector] and [List] give mutable
    access to their [Vec], and the bit types to their [BitVec], so any length is possible there;
    the length of an array is fixed by Rust. *)
Fixpoint typed (t : ty) (v : val) {struct t} : Prop :=
  match t, v with
  | TBool, VBool _ => True
  | TUint w, VUint n => n < uint_bound w
  | TU256, VUint n => n < 2 ^ 256
  | TNode, VNode b => blen b = 32
  | TVector t _, VSeq l => Forall (typed t) l
  | TArray t n, VSeq l => blen l = n /\ Forall (typed t) l
  | TList t _, VSeq l => Forall (typed t) l
  | TBitvector _, VBits b => bv_ok b = true
  | TBitlist _, VBits b => bv_ok b = true
  | TContainer fs, VStruct l =>
      Forall2 (fun (P : val -> Prop) x => P x) (map (fun f => typed (snd f)) fs) l
  | TNewtype t, VNewtype x => typed t x
  | TOption _, VNone => True
  | TOption t, VSome x => typed t x
  | TUnion vs, VVariant i x =>
      match nth_error (map (option_map typed) vs) (N.to_nat i) with
      | Some (Some P) => P x
      | _ => False
      end
  | TUnion (None :: _), VNone => True
  | TTransparent ts, VVariant i x =>
      match nth_error (map typed ts) (N.to_nat i) with
      | Some P => P x
      | None => False
      end
  | _, _ => False
  end.

(** The bits above the length in the last raw byte are zero. *)
Definition bv_clean (b : bitvec) : Prop :=
  forall i, bv_len b <= i -> raw_bit (bv_raw b) i = false.

(** [v] satisfies the bounds of [t] at every level. *)
Fixpoint valid (t : ty) (v : val) {struct t} : Prop :=
  match t, v with
  | TBool, VBool _ => True
  | TUint w, VUint n => n < uint_bound w
  | TU256, VUint n => n < 2 ^ 256
  | TNode, VNode b => blen b = 32
  | TVector t n, VSeq l => blen l = n /\ Forall (valid t) l
  | TArray t n, VSeq l => blen l = n /\ Forall (valid t) l
  | TList t n, VSeq l => blen l <= n /\ Forall (valid t) l
  | TBitvector n, VBits b => bv_ok b = true /\ bv_len b = n /\ bv_clean b
  | TBitlist n, VBits b => bv_ok b = true /\ bv_len b <= n /\ bv_clean b
  | TContainer fs, VStruct l =>
      Forall2 (fun (P : val -> Prop) x => P x) (map (fun f => valid (snd f)) fs) l
  | TNewtype t, VNewtype x => valid t x
  | TOption _, VNone => True
  | TOption t, VSome x => valid t x
  | TUnion vs, VVariant i x =>
      match nth_error (map (option_map valid) vs) (N.to_nat i) with
      | Some (Some P) => P x
      | _ => False
      end
  | TUnion (None :: _), VNone => True
  | TTransparent ts, VVariant i x =>
      match nth_error (map valid ts) (N.to_nat i) with
      | Some P => P x
      | None => False
      end
  | _, _ => False
  end.

Definition is_none {A} (o : option A) : bool :=
  match o with None => true | Some _ => false end.

(** Variants of a legal enum: 1 to 127 of them, a unit variant only in front and not alone. *)
Definition legal_variants (vs : list (option ty)) : bool :=
  match vs with
  | [] => false
  | o :: r =>
      (blen vs <=? 127) && negb (existsb is_none r) &&
      (negb (is_none o) || negb (match r with [] => true | _ => false end))
  end.

(** Largest size in bytes of a fixed-size type, half the range of usize. Rust cannot hold a
    larger value; beyond it [size_hint] and the decoders overflow. *)
Definition MAX_SIZE : N := 2 ^ 63.

(** Legal SSZ types. Bounds are usize values, sizes of fixed-size types do not overflow, and
    Bitlist bounds stay below 2^64 - 8 (bitlist.rs:20 computes [N + 8]). *)
Fixpoint legal (t : ty) : bool :=
  match t with
  | TBool | TUint _ | TU256 | TNode => true
  | TVector u n | TArray u n =>
      (0 <? n) && (n <? 2 ^ 64) && (fixed_size t <=? MAX_SIZE) && legal u
  | TList u n => (n <? 2 ^ 64) && legal u
  | TBitvector n => (0 <? n) && (n <? 2 ^ 64)
  | TBitlist n => (n + 8 <? 2 ^ 64)
  | TContainer fs =>
      negb (match fs with [] => true | _ => false end) && (fixed_size t <=? MAX_SIZE) &&
      forallb (fun f => legal (snd f)) fs
  | TNewtype u => legal u
  | TOption u => legal u
  | TUnion vs =>
      legal_variants vs &&
      forallb (fun o => match o with Some u => legal u | None => true end) vs
  | TTransparent ts =>
      negb (match ts with [] => true | _ => false end) && (blen ts <=? 127) && forallb legal ts
  end.

(** No transparent enum occurs in the type. *)
Fixpoint no_transparent (t : ty) : bool :=
  match t with
  | TVector t _ | TArray t _ | TList t _ | TNewtype t | TOption t => no_transparent t
  | TContainer fs => forallb (fun f => no_transparent (snd f)) fs
  | TUnion vs => forallb (fun o => match o with Some t => no_transparent t | None => true end) vs
  | TTransparent _ => false
  | _ => true
  end.

(** No list of variable-size elements occurs in the type. *)
Fixpoint no_variable_list (t : ty) : bool :=
  match t with
  | TList t _ => negb (spec_variable t) && no_variable_list t
  | TVector t _ | TArray t _ | TNewtype t | TOption t => no_variable_list t
  | TContainer fs => forallb (fun f => no_variable_list (snd f)) fs
  | TUnion vs => forallb (fun o => match o with Some t => no_variable_list t | None => true end) vs
  | TTransparent ts => forallb no_variable_list ts
  | _ => true
  end.
