(** SSZ serialization as written in the specification
    (ethereum/consensus-specs, ssz/simple-serialize.md, section "Serialization").
    Independent of the model in Ser.v, De.v and Impls.v. *)
From Coq Require Import List NArith Bool.
From Coq Require Import Strings.Byte.
From Verif Require Import Prelude Types Bitvec.
Import ListNotations.
Open Scope N_scope.

(** [value.to_bytes(n, "little")]: byte [i] is the [i]-th base-256 digit. *)
Definition spec_uint (n : nat) (x : N) : bytes :=
  map (fun i => byte_of_N ((x / 256 ^ N.of_nat i) mod 256)) (seq 0 n).

(** "Variable-size": lists, unions and bit lists, and all types that contain one. *)
Fixpoint spec_variable (t : ty) : bool :=
  match t with
  | TBool | TUint _ | TU256 | TNode | TBitvector _ => false
  | TList _ _ | TBitlist _ | TOption _ | TUnion _ | TTransparent _ => true
  | TVector t _ | TArray t _ | TNewtype t => spec_variable t
  | TContainer fs => existsb (fun f => spec_variable (snd f)) fs
  end.

Definition total (l : list N) : N := fold_right N.add 0 l.

(** Number of bytes of every encoding of a fixed-size type; 0 for variable-size types. *)
Fixpoint fixed_size (t : ty) : N :=
  match t with
  | TBool => 1
  | TUint U8 => 1
  | TUint U16 => 2
  | TUint U32 => 4
  | TUint U64 => 8
  | TUint U128 => 16
  | TUint Usize => 8
  | TU256 | TNode => 32
  | TBitvector n => (n + 7) / 8
  | TList _ _ | TBitlist _ | TOption _ | TUnion _ | TTransparent _ => 0
  | TVector t n | TArray t n => n * fixed_size t
  | TNewtype t => fixed_size t
  | TContainer fs =>
      if existsb (fun f => spec_variable (snd f)) fs then 0
      else total (map (fun f => fixed_size (snd f)) fs)
  end.

Definition bool_to_N (b : bool) : N := if b then 1 else 0.

(** Bits packed into bytes, bit [i] at position [i mod 8] of byte [i / 8]. *)
Definition spec_bits (bits : list bool) : bytes :=
  map (fun j => byte_of_N (total (map (fun k => bool_to_N (nth (8 * j + k)%nat bits false)
                                                * 2 ^ N.of_nat k) (seq 0 8))))
      (seq 0 (Nat.div (List.length bits + 7) 8)).

(** The body of the specification for vectors, containers and lists. Each element comes with
    its variable-size flag and its serialization. *)
Section Compose.
  Context (elements : list (bool * bytes)).

  Definition fixed_lengths : list N :=
    map (fun e : bool * bytes => if fst e then 4 else blen (snd e)) elements.

  Definition variable_parts : list bytes :=
    map (fun e : bool * bytes => if fst e then snd e else []) elements.

  Definition variable_lengths : list N := map (fun p => blen p) variable_parts.

  (** Offset written for element [i]. *)
  Definition variable_offset (i : nat) : N :=
    total (fixed_lengths ++ firstn i variable_lengths).

  Definition fixed_parts : list bytes :=
    map (fun ie : nat * (bool * bytes) => if fst (snd ie) then spec_uint 4 (variable_offset (fst ie)) else snd (snd ie))
        (combine (seq 0 (List.length elements)) elements).

  (** [assert sum(fixed_lengths + variable_lengths) < 2**32] *)
  Definition spec_compose : option bytes :=
    if total (fixed_lengths ++ variable_lengths) <? 2 ^ 32
    then Some (concat (fixed_parts ++ variable_parts))
    else None.
End Compose.

(** Number of bytes of a basic unsigned integer. *)
Definition spec_uint_size (w : uint_ty) : nat :=
  match w with
  | U8 => 1 | U16 => 2 | U32 => 4 | U64 => 8 | U128 => 16 | Usize => 8
  end.

(** All or nothing. *)
Fixpoint sequence {A} (l : list (option A)) : option (list A) :=
  match l with
  | [] => Some []
  | Some a :: r => match sequence r with Some s => Some (a :: s) | None => None end
  | None :: _ => None
  end.

Definition flag (b : bool) (o : option bytes) : option (bool * bytes) :=
  option_map (fun x => (b, x)) o.

(** [serialize(value)]; [None] when an assertion of the specification fails or the value does
    not have the shape of the type. Newtypes are encoded as their content, transparent enums as
    their payload, [Option<T>] as Union[None, T]. *)
Fixpoint spec_serialize (t : ty) (v : val) {struct t} : option bytes :=
  match t, v with
  | TBool, VBool b => Some [if b then x01 else x00]
  | TUint w, VUint n => Some (spec_uint (spec_uint_size w) n)
  | TU256, VUint n => Some (spec_uint 32 n)
  | TNode, VNode b => Some b
  | TVector t _, VSeq l | TArray t _, VSeq l | TList t _, VSeq l =>
      match sequence (map (fun x => flag (spec_variable t) (spec_serialize t x)) l) with
      | Some es => spec_compose es
      | None => None
      end
  | TBitvector _, VBits b => Some (spec_bits (bv_bits b))
  | TBitlist _, VBits b => Some (spec_bits (bv_bits b ++ [true]))
  | TContainer fs, VStruct l =>
      match sequence (map (fun fx => fst fx (snd fx))
                          (combine (map (fun f x => flag (spec_variable (snd f))
                                                         (spec_serialize (snd f) x)) fs) l)) with
      | Some es => spec_compose es
      | None => None
      end
  | TNewtype t, VNewtype x => spec_serialize t x
  | TOption _, VNone => Some [x00]
  | TOption t, VSome x => option_map (cons x01) (spec_serialize t x)
  | TUnion _, VNone => Some [x00]
  | TUnion vs, VVariant i x =>
      match nth_error (map (option_map spec_serialize) vs) (N.to_nat i) with
      | Some (Some f) => option_map (cons (byte_of_N i)) (f x)
      | _ => None
      end
  | TTransparent ts, VVariant i x =>
      match nth_error (map spec_serialize ts) (N.to_nat i) with
      | Some f => f x
      | None => None
      end
  | _, _ => None
  end.

(** ** Parts of a value *)

(** The immediate sub-values of a value, with their types. *)
Definition children (t : ty) (v : val) : list (ty * val) :=
  match t, v with
  | TVector t _, VSeq l | TArray t _, VSeq l | TList t _, VSeq l => map (pair t) l
  | TContainer fs, VStruct l => combine (map snd fs) l
  | TNewtype t, VNewtype x => [(t, x)]
  | TOption t, VSome x => [(t, x)]
  | TUnion vs, VVariant i x =>
      match nth_error vs (N.to_nat i) with
      | Some (Some t) => [(t, x)]
      | _ => []
      end
  | TTransparent ts, VVariant i x =>
      match nth_error ts (N.to_nat i) with
      | Some t => [(t, x)]
      | None => []
      end
  | _, _ => []
  end.

(** [part t v t' v']: [v'] is [v] or lies inside it. *)
Inductive part : ty -> val -> ty -> val -> Prop :=
| part_refl t v : part t v t v
| part_step t v t1 v1 t2 v2 : In (t1, v1) (children t v) -> part t1 v1 t2 v2 -> part t v t2 v2.

(** Types encoded by joining the encodings of their parts. *)
Definition joined (t : ty) : bool :=
  match t with
  | TVector _ _ | TArray _ _ | TList _ _ | TContainer _ => true
  | _ => false
  end.

(** The number of bytes that joining the parts of [v] would give. *)
Definition joined_size (t : ty) (v : val) : option N :=
  option_map (fun es => total (fixed_lengths es ++ variable_lengths es))
    (sequence (map (fun tv : ty * val => flag (spec_variable (fst tv)) (spec_serialize (fst tv) (snd tv)))
                   (children t v))).

(** Some value inside [v], or [v] itself, would need [n >= 2^32] bytes. *)
Definition too_big (t : ty) (v : val) (n : N) : Prop :=
  exists t' v', part t v t' v' /\ joined t' = true /\ joined_size t' v' = Some n /\ 2 ^ 32 <= n.

(** Every bit vector inside the value has the length of its type. *)
Definition bitvectors_sized (t : ty) (v : val) : Prop :=
  forall n b, part t v (TBitvector n) (VBits b) -> bv_len b = n.

(** A failed [serialize] of this type writes nothing: the type is not a union, not even inside
    newtypes and transparent enums (which write nothing of their own). *)
Fixpoint writes_all_or_nothing (t : ty) : bool :=
  match t with
  | TOption _ | TUnion _ => false
  | TNewtype u => writes_all_or_nothing u
  | TTransparent ts => forallb writes_all_or_nothing ts
  | _ => true
  end.
