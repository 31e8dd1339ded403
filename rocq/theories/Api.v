(** Constructors, defaults, bit access, and the mutating operations that [DerefMut] exposes. *)
From Coq Require Import List NArith Bool.
From Coq Require Import Strings.Byte.
From Verif Require Import Prelude Types Bitvec Ser De Impls.
Import ListNotations.
Open Scope N_scope.

(** ** Construction *)

(** [TryFrom<&[T]> for Vector<T, N>], vector.rs:54-71 *)
Definition vector_try_from_slice {A} (n : N) (data : list A) : res Error (list A) :=
  if n =? 0 then Err (EType (InvalidBound n))
  else if negb (blen data =? n) then Err (EInstance (Exact n (blen data)))
  else Ok data.

(** [TryFrom<&[T]> for List<T, N>], list.rs:81-95 *)
Definition list_try_from_slice {A} (n : N) (data : list A) : res Error (list A) :=
  if n <? blen data then Err (EInstance (Bounded n (blen data))) else Ok data.

(** [Default for Bitvector<N>], bitvector.rs:57-65 *)
Definition bitvector_default {E} (n : N) : res E bitvec :=
  if n =? 0 then Panic PAssert else Ok (bv_repeat_false n).

(** [Default for Bitlist<N>], bitlist.rs:49-53 *)
Definition bitlist_default : bitvec := bv_new.

(** [get], bitvector.rs:68-71 and bitlist.rs:56-59 *)
Definition bits_get (b : bitvec) (i : N) : option bool := bv_get b i.

(** [set], bitvector.rs:73-82 and bitlist.rs:61-69: the bit vector afterwards and the result. *)
Definition bits_set (b : bitvec) (i : N) (value : bool) : bitvec * option bool :=
  match bv_get b i, bv_set b i value with
  | Some old, Some b' => (b', Some old)
  | _, _ => (b, None)
  end.

(** The loop at bitvector.rs:231-233. *)
Fixpoint set_all (i : N) (value : list bool) (b : bitvec) : bitvec :=
  match value with
  | [] => b
  | bit :: r => set_all (i + 1) r (fst (bits_set b i bit))
  end.

(** [TryFrom<&[bool]> for Bitvector<N>], bitvector.rs:223-238 *)
Definition bitvector_try_from_bools (n : N) (value : list bool) : res Error bitvec :=
  if negb (blen value =? n) then Err (EInstance (Exact n (blen value)))
  else do b <- bitvector_default n; Ok (set_all 0 value b).

(** [TryFrom<&[bool]> for Bitlist<N>], bitlist.rs:240-255 *)
Definition bitlist_try_from_bools (n : N) (value : list bool) : res Error bitvec :=
  if n <? blen value then Err (EInstance (Bounded n (blen value)))
  else Ok (fold_left bv_push value bitlist_default).

(** [TryFrom<&[u8]>], bitvector.rs:215-221 and bitlist.rs:232-238 *)
Definition bitvector_try_from_bytes (n : N) (value : bytes) : res Error val :=
  map_err EDeserialize (bitvector_deserialize n value).
Definition bitlist_try_from_bytes (oc : bool) (n : N) (value : bytes) : res Error val :=
  map_err EDeserialize (bitlist_deserialize oc n value).

(** ** Default values

    Vector: vector.rs:86-106. List: list.rs:39-50. Bitvector: bitvector.rs:57-65.
    Bitlist: bitlist.rs:49-53. Everything else is [Default] of core, of alloy_primitives
    (U256, B256) or #[derive(Default)]: field by field. Arrays of more than 32 elements have no
    [Default] in core; the model gives them one. Enums: only the unit variant in front can be
    the derived default; other enums have none ([Panic PIllTyped], excluded by [has_default]). *)
Fixpoint default_value (t : ty) : res Error val :=
  match t with
  | TBool => Ok (VBool false)
  | TUint _ | TU256 => Ok (VUint 0)
  | TNode => Ok (VNode (zeros 32))
  | TVector t n =>
      if n =? 0 then Panic PAssert
      else
        do data <- mapM (fun _ => default_value t) (repeat tt (N.to_nat n));
        match vector_try_from n data with
        | Ok data => Ok (VSeq data)
        | _ => Panic PExpect
        end
  | TArray t n =>
      do data <- mapM (fun _ => default_value t) (repeat tt (N.to_nat n));
      Ok (VSeq data)
  | TList t n =>
      match list_try_from n [] with
      | Ok data => Ok (VSeq data)
      | _ => Panic PExpect
      end
  | TBitvector n => do b <- bitvector_default n; Ok (VBits b)
  | TBitlist _ => Ok (VBits bitlist_default)
  | TContainer fs =>
      do l <- mapM (fun x : res Error val => x) (map (fun f => default_value (snd f)) fs);
      Ok (VStruct l)
  | TNewtype t => do v <- default_value t; Ok (VNewtype v)
  | TOption _ => Ok VNone
  | TUnion (None :: _) => Ok VNone
  | TUnion _ | TTransparent _ => Panic PIllTyped
  end.

(** The types that have a default value. *)
Fixpoint has_default (t : ty) : bool :=
  match t with
  | TVector t _ | TArray t _ | TNewtype t => has_default t
  | TContainer fs => forallb (fun f => has_default (snd f)) fs
  | TUnion (None :: _) => true
  | TUnion _ | TTransparent _ => false
  | _ => true
  end.

(** ** Mutation *)

(** Operations of [BitVec] reachable through [DerefMut] of Bitvector and Bitlist
    (bitvector.rs:104-108, bitlist.rs:116-120), and [set]. *)
Inductive bit_op : Type :=
| BPush (v : bool)
| BSet (i : N) (v : bool)
| BPop
| BTruncate (n : N)
| BClear.

Definition apply_bit_op (b : bitvec) (o : bit_op) : bitvec :=
  match o with
  | BPush v => bv_push b v
  | BSet i v => fst (bits_set b i v)
  | BPop => snd (bv_pop b)
  | BTruncate n => bv_truncate b n
  | BClear => bv_clear b
  end.

Definition apply_bit_ops (b : bitvec) (ops : list bit_op) : bitvec := fold_left apply_bit_op ops b.

(** Operations of [Vec] reachable through [DerefMut] and [IndexMut] of Vector and List
    (vector.rs:119-126 and 139-146, list.rs:108-115 and 128-135). An index out of range panics
    before anything changes; the model keeps the vector. *)
Inductive vec_op : Type :=
| OpSet (i : N) (v : val)
| OpPush (v : val)
| OpPop
| OpTruncate (n : N)
| OpClear
| OpInsert (i : N) (v : val)
| OpRemove (i : N).

Definition apply_vec_op (l : list val) (o : vec_op) : list val :=
  match o with
  | OpSet i v => if i <? blen l then takeN i l ++ v :: dropN (i + 1) l else l
  | OpPush v => l ++ [v]
  | OpPop => removelast l
  | OpTruncate n => takeN n l
  | OpClear => []
  | OpInsert i v => if i <=? blen l then takeN i l ++ v :: dropN i l else l
  | OpRemove i => if i <? blen l then takeN i l ++ dropN (i + 1) l else l
  end.

Definition apply_vec_ops (l : list val) (ops : list vec_op) : list val := fold_left apply_vec_op ops l.
