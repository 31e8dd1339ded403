(** [size_hint] with the arithmetic of usize.

    Impls.v gives [size_hint] as a number without a bound.
    Here each operation is the one the source performs: it panics on overflow when overflow checks
    are on ([oc = true]) and wraps otherwise.
    PropCodec.v shows that the two agree on every legal type. *)
From Coq Require Import List NArith Bool.
From Verif Require Import Prelude Types Ser De Bitvec Impls Api.
Import ListNotations.
Open Scope N_scope.

(** [a::size_hint() + b::size_hint() + ...]: the sum associates to the left and has no leading zero
    (ssz-rs-derive/src/lib.rs:288-296). *)
Definition usum {E} (oc : bool) (l : list (res E N)) : res E N :=
  match l with
  | [] => Ok 0
  | first :: rest => fold_left (fun acc x => do a <- acc; do b <- x; uadd oc a b) rest first
  end.

Fixpoint size_hint_machine {E} (oc : bool) (t : ty) : res E N :=
  match t with
  | TBool => Ok 1 (* boolean.rs:17-19 *)
  | TUint w => Ok (bits_to_bytes (uint_bits w)) (* uint.rs:24-26 *)
  | TU256 => Ok U256_BYTE_COUNT (* uint.rs:105-107 *)
  | TNode => Ok BYTES_PER_CHUNK (* merkleization/node.rs:38-40 *)
  | TVector u n => do s <- size_hint_machine oc u; umul oc s n (* vector.rs:156-158 *)
  | TArray u n => do s <- size_hint_machine oc u; umul oc s n (* array.rs:23-25 *)
  | TBitvector n => Ok (bitvector_byte_length n) (* bitvector.rs:22-24, 115-117 *)
  | TList _ _ | TBitlist _ | TOption _ | TUnion _ | TTransparent _ => Ok 0 (* list.rs:145-147, bitlist.rs:127-129, union.rs:26-28 *)
  | TContainer fs => (* ssz-rs-derive/src/lib.rs:274-308 *)
      if existsb (fun f => is_variable_size (serializable oc (snd f))) fs then Ok 0
      else usum oc (map (fun f => size_hint_machine oc (snd f)) fs)
  | TNewtype u =>
      if is_variable_size (serializable oc u) then Ok 0 else size_hint_machine oc u
  end.
