(** What hash_tree_root does with every value that a Rust type can hold: the root or the error.
    Collections may be out of bounds and bit lists may have left-over bits. The elements that are
    packed are those that ssz-rs packs (SpecPack.v). *)
From Coq Require Import String List NArith Bool.
From Coq Require Import Strings.Byte.
From Verif Require Import Prelude Types Bitvec SpecSer SpecMerkle SpecPack SpecWrite.
Import ListNotations.
Open Scope N_scope.

Notation rooting A := (A + MerkleizationError)%type.

Definition and_then {A B} (x : rooting A) (f : A -> rooting B) : rooting B :=
  match x with inl a => f a | inr e => inr e end.

(** All roots, or the error of the first element that has none. *)
Fixpoint all_rooted (l : list (rooting bytes)) : rooting (list bytes) :=
  match l with
  | [] => inl []
  | inr e :: _ => inr e
  | inl r :: l => and_then (all_rooted l) (fun rs => inl (r :: rs))
  end.

Section Hash.
  Context (H : bytes -> bytes).

  (** A tree with room for [limit] chunks. *)
  Definition within (limit : N) (cs : list bytes) : rooting bytes :=
    if limit <? blen cs then inr (InputExceedsLimit limit)
    else inl (spec_merkleize H (tree_depth limit) cs).

  Definition mixed (n : N) (r : bytes) : rooting bytes := inl (spec_mix_in H r n).

  Fixpoint root_any (t : ty) (v : val) {struct t} : rooting bytes :=
    let of_elements u l :=
      if packed u then inl (spec_pack (concat (map (basic_bytes u) l)))
      else all_rooted (map (root_any u) l) in
    match t, v with
    (* no check of the length: the tree is that of the elements held *)
    | TVector u _, VSeq l | TArray u _, VSeq l =>
        and_then (of_elements u l) (fun cs => within (blen cs) cs)
    | TList u n, VSeq l =>
        and_then (of_elements u l) (fun cs =>
        and_then (within ((n * item_length_with packed u + 31) / 32) cs) (mixed (blen l)))
    | TBitvector n, VBits b => within ((n + 255) / 256) (spec_pack (spec_bits (list_bits b)))
    (* the bytes that are stored, with left-over bits *)
    | TBitlist n, VBits b =>
        if n <? bv_len b then inr (SerializationError (SInvalidInstance (Bounded n (bv_len b))))
        else and_then (within ((n + 255) / 256) (spec_pack (spec_bits (stored_bits b)))) (mixed (bv_len b))
    | TContainer fs, VStruct l =>
        and_then (all_rooted (map (fun fx : (val -> rooting bytes) * val => fst fx (snd fx))
                                  (combine (map (fun f => root_any (snd f)) fs) l)))
                 (fun cs => within (blen fs) cs)
    | TNewtype u, VNewtype x => root_any u x
    | TOption _, VNone | TUnion _, VNone => mixed 0 zero_chunk
    | TOption u, VSome x => and_then (root_any u x) (mixed 1)
    | TUnion vs, VVariant i x =>
        match nth_error (map (option_map root_any) vs) (N.to_nat i) with
        | Some (Some f) => and_then (f x) (mixed i)
        | _ => inl []
        end
    | TTransparent ts, VVariant i x =>
        match nth_error (map root_any ts) (N.to_nat i) with
        | Some f => f x
        | None => inl []
        end
    | _, _ => inl (chunk_at (spec_pack (basic_bytes t v)) 0)
    end.
End Hash.

(** The chunks of a collection are in memory. *)
Definition in_memory (t : ty) (v : val) : Prop :=
  match t, v with
  | TVector u _, VSeq l | TArray u _, VSeq l | TList u _, VSeq l =>
      blen l * item_length_with packed u < 2 ^ 63
  | (TBitvector _ | TBitlist _), VBits b => bv_len b < 2 ^ 63
  | _, _ => True
  end.

(** What is hashed for the root of a bit list with these chunks. *)
Definition own_chunks_input (H : bytes -> bytes) (d : nat) (cs : list bytes) (n : N) (x : bytes) : Prop :=
  subtree_input H d (chunk_at cs) x \/ x = spec_merkleize H d cs ++ num_chunk n.

Definition bitlist_inputs (H : bytes -> bytes) (n : N) (b : bitvec) (x : bytes) : Prop :=
  own_chunks_input H (tree_depth ((n + 255) / 256)) (spec_pack (spec_bits (stored_bits b))) (bv_len b) x.
