(** Merkleization as written in the SSZ specification (ethereum/consensus-specs,
    ssz/simple-serialize.md, section "Merkleization", and ssz/merkle-proofs.md).
    Independent of the model in Merkleize.v, Proofs.v, MerkImpls.v and Multiproofs.v. *)
From Coq Require Import String List NArith Bool.
From Coq Require Import Strings.Byte.
From Verif Require Import Prelude Types Bitvec SpecSer.
Import ListNotations.
Open Scope N_scope.

Definition zero_chunk : bytes := zeros 32.

(** Chunk [i] of a list of chunks padded with zero chunks for ever. *)
Definition chunk_at (cs : list bytes) (i : N) : bytes := nth (N.to_nat i) cs zero_chunk.

(** [pack]: the bytes cut into 32-byte chunks, the last one right-padded with zeros. *)
Definition spec_pack (b : bytes) : list bytes :=
  map (fun j => map (fun k => nth (32 * j + k)%nat b x00) (seq 0 32))
      (seq 0 (Nat.div (length b + 31) 32)).

(** Depth of the smallest perfect binary tree with at least [n] leaves. *)
Definition tree_depth (n : N) : nat := N.to_nat (N.log2_up n).

(** [x.to_bytes(32, "little")] *)
Definition num_chunk (x : N) : bytes := spec_uint 32 x.

(** Position of the chunk with index [i] counted from [offset]. *)
Definition shifted (leaves : N -> bytes) (offset : N) : N -> bytes := fun i => leaves (offset + i).

Section Hash.
  Context (H : bytes -> bytes).

  (** Root of the perfect binary tree of depth [d] whose [i]-th leaf is [leaves i]. *)
  Fixpoint subtree (d : nat) (leaves : N -> bytes) : bytes :=
    match d with
    | O => leaves 0
    | S d => H (subtree d leaves ++ subtree d (shifted leaves (2 ^ N.of_nat d)))
    end.

  (** [merkleize(chunks, limit)] for a limit that gives depth [d]. *)
  Definition spec_merkleize (d : nat) (cs : list bytes) : bytes := subtree d (chunk_at cs).

  (** [mix_in_length], [mix_in_selector] *)
  Definition spec_mix_in (root : bytes) (x : N) : bytes := H (root ++ num_chunk x).
End Hash.

(** Basic types: boolean and uintN. A newtype is an alias of its content. *)
Fixpoint spec_basic (t : ty) : bool :=
  match t with
  | TBool | TUint _ | TU256 => true
  | TNewtype t => spec_basic t
  | _ => false
  end.

(** Bytes of one element in the packed chunks; composite elements take a whole chunk.
    A Node is [Bytes32]. *)
Definition spec_item_length (t : ty) : N := if spec_basic t then fixed_size t else 32.

(** [chunk_count(type)] *)
Fixpoint spec_chunk_count (t : ty) : N :=
  match t with
  | TVector u n | TArray u n | TList u n => (n * spec_item_length u + 31) / 32
  | TBitvector n | TBitlist n => (n + 255) / 256
  | TContainer fs => blen fs
  | TNewtype u => spec_chunk_count u
  | _ => 1
  end.

(** Bytes of the basic elements of a sequence. *)
Definition basic_bytes (t : ty) (v : val) : bytes :=
  match spec_serialize t v with Some b => b | None => [] end.

Section Root.
  Context (H : bytes -> bytes).

  (** [hash_tree_root(value)]; meaningful for values of the type. Transparent enums hash as their
      payload. *)
  Fixpoint spec_root (t : ty) (v : val) {struct t} : bytes :=
    let d := tree_depth (spec_chunk_count t) in
    match t, v with
    | TVector u _, VSeq l | TArray u _, VSeq l =>
        spec_merkleize H d (if spec_basic u then spec_pack (concat (map (basic_bytes u) l))
                            else map (spec_root u) l)
    | TList u _, VSeq l =>
        spec_mix_in H
          (spec_merkleize H d (if spec_basic u then spec_pack (concat (map (basic_bytes u) l))
                               else map (spec_root u) l))
          (blen l)
    | TBitvector _, VBits b => spec_merkleize H d (spec_pack (spec_bits (bv_bits b)))
    | TBitlist _, VBits b =>
        spec_mix_in H (spec_merkleize H d (spec_pack (spec_bits (bv_bits b)))) (bv_len b)
    | TContainer fs, VStruct l =>
        spec_merkleize H d
          (map (fun fx => fst fx (snd fx)) (combine (map (fun f => spec_root (snd f)) fs) l))
    | TNewtype u, VNewtype x => spec_root u x
    | TOption _, VNone => spec_mix_in H zero_chunk 0
    | TOption u, VSome x => spec_mix_in H (spec_root u x) 1
    | TUnion _, VNone => spec_mix_in H zero_chunk 0
    | TUnion vs, VVariant i x =>
        match nth_error (map (option_map spec_root) vs) (N.to_nat i) with
        | Some (Some f) => spec_mix_in H (f x) i
        | _ => []
        end
    | TTransparent ts, VVariant i x =>
        match nth_error (map spec_root ts) (N.to_nat i) with
        | Some f => f x
        | None => []
        end
    | _, _ => chunk_at (spec_pack (basic_bytes t v)) 0
    end.
End Root.

(** ** Generalized indices *)

(** A newtype is an alias of its content. *)
Fixpoint resolve (t : ty) : ty :=
  match t with
  | TNewtype u => resolve u
  | _ => t
  end.

(** Number of leaves of the smallest perfect tree with at least [n] leaves. *)
Definition width (n : N) : N := 2 ^ N.log2_up n.

(** Position of a field in a list of fields. *)
Fixpoint field_position {A} (name : string) (fs : list (string * A)) : option (N * A) :=
  match fs with
  | [] => None
  | (n, a) :: r =>
      if String.eqb name n then Some (0, a)
      else option_map (fun pa => (1 + fst pa, snd pa)) (field_position name r)
  end.

(** One step of a path from type [t]: the step multiplies the index by the first number and adds
    the second; the third component is the type of the target. Bits, lengths, selectors and the
    empty variant of a union have nothing below them: they are given a basic type. *)
Definition spec_step (t : ty) (p : PathElement) : option (N * N * ty) :=
  let w := width (spec_chunk_count t) in
  match resolve t, p with
  | TVector u n, Index i | TArray u n, Index i =>
      if i <? n then Some (w, i * spec_item_length u / 32, u) else None
  | TList u n, Index i =>
      if i <? n then Some (2 * w, i * spec_item_length u / 32, u) else None
  | TList _ _, Length => Some (2, 1, TUint U64)
  | TBitvector n, Index i => if i <? n then Some (w, i / 256, TBool) else None
  | TBitlist n, Index i => if i <? n then Some (2 * w, i / 256, TBool) else None
  | TContainer fs, Field name =>
      match field_position name fs with
      | Some (pos, u) => Some (w, pos, u)
      | None => None
      end
  | TOption u, Index i =>
      if i =? 0 then Some (2, 0, TBool) else if i =? 1 then Some (2, 0, u) else None
  | TUnion vs, Index i =>
      match nth_error vs (N.to_nat i) with
      | Some (Some u) => Some (2, 0, u)
      | Some None => Some (2, 0, TBool)
      | None => None
      end
  | TOption _, Selector | TUnion _, Selector => Some (2, 1, TUint U8)
  | _, _ => None
  end.

(** [get_generalized_index] started at [root]. *)
Fixpoint spec_gindex_from (t : ty) (root : N) (path : Path) : option N :=
  match path with
  | [] => Some root
  | p :: rest =>
      match spec_step t p with
      | Some (w, pos, u) => spec_gindex_from u (root * w + pos) rest
      | None => None
      end
  end.

Definition spec_gindex (t : ty) (path : Path) : option N := spec_gindex_from t 1 path.

(** The type that a path addresses. *)
Fixpoint spec_target (t : ty) (path : Path) : option ty :=
  match path with
  | [] => Some t
  | p :: rest =>
      match spec_step t p with
      | Some (_, _, u) => spec_target u rest
      | None => None
      end
  end.

(** Grafting the index [b] under the index [a]. *)
Definition graft (a b : N) : N := a * 2 ^ N.log2 b + (b - 2 ^ N.log2 b).

(** ** The types on which hash_tree_root follows the specification

    ssz-rs packs the elements of a collection when their type is a basic type, a Node, or an
    array of such elements; it gives every other element a chunk of its own. *)
Fixpoint packed (t : ty) : bool :=
  match t with
  | TBool | TUint _ | TU256 | TNode => true
  | TArray u _ => packed u
  | _ => false
  end.

(** Elements that the specification treats in the same way, or that fill exactly one chunk so
    that both treatments agree. *)
Definition regular_element (u : ty) : bool :=
  Bool.eqb (spec_basic u) (packed u) || (fixed_size u =? 32).

(** All collections inside the type have regular elements, and no tree has more than 2^63
    leaves (nor a packed list a limit of more than 2^64 bytes). *)
Fixpoint regular (t : ty) : bool :=
  match t with
  | TVector u n | TArray u n =>
      regular_element u && regular u && (spec_chunk_count t <=? 2 ^ 63)
  | TList u n =>
      regular_element u && regular u &&
      (if packed u then n * fixed_size u <? 2 ^ 64 else n <=? 2 ^ 63)
  | TContainer fs => (blen fs <=? 2 ^ 63) && forallb (fun f => regular (snd f)) fs
  | TNewtype u | TOption u => regular u
  | TUnion vs => forallb (fun o => match o with Some u => regular u | None => true end) vs
  | TTransparent ts => forallb regular ts
  | _ => true
  end.

(** ** Conditions on a path *)

(** [f] holds of every type from which the path makes a step. *)
Fixpoint along (f : ty -> bool) (t : ty) (path : Path) : bool :=
  match path with
  | [] => true
  | p :: rest =>
      f t &&
      match spec_step t p with
      | Some (_, _, u) => along f u rest
      | None => true
      end
  end.

Definition is_newtype (t : ty) : bool := match t with TNewtype _ => true | _ => false end.
Definition is_transparent (t : ty) : bool := match t with TTransparent _ => true | _ => false end.

(** The number of bytes of the collection fits in 64 bits, its elements are not newtypes of basic
    types (which ssz-rs gives a chunk of their own), and the type is not a transparent enum. *)
Definition indexable (t : ty) : bool :=
  match resolve t with
  | TVector u n | TArray u n | TList u n =>
      (negb (spec_basic u && is_newtype u) || (fixed_size u =? 32)) &&
      (n * spec_item_length u + 31 <? 2 ^ 64)
  | TTransparent _ => false
  | _ => true
  end.

(** The same type with unions in place of transparent enums, whose paths ssz-rs treats alike. *)
Fixpoint as_unions (t : ty) : ty :=
  match t with
  | TVector u n => TVector (as_unions u) n
  | TArray u n => TArray (as_unions u) n
  | TList u n => TList (as_unions u) n
  | TContainer fs => TContainer (map (fun f => (fst f, as_unions (snd f))) fs)
  | TNewtype u => TNewtype (as_unions u)
  | TOption u => TOption (as_unions u)
  | TUnion vs => TUnion (map (option_map as_unions) vs)
  | TTransparent ts => TUnion (map (fun u => Some (as_unions u)) ts)
  | _ => t
  end.

(** Types without inner structure. *)
Definition is_leaf_type (t : ty) : bool :=
  match resolve t with
  | TBool | TUint _ | TU256 | TNode => true
  | _ => false
  end.

(** The error for a path that does not address a part of the type: the rest of the path below a
    leaf type, otherwise the first element that is not a step. *)
Fixpoint spec_path_error (t : ty) (path : Path) : option MerkleizationError :=
  match path with
  | [] => None
  | p :: rest =>
      if is_leaf_type t then Some (InvalidPath path)
      else
        match spec_step t p with
        | Some (_, _, u) => spec_path_error u rest
        | None => Some (InvalidPathElement p)
        end
  end.

(** ** Branches *)

(** The root that a node at generalized index [g] and its siblings, from the bottom up, give. *)
Fixpoint climb (H : bytes -> bytes) (g : N) (node : bytes) (branch : list bytes) : bytes :=
  match branch with
  | [] => node
  | s :: r => climb H (g / 2) (H (if N.odd g then s ++ node else node ++ s)) r
  end.

(** Type and value without the newtypes around them. *)
Fixpoint peel (t : ty) (v : val) : ty * val :=
  match t, v with
  | TNewtype u, VNewtype x => peel u x
  | _, _ => (t, v)
  end.

(** The node of the tree of [v] that a path addresses: the root of a composite part, the chunk that
    holds a basic element or a bit, a length or selector, or the zero chunk of an absent list element
    or of an empty variant. [None] if the path does not address a part of the type, or an inactive
    variant of a union, or a part of an absent list element. *)
Fixpoint spec_leaf (H : bytes -> bytes) (t : ty) (v : val) (path : Path) : option bytes :=
  match path with
  | [] => Some (spec_root H t v)
  | p :: rest =>
      let last b := match rest with [] => Some b | _ => None end in
      match peel t v, p with
      | (TVector u n, VSeq l), Index i | (TArray u n, VSeq l), Index i | (TList u n, VSeq l), Index i =>
          if i <? n then
            if spec_basic u then
              last (chunk_at (spec_pack (concat (map (basic_bytes u) l))) (i * spec_item_length u / 32))
            else
              match nth_error l (N.to_nat i) with
              | Some x => spec_leaf H u x rest
              | None => last zero_chunk
              end
          else None
      | (TList _ _, VSeq l), Length => last (num_chunk (blen l))
      | (TBitvector n, VBits b), Index i | (TBitlist n, VBits b), Index i =>
          if i <? n then last (chunk_at (spec_pack (spec_bits (bv_bits b))) (i / 256)) else None
      | (TContainer fs, VStruct l), Field name =>
          match field_position name fs with
          | Some (pos, u) =>
              match nth_error l (N.to_nat pos) with
              | Some x => spec_leaf H u x rest
              | None => None
              end
          | None => None
          end
      | (TOption u, VSome x), Index i => if i =? 1 then spec_leaf H u x rest else None
      | (TOption _, VSome _), Selector => last (num_chunk 1)
      | (TUnion vs, VVariant k x), Index i =>
          if i =? k then
            match nth_error vs (N.to_nat i) with
            | Some (Some u) => spec_leaf H u x rest
            | _ => None
            end
          else None
      | (TUnion _, VVariant k _), Selector => last (num_chunk k)
      | (TOption _, VNone), Index i | (TUnion _, VNone), Index i =>
          if i =? 0 then last zero_chunk else None
      | (TOption _, VNone), Selector | (TUnion _, VNone), Selector => last (num_chunk 0)
      | _, _ => None
      end
  end.

(** The tree of the type has at most 2^57 leaves, its length or selector included, so that ssz-rs
    can address its nodes in a buffer; and the type is not a transparent enum. *)
Definition provable (t : ty) : bool :=
  match resolve t with
  | TTransparent _ => false
  | TList _ _ | TBitlist _ => spec_chunk_count t <=? 2 ^ 56
  | _ => spec_chunk_count t <=? 2 ^ 57
  end.

(** ** What is hashed *)

Section Hashed.
  Context (H : bytes -> bytes).

  (** The byte strings that are hashed on the way up with [climb]. *)
  Fixpoint climb_inputs (g : N) (node : bytes) (branch : list bytes) : list bytes :=
    match branch with
    | [] => []
    | s :: r =>
        let x := if N.odd g then s ++ node else node ++ s in
        x :: climb_inputs (g / 2) (H x) r
    end.

  (** [x] is hashed in [subtree d leaves]. *)
  Fixpoint subtree_input (d : nat) (leaves : N -> bytes) (x : bytes) : Prop :=
    match d with
    | O => False
    | S d =>
        x = subtree H d leaves ++ subtree H d (shifted leaves (2 ^ N.of_nat d)) \/
        subtree_input d leaves x \/ subtree_input d (shifted leaves (2 ^ N.of_nat d)) x
    end.

  (** Chunks of the elements of a sequence. *)
  Definition seq_chunks (u : ty) (l : list val) : list bytes :=
    if spec_basic u then spec_pack (concat (map (basic_bytes u) l)) else map (spec_root H u) l.

  (** Chunks and decoration of every type. *)
  Fixpoint spec_chunks (t : ty) (v : val) : list bytes :=
    match t, v with
    | TVector u _, VSeq l | TArray u _, VSeq l | TList u _, VSeq l => seq_chunks u l
    | TBitvector _, VBits b | TBitlist _, VBits b => spec_pack (spec_bits (bv_bits b))
    | TContainer fs, VStruct l =>
        map (fun fx => spec_root H (snd (fst fx)) (snd fx)) (combine fs l)
    | TNewtype u, VNewtype x => spec_chunks u x
    | TOption _, VNone => [zero_chunk]
    | TOption u, VSome x => [spec_root H u x]
    | TUnion _, VNone => [zero_chunk]
    | TUnion vs, VVariant i x =>
        match nth_error vs (N.to_nat i) with
        | Some (Some u) => [spec_root H u x]
        | _ => []
        end
    | TTransparent ts, VVariant i x =>
        match nth_error ts (N.to_nat i) with
        | Some u => [spec_root H u x]
        | None => []
        end
    | _, _ => [chunk_at (spec_pack (basic_bytes t v)) 0]
    end.

  Fixpoint spec_decoration (t : ty) (v : val) : option N :=
    match t, v with
    | TList _ _, VSeq l => Some (blen l)
    | TBitlist _, VBits b => Some (bv_len b)
    | TNewtype u, VNewtype x => spec_decoration u x
    | TOption _, VSome _ => Some 1
    | TOption _, VNone => Some 0
    | TUnion _, VNone => Some 0
    | TUnion _, VVariant i _ => Some i
    | _, _ => None
    end.

  (** [x] is hashed for [v] itself, not for its parts. *)
  Definition own_input (t : ty) (v : val) (x : bytes) : Prop :=
    let d := tree_depth (spec_chunk_count t) in
    subtree_input d (chunk_at (spec_chunks t v)) x \/
    match spec_decoration t v with
    | Some n => x = spec_merkleize H d (spec_chunks t v) ++ num_chunk n
    | None => False
    end.

  (** [x] is hashed on the way to the root of [v]. *)
  Definition hashed (t : ty) (v : val) (x : bytes) : Prop :=
    exists u y, part t v u y /\ own_input u y x.
End Hashed.
