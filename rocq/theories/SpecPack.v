(** Merkleization with a choice of the element types that are packed.

    The specification packs the elements of a collection when their type is basic. ssz-rs packs
    them when [packed] holds, which is not the same set of types: it contains arrays of packed
    elements and lacks newtypes of basic types. The definitions here are those of SpecMerkle.v
    with the choice left open. *)
From Coq Require Import String List NArith Bool.
From Coq Require Import Strings.Byte.
From Verif Require Import Prelude Types Bitvec SpecSer SpecMerkle.
Import ListNotations.
Open Scope N_scope.

Section Packs.
  Context (packs : ty -> bool).

  Definition item_length_with (t : ty) : N := if packs t then fixed_size t else 32.

  Fixpoint chunk_count_with (t : ty) : N :=
    match t with
    | TVector u n | TArray u n | TList u n => (n * item_length_with u + 31) / 32
    | TBitvector n | TBitlist n => (n + 255) / 256
    | TContainer fs => blen fs
    | TNewtype u => chunk_count_with u
    | _ => 1
    end.

  Context (H : bytes -> bytes).

  Fixpoint root_with (t : ty) (v : val) {struct t} : bytes :=
    let d := tree_depth (chunk_count_with t) in
    match t, v with
    | TVector u _, VSeq l | TArray u _, VSeq l =>
        spec_merkleize H d (if packs u then spec_pack (concat (map (basic_bytes u) l))
                            else map (root_with u) l)
    | TList u _, VSeq l =>
        spec_mix_in H
          (spec_merkleize H d (if packs u then spec_pack (concat (map (basic_bytes u) l))
                               else map (root_with u) l))
          (blen l)
    | TBitvector _, VBits b => spec_merkleize H d (spec_pack (spec_bits (bv_bits b)))
    | TBitlist _, VBits b =>
        spec_mix_in H (spec_merkleize H d (spec_pack (spec_bits (bv_bits b)))) (bv_len b)
    | TContainer fs, VStruct l =>
        spec_merkleize H d
          (map (fun fx => fst fx (snd fx)) (combine (map (fun f => root_with (snd f)) fs) l))
    | TNewtype u, VNewtype x => root_with u x
    | TOption _, VNone => spec_mix_in H zero_chunk 0
    | TOption u, VSome x => spec_mix_in H (root_with u x) 1
    | TUnion _, VNone => spec_mix_in H zero_chunk 0
    | TUnion vs, VVariant i x =>
        match nth_error (map (option_map root_with) vs) (N.to_nat i) with
        | Some (Some f) => spec_mix_in H (f x) i
        | _ => []
        end
    | TTransparent ts, VVariant i x =>
        match nth_error (map root_with ts) (N.to_nat i) with
        | Some f => f x
        | None => []
        end
    | _, _ => chunk_at (spec_pack (basic_bytes t v)) 0
    end.

  (** ** What is hashed *)

  Definition seq_chunks_with (u : ty) (l : list val) : list bytes :=
    if packs u then spec_pack (concat (map (basic_bytes u) l)) else map (root_with u) l.

  Fixpoint chunks_with (t : ty) (v : val) : list bytes :=
    match t, v with
    | TVector u _, VSeq l | TArray u _, VSeq l | TList u _, VSeq l => seq_chunks_with u l
    | TBitvector _, VBits b | TBitlist _, VBits b => spec_pack (spec_bits (bv_bits b))
    | TContainer fs, VStruct l =>
        map (fun fx => root_with (snd (fst fx)) (snd fx)) (combine fs l)
    | TNewtype u, VNewtype x => chunks_with u x
    | TOption _, VNone => [zero_chunk]
    | TOption u, VSome x => [root_with u x]
    | TUnion _, VNone => [zero_chunk]
    | TUnion vs, VVariant i x =>
        match nth_error vs (N.to_nat i) with
        | Some (Some u) => [root_with u x]
        | _ => []
        end
    | TTransparent ts, VVariant i x =>
        match nth_error ts (N.to_nat i) with
        | Some u => [root_with u x]
        | None => []
        end
    | _, _ => [chunk_at (spec_pack (basic_bytes t v)) 0]
    end.

  Definition own_input_with (t : ty) (v : val) (x : bytes) : Prop :=
    let d := tree_depth (chunk_count_with t) in
    subtree_input H d (chunk_at (chunks_with t v)) x \/
    match spec_decoration t v with
    | Some n => x = spec_merkleize H d (chunks_with t v) ++ num_chunk n
    | None => False
    end.

  (** The parts whose roots are computed: not the elements that are packed. *)
  Definition rooted_children (t : ty) (v : val) : list (ty * val) :=
    match t with
    | TVector u _ | TArray u _ | TList u _ => if packs u then [] else children t v
    | _ => children t v
    end.

  Inductive hashed_with : ty -> val -> bytes -> Prop :=
  | hashed_here t v x : own_input_with t v x -> hashed_with t v x
  | hashed_below t v u y x : In (u, y) (rooted_children t v) -> hashed_with u y x -> hashed_with t v x.
End Packs.

(** With [spec_basic] these are the definitions of the specification. *)
Lemma root_with_spec H : root_with spec_basic H = spec_root H.
Proof. reflexivity. Qed.

Lemma chunk_count_with_spec : chunk_count_with spec_basic = spec_chunk_count.
Proof. reflexivity. Qed.

(** No tree has more than 2^63 leaves, no packed list a limit of 2^64 bytes or more, and no packed
    element an encoding of 2^32 bytes or more. *)
Fixpoint sized (t : ty) : bool :=
  match t with
  | TVector u n | TArray u n =>
      (negb (packed u) || (fixed_size u <? 2 ^ 32)) && sized u && (chunk_count_with packed t <=? 2 ^ 63)
  | TList u n =>
      (negb (packed u) || (fixed_size u <? 2 ^ 32)) && sized u &&
      (if packed u then n * fixed_size u <? 2 ^ 64 else n <=? 2 ^ 63)
  | TContainer fs => (blen fs <=? 2 ^ 63) && forallb (fun f => sized (snd f)) fs
  | TNewtype u | TOption u => sized u
  | TUnion vs => forallb (fun o => match o with Some u => sized u | None => true end) vs
  | TTransparent ts => forallb sized ts
  | _ => true
  end.

(** ** Generalized indices

    The types whose items take less than a chunk in ssz-rs's index arithmetic. *)
Definition item_basic (t : ty) : bool :=
  match t with
  | TBool | TUint _ | TU256 => true
  | _ => false
  end.

Section Steps.
  Context (packs : ty -> bool).

  Definition step_with (t : ty) (p : PathElement) : option (N * N * ty) :=
    let w := width (chunk_count_with packs t) in
    match resolve t, p with
    | TVector u n, Index i | TArray u n, Index i =>
        if i <? n then Some (w, i * item_length_with packs u / 32, u) else None
    | TList u n, Index i =>
        if i <? n then Some (2 * w, i * item_length_with packs u / 32, u) else None
    | TList _ _, Length => Some (2, 1, TUint U64)
    | TBitvector n, Index i => if i <? n then Some (w, i / 256, TBool) else None
    | TBitlist n, Index i => if i <? n then Some (2 * w, i / 256, TBool) else None
    | TContainer fs, Field name =>
        match field_position name fs with
        | Some (pos, u) => Some (w, pos, u)
        | None => None
        end
    | TOption u, Index i =>
        if i =? 0 then Some (2, 0, TBool) else if i =? 1 then Some (2, 0, u) else None
    | TUnion vs, Index i =>
        match nth_error vs (N.to_nat i) with
        | Some (Some u) => Some (2, 0, u)
        | Some None => Some (2, 0, TBool)
        | None => None
        end
    | TOption _, Selector | TUnion _, Selector => Some (2, 1, TUint U8)
    | _, _ => None
    end.

  Fixpoint gindex_from_with (t : ty) (root : N) (path : Path) : option N :=
    match path with
    | [] => Some root
    | p :: rest =>
        match step_with t p with
        | Some (w, pos, u) => gindex_from_with u (root * w + pos) rest
        | None => None
        end
    end.

  Definition gindex_with (t : ty) (path : Path) : option N := gindex_from_with t 1 path.

  (** The number of bytes of every collection that the path indexes fits in 64 bits. *)
  Definition countable (t : ty) (p : PathElement) : bool :=
    match resolve t, p with
    | TVector u n, Index _ | TArray u n, Index _ | TList u n, Index _ => n * item_length_with packs u + 31 <? 2 ^ 64
    | _, _ => true
    end.

  Fixpoint countable_path (t : ty) (path : Path) : bool :=
    match path with
    | [] => true
    | p :: rest =>
        countable t p &&
        match step_with t p with
        | Some (_, _, u) => countable_path u rest
        | None => true
        end
    end.
End Steps.

Lemma gindex_with_spec : gindex_with spec_basic = spec_gindex.
Proof. reflexivity. Qed.

(** ** The part that a path addresses *)

(** The items of the collection take in a tree what their encodings take in the chunks, or both
    fill whole chunks. *)
Definition counted (u : ty) : bool := Bool.eqb (packed u) (item_basic u) || (fixed_size u =? 32).

(** The indices of the tree of the type follow its chunks. *)
Definition counts (t : ty) : bool :=
  match resolve t with TVector u _ | TArray u _ | TList u _ => counted u | _ => true end.

(** The indices of the tree of the type follow its chunks, and the tree has at most 2^57 leaves, its
    length or selector included; and the type is not a transparent enum. *)
Definition provable_with (t : ty) : bool :=
  match resolve t with
  | TTransparent _ => false
  | TVector u _ | TArray u _ => counted u && (chunk_count_with packed t <=? 2 ^ 57)
  | TList u _ => counted u && (chunk_count_with packed t <=? 2 ^ 56)
  | TBitlist _ => chunk_count_with packed t <=? 2 ^ 56
  | _ => chunk_count_with packed t <=? 2 ^ 57
  end.

(** As [spec_leaf], with ssz-rs's choices: the roots are those of [packed], and the elements that
    have no node of their own those of [item_basic]. *)
Fixpoint leaf_with (H : bytes -> bytes) (t : ty) (v : val) (path : Path) : option bytes :=
  match path with
  | [] => Some (root_with packed H t v)
  | p :: rest =>
      let last b := match rest with [] => Some b | _ => None end in
      match peel t v, p with
      | (TVector u n, VSeq l), Index i | (TArray u n, VSeq l), Index i | (TList u n, VSeq l), Index i =>
          if i <? n then
            if item_basic u then
              last (chunk_at (spec_pack (concat (map (basic_bytes u) l))) (i * fixed_size u / 32))
            else
              match nth_error l (N.to_nat i) with
              | Some x => leaf_with H u x rest
              | None => last zero_chunk
              end
          else None
      | (TList _ _, VSeq l), Length => last (num_chunk (blen l))
      | (TBitvector n, VBits b), Index i | (TBitlist n, VBits b), Index i =>
          if i <? n then last (chunk_at (spec_pack (spec_bits (bv_bits b))) (i / 256)) else None
      | (TContainer fs, VStruct l), Field name =>
          match field_position name fs with
          | Some (pos, u) =>
              match nth_error l (N.to_nat pos) with
              | Some x => leaf_with H u x rest
              | None => None
              end
          | None => None
          end
      | (TOption u, VSome x), Index i => if i =? 1 then leaf_with H u x rest else None
      | (TOption _, VSome _), Selector => last (num_chunk 1)
      | (TUnion vs, VVariant k x), Index i =>
          if i =? k then
            match nth_error vs (N.to_nat i) with
            | Some (Some u) => leaf_with H u x rest
            | _ => None
            end
          else None
      | (TUnion _, VVariant k _), Selector => last (num_chunk k)
      | (TOption _, VNone), Index i | (TUnion _, VNone), Index i =>
          if i =? 0 then last zero_chunk else None
      | (TOption _, VNone), Selector | (TUnion _, VNone), Selector => last (num_chunk 0)
      | _, _ => None
      end
  end.
