(** How many hashes the root of a value takes. Independent of the model.

    A tree has a virtual part, the subtrees without any chunk of the value, whose roots are known.
    Every other node above the chunks takes one hash. *)
From Coq Require Import String List NArith Bool.
From Verif Require Import Prelude Types SpecSer SpecMerkle SpecPack SpecProve.
Import ListNotations.
Open Scope N_scope.

(** The nodes with a chunk below them in a tree of depth [d] with [c] chunks: the parents of the
    chunks, their parents, and so on. *)
Fixpoint tree_hashes (d : nat) (c : N) : N :=
  match d with
  | O => 0
  | S d => (c + 1) / 2 + tree_hashes d ((c + 1) / 2)
  end.

Fixpoint root_hashes (t : ty) (v : val) {struct t} : N :=
  let chunks u (l : list val) := (blen l * item_length_with packed u + 31) / 32 in
  let elements u l := if packed u then 0 else total (map (root_hashes u) l) in
  match t, v with
  | TVector u _, VSeq l | TArray u _, VSeq l =>
      elements u l + tree_hashes (tree_depth (chunks u l)) (chunks u l)
  | TList u n, VSeq l =>
      elements u l + tree_hashes (tree_depth ((n * item_length_with packed u + 31) / 32)) (chunks u l) + 1
  | TBitvector n, VBits b => tree_hashes (tree_depth ((n + 255) / 256)) ((bv_len b + 255) / 256)
  | TBitlist n, VBits b => tree_hashes (tree_depth ((n + 255) / 256)) ((bv_len b + 255) / 256) + 1
  | TContainer fs, VStruct l =>
      total (map (fun fx : (val -> N) * val => fst fx (snd fx)) (combine (map (fun f => root_hashes (snd f)) fs) l))
      + tree_hashes (tree_depth (blen fs)) (blen fs)
  | TNewtype u, VNewtype x => root_hashes u x
  | TOption _, VNone | TUnion _, VNone => 1
  | TOption u, VSome x => root_hashes u x + 1
  | TUnion vs, VVariant i x =>
      match nth_error (map (option_map root_hashes) vs) (N.to_nat i) with
      | Some (Some f) => f x + 1
      | _ => 0
      end
  | TTransparent ts, VVariant i x =>
      match nth_error (map root_hashes ts) (N.to_nat i) with
      | Some f => f x
      | None => 0
      end
  | _, _ => 0
  end.

(** The trees of a value: its own, and those of the values inside it that are not packed. *)
Fixpoint trees (t : ty) (v : val) {struct t} : N :=
  match t, v with
  | TVector u _, VSeq l | TArray u _, VSeq l | TList u _, VSeq l =>
      1 + (if packed u then 0 else total (map (trees u) l))
  | TContainer fs, VStruct l =>
      1 + total (map (fun fx : (val -> N) * val => fst fx (snd fx)) (combine (map (fun f => trees (snd f)) fs) l))
  | TNewtype u, VNewtype x | TOption u, VSome x => 1 + trees u x
  | TUnion vs, VVariant i x =>
      match nth_error (map (option_map trees) vs) (N.to_nat i) with
      | Some (Some f) => 1 + f x
      | _ => 1
      end
  | TTransparent ts, VVariant i x =>
      match nth_error (map trees ts) (N.to_nat i) with
      | Some f => 1 + f x
      | None => 1
      end
  | _, _ => 1
  end.

(** ** Proofs

    ssz-rs builds the whole tree of every value on the way to the leaf, with the padding. *)

(** The hashes for the chunks of a value. *)
Definition chunk_hashes (t : ty) (v : val) : N :=
  match t, v with
  | TVector u _, VSeq l | TArray u _, VSeq l | TList u _, VSeq l =>
      if packed u then 0 else total (map (root_hashes u) l)
  | TContainer fs, VStruct l =>
      total (map (fun fx : (string * ty) * val => root_hashes (snd (fst fx)) (snd fx)) (combine fs l))
  | TOption u, VSome x => root_hashes u x
  | TUnion vs, VVariant i x =>
      match nth_error vs (N.to_nat i) with
      | Some (Some u) => root_hashes u x
      | _ => 0
      end
  | TTransparent ts, VVariant i x =>
      match nth_error ts (N.to_nat i) with
      | Some u => root_hashes u x
      | None => 0
      end
  | _, _ => 0
  end.

(** The nodes above the leaves of the whole tree; the root of a decorated tree is hashed twice. *)
Definition whole_tree (t : ty) : N := leaves t - 1 + (if decorated t then 1 else 0).

Fixpoint prove_hashes (t : ty) (v : val) (g : N) : N :=
  match t, v with
  | TNewtype u, VNewtype x => prove_hashes u x g
  | _, _ =>
      let m := N.log2 g - N.log2 (leaves t) in
      let i := g / 2 ^ m - leaves t in
      let c := 2 ^ m + g mod 2 ^ m in
      let inner :=
        match t, v with
        | TVector u _, VSeq l | TArray u _, VSeq l | TList u _, VSeq l =>
            match nth_error l (N.to_nat i) with
            | Some x => prove_hashes u x c
            | None => 0
            end
        | TContainer fs, VStruct l =>
            match nth_error (combine (map (fun f => prove_hashes (snd f)) fs) l) (N.to_nat i) with
            | Some (f, x) => f x c
            | None => 0
            end
        | TOption u, VSome x => prove_hashes u x c
        | TUnion vs, VVariant k x =>
            match nth_error (map (option_map prove_hashes) vs) (N.to_nat k) with
            | Some (Some f) => f x c
            | _ => 0
            end
        | TTransparent ts, VVariant k x =>
            match nth_error (map prove_hashes ts) (N.to_nat k) with
            | Some f => f x c
            | None => 0
            end
        | _, _ => 0
        end in
      (if m =? 0 then 0 else inner) + chunk_hashes t v + whole_tree t
  end.
