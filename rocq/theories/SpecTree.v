(** The whole Merkle tree of a value, with the trees of its parts below their roots. The elements that
    share chunks are those of ssz-rs ([packed]). *)
From Coq Require Import String List NArith Bool.
From Coq Require Import Strings.Byte.
From Verif Require Import Prelude Types Bitvec SpecSer SpecMerkle SpecPack SpecMulti.
Import ListNotations.
Open Scope N_scope.

Section Hash.
  Context (H : bytes -> bytes).

  (** The tree of a value has its chunks as leaves, and its length or selector on the right. *)
  Definition own_leaves (t : ty) (v : val) : N :=
    let w := width (chunk_count_with packed t) in
    match spec_decoration t v with Some _ => 2 * w | None => w end.

  Definition own_node (t : ty) (v : val) (g : N) : bytes :=
    let plain g :=
      let height := N.log2 (own_leaves t v) - N.log2 g in
      let first := (g - 2 ^ N.log2 g) * 2 ^ height in
      subtree H (N.to_nat height) (fun i => chunk_at (chunks_with packed H t v) (first + i)) in
    match spec_decoration t v with
    | Some n => if g =? 1 then spec_mix_in H (plain 2) n else if g =? 3 then num_chunk n else plain g
    | None => plain g
    end.

  (** Node [g] of the whole tree; zero where there is no such node. *)
  Fixpoint value_node (t : ty) (v : val) (g : N) : bytes :=
    match t, v with
    | TNewtype u, VNewtype x => value_node u x g
    | _, _ =>
        let w := own_leaves t v in
        let m := N.log2 g - N.log2 w in
        let i := g / 2 ^ m - w in
        let c := 2 ^ m + g mod 2 ^ m in
        if m =? 0 then own_node t v g
        else
          match t, v with
          | TVector u _, VSeq l | TArray u _, VSeq l | TList u _, VSeq l =>
              if item_basic u then zero_chunk
              else
                match nth_error l (N.to_nat i) with
                | Some x => value_node u x c
                | None => zero_chunk
                end
          | TContainer fs, VStruct l =>
              match nth_error (combine (map (fun f => value_node (snd f)) fs) l) (N.to_nat i) with
              | Some (f, x) => f x c
              | None => zero_chunk
              end
          | TOption u, VSome x => if i =? 0 then value_node u x c else zero_chunk
          | TUnion vs, VVariant k x =>
              if i =? 0 then
                match nth_error (map (option_map value_node) vs) (N.to_nat k) with
                | Some (Some f) => f x c
                | _ => zero_chunk
                end
              else zero_chunk
          | TTransparent ts, VVariant k x =>
              if i =? 0 then
                match nth_error (map value_node ts) (N.to_nat k) with
                | Some f => f x c
                | None => zero_chunk
                end
              else zero_chunk
          | _, _ => zero_chunk
          end
    end.
End Hash.

(** The nodes of a branch: the siblings of [g] and of the nodes above it, from below. *)
Definition branch_of (g : N) : list N :=
  map (fun k => spec_sibling (g / 2 ^ N.of_nat k)) (seq 0 (N.to_nat (N.log2 g))).
