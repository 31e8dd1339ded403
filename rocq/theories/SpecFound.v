(** The proof that is made for a generalized index: its leaf, its branch and the node it is for.

    This follows [probe] (SpecProve.v), which says when a proof is made. *)
From Coq Require Import String List NArith Bool.
From Coq Require Import Strings.Byte.
From Verif Require Import Prelude Types Bitvec SpecSer SpecMerkle SpecPack SpecProve.
Import ListNotations.
Open Scope N_scope.

(** The number on the right of the root: the length, or the selector. Transparent enums have one in
    proofs, though not in [hash_tree_root]. *)
Fixpoint number (t : ty) (v : val) : option N :=
  match t, v with
  | TNewtype u, VNewtype x => number u x
  | TTransparent _, VVariant i _ => Some i
  | _, _ => spec_decoration t v
  end.

Section Hash.
  Context (H : bytes -> bytes).

  (** Node [g] of the tree of a value, with the chunks as leaves. *)
  Definition tree_node (t : ty) (v : val) (g : N) : bytes :=
    let plain g :=
      let height := N.log2 (leaves t) - N.log2 g in
      let first := (g - 2 ^ N.log2 g) * 2 ^ height in
      subtree H (N.to_nat height) (fun i => chunk_at (chunks_with packed H t v) (first + i)) in
    match number t v with
    | Some n => if g =? 1 then spec_mix_in H (plain 2) n else if g =? 3 then num_chunk n else plain g
    | None => plain g
    end.

  Definition beside (g : N) : N := if N.odd g then g - 1 else g + 1.

  (** The nodes beside the way up from node [g], over [d] levels. *)
  Fixpoint siblings (t : ty) (v : val) (d : nat) (g : N) : list bytes :=
    match d with
    | O => []
    | S d => tree_node t v (beside g) :: siblings t v d (g / 2)
    end.

  (** Leaf and branch. *)
  Fixpoint found (t : ty) (v : val) (g : N) : bytes * list bytes :=
    match t, v with
    | TNewtype u, VNewtype x => found u x g
    | _, _ =>
        let m := N.log2 g - N.log2 (leaves t) in
        let a := g / 2 ^ m in
        let i := a - leaves t in
        let c := 2 ^ m + g mod 2 ^ m in
        let up := siblings t v (N.to_nat (N.log2 a)) a in
        if m =? 0 then (tree_node t v g, up)
        else
          let inner :=
            match t, v with
            | TVector u _, VSeq l | TArray u _, VSeq l | TList u _, VSeq l =>
                match nth_error l (N.to_nat i) with
                | Some x => found u x c
                | None => ([], [])
                end
            | TContainer fs, VStruct l =>
                match nth_error (combine (map (fun f => found (snd f)) fs) l) (N.to_nat i) with
                | Some (f, x) => f x c
                | None => ([], [])
                end
            | TOption u, VSome x => found u x c
            | TUnion vs, VVariant k x =>
                match nth_error (map (option_map found) vs) (N.to_nat k) with
                | Some (Some f) => f x c
                | _ => ([], [])
                end
            | TTransparent ts, VVariant k x =>
                match nth_error (map found ts) (N.to_nat k) with
                | Some f => f x c
                | None => ([], [])
                end
            | _, _ => ([], [])
            end in
          (fst inner, snd inner ++ up)
    end.

  (** The node is not strictly below the number. *)
  Definition beside_number (t : ty) (g : N) : Prop := decorated t = false \/ g = 3 \/ 2 * g < 3 * 2 ^ N.log2 g.

  (** The root of every part on the way is the leaf in the tree above. *)
  Fixpoint connected (t : ty) (v : val) (g : N) : Prop :=
    match t, v with
    | TNewtype u, VNewtype x => connected u x g
    | _, _ =>
        let m := N.log2 g - N.log2 (leaves t) in
        let a := g / 2 ^ m in
        let i := a - leaves t in
        let c := 2 ^ m + g mod 2 ^ m in
        beside_number t a /\
        if m =? 0 then True
        else
          match t, v with
          | TVector u _, VSeq l | TArray u _, VSeq l | TList u _, VSeq l =>
              match nth_error l (N.to_nat i) with
              | Some x => connected u x c /\ tree_node u x 1 = tree_node t v a
              | None => False
              end
          | TContainer fs, VStruct l =>
              match nth_error (combine (map (fun f => (connected (snd f), snd f)) fs) l) (N.to_nat i) with
              | Some ((f, u), x) => f x c /\ tree_node u x 1 = tree_node t v a
              | None => False
              end
          | TOption u, VSome x => connected u x c /\ tree_node u x 1 = tree_node t v a
          | TUnion vs, VVariant k x =>
              match nth_error (map (option_map (fun u => (connected u, u))) vs) (N.to_nat k) with
              | Some (Some (f, u)) => f x c /\ tree_node u x 1 = tree_node t v a
              | _ => False
              end
          | TTransparent ts, VVariant k x =>
              match nth_error (map (fun u => (connected u, u)) ts) (N.to_nat k) with
              | Some (f, u) => f x c /\ tree_node u x 1 = tree_node t v a
              | None => False
              end
          | _, _ => False
          end
    end.
End Hash.
