(** How a proof is made for a generalized index: by its proof, by an error, or not at all.

    ssz-rs walks down from the root of the value, whatever the path was from which the index was
    computed. In every value on the way it takes the leaf that the index goes through, and asks the
    value for the part with the number of that leaf. On the way back it builds the tree of every
    value it went through. *)
From Coq Require Import String List NArith Bool.
From Coq Require Import Strings.Byte.
From Verif Require Import Prelude Types Bitvec Merkleize SpecSer SpecMerkle SpecPack.
Import ListNotations.
Open Scope N_scope.

Inductive outcome : Type := Made | Fails (e : MerkleizationError) | Crashes.

Definition and_then (inner own : outcome) : outcome :=
  match inner with
  | Made => own
  | o => o
  end.

Definition decorated (t : ty) : bool :=
  match resolve t with
  | TList _ _ | TBitlist _ | TOption _ | TUnion _ | TTransparent _ => true
  | _ => false
  end.

(** The leaves of the tree of the type. *)
Definition leaves (t : ty) : N :=
  let w := width (chunk_count_with item_basic t) in
  if decorated t then 2 * w else w.

(** The tree can be built: it has at most 2^57 leaves, and the chunks are not more than these. They
    are more for collections of arrays of basic elements that take more than a chunk. *)
Definition tree_made (t : ty) (v : val) : bool :=
  (leaves t <=? 2 ^ 57) &&
  match t, v with
  | TVector u _, VSeq l | TArray u _, VSeq l | TList u _, VSeq l =>
      (blen l * item_length_with packed u + 31) / 32 <=? leaves t
  | _, _ => true
  end.

Fixpoint probe (t : ty) (v : val) (g : N) : outcome :=
  match t, v with
  | TNewtype u, VNewtype x => probe u x g
  | _, _ =>
      if g =? 0 then Fails InvalidGeneralizedIndex
      else
        let own := if tree_made t v then Made else Crashes in
        let m := N.log2 g - N.log2 (leaves t) in    (* the levels below the leaf *)
        if m =? 0 then own
        else
          let i := g / 2 ^ m - leaves t in          (* the number of the leaf *)
          let c := 2 ^ m + g mod 2 ^ m in           (* the index in the tree of the leaf *)
          let inner :=
            match t, v with
            | TVector u n, VSeq l | TArray u n, VSeq l | TList u n, VSeq l =>
                if n <=? i then Fails InvalidInnerIndex
                else match nth_error l (N.to_nat i) with
                     | Some x => probe u x c
                     | None => Crashes
                     end
            | TContainer fs, VStruct l =>
                match nth_error (combine (map (fun f => probe (snd f)) fs) l) (N.to_nat i) with
                | Some (f, x) => f x c
                | None => Fails InvalidInnerIndex
                end
            | TOption u, VSome x => probe u x c
            | TUnion vs, VVariant k x =>
                if blen vs <=? i then Fails InvalidInnerIndex
                else match nth_error (map (option_map probe) vs) (N.to_nat k) with
                     | Some (Some f) => f x c
                     | _ => Crashes
                     end
            | TUnion vs, VNone => if blen vs <=? i then Fails InvalidInnerIndex else Fails NoInnerElement
            | TTransparent ts, VVariant k x =>
                if blen ts <=? i then Fails InvalidInnerIndex
                else match nth_error (map probe ts) (N.to_nat k) with
                     | Some f => f x c
                     | None => Crashes
                     end
            | _, _ => Fails NoInnerElement
            end in
          and_then inner own
  end.

(** The number of bytes of every collection fits in 64 bits, and no container has more than 2^59
    fields. *)
Fixpoint addressable (t : ty) : bool :=
  match t with
  | TVector u n | TArray u n | TList u n => (n * item_length_with item_basic u + 31 <? 2 ^ 64) && addressable u
  | TContainer fs => (blen fs <=? 2 ^ 59) && forallb (fun f => addressable (snd f)) fs
  | TNewtype u | TOption u => addressable u
  | TUnion vs => forallb (fun o => match o with Some u => addressable u | None => true end) vs
  | TTransparent ts => forallb addressable ts
  | _ => true
  end.
