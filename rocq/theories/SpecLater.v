(** Later versions of a type: which changes keep roots, indices and proofs. Independent of the
    model. *)
From Coq Require Import String List NArith Bool.
From Verif Require Import Prelude Types SpecMerkle SpecPack.
Import ListNotations.
Open Scope N_scope.

(** The trees of the two types have the same height. *)
Definition same_height (packs : ty -> bool) (t t' : ty) : Prop :=
  width (chunk_count_with packs t') = width (chunk_count_with packs t).

(** Both the trees of [hash_tree_root] and those that indices count in. They are the same but for
    collections of newtypes and of arrays. *)
Definition both_heights (t t' : ty) : Prop := same_height packed t t' /\ same_height item_basic t t'.

(** [t'] is [t] with larger bounds of lists and bit lists and with further variants at the end of
    unions, at any depth, where [same] holds of the lists before and after. *)
Fixpoint grows (same : ty -> ty -> Prop) (t t' : ty) {struct t} : Prop :=
  match t, t' with
  | TVector u n, TVector u' n' | TArray u n, TArray u' n' => n = n' /\ grows same u u'
  | TList u n, TList u' n' => n <= n' /\ same t t' /\ grows same u u'
  | TBitlist n, TBitlist n' => n <= n' /\ same t t'
  | TContainer fs, TContainer fs' =>
      Forall2 (fun (P : string * ty -> Prop) f' => P f')
        (map (fun f f' => fst f = fst f' /\ grows same (snd f) (snd f')) fs) fs'
  | TNewtype u, TNewtype u' | TOption u, TOption u' => grows same u u'
  | TUnion vs, TUnion vs' =>
      Forall2 (fun (P : option ty -> Prop) o' => P o')
        (map (fun o o' =>
                match o, o' with
                | Some u, Some u' => grows same u u'
                | None, None => True
                | _, _ => False
                end) vs)
        (firstn (List.length vs) vs')
  | _, _ => t' = t
  end.

(** As [grows], and vectors may get longer and containers further fields at the end, as long as the
    trees keep their heights. *)
Fixpoint enlarges (t t' : ty) {struct t} : Prop :=
  match t, t' with
  | TVector u n, TVector u' n' | TArray u n, TArray u' n' | TList u n, TList u' n' =>
      n <= n' /\ same_height item_basic t t' /\ enlarges u u'
  | TBitvector n, TBitvector n' | TBitlist n, TBitlist n' => n <= n' /\ same_height item_basic t t'
  | TContainer fs, TContainer fs' =>
      same_height item_basic t t' /\
      Forall2 (fun (P : string * ty -> Prop) f' => P f')
        (map (fun f f' => fst f = fst f' /\ enlarges (snd f) (snd f')) fs)
        (firstn (List.length fs) fs')
  | TNewtype u, TNewtype u' | TOption u, TOption u' => enlarges u u'
  | TUnion vs, TUnion vs' =>
      Forall2 (fun (P : option ty -> Prop) o' => P o')
        (map (fun o o' =>
                match o, o' with
                | Some u, Some u' => enlarges u u'
                | None, None => True
                | _, _ => False
                end) vs)
        (firstn (List.length vs) vs')
  | TTransparent ts, TTransparent ts' =>
      Forall2 (fun (P : ty -> Prop) u' => P u') (map enlarges ts) (firstn (List.length ts) ts')
  | _, _ => t' = t
  end.
