(** Types with the same encodings: bounds raised, variants added, and types that only present a
    value to Rust in another way. Independent of the model. *)
From Coq Require Import String List NArith Bool.
From Verif Require Import Prelude Types.
Import ListNotations.
Open Scope N_scope.

(** [t'] is [t] with larger bounds of lists and bit lists and with further variants at the end of
    unions, at any depth. *)
Fixpoint wider (t t' : ty) {struct t} : Prop :=
  match t, t' with
  | TVector u n, TVector u' n' | TArray u n, TArray u' n' => n = n' /\ wider u u'
  | TList u n, TList u' n' => n <= n' /\ wider u u'
  | TBitlist n, TBitlist n' => n <= n'
  | TContainer fs, TContainer fs' =>
      Forall2 (fun (P : string * ty -> Prop) f' => P f')
        (map (fun f f' => fst f = fst f' /\ wider (snd f) (snd f')) fs) fs'
  | TNewtype u, TNewtype u' | TOption u, TOption u' => wider u u'
  | TUnion vs, TUnion vs' =>
      Forall2 (fun (P : option ty -> Prop) o' => P o')
        (map (fun o o' =>
                match o, o' with
                | Some u, Some u' => wider u u'
                | None, None => True
                | _, _ => False
                end) vs)
        (firstn (List.length vs) vs')
  | _, _ => t' = t
  end.

(** The SSZ type behind a Rust type: arrays are vectors, newtypes are their content, and [Option<T>]
    is Union[None, T]. *)
Fixpoint core (t : ty) : ty :=
  match t with
  | TVector u n | TArray u n => TVector (core u) n
  | TList u n => TList (core u) n
  | TContainer fs => TContainer (map (fun f => (fst f, core (snd f))) fs)
  | TNewtype u => core u
  | TOption u => TUnion [None; Some (core u)]
  | TUnion vs => TUnion (map (option_map core) vs)
  | TTransparent ts => TTransparent (map core ts)
  | _ => t
  end.

Fixpoint core_val (v : val) : val :=
  match v with
  | VSeq l => VSeq (map core_val l)
  | VStruct l => VStruct (map core_val l)
  | VNewtype x => core_val x
  | VSome x => VVariant 1 (core_val x)
  | VVariant i x => VVariant i (core_val x)
  | _ => v
  end.
