(** The size of a value: bytes of its encoding, and number of values inside it. Independent of the
    model. *)
From Coq Require Import String List NArith Bool.
From Verif Require Import Prelude Types SpecSer.
Import ListNotations.
Open Scope N_scope.

(** Bytes of the encoding, with 4 bytes for each offset, also beyond 2^32 bytes. *)
Fixpoint encoded_bytes (t : ty) (v : val) {struct t} : N :=
  match t, v with
  | TVector u _, VSeq l | TArray u _, VSeq l | TList u _, VSeq l =>
      total (map (fun x => (if spec_variable u then 4 else 0) + encoded_bytes u x) l)
  | TBitvector _, VBits b => (bv_len b + 7) / 8
  | TBitlist _, VBits b => bv_len b / 8 + 1
  | TContainer fs, VStruct l =>
      total (map (fun fx : (val -> N) * val => fst fx (snd fx))
        (combine (map (fun f x => (if spec_variable (snd f) then 4 else 0) + encoded_bytes (snd f) x) fs) l))
  | TNewtype u, VNewtype x => encoded_bytes u x
  | TOption _, VNone | TUnion _, VNone => 1
  | TOption u, VSome x => 1 + encoded_bytes u x
  | TUnion vs, VVariant i x =>
      match nth_error (map (option_map encoded_bytes) vs) (N.to_nat i) with
      | Some (Some f) => 1 + f x
      | _ => 0
      end
  | TTransparent ts, VVariant i x =>
      match nth_error (map encoded_bytes ts) (N.to_nat i) with
      | Some f => f x
      | None => 0
      end
  | _, _ => fixed_size t
  end.

(** The value and all values inside it. *)
Fixpoint nodes (v : val) : N :=
  match v with
  | VSeq l | VStruct l => 1 + total (map nodes l)
  | VNewtype x | VSome x | VVariant _ x => 1 + nodes x
  | _ => 1
  end.

Fixpoint height (t : ty) : N :=
  match t with
  | TVector u _ | TArray u _ | TList u _ | TNewtype u | TOption u => 1 + height u
  | TContainer fs => 1 + fold_right N.max 0 (map (fun f => height (snd f)) fs)
  | TUnion vs => 1 + fold_right N.max 0 (map (fun o => match o with Some u => height u | None => 0 end) vs)
  | TTransparent ts => 1 + fold_right N.max 0 (map height ts)
  | _ => 1
  end.

(** The smallest and the largest encoding of a type. *)
Definition smallest (l : list N) : N := match l with [] => 0 | n :: r => fold_right N.min n r end.
Definition largest (l : list N) : N := fold_right N.max 0 l.

Fixpoint least_bytes (t : ty) : N :=
  match t with
  | TVector u n | TArray u n => n * ((if spec_variable u then 4 else 0) + least_bytes u)
  | TList _ _ => 0
  | TBitlist _ => 1
  | TContainer fs => total (map (fun f => (if spec_variable (snd f) then 4 else 0) + least_bytes (snd f)) fs)
  | TNewtype u => least_bytes u
  | TOption _ => 1
  | TUnion vs => 1 + smallest (map (fun o => match o with Some u => least_bytes u | None => 0 end) vs)
  | TTransparent ts => smallest (map least_bytes ts)
  | _ => fixed_size t
  end.

Fixpoint most_bytes (t : ty) : N :=
  match t with
  | TVector u n | TArray u n | TList u n => n * ((if spec_variable u then 4 else 0) + most_bytes u)
  | TBitlist n => n / 8 + 1
  | TContainer fs => total (map (fun f => (if spec_variable (snd f) then 4 else 0) + most_bytes (snd f)) fs)
  | TNewtype u => most_bytes u
  | TOption u => 1 + most_bytes u
  | TUnion vs => 1 + largest (map (fun o => match o with Some u => most_bytes u | None => 0 end) vs)
  | TTransparent ts => largest (map most_bytes ts)
  | _ => fixed_size t
  end.
