(** How often the bytes of an input are looked at, from the type alone. *)
From Coq Require Import String List NArith.
From Verif Require Import Types SpecSer SpecSize.
Import ListNotations.
Open Scope N_scope.

(** One pass for every level of the type. A transparent enum needs the passes of all its variants. *)
Fixpoint effort (t : ty) : N :=
  match t with
  | TVector u _ | TArray u _ | TList u _ | TNewtype u | TOption u => 1 + effort u
  | TContainer fs => 1 + fold_right N.max 0 (map (fun f => effort (snd f)) fs)
  | TUnion vs => 1 + fold_right N.max 0 (map (fun o => match o with Some u => effort u | None => 0 end) vs)
  | TTransparent ts => 1 + total (map effort ts)
  | _ => 1
  end.

(** The bytes of a value and of all values inside it, at least 1 for each. *)
Fixpoint passes (t : ty) (v : val) {struct t} : N :=
  N.max 1 (encoded_bytes t v) +
  match t, v with
  | TVector u _, VSeq l | TArray u _, VSeq l | TList u _, VSeq l => total (map (passes u) l)
  | TContainer fs, VStruct l =>
      total (map (fun fx : (val -> N) * val => fst fx (snd fx)) (combine (map (fun f => passes (snd f)) fs) l))
  | TNewtype u, VNewtype x | TOption u, VSome x => passes u x
  | TUnion vs, VVariant i x =>
      match nth_error (map (option_map passes) vs) (N.to_nat i) with
      | Some (Some f) => f x
      | _ => 0
      end
  | TTransparent ts, VVariant i x =>
      match nth_error (map passes ts) (N.to_nat i) with
      | Some f => f x
      | None => 0
      end
  | _, _ => 0
  end.

(** The bytes written for a value: its encoding, those written for the values inside it, and a second
    copy of each element or field of variable size. *)
Fixpoint copies (t : ty) (v : val) {struct t} : N :=
  let one (u : ty) (f : val -> N) x := f x + if spec_variable u then encoded_bytes u x else 0 in
  match t, v with
  | TVector u _, VSeq l | TArray u _, VSeq l | TList u _, VSeq l => encoded_bytes t v + total (map (one u (copies u)) l)
  | TContainer fs, VStruct l =>
      encoded_bytes t v +
      total (map (fun fx : (val -> N) * val => fst fx (snd fx)) (combine (map (fun f => one (snd f) (copies (snd f))) fs) l))
  | TNewtype u, VNewtype x => copies u x
  | TOption u, VSome x => 1 + copies u x
  | TUnion vs, VVariant i x =>
      match nth_error (map (option_map copies) vs) (N.to_nat i) with
      | Some (Some f) => 1 + f x
      | _ => 0
      end
  | TTransparent ts, VVariant i x =>
      match nth_error (map copies ts) (N.to_nat i) with
      | Some f => f x
      | None => 0
      end
  | _, _ => encoded_bytes t v
  end.

(** Transparent enums of two variants inside each other. *)
Fixpoint twofold (d : nat) : ty :=
  match d with
  | O => TBool
  | S d => TTransparent [twofold d; twofold d]
  end.

(** Lists of one element inside each other. *)
Fixpoint boxed_ty (d : nat) (t : ty) : ty :=
  match d with
  | O => t
  | S d => TList (boxed_ty d t) 1
  end.

Fixpoint boxed (d : nat) (v : val) : val :=
  match d with
  | O => v
  | S d => VSeq [boxed d v]
  end.
