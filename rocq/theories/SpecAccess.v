(** Where the parts of a value lie in its encoding. Independent of the model.

    A place is a list of numbers: the number of the part ([children], SpecSer.v) at each level. *)
From Coq Require Import String List NArith Bool.
From Coq Require Import Strings.Byte.
From Verif Require Import Prelude Types SpecSer SpecDecode.
Import ListNotations.
Open Scope N_scope.

Fixpoint reach (t : ty) (v : val) (place : list N) : option (ty * val) :=
  match place with
  | [] => Some (t, v)
  | k :: rest =>
      match nth_error (children t v) (N.to_nat k) with
      | Some (u, x) => reach u x rest
      | None => None
      end
  end.

(** The value with another part at the place. *)
Fixpoint change {A} (k : nat) (f : A -> A) (l : list A) : list A :=
  match l, k with
  | [], _ => []
  | x :: r, O => f x :: r
  | x :: r, S k => x :: change k f r
  end.

Fixpoint put (v : val) (place : list N) (x : val) : val :=
  match place with
  | [] => x
  | k :: rest =>
      match v with
      | VSeq l => VSeq (change (N.to_nat k) (fun y => put y rest x) l)
      | VStruct l => VStruct (change (N.to_nat k) (fun y => put y rest x) l)
      | VNewtype y => VNewtype (put y rest x)
      | VSome y => VSome (put y rest x)
      | VVariant i y => VVariant i (put y rest x)
      | _ => v
      end
  end.

(** ** Looking up bytes, with the type and the bytes only *)

(** The offset of the first part of variable size among these, the first of which has its fixed part at
    [pos]. Without one, the end. *)
Fixpoint offset_from (ts : list ty) (pos : N) (b : bytes) : N :=
  match ts with
  | [] => blen b
  | t :: r => if spec_variable t then number (sub_bytes b pos 4) else offset_from r (pos + fixed_size t) b
  end.

(** Type, start and length of part [k]. *)
Fixpoint span_from (ts : list ty) (k : nat) (pos : N) (b : bytes) : option (ty * N * N) :=
  match ts, k with
  | [], _ => None
  | t :: r, O =>
      if spec_variable t then
        let start := number (sub_bytes b pos 4) in Some (t, start, offset_from r (pos + 4) b - start)
      else Some (t, pos, fixed_size t)
  | t :: r, S k => span_from r k (pos + if spec_variable t then 4 else fixed_size t) b
  end.

(** The first offset tells where the offsets end. *)
Definition entries (t : ty) (b : bytes) : N :=
  if spec_variable t then number (sub_bytes b 0 4) / 4 else blen b / fixed_size t.

Definition span (t : ty) (b : bytes) (k : nat) : option (ty * N * N) :=
  match t with
  | TVector u n | TArray u n => span_from (repeat u (N.to_nat n)) k 0 b
  | TList u _ => span_from (repeat u (N.to_nat (entries u b))) k 0 b
  | TContainer fs => span_from (map snd fs) k 0 b
  | TNewtype u => match k with O => Some (u, 0, blen b) | _ => None end
  | TOption u =>
      match k, b with
      | O, s :: r => if byte_eqb s x01 then Some (u, 1, blen r) else None
      | _, _ => None
      end
  | TUnion vs =>
      match k, b with
      | O, s :: r =>
          match nth_error vs (N.to_nat (byte_to_N s)) with
          | Some (Some u) => Some (u, 1, blen r)
          | _ => None
          end
      | _, _ => None
      end
  | _ => None
  end.

Fixpoint locate (t : ty) (b : bytes) (place : list N) : option (ty * N * N) :=
  match place with
  | [] => Some (t, 0, blen b)
  | k :: rest =>
      match span t b (N.to_nat k) with
      | Some (u, start, n) =>
          match locate u (sub_bytes b start n) rest with
          | Some (w, s, m) => Some (w, start + s, m)
          | None => None
          end
      | None => None
      end
  end.
