(** What text forms should be. *)
From Coq Require Import String Ascii.
From Coq Require Import List NArith Bool.
From Coq Require Import Strings.Byte.
From Verif Require Import Prelude Types Valid Text.
Import ListNotations.
Open Scope N_scope.

(** [c] is a hexadecimal digit of value [n]. *)
Definition digit_of (c : ascii) (n : N) : Prop :=
  String.get (N.to_nat n) "0123456789abcdef" = Some c \/ String.get (N.to_nat n) "0123456789ABCDEF" = Some c.

(** [s] spells [b] with two digits for each byte. *)
Inductive spells : string -> bytes -> Prop :=
| spells_nil : spells "" []
| spells_cons h l n m x s b :
    digit_of h n -> digit_of l m -> byte_to_N x = 16 * n + m -> spells s b ->
    spells (String h (String l s)) (x :: b).

(** The digits of the lower-case spelling. *)
Definition lower (s : string) : Prop :=
  forall i c, String.get i s = Some c -> exists j, String.get j "0123456789abcdef" = Some c.

(** Types whose serde support is not written in ssz-rs or derived. *)
Definition is_foreign (t : ty) : bool :=
  match t with
  | TVector _ _ | TList _ _ | TBitvector _ | TBitlist _ | TContainer _ | TNewtype _ | TOption _ => false
  | _ => true
  end.

(** Foreign support that writes every value, never as null, and reads it back. *)
Definition foreign_round_trips (foreign : ty -> Serde) : Prop :=
  forall t v, is_foreign t = true -> valid t v ->
  exists j, to_json (foreign t) v = Ok j /\ j <> JNull /\ from_json (foreign t) j = Ok v.

(** Foreign support that reads only values in range. *)
Definition foreign_reads_valid (foreign : ty -> Serde) : Prop :=
  forall t, is_foreign t = true ->
  (forall j v, from_json (foreign t) j = Ok v -> valid t v) /\
  (forall v, when_missing (foreign t) = Some v -> valid t v).

(** Written as null: an Option, also inside newtypes. *)
Fixpoint nullable (t : ty) : bool :=
  match t with
  | TOption _ => true
  | TNewtype u => nullable u
  | _ => false
  end.

(** Fields have different names (as in Rust) and no Option is directly inside another. *)
Fixpoint unambiguous (t : ty) : Prop :=
  match t with
  | TVector u _ | TList u _ | TNewtype u => unambiguous u
  | TOption u => nullable u = false /\ unambiguous u
  | TContainer fs =>
      NoDup (map fst fs) /\ fold_right (fun f P => unambiguous (snd f) /\ P) True fs
  | _ => True
  end.

(** Bits in groups of four. *)
Fixpoint groups (l : list bool) : list (list bool) :=
  match l with
  | a :: b :: c :: d :: r => [a; b; c; d] :: groups r
  | [] => []
  | _ => [l]
  end.

Definition bit_text (b : bool) : string := if b then "1" else "0".

Definition bits_text (l : list bool) : string :=
  String.concat "_" (map (fun g => String.concat "" (map bit_text g)) (groups l)).

Definition bitlist_text (n : N) (bits : list bool) : string :=
  String.append "Bitlist<len=" (String.append (decimal (blen bits)) (String.append ", cap="
    (String.append (decimal n) (String.append ">[" (String.append (bits_text bits) "]"))))).

Definition bitvector_text (n : N) (bits : list bool) : string :=
  String.append "Bitvector<" (String.append (decimal n) (String.append ">[" (String.append (bits_text bits) "]"))).
