(** Bool sequences as the specification of bit lists, and sequences as the specification of
    vectors. Independent of the model of [BitVec]. *)
From Coq Require Import List NArith Bool.
From Coq Require Import Strings.Byte.
From Verif Require Import Prelude Types Bitvec Impls Api.
Import ListNotations.
Open Scope N_scope.

(** The sequence [l] with entry [i] replaced by [x]; unchanged when [i] is out of range. *)
Fixpoint replace {A} (i : nat) (x : A) (l : list A) : list A :=
  match l, i with
  | [], _ => []
  | _ :: r, O => x :: r
  | y :: r, S j => y :: replace j x r
  end.

(** What each operation means for the sequence of bools. *)
Definition spec_bit_op (l : list bool) (o : bit_op) : list bool :=
  match o with
  | BPush v => l ++ [v]
  | BSet i v => replace (N.to_nat i) v l
  | BPop => removelast l
  | BTruncate n => firstn (N.to_nat n) l
  | BClear => []
  end.

(** The operations that never shorten the sequence. *)
Definition grows (o : bit_op) : bool :=
  match o with BPush _ | BSet _ _ => true | _ => false end.

(** Bit [i] of a byte string. *)
Definition bit_of (b : bytes) (i : N) : bool :=
  N.testbit (byte_to_N (nth (N.to_nat (i / 8)) b Byte.x00)) (i mod 8).

(** A Bitlist<N> built by default, try_from or deserialize and then changed by push and set
    only, with the sequence of bools that this describes. *)
Inductive grown (oc : bool) (n : N) : bitvec -> list bool -> Prop :=
| grown_default : grown oc n bitlist_default []
| grown_try_from l b : bitlist_try_from_bools n l = Ok b -> grown oc n b l
| grown_decode e b :
    bitlist_deserialize oc n e = Ok (VBits b) ->
    grown oc n b (map (fun i => bit_of e (N.of_nat i)) (seq 0 (N.to_nat (bv_len b))))
| grown_op b l o :
    grows o = true -> grown oc n b l -> grown oc n (apply_bit_op b o) (spec_bit_op l o).
