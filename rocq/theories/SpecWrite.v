(** What serialize does with every value that a Rust type can hold: the bytes it appends and what
    it reports. Values may be out of bounds and bit lists may have left-over bits. Written with
    the specification's layout of composites ([spec_compose]) only. *)
From Coq Require Import List NArith Bool.
From Coq Require Import Strings.Byte.
From Verif Require Import Prelude Types SpecSer.
Import ListNotations.
Open Scope N_scope.

Inductive written : Type :=
| Wrote (n : N)
| Fails (e : SerializeError).

(** The bytes appended and the report. *)
Definition writing : Type := bytes * written.

Definition nothing (e : SerializeError) : writing := ([], Fails e).
Definition in_full (b : bytes) : writing := (b, Wrote (blen b)).

(** The encodings of the elements, or the error of the first that fails. *)
Fixpoint all_written (l : list (bool * writing)) : list (bool * bytes) + SerializeError :=
  match l with
  | [] => inl []
  | (_, (_, Fails e)) :: _ => inr e
  | (f, (b, Wrote _)) :: r =>
      match all_written r with
      | inl es => inl ((f, b) :: es)
      | inr e => inr e
      end
  end.

Definition write_composite (l : list (bool * writing)) : writing :=
  match all_written l with
  | inr e => nothing e
  | inl es =>
      match spec_compose es with
      | Some b => in_full b
      | None => nothing (MaximumEncodedLengthReached (total (fixed_lengths es ++ variable_lengths es)))
      end
  end.

(** A selector is written even if the rest fails. *)
Definition write_selected (i : N) (w : writing) : writing :=
  (spec_uint 1 i ++ fst w, match snd w with Wrote n => Wrote (1 + n) | Fails e => Fails e end).

(** The bits stored in the bytes of a bit list: those of the list and left-over ones. *)
Definition stored_bits (b : bitvec) : list bool :=
  map (fun i => N.testbit (byte_to_N (nth (Nat.div i 8) (bv_raw b) x00)) (N.of_nat (Nat.modulo i 8)))
      (seq 0 (8 * length (bv_raw b))%nat).

Definition list_bits (b : bitvec) : list bool := firstn (N.to_nat (bv_len b)) (stored_bits b).
(** Left over after the place of the end marker. *)
Definition dead_bits (b : bitvec) : list bool := skipn (S (N.to_nat (bv_len b))) (stored_bits b).

Fixpoint write (t : ty) (v : val) {struct t} : writing :=
  match t, v with
  | TBool, VBool b => in_full [if b then x01 else x00]
  | TUint w, VUint n => in_full (spec_uint (spec_uint_size w) n)
  | TU256, VUint n => in_full (spec_uint 32 n)
  | TNode, VNode b => in_full b
  | TVector u n, VSeq l | TArray u n, VSeq l =>
      if n =? 0 then nothing (SInvalidType (InvalidBound n))
      else write_composite (map (fun x => (spec_variable u, write u x)) l)
  | TList u n, VSeq l =>
      if n <? blen l then nothing (SInvalidInstance (Bounded n (blen l)))
      else write_composite (map (fun x => (spec_variable u, write u x)) l)
  | TBitvector n, VBits b =>
      if n =? 0 then nothing (SInvalidType (InvalidBound n))
      else (spec_bits (list_bits b), Wrote ((n + 7) / 8))
  | TBitlist n, VBits b =>
      if n <? bv_len b then nothing (SInvalidInstance (Bounded n (bv_len b)))
      else in_full (spec_bits (list_bits b ++ true :: dead_bits b))
  | TContainer fs, VStruct l =>
      write_composite (map (fun fx : (val -> bool * writing) * val => fst fx (snd fx))
        (combine (map (fun f x => (spec_variable (snd f), write (snd f) x)) fs) l))
  | TNewtype u, VNewtype x => write u x
  | TOption _, VNone | TUnion _, VNone => in_full [x00]
  | TOption u, VSome x => write_selected 1 (write u x)
  | TUnion vs, VVariant i x =>
      match nth_error (map (option_map write) vs) (N.to_nat i) with
      | Some (Some f) => write_selected i (f x)
      | _ => in_full []
      end
  | TTransparent ts, VVariant i x =>
      match nth_error (map write ts) (N.to_nat i) with
      | Some f => f x
      | None => in_full []
      end
  | _, _ => in_full []
  end.

(** The selectors at the front of an encoding. *)
Fixpoint selectors (t : ty) (v : val) {struct t} : bytes :=
  match t, v with
  | TOption u, VSome x => x01 :: selectors u x
  | TUnion vs, VVariant i x =>
      match nth_error (map (option_map selectors) vs) (N.to_nat i) with
      | Some (Some f) => spec_uint 1 i ++ f x
      | _ => []
      end
  | TTransparent ts, VVariant i x =>
      match nth_error (map selectors ts) (N.to_nat i) with
      | Some f => f x
      | None => []
      end
  | TNewtype u, VNewtype x => selectors u x
  | _, _ => []
  end.
