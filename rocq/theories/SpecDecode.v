(** What decoding does with every byte string: a value, an error or a panic. Independent of the
    model.

    The encodings of the SSZ specification are read as it says. The decoders of ssz-rs differ in
    that a collection of variable-size elements looks at one offset after the other: an offset
    behind the input is only noticed by the slice it is used in, when all elements before are
    decoded. [checks] is true in builds with overflow checks, where a container with such an offset
    panics, too. *)
From Coq Require Import List NArith Bool.
From Coq Require Import Strings.Byte.
From Verif Require Import Prelude Types Bitvec SpecSer.
Import ListNotations.
Open Scope N_scope.

Inductive reading (A : Type) : Type :=
| Reads (a : A)
| Rejects
| Crashes.
Arguments Reads {A}. Arguments Rejects {A}. Arguments Crashes {A}.

Definition then_ {A B} (r : reading A) (f : A -> reading B) : reading B :=
  match r with
  | Reads a => f a
  | Rejects => Rejects
  | Crashes => Crashes
  end.

Definition on_condition {A} (c : bool) (r : reading A) : reading A := if c then r else Rejects.

(** One after the other, up to the first that is not read. *)
Fixpoint read_all {A} (rs : list (reading A)) : reading (list A) :=
  match rs with
  | [] => Reads []
  | r :: rest => then_ r (fun a => then_ (read_all rest) (fun l => Reads (a :: l)))
  end.

(** [n] bytes from position [p]. *)
Definition sub_bytes (b : bytes) (p n : N) : bytes := firstn (N.to_nat n) (skipn (N.to_nat p) b).

Definition number (b : bytes) : N := fold_right (fun x n => byte_to_N x + 256 * n) 0 b.

Definition count_to (n : N) : list N := map N.of_nat (seq 0 (N.to_nat n)).

Fixpoint neighbours (l : list N) : list (N * N) :=
  match l with
  | a :: (c :: _) as r => (a, c) :: neighbours r
  | _ => []
  end.

(** ** Bits *)

Definition bits_of (b : bytes) : list bool :=
  map (fun i => N.testbit (byte_to_N (nth (Nat.div i 8) b x00)) (N.of_nat (Nat.modulo i 8)))
      (seq 0 (8 * List.length b)).

Definition bits_val (bits : list bool) : val := VBits (BitVec (spec_bits bits) (blen bits)).

Definition read_bitvector (n : N) (b : bytes) : reading val :=
  on_condition ((blen b =? (n + 7) / 8) && forallb negb (skipn (N.to_nat n) (bits_of b)))
    (Reads (bits_val (firstn (N.to_nat n) (bits_of b)))).

Fixpoint drop_false (l : list bool) : list bool :=
  match l with
  | false :: r => drop_false r
  | _ => l
  end.

(** The last one bit is in the last byte and ends the list. *)
Definition read_bitlist (n : N) (b : bytes) : reading val :=
  match drop_false (rev (bits_of b)) with
  | _ :: r =>
      on_condition ((8 * blen b <=? blen r + 8) && (blen r <=? n)) (Reads (bits_val (rev r)))
  | [] => Rejects
  end.

(** ** Collections *)

Section Elements.
  Context (variable : bool) (size : N) (f : bytes -> reading val).

  Definition read_span (b : bytes) (span : N * N) : reading val :=
    if snd span <? fst span then Rejects
    else if blen b <? snd span then Crashes
    else f (sub_bytes b (fst span) (snd span - fst span)).

  Definition read_elements (b : bytes) : reading (list val) :=
    if variable then
      match b with
      | [] => Reads []
      | _ =>
          let first := number (sub_bytes b 0 4) in
          on_condition ((4 <=? blen b) && (first <=? blen b) && (first mod 4 =? 0))
            (read_all (map (read_span b)
               (neighbours (map (fun i => number (sub_bytes b (4 * i) 4)) (count_to (first / 4)) ++ [blen b]))))
      end
    else
      on_condition (blen b mod size =? 0)
        (read_all (map (fun i => f (sub_bytes b (i * size) size)) (count_to (blen b / size)))).
End Elements.

(** ** Containers *)

(** A field: whether it has variable size, its size and how it is read. *)
Definition field : Type := (bool * N) * (bytes -> reading val).

Definition head_size (x : bool * N) : N := if fst x then 4 else snd x.

(** The offsets in the part of the head that the input has. *)
Fixpoint head_offsets (b : bytes) (p : N) (fields : list (bool * N)) : list N :=
  match fields with
  | [] => []
  | x :: r =>
      (if fst x && (p + 4 <=? blen b) then [number (sub_bytes b p 4)] else []) ++
      head_offsets b (p + head_size x) r
  end.

(** Where the fields are. [ends] are the offsets and the end of the input. *)
Fixpoint field_spans (p : N) (fields : list (bool * N)) (ends : list N) : list (N * N) :=
  match fields with
  | [] => []
  | (false, n) :: r => (p, n) :: field_spans (p + n) r ends
  | (true, _) :: r =>
      match ends with
      | s :: (e :: _) as ends' => (s, e - s) :: field_spans (p + 4) r ends'
      | _ => []
      end
  end.

(** The offsets increase up to one that is behind the input and not the first. *)
Fixpoint overrun (len : N) (l : list N) : bool :=
  match l with
  | a :: (c :: _) as r => (a <=? c) && ((len <? c) || overrun len r)
  | _ => false
  end.

Definition read_fields (checks : bool) (fields : list field) (b : bytes) : reading (list val) :=
  let layout := map fst fields in
  let head := total (map head_size layout) in
  let offsets := head_offsets b 0 layout in
  let ends := offsets ++ [blen b] in
  if checks && overrun (blen b) offsets then Crashes
  else
    on_condition ((head <=? blen b) && (hd 0 ends =? head) && forallb (fun p => fst p <=? snd p) (neighbours ends))
      (read_all (map (fun fs : field * (N * N) => snd (fst fs) (sub_bytes b (fst (snd fs)) (snd (snd fs))))
                     (combine fields (field_spans 0 layout ends)))).

(** ** Transparent enums: the last variant that can be read *)
Fixpoint read_last (i : N) (rs : list (reading val)) : reading val :=
  match rs with
  | [] => Rejects
  | r :: rest =>
      match read_last (i + 1) rest with
      | Rejects => then_ r (fun v => Reads (VVariant i v))
      | o => o
      end
  end.

(** ** All types *)
Fixpoint read (checks : bool) (t : ty) (b : bytes) {struct t} : reading val :=
  match t with
  | TBool =>
      match b with
      | [x00] => Reads (VBool false)
      | [x01] => Reads (VBool true)
      | _ => Rejects
      end
  | TUint w => on_condition (blen b =? N.of_nat (spec_uint_size w)) (Reads (VUint (number b)))
  | TU256 => on_condition (blen b =? 32) (Reads (VUint (number b)))
  | TNode => on_condition (blen b =? 32) (Reads (VNode b))
  | TVector u n | TArray u n =>
      on_condition (spec_variable u || (blen b =? n * fixed_size u))
        (then_ (read_elements (spec_variable u) (fixed_size u) (read checks u) b)
               (fun l => on_condition (blen l =? n) (Reads (VSeq l))))
  | TList u n =>
      then_ (read_elements (spec_variable u) (fixed_size u) (read checks u) b)
            (fun l => on_condition (blen l <=? n) (Reads (VSeq l)))
  | TBitvector n => read_bitvector n b
  | TBitlist n => read_bitlist n b
  | TContainer fs =>
      then_ (read_fields checks
               (map (fun f => ((spec_variable (snd f), fixed_size (snd f)), read checks (snd f))) fs) b)
            (fun l => Reads (VStruct l))
  | TNewtype u => then_ (read checks u b) (fun v => Reads (VNewtype v))
  | TOption u =>
      match b with
      | [x00] => Reads VNone
      | x01 :: r => then_ (read checks u r) (fun v => Reads (VSome v))
      | _ => Rejects
      end
  | TUnion vs =>
      match b with
      | [] => Rejects
      | x :: r =>
          match nth_error (map (option_map (read checks)) vs) (N.to_nat (byte_to_N x)) with
          | Some (Some f) => then_ (f r) (fun v => Reads (VVariant (byte_to_N x) v))
          | Some None => on_condition (blen r =? 0) (Reads VNone)
          | None => Rejects
          end
      end
  | TTransparent ts =>
      match b with
      | [] => Rejects
      | _ => read_last 0 (map (fun u => read checks u b) ts)
      end
  end.
