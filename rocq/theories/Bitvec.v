(** The part of the [bitvec] crate (BitVec<u8, Lsb0>) that ssz-rs uses or exposes through
    [Deref]/[DerefMut] (ssz-rs/src/bitvector.rs:96-108, ssz-rs/src/bitlist.rs:108-120).
    The crate itself is not part of /repo; these definitions are our reading of its behaviour:
    the raw storage always has ceil(len / 8) bytes, growing by a byte zero-fills it, shrinking
    changes only the length and drops whole bytes, so bits above the length in the last byte
    keep their old contents. *)
From Coq Require Import List NArith Bool.
From Coq Require Import Strings.Byte.
From Verif Require Import Prelude Types.
Import ListNotations.
Open Scope N_scope.

(** Bit [i] of a byte, and a byte with bit [i] set to [v]. *)
Definition byte_bit (b : byte) (i : N) : bool := N.testbit (byte_to_N b) i.

Definition byte_set (b : byte) (i : N) (v : bool) : byte :=
  byte_of_N (if v then N.setbit (byte_to_N b) i else N.clearbit (byte_to_N b) i).

(** Number of bytes that hold [n] bits. *)
Definition bits_bytes (n : N) : N := (n + 7) / 8.

(** The state invariant of [BitVec<u8, Lsb0>]. *)
Definition bv_ok (b : bitvec) : bool := blen (bv_raw b) =? bits_bytes (bv_len b).

Definition nth_byte (i : N) (l : bytes) : byte := nth (N.to_nat i) l zero_byte.

Definition raw_bit (raw : bytes) (i : N) : bool := byte_bit (nth_byte (i / 8) raw) (i mod 8).

Definition update_byte (i : N) (b : byte) (l : bytes) : bytes :=
  takeN i l ++ b :: dropN (i + 1) l.

(** [BitVec::new] *)
Definition bv_new : bitvec := BitVec [] 0.

(** [BitVec::repeat(false, n)] *)
Definition bv_repeat_false (n : N) : bitvec := BitVec (zeros (N.to_nat (bits_bytes n))) n.

(** [BitVec::from_slice], [BitVec::from_element] *)
Definition bv_from_slice (l : bytes) : bitvec := BitVec l (8 * blen l).
Definition bv_from_element (b : byte) : bitvec := BitVec [b] 8.

(** [BitSlice::get] *)
Definition bv_get (b : bitvec) (i : N) : option bool :=
  if i <? bv_len b then Some (raw_bit (bv_raw b) i) else None.

(** Writing through [BitSlice::get_mut]: [None] out of bounds. *)
Definition bv_set (b : bitvec) (i : N) (v : bool) : option bitvec :=
  if i <? bv_len b then
    Some (BitVec (update_byte (i / 8) (byte_set (nth_byte (i / 8) (bv_raw b)) (i mod 8) v)
                              (bv_raw b))
                 (bv_len b))
  else None.

(** [BitVec::push] *)
Definition bv_push (b : bitvec) (v : bool) : bitvec :=
  let i := bv_len b in
  let raw := if i mod 8 =? 0 then bv_raw b ++ [zero_byte] else bv_raw b in
  BitVec (update_byte (i / 8) (byte_set (nth_byte (i / 8) raw) (i mod 8) v) raw) (i + 1).

(** [BitVec::truncate] *)
Definition bv_truncate (b : bitvec) (n : N) : bitvec :=
  if n <? bv_len b then BitVec (takeN (bits_bytes n) (bv_raw b)) n else b.

(** [BitVec::pop] *)
Definition bv_pop (b : bitvec) : option bool * bitvec :=
  if bv_len b =? 0 then (None, b)
  else (bv_get b (bv_len b - 1), bv_truncate b (bv_len b - 1)).

(** [BitVec::clear] *)
Definition bv_clear (b : bitvec) : bitvec := bv_truncate b 0.

(** The live bits in order ([iter()]). *)
Definition bv_bits (b : bitvec) : list bool :=
  map (fun i => raw_bit (bv_raw b) (N.of_nat i)) (seq 0 (N.to_nat (bv_len b))).

(** [BitVec::extend_from_bitslice]: resize with zeroes, then copy; same effect as pushing. *)
Definition bv_extend (b : bitvec) (bits : list bool) : bitvec := fold_left bv_push bits b.

(** [==] on bit slices compares lengths and live bits. *)
Fixpoint bools_eqb (a b : list bool) : bool :=
  match a, b with
  | [], [] => true
  | x :: a', y :: b' => Bool.eqb x y && bools_eqb a' b'
  | _, _ => false
  end.

Definition bv_eqb (a b : bitvec) : bool := bools_eqb (bv_bits a) (bv_bits b).

(** [BitSlice::trailing_zeros]: zero bits after the last one bit. *)
Fixpoint leading_false (l : list bool) : N :=
  match l with
  | false :: r => 1 + leading_false r
  | _ => 0
  end.

Definition bv_trailing_zeros (b : bitvec) : N := leading_false (rev (bv_bits b)).

(** Width in bits of the [k]-th chunk of [chunks(8)]. *)
Definition chunk_width (b : bitvec) (k : N) : N := N.min 8 (bv_len b - 8 * k).

Definition chunk_indices (b : bitvec) : list N :=
  map N.of_nat (seq 0 (N.to_nat (bits_bytes (bv_len b)))).

(** [chunks(8)] with [BitField::load::<u8>] on each chunk: only live bits are read. *)
Definition bv_load_chunks (b : bitvec) : bytes :=
  map (fun k => byte_of_N (byte_to_N (nth_byte k (bv_raw b)) mod 2 ^ chunk_width b k))
      (chunk_indices b).

(** [chunks_mut(8).zip(bytes)] with [BitField::store_le] on each chunk: only live bits are
    written; stops at the shorter of the two sequences. *)
Definition bv_store_chunks (b : bitvec) (l : bytes) : bitvec :=
  let step (k : N) (v : byte) :=
    let w := chunk_width b k in
    let old := byte_to_N (nth_byte k (bv_raw b)) in
    byte_of_N (old - old mod 2 ^ w + byte_to_N v mod 2 ^ w) in
  let n := N.min (bits_bytes (bv_len b)) (blen l) in
  BitVec (map (fun kv => step (fst kv) (snd kv)) (combine (chunk_indices b) l)
              ++ dropN n (bv_raw b))
         (bv_len b).
