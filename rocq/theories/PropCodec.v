(** Properties of serialization and deserialization. Only theorems, each proved in CodecThms.v,
    and examples that show their hypotheses can be met.

    [oc] is true in builds with overflow checks. [legal], [valid] and [typed] are defined in
    Valid.v, [spec_serialize] in SpecSer.v. *)
From Coq Require Import String.
From Coq Require Import List NArith Bool Lia.
From Coq Require Import Strings.Byte.
From Verif Require Import Prelude Types Bitvec Ser De Impls Api Valid SpecSer SpecErr SpecAccept SpecApi SpecDecode SpecWrite SpecAlike SpecSize SpecEffort SpecAccess DeCost SerCost Compare SpecCompare
  SpecModes SizeHint CodecFacts SpecPrefix SpecFault CodecThms Samples.
Import ListNotations.
Open Scope N_scope.

(** ** C01: round trip *)

Theorem C01_round_trip :
  forall oc1 oc2 t v b,
  legal t = true -> no_transparent t = true -> valid t v ->
  ssz_serialize oc1 t v = Ok b -> ssz_deserialize oc2 t b = Ok v.
Proof. exact c01_round_trip. Qed.
Print Assumptions C01_round_trip.

Example C01_example :
  legal sample_ty = true /\ no_transparent sample_ty = true /\ valid sample_ty sample_val /\
  exists b, ssz_serialize true sample_ty sample_val = Ok b /\ ssz_deserialize false sample_ty b = Ok sample_val.
Proof.
  split; [reflexivity|]. split; [reflexivity|]. split; [apply sample_valid|].
  eexists. split; [vm_compute; reflexivity|vm_compute; reflexivity].
Qed.

(** ** C02: the encoding of the SSZ specification *)

Theorem C02_encoding_follows_spec :
  forall oc t v b buffer,
  legal t = true -> valid t v -> spec_serialize t v = Some b ->
  serialize (serializable oc t) v buffer = (buffer ++ b, Ok (blen b)).
Proof. exact c02_encoding_follows_spec. Qed.
Print Assumptions C02_encoding_follows_spec.

Example C02_example :
  legal sample_ty = true /\ valid sample_ty sample_val /\
  spec_serialize (TContainer [("a"%string, TUint U16); ("b"%string, TList (TUint U8) 4); ("c"%string, TBitlist 9)])
    (VStruct [VUint 513; VSeq [VUint 7; VUint 8]; VBits (bits_of [true; false; true])])
  = Some [x01; x02; x0a; x00; x00; x00; x0c; x00; x00; x00; x07; x08; x0d].
Proof.
  split; [reflexivity|]. split; [apply sample_valid|]. vm_compute. reflexivity.
Qed.

(** ** C03: accepted encodings are canonical when no list has variable-size elements *)

Theorem C03_canonical :
  forall oc1 oc2 t b v,
  legal t = true -> no_variable_list t = true -> blen b < 2 ^ 32 ->
  ssz_deserialize oc1 t b = Ok v -> ssz_serialize oc2 t v = Ok b.
Proof. exact c03_canonical. Qed.
Print Assumptions C03_canonical.

Example C03_example :
  let t := TContainer [("a"%string, TList (TUint U16) 4); ("b"%string, TBitlist 9); ("c"%string, TTransparent [TOption TBool; TUint U8])] in
  let b := [x0c; x00; x00; x00; x0e; x00; x00; x00; x0f; x00; x00; x00; x07; x08; x0d; x01; x01] in
  legal t = true /\ no_variable_list t = true /\ blen b < 2 ^ 32 /\
  exists v, ssz_deserialize true t b = Ok v /\ ssz_serialize true t v = Ok b.
Proof.
  cbv zeta. do 3 (split; [reflexivity|]). eexists. split; [vm_compute; reflexivity|vm_compute; reflexivity].
Qed.

(** ** C04: canonicity for all types fails

A list of variable-size elements decodes as empty from four zero bytes followed by anything
(de.rs:84-87: a first offset of 0 means no elements). What is accepted is exactly the set of
encodings described by [accepted] (SpecAccept.v). *)

Theorem C04_refuted :
  exists t b1 b2 v,
  legal t = true /\ no_transparent t = true /\ b1 <> b2 /\ blen b1 < 2 ^ 32 /\ blen b2 < 2 ^ 32 /\
  (forall oc, ssz_deserialize oc t b1 = Ok v /\ ssz_deserialize oc t b2 = Ok v /\
              ssz_serialize oc t v = Ok b1).
Proof. exact c04_refuted. Qed.
Print Assumptions C04_refuted.

Theorem C04_partial :
  forall oc t b v,
  legal t = true -> blen b < 2 ^ 32 ->
  (ssz_deserialize oc t b = Ok v -> valid t v /\ accepted t v b) /\
  (no_transparent t = true -> valid t v /\ accepted t v b -> ssz_deserialize oc t b = Ok v).
Proof. exact c04_partial. Qed.
Print Assumptions C04_partial.

Example C04_example :
  let t := TList (TList (TUint U8) 4) 3 in
  valid t (VSeq []) /\ accepted t (VSeq []) [x00; x00; x00; x00; xff; x2a].
Proof.
  cbv zeta. split; [cbn; split; [lia|constructor]|]. right. split; [reflexivity|]. split; [reflexivity|].
  exists [xff; x2a]. reflexivity.
Qed.

(** ** C05: distinct values never share an encoding *)

Theorem C05_injective :
  forall oc1 oc2 t v1 v2 b,
  legal t = true -> no_transparent t = true -> valid t v1 -> valid t v2 ->
  ssz_serialize oc1 t v1 = Ok b -> ssz_serialize oc2 t v2 = Ok b -> v1 = v2.
Proof. exact c05_injective. Qed.
Print Assumptions C05_injective.

Example C05_example :
  let t := TList TBool 3 in
  valid t (VSeq [VBool true]) /\ valid t (VSeq [VBool false]) /\
  ssz_serialize true t (VSeq [VBool true]) = Ok [x01] /\ ssz_serialize true t (VSeq [VBool false]) = Ok [x00].
Proof.
  cbv zeta. split; [solve_valid|]. split; [solve_valid|]. split; reflexivity.
Qed.

(** ** C06: serialize only appends; the count

The count is wrong for a Bitvector whose length was changed through DerefMut
(bitvector.rs:131 reports ceil(N/8) whatever the length). *)

Theorem C06_refuted :
  exists t v out n,
  legal t = true /\ typed t v /\ (forall oc, serialize (serializable oc t) v [] = (out, Ok n)) /\ n <> blen out.
Proof. exact c06_refuted. Qed.
Print Assumptions C06_refuted.

Theorem C06_partial :
  forall oc t v, typed t v ->
  exists suffix r,
    (forall buffer, serialize (serializable oc t) v buffer = (buffer ++ suffix, r)) /\
    (bitvectors_sized t v -> forall n, r = Ok n -> n = blen suffix).
Proof. exact c06_partial. Qed.
Print Assumptions C06_partial.

Example C06_example :
  (* an over-long list inside an Option: one byte is appended, then serialize fails *)
  typed (TOption (TList (TUint U8) 1)) (VSome (VSeq [VUint 1; VUint 2])) /\
  bitvectors_sized sample_ty sample_val /\ typed sample_ty sample_val.
Proof.
  split; [cbn; repeat constructor|].
  split; [apply valid_bitvectors_sized; [reflexivity|apply sample_valid]|].
  apply valid_typed, sample_valid.
Qed.

Theorem C06_exact_partial :
  (* every value a Rust type can hold: what is appended and what is reported *)
forall oc t v buffer, typed t v ->
  serialize (serializable oc t) v buffer =
  (buffer ++ fst (write t v), match snd (write t v) with Wrote n => Ok n | Fails e => Err e end).
Proof. exact c06_exact_partial. Qed.
Print Assumptions C06_exact_partial.

Example C06_exact_example :
  (* a list of bit lists: one out of bounds; in bounds with left-over bits; an Option that fails *)
let t := TList (TBitlist 3) 2 in
  let b1 := apply_bit_ops bitlist_default (repeat (BPush true) 4) in
  let b2 := apply_bit_ops bitlist_default [BPush true; BPush true; BPush true; BTruncate 1] in
  typed t (VSeq [VBits b1]) /\ write t (VSeq [VBits b1]) = ([], Fails (SInvalidInstance (Bounded 3 4))) /\
  typed t (VSeq [VBits b2]) /\ write t (VSeq [VBits b2]) = ([x04; x00; x00; x00; x07], Wrote 5) /\
  write (TOption t) (VSome (VSeq [VBits b1])) = ([x01], Fails (SInvalidInstance (Bounded 3 4))).
Proof.
  cbv zeta. split; [cbn; repeat constructor|]. split; [vm_compute; reflexivity|].
  split; [cbn; repeat constructor|]. split; vm_compute; reflexivity.
Qed.

(** ** C07: a failed serialize leaves the buffer untouched: false for unions *)

Theorem C07_refuted :
  exists t v buffer out e,
  legal t = true /\ typed t v /\ (forall oc, serialize (serializable oc t) v buffer = (out, Err e)) /\ out <> buffer.
Proof. exact c07_refuted. Qed.
Print Assumptions C07_refuted.

Theorem C07_partial :
  forall oc t v buffer out e,
  writes_all_or_nothing t = true -> serialize (serializable oc t) v buffer = (out, Err e) -> out = buffer.
Proof. exact c07_partial. Qed.
Print Assumptions C07_partial.

Theorem C07_exact_partial :
  (* only the selectors that lead to the failing part are left behind *)
forall oc t v buffer out e, typed t v ->
  serialize (serializable oc t) v buffer = (out, Err e) -> out = buffer ++ selectors t v.
Proof. exact c07_exact_partial. Qed.
Print Assumptions C07_exact_partial.

Example C07_exact_example :
  let t := TUnion [None; Some TBool; Some (TOption (TList (TUint U8) 1))] in
  let v := VVariant 2 (VSome (VSeq [VUint 1; VUint 2])) in
  typed t v /\ selectors t v = [x02; x01] /\
  serialize (serializable true t) v [x07] = ([x07; x02; x01], Err (SInvalidInstance (Bounded 1 2))).
Proof.
  cbv zeta. split; [cbn; repeat constructor|]. split; vm_compute; reflexivity.
Qed.

Example C07_example :
  let t := TContainer [("a"%string, TUint U8); ("b"%string, TOption (TList (TUint U8) 1))] in
  writes_all_or_nothing t = true /\
  serialize (serializable true t) (VStruct [VUint 5; VSome (VSeq [VUint 1; VUint 2])]) [x07]
  = ([x07], Err (SInvalidInstance (Bounded 1 2))).
Proof.
  split; reflexivity.
Qed.

(** ** C08: size_hint is exact for fixed-size types *)

Theorem C08_fixed_size :
  forall oc t,
  legal t = true -> is_variable_size (serializable oc t) = false ->
  size_hint (serializable oc t) = fixed_size t /\
  (forall v b, valid t v -> ssz_serialize oc t v = Ok b -> blen b = size_hint (serializable oc t)) /\
  (forall b v, blen b < 2 ^ 63 -> ssz_deserialize oc t b = Ok v -> blen b = size_hint (serializable oc t)).
Proof. exact c08_fixed_size. Qed.
Print Assumptions C08_fixed_size.

Example C08_example :
  let t := TContainer [("a"%string, TVector (TUint U16) 3); ("b"%string, TBitvector 9); ("c"%string, TArray TBool 2)] in
  legal t = true /\ is_variable_size (serializable true t) = false /\ size_hint (serializable true t) = 10.
Proof.
  repeat split.
Qed.

(** The usize arithmetic of the source computes the same number: on a legal type it never overflows.
Without the bound in [legal] it does: it panics with overflow checks and wraps to zero without. *)

Theorem C08_no_overflow :
  forall (E : Type) oc t, legal t = true -> @size_hint_machine E oc t = Ok (size_hint (serializable oc t)).
Proof. exact c08_no_overflow. Qed.
Print Assumptions C08_no_overflow.

Example C08_no_overflow_example :
  let t := TContainer [("a"%string, TVector (TVector (TUint U64) (2 ^ 20)) (2 ^ 30)); ("b"%string, TBitvector 9)] in
  let huge := TVector (TVector (TUint U8) (2 ^ 32)) (2 ^ 32) in
  legal t = true /\ @size_hint_machine unit true t = Ok 9007199254740994 /\
  legal huge = false /\ @size_hint_machine unit true huge = Panic POverflow /\
  @size_hint_machine unit false huge = Ok 0.
Proof.
  repeat apply conj; vm_compute; reflexivity.
Qed.

(** ** C09: decoding enforces the bounds of the type at every level *)

Theorem C09_decoded_values_valid :
  forall oc t b v,
  legal t = true -> blen b < 2 ^ 63 -> ssz_deserialize oc t b = Ok v -> valid t v.
Proof. exact c09_decoded_values_valid. Qed.
Print Assumptions C09_decoded_values_valid.

Example C09_example :
  exists b, blen b < 2 ^ 63 /\ ssz_deserialize true sample_ty b = Ok sample_val /\
  ssz_deserialize true (TList (TUint U8) 2) [x01; x02] = Ok (VSeq [VUint 1; VUint 2]) /\
  ssz_deserialize true (TList (TUint U8) 2) [x01; x02; x03] = Err (DInvalidInstance (Bounded 2 3)).
Proof.
  eexists. split; [|split; [|split; reflexivity]].
  2:{ apply (c01_round_trip true true); [reflexivity|reflexivity|apply sample_valid|vm_compute; reflexivity]. }
  reflexivity.
Qed.

(** ** C10: decoding never panics: false

A list of variable-size elements slices its input with unchecked offsets (de.rs:101-104).
It panics for every element type and bound, in both build modes. *)

Theorem C10_refuted :
  exists b, forall oc u n, legal (TList u n) = true -> spec_variable u = true ->
  exists p, ssz_deserialize oc (TList u n) b = Panic p.
Proof. exact c10_refuted. Qed.
Print Assumptions C10_refuted.

Example C10_example :
  legal (TList (TList (TUint U8) 4) 3) = true /\ spec_variable (TList (TUint U8) 4) = true.
Proof.
  split; reflexivity.
Qed.

(** For every byte string, [read] says whether decoding returns a value and which one, returns an
error, or panics. [read] is defined on byte positions in SpecDecode.v, for all types. *)

Theorem C10_partial :
  forall oc t b, legal t = true -> blen b < 2 ^ 63 ->
  match ssz_deserialize oc t b with
  | Ok v => read oc t b = Reads v
  | Err _ => read oc t b = Rejects
  | Panic _ => read oc t b = Crashes
  end.
Proof. exact c10_partial. Qed.
Print Assumptions C10_partial.

Example C10_partial_example :
  let two := TContainer [("a", TList (TUint U8) 4); ("b", TUint U8); ("c", TList (TUint U8) 4)]%string in
let either := TTransparent [TUint U16; TList (TUint U8) 4; TUint U8] in
let lists := TList (TList (TUint U8) 4) 3 in
legal two = true /\ legal either = true /\ legal lists = true /\
read true two [x09; x00; x00; x00; x07; x0a; x00; x00; x00; x01; x02] =
  Reads (VStruct [VSeq [VUint 1]; VUint 7; VSeq [VUint 2]]) /\
read true two [x09; x00; x00; x00; x07; x08; x00; x00; x00; x01; x02] = Rejects /\
read true two [x09; x00; x00; x00; x07; x0c; x00; x00; x00; x01; x02] = Crashes /\
read false two [x09; x00; x00; x00; x07; x0c; x00; x00; x00; x01; x02] = Rejects /\
read false lists [x08; x00; x00; x00; xff; x00; x00; x00] = Crashes /\
read false lists [x00; x00; x00; x00; x01] = Reads (VSeq []) /\
read false either [x05] = Reads (VVariant 2 (VUint 5)) /\
read false either [x05; x00] = Reads (VVariant 1 (VSeq [VUint 5; VUint 0])) /\
read false either [x05; x00; x00; x00; x00] = Rejects.
Proof.
  cbv zeta. repeat split; vm_compute; reflexivity.
Qed.

(** ** C11: decoding never panics outside collections of variable-size elements

With overflow checks, containers with two variable-size fields are excluded too: their parser
subtracts unchecked offsets (container in de.rs). *)

Theorem C11_no_panic :
  forall oc t b p,
  legal t = true -> blen b < 2 ^ 63 -> no_variable_collection t = true ->
  oc = false \/ single_variable t = true ->
  ssz_deserialize oc t b <> Panic p.
Proof. exact c11_no_panic. Qed.
Print Assumptions C11_no_panic.

Example C11_example :
  let t := TContainer [("a"%string, TList (TUint U16) 4); ("b"%string, TBitvector 9); ("c"%string, TNewtype (TUint U8))] in
  legal t = true /\ no_variable_collection t = true /\ single_variable t = true /\
  no_variable_collection (TContainer [("a"%string, TList TBool 4); ("b"%string, TBitlist 9)]) = true.
Proof.
  repeat split.
Qed.

(** The two exclusions are needed: with overflow checks a container with two variable-size fields
panics. *)

Theorem C11_container_panics :
  exists t b p, legal t = true /\ no_variable_collection t = true /\ ssz_deserialize true t b = Panic p.
Proof. exact c11_container_panics. Qed.
Print Assumptions C11_container_panics.

(** ** C12: when serialize fails *)

Theorem C12_when_serialize_fails :
  (forall oc t v buffer p, typed t v -> snd (serialize (serializable oc t) v buffer) <> Panic p) /\
  (forall oc t v, legal t = true -> valid t v ->
     match ssz_serialize oc t v with
     | Ok b => spec_serialize t v = Some b /\ forall n, ~ too_big t v n
     | Err e => exists n, e = MaximumEncodedLengthReached n /\ too_big t v n
     | Panic _ => False
     end) /\
  (forall oc u n l, n < blen l ->
     ssz_serialize oc (TList u n) (VSeq l) = Err (SInvalidInstance (Bounded n (blen l)))) /\
  (forall oc n b, n < bv_len b ->
     ssz_serialize oc (TBitlist n) (VBits b) = Err (SInvalidInstance (Bounded n (bv_len b)))) /\
  (forall oc t v t1 v1 bound len,
     typed t v -> part t v t1 v1 -> bound < len ->
     (exists u l, t1 = TList u bound /\ v1 = VSeq l /\ blen l = len) \/
     (exists b, t1 = TBitlist bound /\ v1 = VBits b /\ bv_len b = len) ->
     exists e, ssz_serialize oc t v = Err e).
Proof. exact c12_when_serialize_fails. Qed.
Print Assumptions C12_when_serialize_fails.

Example C12_example :
  (exists b, ssz_serialize true sample_ty sample_val = Ok b) /\
  (exists t v n, legal t = true /\ valid t v /\ too_big t v n) /\
  typed (TOption (TList (TUint U8) 1)) (VSome (VSeq [VUint 1; VUint 2])) /\
  part (TOption (TList (TUint U8) 1)) (VSome (VSeq [VUint 1; VUint 2])) (TList (TUint U8) 1) (VSeq [VUint 1; VUint 2]).
Proof.
  split; [eexists; vm_compute; reflexivity|]. split.
  - exact too_big_possible.
  - split; [cbn; repeat constructor|]. eapply part_step; [left; reflexivity|constructor].
Qed.

(** ** C13: unsigned integers *)

Theorem C13_uints :
  forall oc,
  (forall w x, x < uint_bound w ->
     ssz_serialize oc (TUint w) (VUint x) = Ok (spec_uint (spec_uint_size w) x)) /\
  (forall w b v, ssz_deserialize oc (TUint w) b = Ok v <->
     exists x, v = VUint x /\ x < uint_bound w /\ b = spec_uint (spec_uint_size w) x) /\
  (forall w b, let k := N.of_nat (spec_uint_size w) in
     (blen b < k -> ssz_deserialize oc (TUint w) b = Err (ExpectedFurtherInput (blen b) k)) /\
     (k < blen b -> ssz_deserialize oc (TUint w) b = Err (AdditionalInput (blen b) k)) /\
     (blen b = k -> exists v, ssz_deserialize oc (TUint w) b = Ok v)) /\
  (forall x, x < 2 ^ 256 -> ssz_serialize oc TU256 (VUint x) = Ok (spec_uint 32 x)) /\
  (forall b v, ssz_deserialize oc TU256 b = Ok v <->
     exists x, v = VUint x /\ x < 2 ^ 256 /\ b = spec_uint 32 x) /\
  (forall b,
     (blen b < 32 -> ssz_deserialize oc TU256 b = Err (ExpectedFurtherInput (blen b) 32)) /\
     (32 < blen b -> ssz_deserialize oc TU256 b = Err (AdditionalInput (blen b) 32)) /\
     (blen b = 32 -> exists v, ssz_deserialize oc TU256 b = Ok v)).
Proof. exact c13_uints. Qed.
Print Assumptions C13_uints.

Example C13_example :
  ssz_serialize true (TUint U32) (VUint 67305985) = Ok [x01; x02; x03; x04] /\
  ssz_deserialize true (TUint U32) [x01; x02; x03; x04] = Ok (VUint 67305985).
Proof.
  split; reflexivity.
Qed.

(** ** C14: booleans are strict *)

Theorem C14_bool :
  forall oc b,
  ssz_deserialize oc TBool b =
  match b with
  | [] => Err (ExpectedFurtherInput 0 1)
  | [x00] => Ok (VBool false)
  | [x01] => Ok (VBool true)
  | [x] => Err (InvalidByte x)
  | _ => Err (AdditionalInput (blen b) 1)
  end.
Proof. exact c14_bool. Qed.
Print Assumptions C14_bool.

Example C14_example :
  ssz_deserialize true TBool [x02] = Err (InvalidByte x02) /\ ssz_deserialize true TBool [x01] = Ok (VBool true).
Proof.
  split; reflexivity.
Qed.

(** ** C15: Bitvector decoding *)

Theorem C15_bitvector_decode :
  forall oc n b v, 0 < n ->
  (ssz_deserialize oc (TBitvector n) b = Ok v <->
   blen b = (n + 7) / 8 /\ (forall i, n <= i < 8 * blen b -> bit_of b i = false) /\
   exists r, v = VBits r /\ bv_raw r = b /\ bv_len r = n /\
     forall i, bits_get r i = if i <? n then Some (bit_of b i) else None).
Proof. exact c15_bitvector_decode. Qed.
Print Assumptions C15_bitvector_decode.

Example C15_example :
  ssz_deserialize true (TBitvector 12) [x34; x0f] = Ok (VBits (BitVec [x34; x0f] 12)) /\
  ssz_deserialize true (TBitvector 12) [x34; x1f] = Err (InvalidByte x1f).
Proof.
  split; reflexivity.
Qed.

(** ** C16: Bitlist decoding

The number of bits before the highest set bit of [p ++ [x]] is [8 * blen p + log2 x]. *)

Theorem C16_bitlist_decode :
  forall oc n b, n + 8 < 2 ^ 64 ->
  ((exists v, ssz_deserialize oc (TBitlist n) b = Ok v) <->
   exists p x, b = p ++ [x] /\ x <> x00 /\ blen b <= n / 8 + 1 /\
     8 * blen p + N.log2 (byte_to_N x) <= n) /\
  (forall v, ssz_deserialize oc (TBitlist n) b = Ok v ->
   exists p x r, b = p ++ [x] /\ v = VBits r /\ bv_ok r = true /\ bv_clean r /\
     bv_len r = 8 * blen p + N.log2 (byte_to_N x) /\
     forall i, bits_get r i = if i <? bv_len r then Some (bit_of b i) else None).
Proof. exact c16_bitlist_decode. Qed.
Print Assumptions C16_bitlist_decode.

Example C16_example :
  ssz_deserialize true (TBitlist 9) [x05; x02] = Ok (VBits (BitVec [x05; x00] 9)) /\
  ssz_deserialize true (TBitlist 8) [x05; x02] = Err (DInvalidInstance (Bounded 8 9)) /\
  ssz_deserialize true (TBitlist 9) [x05; x00] = Err (InvalidByte x00).
Proof.
  repeat split.
Qed.

(** ** C17: equal bit lists are observed equal: false after pop, truncate or clear

BitVec keeps the removed bits in its last byte, and serialize copies that byte
(bitlist.rs:88). The sequence of bools, which [==] compares, is right. *)

Theorem C17_refuted :
  exists n ops1 ops2,
  let b1 := apply_bit_ops bitlist_default ops1 in
  let b2 := apply_bit_ops bitlist_default ops2 in
  bv_bits b1 = bv_bits b2 /\
  forall oc, exists e1 e2,
    ssz_serialize oc (TBitlist n) (VBits b1) = Ok e1 /\
    ssz_serialize oc (TBitlist n) (VBits b2) = Ok e2 /\ e1 <> e2 /\
    (* and e1 does not even decode to the same list *)
    ssz_deserialize oc (TBitlist n) e1 <> Ok (VBits b1).
Proof. exact c17_refuted. Qed.
Print Assumptions C17_refuted.

Theorem C17_partial :
  forall oc n b1 b2 l1 l2, n + 8 < 2 ^ 64 ->
  grown oc n b1 l1 -> grown oc n b2 l2 -> bv_bits b1 = bv_bits b2 ->
  b1 = b2 /\ forall oc', ssz_serialize oc' (TBitlist n) (VBits b1) = ssz_serialize oc' (TBitlist n) (VBits b2).
Proof. exact c17_partial. Qed.
Print Assumptions C17_partial.

Theorem C17_exact_partial :
  (* equal bit lists encode alike exactly when their left-over bits agree *)
forall oc n b1 b2, bv_ok b1 = true -> bv_ok b2 = true -> bv_len b1 <= n ->
  bv_bits b1 = bv_bits b2 ->
  (ssz_serialize oc (TBitlist n) (VBits b1) = ssz_serialize oc (TBitlist n) (VBits b2) <->
   dead_bits b1 = dead_bits b2).
Proof. exact c17_exact_partial. Qed.
Print Assumptions C17_exact_partial.

Example C17_exact_example :
  let b1 := apply_bit_ops bitlist_default [BPush true; BPush true; BTruncate 1] in
  let b2 := apply_bit_ops bitlist_default [BPush true; BPush true; BPush true; BTruncate 1] in
  bv_bits b1 = bv_bits b2 /\ dead_bits b1 = repeat false 6 /\ dead_bits b2 = true :: repeat false 5.
Proof.
  cbv zeta. split; [|split]; vm_compute; reflexivity.
Qed.

Example C17_example :
  grown true 8 (apply_bit_op bitlist_default (BPush true)) [true] /\
  grown true 8 (BitVec [x01] 1) (map (fun i => bit_of [x03] (N.of_nat i)) (seq 0 1)) /\
  bv_bits (apply_bit_op bitlist_default (BPush true)) = bv_bits (BitVec [x01] 1).
Proof.
  split; [apply (grown_op _ _ bitlist_default [] (BPush true)); [reflexivity|constructor]|]. split; [|reflexivity].
  apply (grown_decode true 8 [x03] (BitVec [x01] 1)). reflexivity.
Qed.

(** ** C18: bit lists that never shrink behave like bool sequences *)

Theorem C18_growing_bitlists :
  forall oc n b l, n + 8 < 2 ^ 64 -> grown oc n b l ->
  (forall i, bits_get b i = nth_error l (N.to_nat i)) /\
  forall oc', ssz_serialize oc' (TBitlist n) (VBits b) =
    if n <? blen l then Err (SInvalidInstance (Bounded n (blen l))) else Ok (spec_bits (l ++ [true])).
Proof. exact c18_growing_bitlists. Qed.
Print Assumptions C18_growing_bitlists.

Example C18_example :
  exists b, grown true 10 b [false; true; true; false; false; false; false; false; true] /\
  ssz_serialize true (TBitlist 10) (VBits b) = Ok [x06; x03].
Proof.
  eexists. split.
  - refine (grown_op _ _ _ [false; true; true; false; false; false; false; false] (BPush true) eq_refl _).
    refine (grown_op _ _ _ [false; true; false; false; false; false; false; false] (BSet 2 true) eq_refl _).
    apply grown_try_from. reflexivity.
  - vm_compute. reflexivity.
Qed.

(** ** C19: container decoding

[b] decodes exactly when it is the concatenation of the fixed parts (bodies of fixed-size
fields, 4-byte offsets of variable-size fields) and the bodies of variable-size fields in
order, with the offsets the specification assigns. The second theorem spells out what those
offsets are. *)

Theorem C19_container_decode :
  forall oc fs b vs,
  legal (TContainer fs) = true -> blen b < 2 ^ 63 ->
  (ssz_deserialize oc (TContainer fs) b = Ok (VStruct vs) <->
   exists bodies : list bytes,
     length bodies = length fs /\
     let es := combine (map (fun f => spec_variable (snd f)) fs) bodies in
     b = concat (fixed_parts es ++ variable_parts es) /\
     (forall i body, nth_error es i = Some (true, body) -> variable_offset es i < 2 ^ 32) /\
     Forall2 (fun (fb : ty * bytes) v =>
         ssz_deserialize oc (fst fb) (snd fb) = Ok v /\
         (spec_variable (fst fb) = false -> blen (snd fb) = fixed_size (fst fb)))
       (combine (map snd fs) bodies) vs).
Proof. exact c19_container_decode. Qed.
Print Assumptions C19_container_decode.

Theorem C19_offsets :
  forall es,
  (forall i j, (i <= j)%nat -> variable_offset es i <= variable_offset es j) /\
  (forall i, variable_offset es i <= blen (concat (fixed_parts es ++ variable_parts es))) /\
  (forall i body, nth_error es i = Some (true, body) ->
     (forall k b, (k < i)%nat -> nth_error es k = Some (true, b) -> False) ->
     variable_offset es i = total (fixed_lengths es)).
Proof. exact c19_offsets. Qed.
Print Assumptions C19_offsets.

Example C19_example :
  let t := TContainer [("a"%string, TUint U16); ("b"%string, TList (TUint U8) 4); ("c"%string, TBitlist 9)] in
  legal t = true /\
  ssz_deserialize true t [x01; x02; x0a; x00; x00; x00; x0c; x00; x00; x00; x07; x08; x0d] =
  Ok (VStruct [VUint 513; VSeq [VUint 7; VUint 8]; VBits (BitVec [x05] 3)]) /\
  ssz_deserialize true t [x01; x02; x0b; x00; x00; x00; x0c; x00; x00; x00; x07; x08; x0d] <>
  Ok (VStruct [VUint 513; VSeq [VUint 8]; VBits (BitVec [x05] 3)]).
Proof.
  cbv zeta. split; [reflexivity|]. split; [vm_compute; reflexivity|vm_compute; discriminate].
Qed.

(** ** C20: union decoding *)

Theorem C20_union_decode :
  (forall oc vs b, legal (TUnion vs) = true ->
    (forall i x, ssz_deserialize oc (TUnion vs) b = Ok (VVariant i x) <->
       exists u rest, nth_error vs (N.to_nat i) = Some (Some u) /\ i < 256 /\ b = byte_of_N i :: rest /\
         ssz_deserialize oc u rest = Ok x) /\
    (ssz_deserialize oc (TUnion vs) b = Ok VNone <-> b = [x00] /\ exists r, vs = None :: r) /\
    (b = [] -> ssz_deserialize oc (TUnion vs) b = Err (ExpectedFurtherInput 0 1)) /\
    (forall s rest, b = s :: rest -> blen vs <= byte_to_N s ->
       ssz_deserialize oc (TUnion vs) b = Err (InvalidByte s)) /\
    (forall rest r, vs = None :: r -> b = x00 :: rest -> rest <> [] ->
       ssz_deserialize oc (TUnion vs) b = Err (AdditionalInput (blen b) 1))) /\
  (forall oc u b,
    (forall x, ssz_deserialize oc (TOption u) b = Ok (VSome x) <->
       exists rest, b = x01 :: rest /\ ssz_deserialize oc u rest = Ok x) /\
    (ssz_deserialize oc (TOption u) b = Ok VNone <-> b = [x00]) /\
    (b = [] -> ssz_deserialize oc (TOption u) b = Err (ExpectedFurtherInput 0 1)) /\
    (forall s rest, b = s :: rest -> s <> x00 -> s <> x01 ->
       ssz_deserialize oc (TOption u) b = Err (InvalidByte s)) /\
    (forall rest, b = x00 :: rest -> rest <> [] ->
       ssz_deserialize oc (TOption u) b = Err (AdditionalInput (blen b) 1))).
Proof. exact c20_union_decode. Qed.
Print Assumptions C20_union_decode.

Example C20_example :
  let t := TUnion [None; Some (TUint U16); Some (TList TBool 2)] in
  legal t = true /\ ssz_deserialize true t [x02; x01] = Ok (VVariant 2 (VSeq [VBool true])) /\
  ssz_deserialize true t [x00] = Ok VNone /\ ssz_deserialize true t [x03] = Err (InvalidByte x03).
Proof.
  repeat split.
Qed.

(** ** C21: transparent enums *)

Theorem C21_transparent :
  (forall oc ts i u x, nth_error ts (N.to_nat i) = Some u ->
     forall buffer, serialize (serializable oc (TTransparent ts)) (VVariant i x) buffer =
                    serialize (serializable oc u) x buffer) /\
  (forall oc ts b, b <> [] ->
     (forall u p, In u ts -> ssz_deserialize oc u b <> Panic p) ->
     match ssz_deserialize oc (TTransparent ts) b with
     | Ok v => exists i u x,
         v = VVariant i x /\ nth_error ts (N.to_nat i) = Some u /\ ssz_deserialize oc u b = Ok x /\
         forall j w, (N.to_nat i < j)%nat -> nth_error ts j = Some w -> exists e, ssz_deserialize oc w b = Err e
     | Err e => e = NoMatchingVariant /\ forall u, In u ts -> exists e, ssz_deserialize oc u b = Err e
     | Panic _ => False
     end).
Proof. exact c21_transparent. Qed.
Print Assumptions C21_transparent.

Example C21_example :
  let t := TTransparent [TUint U16; TList TBool 2; TUint U8] in
  ssz_deserialize true t [x01; x01] = Ok (VVariant 1 (VSeq [VBool true; VBool true])) /\
  ssz_deserialize true t [x01; x02] = Ok (VVariant 0 (VUint 513)) /\
  ssz_deserialize true t [x01; x02; x03] = Err NoMatchingVariant.
Proof.
  repeat split.
Qed.

(** ** C22: transparent enums round trip: false

A later variant can accept the bytes, and the empty encoding is always rejected. *)

Theorem C22_refuted :
  exists t v1 v2,
  legal t = true /\ valid t v1 /\ valid t v2 /\
  (forall oc, exists b, ssz_serialize oc t v1 = Ok b /\ exists w, ssz_deserialize oc t b = Ok w /\ w <> v1) /\
  (forall oc, exists b, ssz_serialize oc t v2 = Ok b /\ exists e, ssz_deserialize oc t b = Err e).
Proof. exact c22_refuted. Qed.
Print Assumptions C22_refuted.

Theorem C22_partial :
  forall oc ts i u x b,
  legal u = true -> no_transparent u = true -> valid u x -> nth_error ts (N.to_nat i) = Some u ->
  ssz_serialize oc (TTransparent ts) (VVariant i x) = Ok b -> b <> [] ->
  (forall j w, (N.to_nat i < j)%nat -> nth_error ts j = Some w -> exists e, ssz_deserialize oc w b = Err e) ->
  ssz_deserialize oc (TTransparent ts) b = Ok (VVariant i x).
Proof. exact c22_partial. Qed.
Print Assumptions C22_partial.

Example C22_example :
  let ts := [TList TBool 2; TUint U16] in
  legal (TUint U16) = true /\ ssz_serialize true (TTransparent ts) (VVariant 0 (VSeq [VBool true])) = Ok [x01] /\
  ssz_deserialize true (TUint U16) [x01] = Err (ExpectedFurtherInput 1 2) /\
  ssz_deserialize true (TTransparent ts) [x01] = Ok (VVariant 0 (VSeq [VBool true])).
Proof.
  repeat split.
Qed.

(** ** C47: construction enforces bounds *)

Theorem C47_constructors :
  (forall n (l : list val),
     (list_try_from n l = Ok l /\ list_try_from_slice n l = Ok l <-> blen l <= n) /\
     (forall r, list_try_from n l = Ok r -> r = l /\ blen l <= n) /\
     (n < blen l -> list_try_from n l = Err (l, EInstance (Bounded n (blen l))) /\
                    list_try_from_slice n l = Err (EInstance (Bounded n (blen l))))) /\
  (forall n (l : list val),
     (vector_try_from n l = Ok l /\ vector_try_from_slice n l = Ok l <-> 0 < n /\ blen l = n) /\
     (forall r, vector_try_from n l = Ok r -> r = l /\ 0 < n /\ blen l = n) /\
     (0 < n -> blen l <> n -> vector_try_from n l = Err (l, EInstance (Exact n (blen l))) /\
                              vector_try_from_slice n l = Err (EInstance (Exact n (blen l)))) /\
     (n = 0 -> vector_try_from n l = Err (l, EType (InvalidBound 0)) /\
               vector_try_from_slice n l = Err (EType (InvalidBound 0)))) /\
  (forall n l,
     (blen l <= n -> exists b, bitlist_try_from_bools n l = Ok b /\ bv_bits b = l /\ valid (TBitlist n) (VBits b)) /\
     (n < blen l -> bitlist_try_from_bools n l = Err (EInstance (Bounded n (blen l))))) /\
  (forall n l,
     (0 < n -> blen l = n ->
        exists b, bitvector_try_from_bools n l = Ok b /\ bv_bits b = l /\ valid (TBitvector n) (VBits b)) /\
     (blen l <> n -> bitvector_try_from_bools n l = Err (EInstance (Exact n (blen l))))).
Proof. exact c47_constructors. Qed.
Print Assumptions C47_constructors.

Example C47_example :
  list_try_from 2 [VUint 1; VUint 2; VUint 3] = Err ([VUint 1; VUint 2; VUint 3], EInstance (Bounded 2 3)) /\
  vector_try_from 2 [VUint 1; VUint 2] = Ok [VUint 1; VUint 2] /\
  bitvector_try_from_bools 3 [true; false; true] = Ok (BitVec [x05] 3).
Proof.
  repeat split.
Qed.

(** Bitvector<0>::try_from(&[]) does not return an error, it panics (bitvector.rs:58). *)

Theorem C47_bitvector_zero :
  exists p, bitvector_try_from_bools 0 [] = Panic p.
Proof. exact c47_bitvector_zero. Qed.
Print Assumptions C47_bitvector_zero.

(** ** C48: a Vector always serializes N elements: false after push through DerefMut *)

Theorem C48_refuted :
  exists t n l ops,
  legal (TVector t n) = true /\ valid (TVector t n) (VSeq l) /\
  forall oc, exists b, ssz_serialize oc (TVector t n) (VSeq (apply_vec_ops l ops)) = Ok b /\
    blen b <> fixed_size (TVector t n).
Proof. exact c48_refuted. Qed.
Print Assumptions C48_refuted.

Theorem C48_partial :
  forall oc t n l ops,
  legal (TVector t n) = true -> valid (TVector t n) (VSeq l) ->
  forallb (fun o => match o with OpSet _ _ => true | _ => false end) ops = true ->
  Forall (valid t) (apply_vec_ops l ops) ->
  valid (TVector t n) (VSeq (apply_vec_ops l ops)) /\
  forall b, ssz_serialize oc (TVector t n) (VSeq (apply_vec_ops l ops)) = Ok b ->
    spec_serialize (TVector t n) (VSeq (apply_vec_ops l ops)) = Some b.
Proof. exact c48_partial. Qed.
Print Assumptions C48_partial.

Theorem C48_exact_partial :
  (* what is encoded is the elements held, however many, never a part of them *)
forall oc t n l, 0 < n -> blen l < 2 ^ 64 -> legal t = true -> Forall (valid t) l ->
  match spec_serialize (TList t (blen l)) (VSeq l) with
  | Some b => ssz_serialize oc (TVector t n) (VSeq l) = Ok b
  | None => exists k, ssz_serialize oc (TVector t n) (VSeq l) = Err (MaximumEncodedLengthReached k)
  end.
Proof. exact c48_exact_partial. Qed.
Print Assumptions C48_exact_partial.

Example C48_exact_example :
  ssz_serialize true (TVector (TUint U8) 2) (VSeq (apply_vec_ops [VUint 1; VUint 2] [OpPush (VUint 3)])) = Ok [x01; x02; x03] /\
  spec_serialize (TList (TUint U8) 3) (VSeq [VUint 1; VUint 2; VUint 3]) = Some [x01; x02; x03].
Proof.
  split; reflexivity.
Qed.

Example C48_example :
  legal (TVector (TUint U8) 2) = true /\ valid (TVector (TUint U8) 2) (VSeq [VUint 1; VUint 2]) /\
  Forall (valid (TUint U8)) (apply_vec_ops [VUint 1; VUint 2] [OpSet 1 (VUint 9); OpSet 7 (VUint 3)]).
Proof.
  split; [reflexivity|]. split; [solve_valid|]. repeat constructor.
Qed.

(** ** C49: bit access *)

Theorem C49_get_set :
  forall b i v, bv_ok b = true ->
  let r := bits_set b i v in
  snd r = nth_error (bv_bits b) (N.to_nat i) /\
  (i < bv_len b <-> snd r <> None) /\
  bv_ok (fst r) = true /\ bv_len (fst r) = bv_len b /\
  (forall j, bits_get (fst r) j =
     if (j =? i) && (i <? bv_len b) then Some v else bits_get b j) /\
  bv_bits (fst r) = replace (N.to_nat i) v (bv_bits b).
Proof. exact c49_get_set. Qed.
Print Assumptions C49_get_set.

Example C49_example :
  let b := BitVec [x05] 3 in
  bits_set b 1 true = (BitVec [x07] 3, Some false) /\ bits_set b 3 true = (b, None) /\ bv_ok b = true.
Proof.
  repeat split.
Qed.

(** ** C51: decode errors are truthful

In builds without overflow checks the statement needs containers with at most one variable-size
field; otherwise an error can report a wrapped-around length. *)

Theorem C51_truthful_errors :
  forall oc t b e,
  legal t = true -> blen b < 2 ^ 63 -> oc = true \/ single_variable t = true ->
  ssz_deserialize oc t b = Err e -> truthful b e.
Proof. exact c51_truthful_errors. Qed.
Print Assumptions C51_truthful_errors.

Example C51_example :
  legal sample_ty = true /\ exists e, ssz_deserialize true sample_ty [x01; x02] = Err e.
Proof.
  split; [reflexivity|]. eexists. vm_compute. reflexivity.
Qed.

Theorem C51_release_refuted :
  exists t b provided expected,
  legal t = true /\ ssz_deserialize false t b = Err (ExpectedFurtherInput provided expected) /\
  expected < provided /\ blen b < provided.
Proof. exact c51_release_refuted. Qed.
Print Assumptions C51_release_refuted.

(** ** C52: default values are legal, serialize (unless they need 2^32 bytes) and round-trip *)

Theorem C52_defaults :
  forall oc t, legal t = true -> has_default t = true ->
  exists v, default_value t = Ok v /\ valid t v /\
    match ssz_serialize oc t v with
    | Ok b => spec_serialize t v = Some b /\ (no_transparent t = true -> ssz_deserialize oc t b = Ok v)
    | Err e => exists n, e = MaximumEncodedLengthReached n /\ too_big t v n
    | Panic _ => False
    end.
Proof. exact c52_defaults. Qed.
Print Assumptions C52_defaults.

Example C52_example :
  legal sample_ty = true /\ has_default sample_ty = true /\
  default_value (TContainer [("a"%string, TVector (TUint U8) 2); ("b"%string, TBitvector 3); ("c"%string, TOption TBool)])
  = Ok (VStruct [VSeq [VUint 0; VUint 0]; VBits (BitVec [x00] 3); VNone]).
Proof.
  repeat split.
Qed.

(** ** C53: a newtype is encoded as its content (codec part) *)

Theorem C53_newtype_codec :
  forall oc t,
  is_variable_size (serializable oc (TNewtype t)) = is_variable_size (serializable oc t) /\
  size_hint (serializable oc (TNewtype t)) = size_hint (serializable oc t) /\
  (forall x buffer, serialize (serializable oc (TNewtype t)) (VNewtype x) buffer =
                    serialize (serializable oc t) x buffer) /\
  (forall b x, ssz_deserialize oc (TNewtype t) b = Ok (VNewtype x) <-> ssz_deserialize oc t b = Ok x) /\
  (forall b e, ssz_deserialize oc (TNewtype t) b = Err e <-> ssz_deserialize oc t b = Err e).
Proof. exact c53_newtype_codec. Qed.
Print Assumptions C53_newtype_codec.

Example C53_example :
  ssz_deserialize true (TNewtype (TUint U16)) [x01; x02] = Ok (VNewtype (VUint 513)).
Proof.
  reflexivity.
Qed.

(** ** C54: Bitlists of every bound decode: false near 2^64

[byte_length] computes N + 8, which overflows: a panic with overflow checks, and without them
every input is rejected, so even the encoding of the empty bit list does not decode.
C16 holds for all smaller bounds. *)

Theorem C54_refuted :
  exists n b, n < 2 ^ 64 /\
  (forall oc, ssz_serialize oc (TBitlist n) (VBits b) = Ok [x01]) /\ valid (TBitlist n) (VBits b) /\
  (exists p, ssz_deserialize true (TBitlist n) [x01] = Panic p) /\
  (exists e, ssz_deserialize false (TBitlist n) [x01] = Err e).
Proof. exact c54_refuted. Qed.
Print Assumptions C54_refuted.

Theorem C54_partial :
  forall oc1 oc2 n b, n + 8 < 2 ^ 64 -> valid (TBitlist n) (VBits b) ->
  exists e, ssz_serialize oc1 (TBitlist n) (VBits b) = Ok e /\ ssz_deserialize oc2 (TBitlist n) e = Ok (VBits b).
Proof. exact c54_partial. Qed.
Print Assumptions C54_partial.

Example C54_example :
  valid (TBitlist 9) (VBits (bits_of [true; false; true])).
Proof.
  solve_valid.
Qed.

(** ** C63: what is decoded is not larger than the input

[encoded_bytes] counts the bytes of the encoding, [nodes] the values inside a value (SpecSize.v). *)

Theorem C63_no_amplification :
  forall oc t b v, legal t = true -> blen b < 2 ^ 63 -> ssz_deserialize oc t b = Ok v ->
  encoded_bytes t v <= blen b /\
  nodes v <= height t * N.max 1 (blen b) /\
  (forall oc2 e, ssz_serialize oc2 t v = Ok e -> blen e = encoded_bytes t v).
Proof. exact c63_no_amplification. Qed.
Print Assumptions C63_no_amplification.

Example C63_example :
  (* a first offset of 0: seven bytes are read as an empty list, whose encoding is empty *)
  let t := TList (TList (TUint U8) 4) 4 in let b := [x00; x00; x00; x00; x01; x02; x03] in
  ssz_deserialize true t b = Ok (VSeq []) /\ encoded_bytes t (VSeq []) = 0 /\
  (* the bound on the number of values is reached *)
  ssz_deserialize true (TList (TUint U8) 4) [x07] = Ok (VSeq [VUint 7]) /\
  nodes (VSeq [VUint 7]) = 2 /\ height (TList (TUint U8) 4) = 2.
Proof.
  repeat split.
Qed.

(** ** C64: raising bounds and adding variants keeps encodings

[wider] (SpecAlike.v): the same type with larger bounds of lists and bit lists and further variants
at the end of unions, at any depth. *)

Theorem C64_wider_types :
  forall t t', wider t t' -> legal t = true -> legal t' = true ->
  (forall oc v, valid t v -> valid t' v /\ ssz_serialize oc t' v = ssz_serialize oc t v) /\
  (forall oc b v, blen b < 2 ^ 63 -> ssz_deserialize oc t b = Ok v -> ssz_deserialize oc t' b = Ok v) /\
  (forall oc b v, blen b < 2 ^ 63 -> ssz_deserialize oc t' b = Ok v ->
     (ssz_deserialize oc t b = Ok v <-> valid t v)).
Proof. exact c64_wider_types. Qed.
Print Assumptions C64_wider_types.

Example C64_example :
  let t := TContainer [("a", TList (TUint U8) 2); ("b", TUnion [None; Some (TBitlist 3)])]%string in
  let t' := TContainer [("a", TList (TUint U8) 9); ("b", TUnion [None; Some (TBitlist 5); Some TBool])]%string in
  wider t t' /\ legal t = true /\ legal t' = true /\
  ssz_deserialize true t [x08; x00; x00; x00; x0a; x00; x00; x00; x01; x02; x01; x0d] =
    Ok (VStruct [VSeq [VUint 1; VUint 2]; VVariant 1 (VBits (bits_of [true; false; true]))]) /\
  (* a value of the wider type only *)
  ssz_deserialize true t [x08; x00; x00; x00; x09; x00; x00; x00; x01; x02; x01] = Err (InvalidByte x02) /\
  ssz_deserialize true t' [x08; x00; x00; x00; x09; x00; x00; x00; x01; x02; x01] =
    Ok (VStruct [VSeq [VUint 1]; VVariant 2 (VBool true)]).
Proof.
  cbn zeta. split; [|repeat split].
  repeat constructor; cbn; discriminate || reflexivity.
Qed.

(** ** C65: how a type is presented to Rust does not matter (codec part)

[core] (SpecAlike.v) writes arrays as Vectors, Options as unions and newtypes as their content, at
any depth. *)

Theorem C65_presentation_codec :
  forall t, legal t = true -> legal (core t) = true /\
  (forall oc v buffer, typed t v -> typed (core t) (core_val v) /\
     serialize (serializable oc (core t)) (core_val v) buffer = serialize (serializable oc t) v buffer) /\
  (forall oc b, blen b < 2 ^ 63 ->
     match ssz_deserialize oc t b with
     | Ok v => ssz_deserialize oc (core t) b = Ok (core_val v)
     | Err _ => exists e, ssz_deserialize oc (core t) b = Err e
     | Panic _ => exists p, ssz_deserialize oc (core t) b = Panic p
     end).
Proof. exact c65_presentation_codec. Qed.
Print Assumptions C65_presentation_codec.

Example C65_example :
  let t := TContainer [("a", TArray (TNewtype (TUint U8)) 2); ("b", TOption (TArray TBool 1))]%string in
  legal t = true /\
  core t = TContainer [("a", TVector (TUint U8) 2); ("b", TUnion [None; Some (TVector TBool 1)])]%string /\
  ssz_deserialize true t [x01; x02; x06; x00; x00; x00; x01; x01] =
    Ok (VStruct [VSeq [VNewtype (VUint 1); VNewtype (VUint 2)]; VSome (VSeq [VBool true])]) /\
  ssz_deserialize true (core t) [x01; x02; x06; x00; x00; x00; x01; x01] =
    Ok (VStruct [VSeq [VUint 1; VUint 2]; VVariant 1 (VSeq [VBool true])]).
Proof.
  repeat split.
Qed.

(** ** C71: encodings are neither smaller nor larger than the type allows

[least_bytes] and [most_bytes] (SpecSize.v) are computed from the type alone. *)

Theorem C71_size_bounds :
  forall oc t, legal t = true ->
  (forall v e, valid t v -> ssz_serialize oc t v = Ok e -> least_bytes t <= blen e <= most_bytes t) /\
  (least_bytes t < 2 ^ 32 -> exists v e, valid t v /\ ssz_serialize oc t v = Ok e /\ blen e = least_bytes t) /\
  (most_bytes t < 2 ^ 32 -> exists v e, valid t v /\ ssz_serialize oc t v = Ok e /\ blen e = most_bytes t) /\
  (most_bytes t < 2 ^ 32 -> forall v, valid t v -> exists e, ssz_serialize oc t v = Ok e) /\
  (forall b v, blen b < 2 ^ 63 -> ssz_deserialize oc t b = Ok v -> least_bytes t <= blen b) /\
  (forall b v, no_variable_list t = true -> blen b < 2 ^ 32 -> ssz_deserialize oc t b = Ok v -> blen b <= most_bytes t).
Proof. exact c71_size_bounds. Qed.
Print Assumptions C71_size_bounds.

Example C71_example :
  let t := TContainer [("a"%string, TList (TUint U16) 4); ("b"%string, TUnion [None; Some (TBitlist 9); Some TU256]); ("c"%string, TVector TBool 3)] in
  legal t = true /\ no_variable_list t = true /\ least_bytes t = 4 + 4 + 3 + 0 + 1 /\ most_bytes t = 4 + 4 + 3 + 8 + 33 /\
  ssz_serialize true t (VStruct [VSeq []; VNone; VSeq [VBool true; VBool true; VBool false]]) = Ok [x0b; x00; x00; x00; x0b; x00; x00; x00; x01; x01; x00; x00] /\
  (* the upper bound fails for inputs of lists of variable-size elements, see C04 *)
  (let u := TList (TList (TUint U8) 4) 3 in let b := zeros 4 ++ repeat xff 100 in
   most_bytes u = 24 /\ blen b = 104 /\ ssz_deserialize true u b = Ok (VSeq [])).
Proof.
  cbv zeta. repeat split.
Qed.

(** ** C76: equal values have equal encodings: false

[==] on the bit types ignores the bits that are stored beyond the length (Compare.v); [serialize]
writes them, see C17. *)

Theorem C76_refuted :
  exists n ops1 ops2,
  let v := VBits (apply_bit_ops bitlist_default ops1) in
  let w := VBits (apply_bit_ops bitlist_default ops2) in
  legal (TBitlist n) = true /\ typed (TBitlist n) v /\ typed (TBitlist n) w /\
  ssz_eq v w = true /\
  forall oc, exists e1 e2,
    ssz_serialize oc (TBitlist n) v = Ok e1 /\ ssz_serialize oc (TBitlist n) w = Ok e2 /\ e1 <> e2.
Proof. exact c76_refuted. Qed.
Print Assumptions C76_refuted.

(** [==] decides [same_value] (SpecCompare.v), an equivalence that ignores nothing but those bits. For
valid values it is equality, and the encodings are equal exactly when the values are. *)

Theorem C76_same_value :
  (forall v w, ssz_eq v w = true <-> same_value v w) /\
(forall v, ssz_eq v v = true) /\
(forall v w, ssz_eq v w = true -> ssz_eq w v = true) /\
(forall u v w, ssz_eq u v = true -> ssz_eq v w = true -> ssz_eq u w = true).
Proof. exact c76_same_value. Qed.
Print Assumptions C76_same_value.

Theorem C76_partial :
  forall oc1 oc2 t v w, legal t = true -> valid t v -> valid t w ->
  (ssz_eq v w = true <-> v = w) /\
  forall e1 e2, ssz_serialize oc1 t v = Ok e1 -> ssz_serialize oc2 t w = Ok e2 ->
    (ssz_eq v w = true -> e1 = e2) /\
    (no_transparent t = true -> e1 = e2 -> ssz_eq v w = true).
Proof. exact c76_partial. Qed.
Print Assumptions C76_partial.

Example C76_example :
  let t := TContainer [("a", TList (TUint U16) 4); ("b", TOption (TBitlist 9))]%string in
let v := VStruct [VSeq [VUint 1; VUint 2]; VSome (VBits (bits_of [true; false; true]))] in
let w := VStruct [VSeq [VUint 1; VUint 2]; VSome (VBits (BitVec [x0d] 3))] in
let u := VStruct [VSeq [VUint 1; VUint 3]; VSome (VBits (bits_of [true; false; true]))] in
  legal t = true /\ no_transparent t = true /\ valid t v /\ valid t u /\ typed t w /\
  ssz_eq v v = true /\ ssz_eq v u = false /\ ssz_eq v w = true /\ v <> w /\
  ssz_serialize true t v = Ok [x08; x00; x00; x00; x0c; x00; x00; x00; x01; x00; x02; x00; x01; x0d].
Proof.
  cbv zeta. split; [reflexivity|]. split; [reflexivity|]. split; [solve_valid|]. split; [solve_valid|].
  split; [repeat constructor|]. do 3 (split; [vm_compute; reflexivity|]). split; [discriminate|vm_compute; reflexivity].
Qed.

(** ** C77: values of a type are totally ordered, consistently with equality

[value_before] (SpecCompare.v) is the documented order: lexicographic for sequences, bits, bytes
and fields, by position and then contents for variants. *)

Theorem C77_total_order :
  forall t u v w, typed t u -> typed t v -> typed t w ->
  (ssz_cmp u v = Eq <-> ssz_eq u v = true) /\
  (ssz_cmp u v = Lt <-> value_before u v) /\
  (ssz_cmp u v = Gt <-> value_before v u) /\
  (ssz_cmp u v <> Gt -> ssz_cmp v w <> Gt -> ssz_cmp u w <> Gt) /\
  (ssz_cmp u v <> Gt -> ssz_cmp v w <> Gt -> ssz_cmp u w = Eq -> ssz_eq u v = true /\ ssz_eq v w = true).
Proof. exact c77_total_order. Qed.
Print Assumptions C77_total_order.

Example C77_example :
  let t := TContainer [("a", TList (TUint U16) 4); ("b", TOption (TBitlist 9))]%string in
let v := VStruct [VSeq [VUint 1; VUint 2]; VNone] in
let w := VStruct [VSeq [VUint 1; VUint 2]; VSome (VBits (bits_of [true; false; true]))] in
let u := VStruct [VSeq [VUint 1; VUint 2; VUint 0]; VNone] in
  typed t v /\ typed t w /\ typed t u /\ ssz_cmp v w = Lt /\ ssz_cmp w u = Lt /\ ssz_cmp u v = Gt /\
  (* numbers are not compared by their encodings *)
  ssz_cmp (VUint 255) (VUint 256) = Lt /\
  ssz_cmp (VBits (BitVec [x02] 2)) (VBits (BitVec [x01] 2)) = Lt.
Proof.
  cbv zeta. do 3 (split; [repeat constructor|]). repeat split.
Qed.

(** ** C80: the work of decoding is linear in the input

[decode_c] (DeCost.v) is [deserialize] with a counter: every call of a [deserialize], also for elements,
fields and variants and also when it fails, counts the bytes it is given, at least 1. [effort]
(SpecEffort.v) depends on the type only. It is the height of the type, except that a transparent enum
needs the effort of all its variants together. So [deserialize] of nested transparent enums takes
exponential time in the depth, for an input of one byte.

[passes] (SpecEffort.v) are the bytes of a value and of all values inside it. An input that is decoded takes at
least this work, and exactly this if it is the encoding of the value. *)

Theorem C80_linear :
  forall oc t b, fst (decode_c oc t b) = ssz_deserialize oc t b /\
  (legal t = true -> blen b < 2 ^ 63 ->
   snd (decode_c oc t b) <= effort t * N.max 1 (blen b) /\
   (no_transparent t = true -> snd (decode_c oc t b) <= height t * N.max 1 (blen b))).
Proof. exact c80_linear. Qed.
Print Assumptions C80_linear.

Theorem C80_transparent :
  forall oc d, legal (twofold d) = true /\ height (twofold d) = N.of_nat d + 1 /\
  (exists e, ssz_deserialize oc (twofold d) [x02] = Err e) /\
  snd (decode_c oc (twofold d) [x02]) = 2 ^ (N.of_nat d + 1) - 1 /\
  effort (twofold d) = 2 ^ (N.of_nat d + 1) - 1.
Proof. exact c80_transparent. Qed.
Print Assumptions C80_transparent.

Theorem C80_exact :
  forall oc t b v, legal t = true -> blen b < 2 ^ 63 -> ssz_deserialize oc t b = Ok v ->
  passes t v <= snd (decode_c oc t b) /\
  (no_transparent t = true -> forall oc2, ssz_serialize oc2 t v = Ok b -> snd (decode_c oc t b) = passes t v).
Proof. exact c80_exact. Qed.
Print Assumptions C80_exact.

Theorem C80_round_trip :
  forall oc1 oc2 t v b, legal t = true -> no_transparent t = true -> valid t v -> ssz_serialize oc1 t v = Ok b -> blen b < 2 ^ 63 ->
  decode_c oc2 t b = (Ok v, passes t v).
Proof. exact c80_round_trip. Qed.
Print Assumptions C80_round_trip.

Example C80_example :
  let t := TContainer [("a", TList (TList (TUint U16) 4) 4); ("b", TBool)]%string in
let b := [x05; x00; x00; x00; x01; x08; x00; x00; x00; x0c; x00; x00; x00; x01; x00; x02; x00; x03; x00] in
  legal t = true /\ no_transparent t = true /\ height t = 4 /\ blen b = 19 /\
  ssz_deserialize true t b = Ok (VStruct [VSeq [VSeq [VUint 1; VUint 2]; VSeq [VUint 3]]; VBool true]) /\
  (* 19 for the container, 14 for the list, 4 + 2 for its elements, 6 for the numbers and 1 for the bool *)
  snd (decode_c true t b) = 46 /\
  passes t (VStruct [VSeq [VSeq [VUint 1; VUint 2]; VSeq [VUint 3]]; VBool true]) = 46 /\
  (* the bound is reached *)
  snd (decode_c true (TNewtype (TNewtype (TList (TUint U8) 9))) [x01; x02; x03]) = 12 /\
  height (TNewtype (TNewtype (TList (TUint U8) 9))) = 4 /\
  snd (decode_c true (twofold 9) [x02]) = 1023.
Proof.
  cbv zeta. repeat apply conj; vm_compute; reflexivity.
Qed.

(** ** C81: the bytes of a part

[reach t v place] is the part of [v] at a place, [put v place x] is [v] with [x] there. [locate]
(SpecAccess.v) finds the bytes of the part by following offsets, without decoding anything else. The bytes
of a part can be replaced in place by those of another value that has as many. *)

Theorem C81_access :
  forall oc t v b place u x,
  legal t = true -> valid t v -> ssz_serialize oc t v = Ok b -> reach t v place = Some (u, x) ->
  exists pre c post, b = pre ++ c ++ post /\ ssz_serialize oc u x = Ok c /\
    (no_transparent t = true -> locate t b place = Some (u, blen pre, blen c) /\ ssz_deserialize oc u c = Ok x).
Proof. exact c81_access. Qed.
Print Assumptions C81_access.

Theorem C81_replace :
  forall oc t v b place u x,
  legal t = true -> valid t v -> ssz_serialize oc t v = Ok b -> reach t v place = Some (u, x) ->
  exists pre c post, b = pre ++ c ++ post /\ ssz_serialize oc u x = Ok c /\
    forall x' c', valid u x' -> ssz_serialize oc u x' = Ok c' -> blen c' = blen c ->
      valid t (put v place x') /\ reach t (put v place x') place = Some (u, x') /\
      ssz_serialize oc t (put v place x') = Ok (pre ++ c' ++ post) /\
      (no_transparent t = true -> ssz_deserialize oc t (pre ++ c' ++ post) = Ok (put v place x')).
Proof. exact c81_replace. Qed.
Print Assumptions C81_replace.

Example C81_example :
  let t := TContainer [("a", TUint U16); ("b", TList (TUnion [None; Some (TList (TUint U8) 9)]) 4); ("c", TBitlist 9)]%string in
let v := VStruct [VUint 7; VSeq [VNone; VVariant 1 (VSeq [VUint 1; VUint 2; VUint 3])]; VBits (bits_of [true; false])] in
let place := [1; 1; 0] in
let x' := VSeq [VUint 4; VUint 5; VUint 6] in
  legal t = true /\ no_transparent t = true /\ valid t v /\ valid (TList (TUint U8) 9) x' /\
  reach t v place = Some (TList (TUint U8) 9, VSeq [VUint 1; VUint 2; VUint 3]) /\
  ssz_serialize true t v = Ok [x07; x00; x0a; x00; x00; x00; x17; x00; x00; x00;
    x08; x00; x00; x00; x09; x00; x00; x00; x00; x01; x01; x02; x03; x05] /\
  locate t [x07; x00; x0a; x00; x00; x00; x17; x00; x00; x00;
    x08; x00; x00; x00; x09; x00; x00; x00; x00; x01; x01; x02; x03; x05] place = Some (TList (TUint U8) 9, 20, 3) /\
  ssz_deserialize true t [x07; x00; x0a; x00; x00; x00; x17; x00; x00; x00;
    x08; x00; x00; x00; x09; x00; x00; x00; x00; x01; x04; x05; x06; x05] = Ok (put v place x').
Proof.
  cbv zeta. split; [reflexivity|]. split; [reflexivity|]. split; [solve_valid|]. split; [solve_valid|].
  repeat apply conj; vm_compute; reflexivity.
Qed.

(** ** C82: the work of encoding is linear in the encoding

[encode_c] (SerCost.v) is [serialize] with a counter of all bytes that are written: to the buffer of the
caller, to the buffers of elements, and to the variable part of a serializer. A byte is written at most
twice for every level of the type above it. Nested lists reach this, so the work is the product of the length
and the depth. If the value has an encoding the work is exactly [copies] (SpecEffort.v), whatever was in the buffer. *)

Theorem C82_linear :
  forall oc t v buf, fst (encode_c oc t v buf) = serialize (serializable oc t) v buf /\
  (legal t = true -> valid t v ->
   snd (encode_c oc t v buf) <= (2 * height t - 1) * encoded_bytes t v /\
   forall b, ssz_serialize oc t v = Ok b -> snd (encode_c oc t v buf) <= (2 * height t - 1) * blen b).
Proof. exact c82_linear. Qed.
Print Assumptions C82_linear.

Theorem C82_depth :
  forall oc d n b, let leaf := bv_len b / 8 + 1 in let depth := N.of_nat d in
  let t := boxed_ty d (TBitlist n) in let v := boxed d (VBits b) in
  legal (TBitlist n) = true -> valid (TBitlist n) (VBits b) -> leaf + 4 * depth < 2 ^ 32 ->
  legal t = true /\ valid t v /\ height t = depth + 1 /\
  (exists c, ssz_serialize oc t v = Ok c /\ blen c = leaf + 4 * depth) /\
  forall buf, snd (encode_c oc t v buf) = (2 * height t - 1) * leaf + 4 * depth * depth.
Proof. exact c82_depth. Qed.
Print Assumptions C82_depth.

Theorem C82_exact :
  forall oc t v b buf, legal t = true -> valid t v -> ssz_serialize oc t v = Ok b ->
  encode_c oc t v buf = ((buf ++ b, Ok (blen b)), copies t v).
Proof. exact c82_exact. Qed.
Print Assumptions C82_exact.

Example C82_example :
  let t := TContainer [("a", TList (TList (TUint U16) 4) 4); ("b", TBool)]%string in
let v := VStruct [VSeq [VSeq [VUint 1; VUint 2]; VSeq [VUint 3]]; VBool true] in
  legal t = true /\ valid t v /\ height t = 4 /\ encoded_bytes t v = 19 /\
  ssz_serialize true t v = Ok [x05; x00; x00; x00; x01; x08; x00; x00; x00; x0c; x00; x00; x00; x01; x00; x02; x00; x03; x00] /\
  (* 6 for the numbers, twice 6 for the inner lists, twice 14 for the outer list, 1 for the bool and 19 for the container *)
  snd (encode_c true t v []) = 66 /\ copies t v = 66 /\
  (let leaf := TBitlist 100 in let x := VBits (bits_of (repeat true 79)) in
   legal leaf = true /\ valid leaf x /\ encoded_bytes leaf x = 10 /\
   snd (encode_c true (boxed_ty 6 leaf) (boxed 6 x) []) = 13 * 10 + 4 * 6 * 6).
Proof.
  cbv zeta. split; [reflexivity|]. split; [solve_valid|]. split; [reflexivity|]. split; [reflexivity|]. split; [vm_compute; reflexivity|].
  split; [vm_compute; reflexivity|]. split; [vm_compute; reflexivity|]. split; [reflexivity|]. split; [solve_valid|]. split; vm_compute; reflexivity.
Qed.

(** ** C85: builds with and without overflow checks agree

Whatever a build with overflow checks and debug assertions does other than fail such a check, a build
without them does too: the same value, the same error or the same other panic, and the same bytes in
the buffer. For all types and values, also illegal ones. *)

Theorem C85_codec :
  forall t v b buf,
  modes_agree (ssz_serialize true t v) (ssz_serialize false t v) /\
  writes_agree (serialize (serializable true t) v buf) (serialize (serializable false t) v buf) /\
  modes_agree (ssz_deserialize true t b) (ssz_deserialize false t b).
Proof. exact c85_codec. Qed.
Print Assumptions C85_codec.

Example C85_codec_example :
  let t := TContainer [("a"%string, TList TBool 4); ("b"%string, TBitlist 9)] in
let b := [xff; x00; x00; x00; xff; x00; x00; x00] in
  (* the same value, the same error and the same panic *)
  ssz_deserialize true (TList (TUint U16) 2) [x01; x02] = Ok (VSeq [VUint 513]) /\
  ssz_deserialize false (TList (TUint U16) 2) [x01; x02] = Ok (VSeq [VUint 513]) /\
  ssz_deserialize true (TList (TUint U16) 2) [x01] = ssz_deserialize false (TList (TUint U16) 2) [x01] /\
  (exists e, ssz_deserialize false (TList (TUint U16) 2) [x01] = Err e) /\
  (* a check that fails *)
  ssz_deserialize true t b = Panic POverflow /\ (exists e, ssz_deserialize false t b = Err e).
Proof.
  cbv zeta. split; [vm_compute; reflexivity|]. split; [vm_compute; reflexivity|]. split; [vm_compute; reflexivity|].
  split; [eexists; vm_compute; reflexivity|]. split; [vm_compute; reflexivity|]. eexists; vm_compute; reflexivity.
Qed.

(** ** C86: errors name a fault of the input

[fault] is defined in SpecFault.v. Every error of the decoder is one, with the numbers and bytes that are
in the input, of the whole input or of the piece of some part. An input with any fault is not decoded. *)

Theorem C86_faults :
  forall oc t b, legal t = true -> blen b < 2 ^ 63 ->
  (forall e, ssz_deserialize oc t b = Err e -> fault oc t b e) /\
  (forall e v, fault oc t b e -> ssz_deserialize oc t b <> Ok v).
Proof. exact c86_faults. Qed.
Print Assumptions C86_faults.

Theorem C86_every_rejection :
  forall oc t b, legal t = true -> blen b < 2 ^ 63 -> (forall p, ssz_deserialize oc t b <> Panic p) ->
  ((forall v, ssz_deserialize oc t b <> Ok v) <-> exists e, fault oc t b e).
Proof. exact c86_every_rejection. Qed.
Print Assumptions C86_every_rejection.

Example C86_example :
  let l := TList (TUint U8) 5 in
let c := TContainer [("a"%string, TUint U16); ("b"%string, l); ("c"%string, TVector l 3)] in
  legal c = true /\
  (* two elements instead of three *)
  ssz_deserialize true (TVector l 3) [x08; x00; x00; x00; x08; x00; x00; x00] = Err (DInvalidInstance (Exact 3 2)) /\
  (* the third field starts before the second *)
  ssz_deserialize true c [x01; x02; x0a; x00; x00; x00; x09; x00; x00; x00; x07] = Err (OffsetNotIncreasing 10 9) /\
  (* inside the third field *)
  ssz_deserialize true c [x01; x02; x0a; x00; x00; x00; x0b; x00; x00; x00; x07; x06; x00; x00; x00; x00; x00] =
    Err (InvalidOffsetsLength 6) /\
  (* the head ends inside the second field *)
  ssz_deserialize true c [x01; x02; x0a] = Err (ExpectedFurtherInput 1 4) /\
  (* six elements in the second field *)
  ssz_deserialize true c [x01; x02; x0a; x00; x00; x00; x10; x00; x00; x00; x01; x02; x03; x04; x05; x06] =
    Err (DInvalidInstance (Bounded 5 6)).
Proof.
  cbv zeta. split; [reflexivity|]. do 4 (split; [vm_compute; reflexivity|]). vm_compute. reflexivity.
Qed.

(** ** C88: where encodings end

An encoding of a type that shows its end is not the beginning of another encoding of this type, so an input that was cut
off or to which bytes were added is not taken for another value. *)

Theorem C88_prefix_free :
  forall oc1 oc2 t v w b x,
  legal t = true -> self_delimiting t = true -> valid t v -> valid t w ->
  ssz_serialize oc1 t v = Ok b -> ssz_serialize oc2 t w = Ok (b ++ x) ->
  x = [] /\ (no_transparent t = true -> v = w).
Proof. exact c88_prefix_free. Qed.
Print Assumptions C88_prefix_free.

Theorem C88_cut_off :
  forall oc1 oc2 t b x v,
  legal t = true -> self_delimiting t = true -> no_variable_list t = true -> blen (b ++ x) < 2 ^ 32 -> x <> [] ->
  (ssz_deserialize oc1 t (b ++ x) = Ok v -> forall w, ssz_deserialize oc2 t b <> Ok w) /\
  (ssz_deserialize oc1 t b = Ok v -> forall w, ssz_deserialize oc2 t (b ++ x) <> Ok w).
Proof. exact c88_cut_off. Qed.
Print Assumptions C88_cut_off.

Example C88_example :
  let t := TContainer [("a", TList (TUint U8) 9); ("b", TUnion [None; Some (TUint U16)]); ("c", TBool)]%string in
let b := [x09; x00; x00; x00; x0b; x00; x00; x00; x01; x05; x06; x01; x07; x00] in
  legal t = true /\ self_delimiting t = true /\ no_variable_list t = true /\ spec_variable t = true /\
  ssz_deserialize true t b = Ok (VStruct [VSeq [VUint 5; VUint 6]; VVariant 1 (VUint 7); VBool true]) /\
  (* lists do not show their end *)
  self_delimiting (TList (TUint U8) 9) = false /\
  ssz_deserialize true (TList (TUint U8) 9) [x05] = Ok (VSeq [VUint 5]) /\
  ssz_deserialize true (TList (TUint U8) 9) [x05; x06] = Ok (VSeq [VUint 5; VUint 6]).
Proof.
  cbv zeta. repeat apply conj; vm_compute; reflexivity.
Qed.
