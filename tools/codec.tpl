@head lemmas
(** Proofs of the codec properties. The statements are repeated in PropCodec.v. *)
From Coq Require Import String.
From Coq Require Import List NArith ZArith Bool Lia ZifyBool ZifyNat ZifyN.
From Coq Require Import Strings.Byte.
From Verif Require Import Prelude Types Bitvec Ser De Impls Api Valid SpecSer SpecErr SpecAccept SpecApi SpecDecode SpecWrite SpecAlike SpecSize SpecEffort SpecAccess DeCost SerCost Compare SpecCompare
  Lib BitsLib SerProof SerSpec DeProof ConProof BitsDe RoundTrip DecValid Accept SerAny DeErr ReadProof WriteProof
  SizeHint SizeHintProof AlikeProof SizeProof DeCostProof DeExact SerCostProof SerExact CompareProof CodecFacts SpecPrefix PrefixProof SpecFault FaultProof AccessProof SpecModes ModesProof Samples.
Import ListNotations.
Open Scope N_scope.

Ltac Zify.zify_post_hook ::= Z.div_mod_to_equations.

@head theorems
(** Properties of serialization and deserialization. Only theorems, each proved in CodecThms.v,
    and examples that show their hypotheses can be met.

    [oc] is true in builds with overflow checks. [legal], [valid] and [typed] are defined in
    Valid.v, [spec_serialize] in SpecSer.v. *)
From Coq Require Import String.
From Coq Require Import List NArith Bool Lia.
From Coq Require Import Strings.Byte.
From Verif Require Import Prelude Types Bitvec Ser De Impls Api Valid SpecSer SpecErr SpecAccept SpecApi SpecDecode SpecWrite SpecAlike SpecSize SpecEffort SpecAccess DeCost SerCost Compare SpecCompare
  SpecModes SizeHint CodecFacts SpecPrefix SpecFault CodecThms Samples.
Import ListNotations.
Open Scope N_scope.

@raw
Lemma ssz_serialize_spec oc t v :
  legal t = true -> valid t v ->
  match spec_serialize t v with
  | Some b => ssz_serialize oc t v = Ok b
  | None => exists n, ssz_serialize oc t v = Err (MaximumEncodedLengthReached n) /\ too_big t v n
  end.
Proof.
  intros HL HV. pose proof (serialize_spec oc t HL v HV []) as H. unfold ssz_serialize, serialize_to_vec.
  destruct (spec_serialize t v) as [b|]; [rewrite H; reflexivity|].
  destruct H as (n & ext & H & Hb). rewrite H. eauto.
Qed.

Lemma ssz_serialize_ok_spec oc t v b :
  legal t = true -> valid t v -> ssz_serialize oc t v = Ok b -> spec_serialize t v = Some b.
Proof.
  intros HL HV HS. pose proof (ssz_serialize_spec oc t v HL HV) as H.
  destruct (spec_serialize t v); [congruence|]. destruct H as (n & H & _). congruence.
Qed.

@text
** C01: round trip

@thm C01_round_trip
forall oc1 oc2 t v b,
  legal t = true -> no_transparent t = true -> valid t v ->
  ssz_serialize oc1 t v = Ok b -> ssz_deserialize oc2 t b = Ok v
@proof
  intros oc1 oc2 t v b HL HN HV HS. apply decode_encode; auto. eapply ssz_serialize_ok_spec; eauto.

@example C01_example
legal sample_ty = true /\ no_transparent sample_ty = true /\ valid sample_ty sample_val /\
  exists b, ssz_serialize true sample_ty sample_val = Ok b /\ ssz_deserialize false sample_ty b = Ok sample_val
@proof
  split; [reflexivity|]. split; [reflexivity|]. split; [apply sample_valid|].
  eexists. split; [vm_compute; reflexivity|vm_compute; reflexivity].

@text
** C02: the encoding of the SSZ specification

@thm C02_encoding_follows_spec
forall oc t v b buffer,
  legal t = true -> valid t v -> spec_serialize t v = Some b ->
  serialize (serializable oc t) v buffer = (buffer ++ b, Ok (blen b))
@proof
  intros oc t v b buf HL HV HS. pose proof (serialize_spec oc t HL v HV buf) as H. rewrite HS in H. exact H.

@example C02_example
legal sample_ty = true /\ valid sample_ty sample_val /\
  spec_serialize (TContainer [("a"%string, TUint U16); ("b"%string, TList (TUint U8) 4); ("c"%string, TBitlist 9)])
    (VStruct [VUint 513; VSeq [VUint 7; VUint 8]; VBits (bits_of [true; false; true])])
  = Some [x01; x02; x0a; x00; x00; x00; x0c; x00; x00; x00; x07; x08; x0d]
@proof
  split; [reflexivity|]. split; [apply sample_valid|]. vm_compute. reflexivity.

@text
** C03: accepted encodings are canonical when no list has variable-size elements

@thm C03_canonical
forall oc1 oc2 t b v,
  legal t = true -> no_variable_list t = true -> blen b < 2 ^ 32 ->
  ssz_deserialize oc1 t b = Ok v -> ssz_serialize oc2 t v = Ok b
@proof
  intros oc1 oc2 t b v HL HVL HB HD.
  assert (HV : valid t v) by (eapply decode_valid; eauto; eapply N.lt_trans; [exact HB|reflexivity]).
  pose proof (decode_accept oc1 t HL v b HB HD) as HA. apply accepted_spec in HA; auto.
  pose proof (ssz_serialize_spec oc2 t v HL HV) as H. rewrite HA in H. exact H.

@example C03_example
let t := TContainer [("a"%string, TList (TUint U16) 4); ("b"%string, TBitlist 9); ("c"%string, TTransparent [TOption TBool; TUint U8])] in
  let b := [x0c; x00; x00; x00; x0e; x00; x00; x00; x0f; x00; x00; x00; x07; x08; x0d; x01; x01] in
  legal t = true /\ no_variable_list t = true /\ blen b < 2 ^ 32 /\
  exists v, ssz_deserialize true t b = Ok v /\ ssz_serialize true t v = Ok b
@proof
  cbv zeta. do 3 (split; [reflexivity|]). eexists. split; [vm_compute; reflexivity|vm_compute; reflexivity].

@text
** C04: canonicity for all types fails

A list of variable-size elements decodes as empty from four zero bytes followed by anything
(de.rs:84-87: a first offset of 0 means no elements). What is accepted is exactly the set of
encodings described by [accepted] (SpecAccept.v).

@thm C04_refuted
exists t b1 b2 v,
  legal t = true /\ no_transparent t = true /\ b1 <> b2 /\ blen b1 < 2 ^ 32 /\ blen b2 < 2 ^ 32 /\
  (forall oc, ssz_deserialize oc t b1 = Ok v /\ ssz_deserialize oc t b2 = Ok v /\
              ssz_serialize oc t v = Ok b1)
@proof
  exists (TList (TList (TUint U8) 4) 3), [], [x00; x00; x00; x00; xff; x2a], (VSeq []).
  do 2 (split; [reflexivity|]). split; [discriminate|]. do 2 (split; [reflexivity|]).
  intros [|]; vm_compute; auto.

@thm C04_partial
forall oc t b v,
  legal t = true -> blen b < 2 ^ 32 ->
  (ssz_deserialize oc t b = Ok v -> valid t v /\ accepted t v b) /\
  (no_transparent t = true -> valid t v /\ accepted t v b -> ssz_deserialize oc t b = Ok v)
@proof
  intros oc t b v HL HB. split.
  - intros HD. split; [|eapply decode_accept; eauto].
    eapply decode_valid; eauto. eapply N.lt_trans; [exact HB|reflexivity].
  - intros HN [HV HA]. apply accept_decode; auto.

@example C04_example
let t := TList (TList (TUint U8) 4) 3 in
  valid t (VSeq []) /\ accepted t (VSeq []) [x00; x00; x00; x00; xff; x2a]
@proof
  cbv zeta. split; [cbn; split; [lia|constructor]|]. right. split; [reflexivity|]. split; [reflexivity|].
  exists [xff; x2a]. reflexivity.

@text
** C05: distinct values never share an encoding

@thm C05_injective
forall oc1 oc2 t v1 v2 b,
  legal t = true -> no_transparent t = true -> valid t v1 -> valid t v2 ->
  ssz_serialize oc1 t v1 = Ok b -> ssz_serialize oc2 t v2 = Ok b -> v1 = v2
@proof
  intros oc1 oc2 t v1 v2 b HL HN H1 H2 E1 E2.
  apply (c01_round_trip oc1 true) in E1; auto. apply (c01_round_trip oc2 true) in E2; auto. congruence.

@example C05_example
let t := TList TBool 3 in
  valid t (VSeq [VBool true]) /\ valid t (VSeq [VBool false]) /\
  ssz_serialize true t (VSeq [VBool true]) = Ok [x01] /\ ssz_serialize true t (VSeq [VBool false]) = Ok [x00]
@proof
  cbv zeta. split; [solve_valid|]. split; [solve_valid|]. split; reflexivity.

@text
** C06: serialize only appends; the count

The count is wrong for a Bitvector whose length was changed through DerefMut
(bitvector.rs:131 reports ceil(N/8) whatever the length).

@thm C06_refuted
exists t v out n,
  legal t = true /\ typed t v /\ (forall oc, serialize (serializable oc t) v [] = (out, Ok n)) /\ n <> blen out
@proof
  exists (TBitvector 4), (VBits (apply_bit_ops (bv_repeat_false 4) (repeat (BPush true) 8))).
  exists [xf0; x0f], 1. split; [reflexivity|]. split; [reflexivity|]. split; [|discriminate].
  intros oc. vm_compute. reflexivity.

@thm C06_partial
forall oc t v, typed t v ->
  exists suffix r,
    (forall buffer, serialize (serializable oc t) v buffer = (buffer ++ suffix, r)) /\
    (bitvectors_sized t v -> forall n, r = Ok n -> n = blen suffix)
@proof
  intros oc t v HT. destruct (serialize_any oc t v HT) as (suf & r & H1 & _ & H3). eauto.

@example C06_example
(* an over-long list inside an Option: one byte is appended, then serialize fails *)
  typed (TOption (TList (TUint U8) 1)) (VSome (VSeq [VUint 1; VUint 2])) /\
  bitvectors_sized sample_ty sample_val /\ typed sample_ty sample_val
@proof
  split; [cbn; repeat constructor|].
  split; [apply valid_bitvectors_sized; [reflexivity|apply sample_valid]|].
  apply valid_typed, sample_valid.

@thm C06_exact_partial
(* every value a Rust type can hold: what is appended and what is reported *)
forall oc t v buffer, typed t v ->
  serialize (serializable oc t) v buffer =
  (buffer ++ fst (write t v), match snd (write t v) with Wrote n => Ok n | Fails e => Err e end)
@proof
  intros oc t v buffer HT. apply (write_ok oc t v HT).

@example C06_exact_example
(* a list of bit lists: one out of bounds; in bounds with left-over bits; an Option that fails *)
let t := TList (TBitlist 3) 2 in
  let b1 := apply_bit_ops bitlist_default (repeat (BPush true) 4) in
  let b2 := apply_bit_ops bitlist_default [BPush true; BPush true; BPush true; BTruncate 1] in
  typed t (VSeq [VBits b1]) /\ write t (VSeq [VBits b1]) = ([], Fails (SInvalidInstance (Bounded 3 4))) /\
  typed t (VSeq [VBits b2]) /\ write t (VSeq [VBits b2]) = ([x04; x00; x00; x00; x07], Wrote 5) /\
  write (TOption t) (VSome (VSeq [VBits b1])) = ([x01], Fails (SInvalidInstance (Bounded 3 4)))
@proof
  cbv zeta. split; [cbn; repeat constructor|]. split; [vm_compute; reflexivity|].
  split; [cbn; repeat constructor|]. split; vm_compute; reflexivity.

@text
** C07: a failed serialize leaves the buffer untouched: false for unions

@thm C07_refuted
exists t v buffer out e,
  legal t = true /\ typed t v /\ (forall oc, serialize (serializable oc t) v buffer = (out, Err e)) /\ out <> buffer
@proof
  exists (TOption (TList (TUint U8) 1)), (VSome (VSeq [VUint 1; VUint 2])), [x07], [x07; x01].
  eexists. split; [reflexivity|]. split; [cbn; repeat constructor|].
  split; [intros oc; vm_compute; reflexivity|discriminate].

@thm C07_partial
forall oc t v buffer out e,
  writes_all_or_nothing t = true -> serialize (serializable oc t) v buffer = (out, Err e) -> out = buffer
@proof
  intros oc t v buf out e HW HS. eapply serialize_err_buf; eauto.

@thm C07_exact_partial
(* only the selectors that lead to the failing part are left behind *)
forall oc t v buffer out e, typed t v ->
  serialize (serializable oc t) v buffer = (out, Err e) -> out = buffer ++ selectors t v
@proof
  intros oc t v buffer out e HT HS. rewrite (write_ok oc t v HT buffer) in HS.
  destruct (snd (write t v)) eqn:E; cbn [outcome] in HS; [discriminate|]. injection HS as <- _.
  rewrite (write_fails t v _ E). reflexivity.

@example C07_exact_example
let t := TUnion [None; Some TBool; Some (TOption (TList (TUint U8) 1))] in
  let v := VVariant 2 (VSome (VSeq [VUint 1; VUint 2])) in
  typed t v /\ selectors t v = [x02; x01] /\
  serialize (serializable true t) v [x07] = ([x07; x02; x01], Err (SInvalidInstance (Bounded 1 2)))
@proof
  cbv zeta. split; [cbn; repeat constructor|]. split; vm_compute; reflexivity.

@example C07_example
let t := TContainer [("a"%string, TUint U8); ("b"%string, TOption (TList (TUint U8) 1))] in
  writes_all_or_nothing t = true /\
  serialize (serializable true t) (VStruct [VUint 5; VSome (VSeq [VUint 1; VUint 2])]) [x07]
  = ([x07], Err (SInvalidInstance (Bounded 1 2)))
@proof
  split; reflexivity.

@text
** C08: size_hint is exact for fixed-size types

@thm C08_fixed_size
forall oc t,
  legal t = true -> is_variable_size (serializable oc t) = false ->
  size_hint (serializable oc t) = fixed_size t /\
  (forall v b, valid t v -> ssz_serialize oc t v = Ok b -> blen b = size_hint (serializable oc t)) /\
  (forall b v, blen b < 2 ^ 63 -> ssz_deserialize oc t b = Ok v -> blen b = size_hint (serializable oc t))
@proof
  intros oc t HL HF. rewrite is_variable_size_spec in HF. rewrite size_hint_spec. split; [reflexivity|].
  split.
  - intros v b HV HS. apply (spec_serialize_fixed t v); auto. eapply ssz_serialize_ok_spec; eauto.
  - intros b v HB HD. eapply decode_fixed_len; eauto.

@example C08_example
let t := TContainer [("a"%string, TVector (TUint U16) 3); ("b"%string, TBitvector 9); ("c"%string, TArray TBool 2)] in
  legal t = true /\ is_variable_size (serializable true t) = false /\ size_hint (serializable true t) = 10
@proof
  repeat split.

@text
The usize arithmetic of the source computes the same number: on a legal type it never overflows.
Without the bound in [legal] it does: it panics with overflow checks and wraps to zero without.

@thm C08_no_overflow
forall (E : Type) oc t, legal t = true -> @size_hint_machine E oc t = Ok (size_hint (serializable oc t))
@proof
  exact size_hint_no_overflow.

@example C08_no_overflow_example
let t := TContainer [("a"%string, TVector (TVector (TUint U64) (2 ^ 20)) (2 ^ 30)); ("b"%string, TBitvector 9)] in
  let huge := TVector (TVector (TUint U8) (2 ^ 32)) (2 ^ 32) in
  legal t = true /\ @size_hint_machine unit true t = Ok 9007199254740994 /\
  legal huge = false /\ @size_hint_machine unit true huge = Panic POverflow /\
  @size_hint_machine unit false huge = Ok 0
@proof
  repeat apply conj; vm_compute; reflexivity.

@text
** C09: decoding enforces the bounds of the type at every level

@thm C09_decoded_values_valid
forall oc t b v,
  legal t = true -> blen b < 2 ^ 63 -> ssz_deserialize oc t b = Ok v -> valid t v
@proof
  intros oc t b v HL HB HD. eapply decode_valid; eauto.

@example C09_example
exists b, blen b < 2 ^ 63 /\ ssz_deserialize true sample_ty b = Ok sample_val /\
  ssz_deserialize true (TList (TUint U8) 2) [x01; x02] = Ok (VSeq [VUint 1; VUint 2]) /\
  ssz_deserialize true (TList (TUint U8) 2) [x01; x02; x03] = Err (DInvalidInstance (Bounded 2 3))
@proof
  eexists. split; [|split; [|split; reflexivity]].
  2:{ apply (c01_round_trip true true); [reflexivity|reflexivity|apply sample_valid|vm_compute; reflexivity]. }
  reflexivity.

@text
** C10: decoding never panics: false

A list of variable-size elements slices its input with unchecked offsets (de.rs:101-104).
It panics for every element type and bound, in both build modes.

@thm C10_refuted
exists b, forall oc u n, legal (TList u n) = true -> spec_variable u = true ->
  exists p, ssz_deserialize oc (TList u n) b = Panic p
@proof
  exists [x08; x00; x00; x00; xff; xff; xff; xff]. intros oc u n HL HV.
  unfold ssz_deserialize. cbn [serializable list_impl deserialize]. unfold list_deserialize.
  unfold deserialize_homogeneous_composite. rewrite is_variable_size_spec, HV.
  eexists. vm_compute. reflexivity.

@example C10_example
legal (TList (TList (TUint U8) 4) 3) = true /\ spec_variable (TList (TUint U8) 4) = true
@proof
  split; reflexivity.

@text
For every byte string, [read] says whether decoding returns a value and which one, returns an
error, or panics. [read] is defined on byte positions in SpecDecode.v, for all types.

@thm C10_partial
forall oc t b, legal t = true -> blen b < 2 ^ 63 ->
  match ssz_deserialize oc t b with
  | Ok v => read oc t b = Reads v
  | Err _ => read oc t b = Rejects
  | Panic _ => read oc t b = Crashes
  end
@proof
  intros oc t b HL HB. exact (read_ok oc t HL b HB).

@example C10_partial_example
let two := TContainer [("a", TList (TUint U8) 4); ("b", TUint U8); ("c", TList (TUint U8) 4)]%string in
let either := TTransparent [TUint U16; TList (TUint U8) 4; TUint U8] in
let lists := TList (TList (TUint U8) 4) 3 in
legal two = true /\ legal either = true /\ legal lists = true /\
read true two [x09; x00; x00; x00; x07; x0a; x00; x00; x00; x01; x02] =
  Reads (VStruct [VSeq [VUint 1]; VUint 7; VSeq [VUint 2]]) /\
read true two [x09; x00; x00; x00; x07; x08; x00; x00; x00; x01; x02] = Rejects /\
read true two [x09; x00; x00; x00; x07; x0c; x00; x00; x00; x01; x02] = Crashes /\
read false two [x09; x00; x00; x00; x07; x0c; x00; x00; x00; x01; x02] = Rejects /\
read false lists [x08; x00; x00; x00; xff; x00; x00; x00] = Crashes /\
read false lists [x00; x00; x00; x00; x01] = Reads (VSeq []) /\
read false either [x05] = Reads (VVariant 2 (VUint 5)) /\
read false either [x05; x00] = Reads (VVariant 1 (VSeq [VUint 5; VUint 0])) /\
read false either [x05; x00; x00; x00; x00] = Rejects
@proof
  cbv zeta. repeat split; vm_compute; reflexivity.

@text
** C11: decoding never panics outside collections of variable-size elements

With overflow checks, containers with two variable-size fields are excluded too: their parser
subtracts unchecked offsets (container in de.rs).

@thm C11_no_panic
forall oc t b p,
  legal t = true -> blen b < 2 ^ 63 -> no_variable_collection t = true ->
  oc = false \/ single_variable t = true ->
  ssz_deserialize oc t b <> Panic p
@proof
  intros oc t b p HL HB HC HO HD.
  pose proof (decode_good False True oc t HL ltac:(tauto) ltac:(intros _; split; auto) b HB) as H.
  unfold ssz_deserialize in HD. rewrite HD in H. exact (H I).

@example C11_example
let t := TContainer [("a"%string, TList (TUint U16) 4); ("b"%string, TBitvector 9); ("c"%string, TNewtype (TUint U8))] in
  legal t = true /\ no_variable_collection t = true /\ single_variable t = true /\
  no_variable_collection (TContainer [("a"%string, TList TBool 4); ("b"%string, TBitlist 9)]) = true
@proof
  repeat split.

@text
The two exclusions are needed: with overflow checks a container with two variable-size fields
panics.

@thm C11_container_panics
exists t b p, legal t = true /\ no_variable_collection t = true /\ ssz_deserialize true t b = Panic p
@proof
  exists (TContainer [("a"%string, TList TBool 4); ("b"%string, TBitlist 9)]).
  exists [xff; x00; x00; x00; xff; x00; x00; x00]. eexists.
  split; [reflexivity|]. split; [reflexivity|]. vm_compute. reflexivity.

@text
** C12: when serialize fails

@thm C12_when_serialize_fails
(forall oc t v buffer p, typed t v -> snd (serialize (serializable oc t) v buffer) <> Panic p) /\
  (forall oc t v, legal t = true -> valid t v ->
     match ssz_serialize oc t v with
     | Ok b => spec_serialize t v = Some b /\ forall n, ~ too_big t v n
     | Err e => exists n, e = MaximumEncodedLengthReached n /\ too_big t v n
     | Panic _ => False
     end) /\
  (forall oc u n l, n < blen l ->
     ssz_serialize oc (TList u n) (VSeq l) = Err (SInvalidInstance (Bounded n (blen l)))) /\
  (forall oc n b, n < bv_len b ->
     ssz_serialize oc (TBitlist n) (VBits b) = Err (SInvalidInstance (Bounded n (bv_len b)))) /\
  (forall oc t v t1 v1 bound len,
     typed t v -> part t v t1 v1 -> bound < len ->
     (exists u l, t1 = TList u bound /\ v1 = VSeq l /\ blen l = len) \/
     (exists b, t1 = TBitlist bound /\ v1 = VBits b /\ bv_len b = len) ->
     exists e, ssz_serialize oc t v = Err e)
@proof
  split; [|split; [|split; [|split]]].
  - intros oc t v buf p HT. destruct (serialize_any oc t v HT) as (suf & r & H1 & H2 & _).
    rewrite H1. apply H2.
  - intros oc t v HL HV. pose proof (ssz_serialize_spec oc t v HL HV) as H.
    destruct (spec_serialize t v) as [b|] eqn:E.
    + rewrite H. split; [reflexivity|]. eapply serialize_not_too_big; eauto.
    + destruct H as (n & -> & Hn). eauto.
  - intros oc u n l Hn. unfold ssz_serialize, serialize_to_vec.
    cbn [serializable list_impl serialize list_serialize]. replace (n <? blen l) with true by lia. reflexivity.
  - intros oc n b Hn. unfold ssz_serialize, serialize_to_vec.
    cbn [serializable bitlist_impl serialize bitlist_serialize]. unfold bitlist_serialize_with_length.
    replace (n <? bv_len b) with true by lia. reflexivity.
  - intros. eapply serialize_overlong; eauto.

@raw
(** A list of [n] zero bytes needs [n] bytes. *)
Lemma zeros_too_big n : 2 ^ 32 <= n ->
  valid (TList (TUint U8) n) (VSeq (repeat (VUint 0) (N.to_nat n))) /\
  too_big (TList (TUint U8) n) (VSeq (repeat (VUint 0) (N.to_nat n))) n.
Proof.
  intros Hn. split.
  - cbn [valid]. rewrite blen_repeat, N2Nat.id. split; [apply N.le_refl|].
    apply Forall_forall. intros x Hx. apply repeat_spec in Hx. subst x. reflexivity.
  - exists (TList (TUint U8) n), (VSeq (repeat (VUint 0) (N.to_nat n))).
    split; [constructor|]. split; [reflexivity|]. split; [|exact Hn].
    unfold joined_size. cbn [children]. rewrite <- (N2Nat.id n) at 2. generalize (N.to_nat n). clear Hn.
    intros k.
    assert (G : sequence (map (fun tv : ty * val => flag (spec_variable (fst tv)) (spec_serialize (fst tv) (snd tv)))
                   (map (pair (TUint U8)) (repeat (VUint 0) k))) = Some (repeat (false, [x00]) k)).
    { induction k as [|k IH]; [reflexivity|]. cbn [repeat map sequence]. rewrite IH. reflexivity. }
    rewrite G. cbn [option_map]. f_equal. rewrite total_app.
    assert (G1 : total (fixed_lengths (repeat (false, [x00]) k)) = N.of_nat k).
    { clear G. induction k as [|k IH]; [reflexivity|]. cbn [repeat]. rewrite fixed_lengths_cons, total_cons, IH.
      cbn [fst snd]. change (blen [x00]) with 1. lia. }
    assert (G2 : total (variable_lengths (repeat (false, [x00]) k)) = 0).
    { clear G G1. induction k as [|k IH]; [reflexivity|]. cbn [repeat]. rewrite variable_lengths_cons, total_cons, IH.
      reflexivity. }
    rewrite G1, G2. lia.
Qed.

@raw
Lemma too_big_possible : exists t v n, legal t = true /\ valid t v /\ too_big t v n.
Proof.
  assert (H : exists n, n = 2 ^ 33) by eauto. destruct H as (n & Hn).
  assert (H : 2 ^ 32 <= n) by (rewrite Hn; discriminate). apply zeros_too_big in H.
  assert (HL : legal (TList (TUint U8) n) = true) by (rewrite Hn; reflexivity).
  eauto.
Qed.

@example C12_example
(exists b, ssz_serialize true sample_ty sample_val = Ok b) /\
  (exists t v n, legal t = true /\ valid t v /\ too_big t v n) /\
  typed (TOption (TList (TUint U8) 1)) (VSome (VSeq [VUint 1; VUint 2])) /\
  part (TOption (TList (TUint U8) 1)) (VSome (VSeq [VUint 1; VUint 2])) (TList (TUint U8) 1) (VSeq [VUint 1; VUint 2])
@proof
  split; [eexists; vm_compute; reflexivity|]. split.
  - exact too_big_possible.
  - split; [cbn; repeat constructor|]. eapply part_step; [left; reflexivity|constructor].

@text
** C13: unsigned integers

@raw
Lemma uint_decode k b x :
  uint_deserialize k b = Ok x <-> x < 256 ^ k /\ spec_uint (N.to_nat k) x = b.
Proof.
  rewrite uint_deserialize_iff, spec_uint_le_bytes. split.
  - intros [HL ->]. split; [rewrite <- HL; apply le_value_lt|]. apply le_bytes_value_n. unfold blen in HL. lia.
  - intros [Hx <-]. split; [rewrite blen_le_bytes; lia|]. symmetry. apply le_value_le_bytes.
    rewrite N2Nat.id. exact Hx.
Qed.

@thm C13_uints
forall oc,
  (forall w x, x < uint_bound w ->
     ssz_serialize oc (TUint w) (VUint x) = Ok (spec_uint (spec_uint_size w) x)) /\
  (forall w b v, ssz_deserialize oc (TUint w) b = Ok v <->
     exists x, v = VUint x /\ x < uint_bound w /\ b = spec_uint (spec_uint_size w) x) /\
  (forall w b, let k := N.of_nat (spec_uint_size w) in
     (blen b < k -> ssz_deserialize oc (TUint w) b = Err (ExpectedFurtherInput (blen b) k)) /\
     (k < blen b -> ssz_deserialize oc (TUint w) b = Err (AdditionalInput (blen b) k)) /\
     (blen b = k -> exists v, ssz_deserialize oc (TUint w) b = Ok v)) /\
  (forall x, x < 2 ^ 256 -> ssz_serialize oc TU256 (VUint x) = Ok (spec_uint 32 x)) /\
  (forall b v, ssz_deserialize oc TU256 b = Ok v <->
     exists x, v = VUint x /\ x < 2 ^ 256 /\ b = spec_uint 32 x) /\
  (forall b,
     (blen b < 32 -> ssz_deserialize oc TU256 b = Err (ExpectedFurtherInput (blen b) 32)) /\
     (32 < blen b -> ssz_deserialize oc TU256 b = Err (AdditionalInput (blen b) 32)) /\
     (blen b = 32 -> exists v, ssz_deserialize oc TU256 b = Ok v))
@proof
  intros oc.
  assert (HD : forall k bound, bound = 256 ^ k -> forall b v,
            (do x <- uint_deserialize k b; Ok (VUint x)) = Ok v <->
            exists x, v = VUint x /\ x < bound /\ b = spec_uint (N.to_nat k) x).
  { intros k bound -> b v. split.
    - intros H. apply bind_ok_inv in H as (x & H & [= <-]). apply uint_decode in H as [H1 H2]. eauto.
    - intros (x & -> & H1 & ->). rewrite (proj2 (uint_decode k _ x)); auto. }
  assert (HE : forall k b,
     (blen b < k -> (do x <- uint_deserialize k b; Ok (VUint x)) = Err (ExpectedFurtherInput (blen b) k)) /\
     (k < blen b -> (do x <- uint_deserialize k b; Ok (VUint x)) = Err (AdditionalInput (blen b) k)) /\
     (blen b = k -> exists v, (do x <- uint_deserialize k b; Ok (VUint x)) = Ok v)).
  { intros k b. unfold uint_deserialize. split; [|split]; intros H.
    - replace (blen b <? k) with true by lia. reflexivity.
    - replace (blen b <? k) with false by lia. replace (k <? blen b) with true by lia. reflexivity.
    - replace (blen b <? k) with false by lia. replace (k <? blen b) with false by lia.
      rewrite <- H, slice_full. cbn [bind]. eauto. }
  split; [|split; [|split; [|split; [|split]]]].
  - intros w x Hx. pose proof (ssz_serialize_spec oc (TUint w) (VUint x) eq_refl Hx) as H. exact H.
  - intros w b v. unfold ssz_deserialize. cbn [serializable uint_impl deserialize].
    destruct w; apply HD; reflexivity.
  - intros w b. unfold ssz_deserialize. cbn [serializable uint_impl deserialize].
    destruct w; apply HE.
  - intros x Hx. pose proof (ssz_serialize_spec oc TU256 (VUint x) eq_refl Hx) as H. exact H.
  - intros b v. unfold ssz_deserialize. cbn [serializable u256_impl uint_impl deserialize].
    apply (HD 32). reflexivity.
  - intros b. unfold ssz_deserialize. cbn [serializable u256_impl uint_impl deserialize]. apply (HE 32).

@example C13_example
ssz_serialize true (TUint U32) (VUint 67305985) = Ok [x01; x02; x03; x04] /\
  ssz_deserialize true (TUint U32) [x01; x02; x03; x04] = Ok (VUint 67305985)
@proof
  split; reflexivity.

@text
** C14: booleans are strict

@thm C14_bool
forall oc b,
  ssz_deserialize oc TBool b =
  match b with
  | [] => Err (ExpectedFurtherInput 0 1)
  | [x00] => Ok (VBool false)
  | [x01] => Ok (VBool true)
  | [x] => Err (InvalidByte x)
  | _ => Err (AdditionalInput (blen b) 1)
  end
@proof
  intros oc b. unfold ssz_deserialize. cbn [serializable bool_impl deserialize]. unfold bool_deserialize.
  destruct b as [|x [|y b]]; [reflexivity|destruct x; reflexivity|destruct x; reflexivity].

@example C14_example
ssz_deserialize true TBool [x02] = Err (InvalidByte x02) /\ ssz_deserialize true TBool [x01] = Ok (VBool true)
@proof
  split; reflexivity.

@text
** C15: Bitvector decoding

@thm C15_bitvector_decode
forall oc n b v, 0 < n ->
  (ssz_deserialize oc (TBitvector n) b = Ok v <->
   blen b = (n + 7) / 8 /\ (forall i, n <= i < 8 * blen b -> bit_of b i = false) /\
   exists r, v = VBits r /\ bv_raw r = b /\ bv_len r = n /\
     forall i, bits_get r i = if i <? n then Some (bit_of b i) else None)
@proof
  intros oc n b v Hn. unfold ssz_deserialize. cbn [serializable bitvector_impl deserialize].
  rewrite bitvector_deserialize_iff. split.
  - intros (_ & H1 & H2 & ->). split; [exact H1|]. split; [intros i Hi; apply H2; lia|].
    exists (BitVec b n). cbn [bv_raw bv_len]. repeat split.
  - intros (H1 & H2 & r & -> & H3 & H4 & _). split; [exact Hn|]. split; [exact H1|].
    split; [|destruct r; cbn in *; subst; reflexivity].
    intros i Hi. destruct (N.lt_ge_cases i (8 * blen b)); [apply H2; lia|apply raw_bit_high; lia].

@example C15_example
ssz_deserialize true (TBitvector 12) [x34; x0f] = Ok (VBits (BitVec [x34; x0f] 12)) /\
  ssz_deserialize true (TBitvector 12) [x34; x1f] = Err (InvalidByte x1f)
@proof
  split; reflexivity.

@text
** C16: Bitlist decoding

The number of bits before the highest set bit of [p ++ [x]] is [8 * blen p + log2 x].

@thm C16_bitlist_decode
forall oc n b, n + 8 < 2 ^ 64 ->
  ((exists v, ssz_deserialize oc (TBitlist n) b = Ok v) <->
   exists p x, b = p ++ [x] /\ x <> x00 /\ blen b <= n / 8 + 1 /\
     8 * blen p + N.log2 (byte_to_N x) <= n) /\
  (forall v, ssz_deserialize oc (TBitlist n) b = Ok v ->
   exists p x r, b = p ++ [x] /\ v = VBits r /\ bv_ok r = true /\ bv_clean r /\
     bv_len r = 8 * blen p + N.log2 (byte_to_N x) /\
     forall i, bits_get r i = if i <? bv_len r then Some (bit_of b i) else None)
@proof
  intros oc n b Hn. unfold ssz_deserialize. cbn [serializable bitlist_impl deserialize].
  pose proof (bitlist_decode_iff oc n b Hn) as HI. split.
  - rewrite HI. split; intros (p & x & -> & H1 & H2); exists p, x; [|tauto].
    split; [reflexivity|]. split; [exact H1|]. split; [|exact H2].
    rewrite blen_app. change (blen [x]) with 1. lia.
  - intros v HD. destruct (proj1 HI (ex_intro _ v HD)) as (p & x & -> & H1 & H2).
    destruct (bitlist_decode_value oc n p x v Hn HD) as (r & -> & G1 & G2 & G3 & G4).
    exists p, x, r. do 5 (split; [auto; fail|]). intros i. unfold bits_get.
    destruct (i <? bv_len r) eqn:E; [apply G4; lia|]. unfold bv_get. rewrite E. reflexivity.

@example C16_example
ssz_deserialize true (TBitlist 9) [x05; x02] = Ok (VBits (BitVec [x05; x00] 9)) /\
  ssz_deserialize true (TBitlist 8) [x05; x02] = Err (DInvalidInstance (Bounded 8 9)) /\
  ssz_deserialize true (TBitlist 9) [x05; x00] = Err (InvalidByte x00)
@proof
  repeat split.

@text
** C17: equal bit lists are observed equal: false after pop, truncate or clear

BitVec keeps the removed bits in its last byte, and serialize copies that byte
(bitlist.rs:88). The sequence of bools, which [==] compares, is right.

@thm C17_refuted
exists n ops1 ops2,
  let b1 := apply_bit_ops bitlist_default ops1 in
  let b2 := apply_bit_ops bitlist_default ops2 in
  bv_bits b1 = bv_bits b2 /\
  forall oc, exists e1 e2,
    ssz_serialize oc (TBitlist n) (VBits b1) = Ok e1 /\
    ssz_serialize oc (TBitlist n) (VBits b2) = Ok e2 /\ e1 <> e2 /\
    (* and e1 does not even decode to the same list *)
    ssz_deserialize oc (TBitlist n) e1 <> Ok (VBits b1)
@proof
  exists 8, [BPush true; BPush true; BPush true; BTruncate 1], [BPush true].
  cbv zeta. split; [vm_compute; reflexivity|]. intros oc. exists [x07], [x03].
  split; [vm_compute; reflexivity|]. split; [vm_compute; reflexivity|]. split; [discriminate|].
  destruct oc; vm_compute; discriminate.

@raw
Lemma grown_spec oc n b l : n + 8 < 2 ^ 64 ->
  grown oc n b l -> bv_ok b = true /\ bv_clean b /\ bv_bits b = l.
Proof.
  intros Hn. induction 1 as [|l b H|e b H|b l o Ho _ (H1 & H2 & H3)].
  - split; [apply bv_ok_new|]. split; [|reflexivity]. intros i _. apply raw_bit_high. cbn. lia.
  - unfold bitlist_try_from_bools in H. destruct (n <? blen l); [discriminate|].
    injection H as <-. destruct (bv_extend_spec l bitlist_default bv_ok_new) as (H1 & H3 & H2).
    assert (H2' : bv_clean bitlist_default) by (intros i _; apply raw_bit_high; cbn; lia).
    split; [exact H1|]. split; [exact (H2 H2')|]. exact H3.
  - destruct (c16_bitlist_decode oc n e Hn) as [_ HV]. destruct (HV _ H) as (p & x & r & -> & [= <-] & G1 & G2 & G3 & G4).
    split; [exact G1|]. split; [exact G2|]. apply bools_nth_ext.
    { rewrite map_length, seq_length, bv_bits_length. reflexivity. }
    intros i Hi. rewrite bv_bits_length in Hi. rewrite nth_bv_bits, nth_map_seq by auto.
    specialize (G4 (N.of_nat i)). unfold bits_get, bv_get in G4.
    replace (N.of_nat i <? bv_len b) with true in * by lia. injection G4 as G4. exact G4.
  - destruct (apply_bit_op_spec b o H1) as (G1 & G2 & G3). rewrite H3 in G2. auto.
Qed.

@thm C17_partial
forall oc n b1 b2 l1 l2, n + 8 < 2 ^ 64 ->
  grown oc n b1 l1 -> grown oc n b2 l2 -> bv_bits b1 = bv_bits b2 ->
  b1 = b2 /\ forall oc', ssz_serialize oc' (TBitlist n) (VBits b1) = ssz_serialize oc' (TBitlist n) (VBits b2)
@proof
  intros oc n b1 b2 l1 l2 Hn H1 H2 HE.
  destruct (grown_spec _ _ _ _ Hn H1) as (A1 & A2 & A3). destruct (grown_spec _ _ _ _ Hn H2) as (B1 & B2 & B3).
  assert (b1 = b2).
  { rewrite (bv_of_bits b1), (bv_of_bits b2) by auto. rewrite HE. f_equal.
    rewrite <- !blen_bv_bits, HE. reflexivity. }
  subst. auto.

@thm C17_exact_partial
(* equal bit lists encode alike exactly when their left-over bits agree *)
forall oc n b1 b2, bv_ok b1 = true -> bv_ok b2 = true -> bv_len b1 <= n ->
  bv_bits b1 = bv_bits b2 ->
  (ssz_serialize oc (TBitlist n) (VBits b1) = ssz_serialize oc (TBitlist n) (VBits b2) <->
   dead_bits b1 = dead_bits b2)
@proof
  intros oc n b1 b2 O1 O2 HL HE.
  assert (EL : bv_len b1 = bv_len b2) by (rewrite <- !blen_bv_bits, HE; reflexivity).
  unfold ssz_serialize, serialize_to_vec. cbn [serializable bitlist_impl serialize bitlist_serialize].
  rewrite !bitlist_writes by (auto; lia). rewrite !app_nil_l, !list_bits_eq, HE by auto. split.
  - intros [= H]. apply spec_bits_inj in H.
    + apply app_inv_head in H. injection H as H. exact H.
    + rewrite !blen_app, !blen_cons. unfold blen. rewrite !dead_bits_length.
      apply bv_ok_len in O1, O2. unfold bits_bytes, blen in O1, O2. lia.
  - intros ->. reflexivity.

@example C17_exact_example
let b1 := apply_bit_ops bitlist_default [BPush true; BPush true; BTruncate 1] in
  let b2 := apply_bit_ops bitlist_default [BPush true; BPush true; BPush true; BTruncate 1] in
  bv_bits b1 = bv_bits b2 /\ dead_bits b1 = repeat false 6 /\ dead_bits b2 = true :: repeat false 5
@proof
  cbv zeta. split; [|split]; vm_compute; reflexivity.

@example C17_example
grown true 8 (apply_bit_op bitlist_default (BPush true)) [true] /\
  grown true 8 (BitVec [x01] 1) (map (fun i => bit_of [x03] (N.of_nat i)) (seq 0 1)) /\
  bv_bits (apply_bit_op bitlist_default (BPush true)) = bv_bits (BitVec [x01] 1)
@proof
  split; [apply (grown_op _ _ bitlist_default [] (BPush true)); [reflexivity|constructor]|]. split; [|reflexivity].
  apply (grown_decode true 8 [x03] (BitVec [x01] 1)). reflexivity.

@text
** C18: bit lists that never shrink behave like bool sequences

@thm C18_growing_bitlists
forall oc n b l, n + 8 < 2 ^ 64 -> grown oc n b l ->
  (forall i, bits_get b i = nth_error l (N.to_nat i)) /\
  forall oc', ssz_serialize oc' (TBitlist n) (VBits b) =
    if n <? blen l then Err (SInvalidInstance (Bounded n (blen l))) else Ok (spec_bits (l ++ [true]))
@proof
  intros oc n b l Hn HG. destruct (grown_spec _ _ _ _ Hn HG) as (H1 & H2 & H3). split.
  - intros i. rewrite <- H3. unfold bits_get, bv_get. destruct (i <? bv_len b) eqn:E.
    + rewrite (nth_error_nth' _ false) by (rewrite bv_bits_length; lia).
      rewrite nth_bv_bits, N2Nat.id, E. reflexivity.
    + symmetry. apply nth_error_None. rewrite bv_bits_length. lia.
  - intros oc'. rewrite bitlist_serialize_clean by auto. rewrite <- H3, blen_bv_bits. reflexivity.

@example C18_example
exists b, grown true 10 b [false; true; true; false; false; false; false; false; true] /\
  ssz_serialize true (TBitlist 10) (VBits b) = Ok [x06; x03]
@proof
  eexists. split.
  - refine (grown_op _ _ _ [false; true; true; false; false; false; false; false] (BPush true) eq_refl _).
    refine (grown_op _ _ _ [false; true; false; false; false; false; false; false] (BSet 2 true) eq_refl _).
    apply grown_try_from. reflexivity.
  - vm_compute. reflexivity.

@text
** C19: container decoding

[b] decodes exactly when it is the concatenation of the fixed parts (bodies of fixed-size
fields, 4-byte offsets of variable-size fields) and the bodies of variable-size fields in
order, with the offsets the specification assigns. The second theorem spells out what those
offsets are.

@thm C19_container_decode
forall oc fs b vs,
  legal (TContainer fs) = true -> blen b < 2 ^ 63 ->
  (ssz_deserialize oc (TContainer fs) b = Ok (VStruct vs) <->
   exists bodies : list bytes,
     length bodies = length fs /\
     let es := combine (map (fun f => spec_variable (snd f)) fs) bodies in
     b = concat (fixed_parts es ++ variable_parts es) /\
     (forall i body, nth_error es i = Some (true, body) -> variable_offset es i < 2 ^ 32) /\
     Forall2 (fun (fb : ty * bytes) v =>
         ssz_deserialize oc (fst fb) (snd fb) = Ok v /\
         (spec_variable (fst fb) = false -> blen (snd fb) = fixed_size (fst fb)))
       (combine (map snd fs) bodies) vs)
@proof
  intros oc fs b vs HL HB. apply container_decode_iff; auto.

@thm C19_offsets
forall es,
  (forall i j, (i <= j)%nat -> variable_offset es i <= variable_offset es j) /\
  (forall i, variable_offset es i <= blen (concat (fixed_parts es ++ variable_parts es))) /\
  (forall i body, nth_error es i = Some (true, body) ->
     (forall k b, (k < i)%nat -> nth_error es k = Some (true, b) -> False) ->
     variable_offset es i = total (fixed_lengths es))
@proof
  exact variable_offset_props.

@example C19_example
let t := TContainer [("a"%string, TUint U16); ("b"%string, TList (TUint U8) 4); ("c"%string, TBitlist 9)] in
  legal t = true /\
  ssz_deserialize true t [x01; x02; x0a; x00; x00; x00; x0c; x00; x00; x00; x07; x08; x0d] =
  Ok (VStruct [VUint 513; VSeq [VUint 7; VUint 8]; VBits (BitVec [x05] 3)]) /\
  ssz_deserialize true t [x01; x02; x0b; x00; x00; x00; x0c; x00; x00; x00; x07; x08; x0d] <>
  Ok (VStruct [VUint 513; VSeq [VUint 8]; VBits (BitVec [x05] 3)])
@proof
  cbv zeta. split; [reflexivity|]. split; [vm_compute; reflexivity|vm_compute; discriminate].

@text
** C20: union decoding

@thm C20_union_decode
(forall oc vs b, legal (TUnion vs) = true ->
    (forall i x, ssz_deserialize oc (TUnion vs) b = Ok (VVariant i x) <->
       exists u rest, nth_error vs (N.to_nat i) = Some (Some u) /\ i < 256 /\ b = byte_of_N i :: rest /\
         ssz_deserialize oc u rest = Ok x) /\
    (ssz_deserialize oc (TUnion vs) b = Ok VNone <-> b = [x00] /\ exists r, vs = None :: r) /\
    (b = [] -> ssz_deserialize oc (TUnion vs) b = Err (ExpectedFurtherInput 0 1)) /\
    (forall s rest, b = s :: rest -> blen vs <= byte_to_N s ->
       ssz_deserialize oc (TUnion vs) b = Err (InvalidByte s)) /\
    (forall rest r, vs = None :: r -> b = x00 :: rest -> rest <> [] ->
       ssz_deserialize oc (TUnion vs) b = Err (AdditionalInput (blen b) 1))) /\
  (forall oc u b,
    (forall x, ssz_deserialize oc (TOption u) b = Ok (VSome x) <->
       exists rest, b = x01 :: rest /\ ssz_deserialize oc u rest = Ok x) /\
    (ssz_deserialize oc (TOption u) b = Ok VNone <-> b = [x00]) /\
    (b = [] -> ssz_deserialize oc (TOption u) b = Err (ExpectedFurtherInput 0 1)) /\
    (forall s rest, b = s :: rest -> s <> x00 -> s <> x01 ->
       ssz_deserialize oc (TOption u) b = Err (InvalidByte s)) /\
    (forall rest, b = x00 :: rest -> rest <> [] ->
       ssz_deserialize oc (TOption u) b = Err (AdditionalInput (blen b) 1)))
@proof
  split.
  - intros oc vs b HL. unfold ssz_deserialize. cbn [serializable union_impl deserialize].
    assert (HF : forall j, nth_error vs j = Some None -> j = 0%nat /\ exists r, vs = None :: r).
    { cbn [legal] in HL. apply andb_true_iff in HL as [HL _]. unfold legal_variants in HL.
      destruct vs as [|o vs]; [discriminate|]. rewrite !andb_true_iff in HL. destruct HL as [[_ HN] _].
      apply negb_true_iff in HN. intros [|j] H; cbn [nth_error] in H.
      - injection H as ->. eauto.
      - apply nth_error_In in H. assert (existsb is_none vs = true) by (apply existsb_exists; eexists; eauto).
        congruence. }
    split; [|split; [|split; [|split]]].
    + intros i x. unfold union_deserialize. split.
      * destruct b as [|s rest]; [discriminate|]. rewrite nth_error_map.
        destruct (nth_error vs (N.to_nat (byte_to_N s))) as [[u|]|] eqn:E; cbn [option_map]; intros H.
        -- apply bind_ok_inv in H as (y & H & [= <- <-]). exists u, rest. split; [exact E|].
           split; [apply byte_to_N_lt|]. rewrite byte_of_N_to_N. auto.
        -- destruct (negb _); discriminate.
        -- discriminate.
      * intros (u & rest & HE & Hi & -> & HD). rewrite nth_error_map, byte_to_N_of_N.
        rewrite N.mod_small by auto. rewrite HE. cbn [option_map]. rewrite HD. reflexivity.
    + unfold union_deserialize. split.
      * destruct b as [|s rest]; [discriminate|]. rewrite nth_error_map.
        destruct (nth_error vs (N.to_nat (byte_to_N s))) as [[u|]|] eqn:E; cbn [option_map]; intros H.
        -- apply bind_ok_inv in H as (y & _ & H). discriminate.
        -- destruct (HF _ E) as [Hz Hr]. split; [|exact Hr].
           destruct (blen (s :: rest) =? 1) eqn:L; cbn [negb] in H; [|discriminate].
           rewrite blen_cons in L. assert (L' : blen rest = 0) by lia. apply blen_0 in L'. subst rest.
           f_equal. apply byte_to_N_inj. change (byte_to_N x00) with 0. lia.
        -- discriminate.
      * intros (-> & r & ->). reflexivity.
    + intros ->. reflexivity.
    + intros s rest -> Hs. unfold union_deserialize. rewrite nth_error_map.
      rewrite (proj2 (nth_error_None vs _)) by (unfold blen in Hs; lia). reflexivity.
    + intros rest r -> -> Hr. unfold union_deserialize. cbn [map nth_error N.to_nat byte_to_N option_map].
      change (byte_to_N x00) with 0. cbn [N.to_nat nth_error option_map].
      destruct rest as [|y rest]; [contradiction|]. rewrite !blen_cons.
      replace (blen rest + 1 + 1 =? 1) with false by lia. reflexivity.
  - intros oc u b. unfold ssz_deserialize. cbn [serializable option_impl deserialize]. unfold option_deserialize.
    split; [|split; [|split; [|split]]].
    + intros x. split.
      * destruct b as [|s rest]; [discriminate|]. destruct (byte_eqb s x00) eqn:E0.
        { destruct (negb _); discriminate. }
        destruct (byte_eqb s x01) eqn:E1; [|discriminate]. apply byte_eqb_true in E1 as ->. intros H.
        apply bind_ok_inv in H as (y & H & [= <-]). eauto.
      * intros (rest & -> & H). cbn [byte_eqb]. change (byte_eqb x01 x00) with false.
        change (byte_eqb x01 x01) with true. cbv iota. rewrite H. reflexivity.
    + split.
      * destruct b as [|s rest]; [discriminate|]. destruct (byte_eqb s x00) eqn:E0.
        { apply byte_eqb_true in E0 as ->. destruct (blen (x00 :: rest) =? 1) eqn:L; cbn [negb]; [|discriminate].
          intros _. rewrite blen_cons in L. assert (L' : blen rest = 0) by lia. apply blen_0 in L' as ->. reflexivity. }
        destruct (byte_eqb s x01) eqn:E1; [|discriminate]. intros H. apply bind_ok_inv in H as (y & _ & H). discriminate.
      * intros ->. reflexivity.
    + intros ->. reflexivity.
    + intros s rest -> H0 H1. apply byte_eqb_false in H0, H1. rewrite H0, H1. reflexivity.
    + intros rest -> Hr. change (byte_eqb x00 x00) with true. cbv iota.
      destruct rest as [|y rest]; [contradiction|]. rewrite !blen_cons.
      replace (blen rest + 1 + 1 =? 1) with false by lia. reflexivity.

@example C20_example
let t := TUnion [None; Some (TUint U16); Some (TList TBool 2)] in
  legal t = true /\ ssz_deserialize true t [x02; x01] = Ok (VVariant 2 (VSeq [VBool true])) /\
  ssz_deserialize true t [x00] = Ok VNone /\ ssz_deserialize true t [x03] = Err (InvalidByte x03)
@proof
  repeat split.

@text
** C21: transparent enums

@raw
Lemma rev_split {A} (l pre post : list A) (x : A) :
  rev l = pre ++ x :: post -> l = rev post ++ x :: rev pre.
Proof.
  intros H. rewrite <- (rev_involutive l), H, rev_app_distr. cbn [rev]. rewrite <- app_assoc. reflexivity.
Qed.

Lemma map_split {A B} (f : A -> B) l : forall pre x post,
  map f l = pre ++ x :: post ->
  exists a y c, l = a ++ y :: c /\ map f a = pre /\ f y = x /\ map f c = post.
Proof.
  induction l as [|z l IH]; intros [|p pre] x post H; cbn in H; try discriminate.
  - injection H as <- <-. exists [], z, l. auto.
  - injection H as <- H. destruct (IH _ _ _ H) as (a & y & c & -> & <- & <- & <-).
    exists (z :: a), y, c. auto.
Qed.

@thm C21_transparent
(forall oc ts i u x, nth_error ts (N.to_nat i) = Some u ->
     forall buffer, serialize (serializable oc (TTransparent ts)) (VVariant i x) buffer =
                    serialize (serializable oc u) x buffer) /\
  (forall oc ts b, b <> [] ->
     (forall u p, In u ts -> ssz_deserialize oc u b <> Panic p) ->
     match ssz_deserialize oc (TTransparent ts) b with
     | Ok v => exists i u x,
         v = VVariant i x /\ nth_error ts (N.to_nat i) = Some u /\ ssz_deserialize oc u b = Ok x /\
         forall j w, (N.to_nat i < j)%nat -> nth_error ts j = Some w -> exists e, ssz_deserialize oc w b = Err e
     | Err e => e = NoMatchingVariant /\ forall u, In u ts -> exists e, ssz_deserialize oc u b = Err e
     | Panic _ => False
     end)
@proof
  split.
  - intros oc ts i u x H buf. cbn [serializable transparent_impl serialize transparent_serialize].
    rewrite nth_error_map, H. reflexivity.
  - intros oc ts b Hb HP. unfold ssz_deserialize at 1. cbn [serializable transparent_impl deserialize].
    unfold transparent_deserialize. destruct b as [|s b]; [contradiction|]. clear Hb. set (e := s :: b) in *.
    pose proof (try_variants_spec (rev (map (serializable oc) ts)) e) as HT.
    destruct (try_variants _ e) as [v|er|p].
    + destruct HT as (pre & T & post & x & H1 & -> & H2 & H3).
      { intros T HT p. apply in_rev, in_map_iff in HT as (u & <- & Hu). apply (HP u p Hu). }
      apply rev_split, map_split in H1 as (a & u & c & -> & Ha & <- & Hc).
      assert (Hi : N.to_nat (blen post) = length a).
      { apply (f_equal (@length _)) in Ha. rewrite map_length, rev_length in Ha. unfold blen. lia. }
      exists (blen post), u, x. split; [reflexivity|]. rewrite Hi.
      split; [rewrite nth_error_app2, Nat.sub_diag by lia; reflexivity|]. split; [exact H2|].
      intros j w Hj Hw. rewrite nth_error_app2 in Hw by lia.
      destruct (j - length a)%nat as [|k] eqn:Ek; [lia|]. cbn [nth_error] in Hw.
      apply nth_error_In in Hw. rewrite Forall_forall in H3. apply H3. apply in_rev. rewrite <- Hc.
      apply in_map. exact Hw.
    + destruct HT as [-> H3].
      { intros T HT p. apply in_rev, in_map_iff in HT as (u & <- & Hu). apply (HP u p Hu). }
      split; [reflexivity|]. intros u Hu. rewrite Forall_forall in H3. apply H3. apply -> in_rev.
      apply in_map. exact Hu.
    + apply HT. intros T HT' p'. apply in_rev, in_map_iff in HT' as (u & <- & Hu). apply (HP u p' Hu).

@example C21_example
let t := TTransparent [TUint U16; TList TBool 2; TUint U8] in
  ssz_deserialize true t [x01; x01] = Ok (VVariant 1 (VSeq [VBool true; VBool true])) /\
  ssz_deserialize true t [x01; x02] = Ok (VVariant 0 (VUint 513)) /\
  ssz_deserialize true t [x01; x02; x03] = Err NoMatchingVariant
@proof
  repeat split.

@text
** C22: transparent enums round trip: false

A later variant can accept the bytes, and the empty encoding is always rejected.

@thm C22_refuted
exists t v1 v2,
  legal t = true /\ valid t v1 /\ valid t v2 /\
  (forall oc, exists b, ssz_serialize oc t v1 = Ok b /\ exists w, ssz_deserialize oc t b = Ok w /\ w <> v1) /\
  (forall oc, exists b, ssz_serialize oc t v2 = Ok b /\ exists e, ssz_deserialize oc t b = Err e)
@proof
  exists (TTransparent [TUint U8; TList TBool 2]), (VVariant 0 (VUint 1)), (VVariant 1 (VSeq [])).
  split; [reflexivity|]. split; [reflexivity|]. split; [cbn; split; [discriminate|constructor]|]. split; intros [|].
  - exists [x01]. split; [reflexivity|]. eexists. split; [reflexivity|discriminate].
  - exists [x01]. split; [reflexivity|]. eexists. split; [reflexivity|discriminate].
  - exists []. split; [reflexivity|]. eexists. reflexivity.
  - exists []. split; [reflexivity|]. eexists. reflexivity.

@thm C22_partial
forall oc ts i u x b,
  legal u = true -> no_transparent u = true -> valid u x -> nth_error ts (N.to_nat i) = Some u ->
  ssz_serialize oc (TTransparent ts) (VVariant i x) = Ok b -> b <> [] ->
  (forall j w, (N.to_nat i < j)%nat -> nth_error ts j = Some w -> exists e, ssz_deserialize oc w b = Err e) ->
  ssz_deserialize oc (TTransparent ts) b = Ok (VVariant i x)
@proof
  intros oc ts i u x b HL HN HV HI HS Hb HE.
  assert (HD : ssz_deserialize oc u b = Ok x).
  { apply (c01_round_trip oc); auto. unfold ssz_serialize, serialize_to_vec in *.
    cbn [serializable transparent_impl serialize transparent_serialize] in HS. rewrite nth_error_map, HI in HS.
    exact HS. }
  unfold ssz_deserialize. cbn [serializable transparent_impl deserialize]. unfold transparent_deserialize.
  destruct b as [|s b]; [contradiction|]. clear Hb HS. set (e := s :: b) in *.
  apply nth_error_split in HI as (a & c & -> & Ha).
  assert (HC : Forall (fun w => exists er, ssz_deserialize oc w e = Err er) c).
  { apply Forall_forall. intros w Hw. apply In_nth_error in Hw as (k & Hk).
    apply (HE (S (length a + k)) w); [lia|]. rewrite nth_error_app2 by lia.
    replace (S (length a + k) - length a)%nat with (S k) by lia. exact Hk. }
  rewrite map_app, rev_app_distr. cbn [map rev]. rewrite <- app_assoc. cbn [app].
  assert (HR : Forall (fun T => exists er, deserialize T e = Err er) (rev (map (serializable oc) c))).
  { apply Forall_rev. apply Forall_map. exact HC. }
  induction HR as [|T r (er & Hr) _ IH]; cbn [app try_variants].
  - unfold ssz_deserialize in HD. rewrite HD. rewrite blen_rev, blen_map. do 2 f_equal. unfold blen. lia.
  - rewrite Hr. exact IH.

@example C22_example
let ts := [TList TBool 2; TUint U16] in
  legal (TUint U16) = true /\ ssz_serialize true (TTransparent ts) (VVariant 0 (VSeq [VBool true])) = Ok [x01] /\
  ssz_deserialize true (TUint U16) [x01] = Err (ExpectedFurtherInput 1 2) /\
  ssz_deserialize true (TTransparent ts) [x01] = Ok (VVariant 0 (VSeq [VBool true]))
@proof
  repeat split.

@text
** C47: construction enforces bounds

@thm C47_constructors
(forall n (l : list val),
     (list_try_from n l = Ok l /\ list_try_from_slice n l = Ok l <-> blen l <= n) /\
     (forall r, list_try_from n l = Ok r -> r = l /\ blen l <= n) /\
     (n < blen l -> list_try_from n l = Err (l, EInstance (Bounded n (blen l))) /\
                    list_try_from_slice n l = Err (EInstance (Bounded n (blen l))))) /\
  (forall n (l : list val),
     (vector_try_from n l = Ok l /\ vector_try_from_slice n l = Ok l <-> 0 < n /\ blen l = n) /\
     (forall r, vector_try_from n l = Ok r -> r = l /\ 0 < n /\ blen l = n) /\
     (0 < n -> blen l <> n -> vector_try_from n l = Err (l, EInstance (Exact n (blen l))) /\
                              vector_try_from_slice n l = Err (EInstance (Exact n (blen l)))) /\
     (n = 0 -> vector_try_from n l = Err (l, EType (InvalidBound 0)) /\
               vector_try_from_slice n l = Err (EType (InvalidBound 0)))) /\
  (forall n l,
     (blen l <= n -> exists b, bitlist_try_from_bools n l = Ok b /\ bv_bits b = l /\ valid (TBitlist n) (VBits b)) /\
     (n < blen l -> bitlist_try_from_bools n l = Err (EInstance (Bounded n (blen l))))) /\
  (forall n l,
     (0 < n -> blen l = n ->
        exists b, bitvector_try_from_bools n l = Ok b /\ bv_bits b = l /\ valid (TBitvector n) (VBits b)) /\
     (blen l <> n -> bitvector_try_from_bools n l = Err (EInstance (Exact n (blen l)))))
@proof
  split; [|split; [|split]].
  - intros n l. unfold list_try_from, list_try_from_slice. destruct (n <? blen l) eqn:E.
    + split; [split; [intros [H _]; discriminate|lia]|]. split; [discriminate|]. auto.
    + split; [split; [intros _; lia|auto]|]. split; [intros r [= <-]; split; [auto|lia]|lia].
  - intros n l. unfold vector_try_from, vector_try_from_slice. destruct (n =? 0) eqn:E0.
    + assert (n = 0) by lia. subst n. split; [split; [intros [H _]; discriminate|lia]|].
      split; [discriminate|]. split; [lia|auto].
    + destruct (blen l =? n) eqn:E; cbn [negb].
      * split; [split; [intros _; lia|auto]|]. split; [intros r [= <-]; split; [auto|lia]|]. split; lia.
      * split; [split; [intros [H _]; discriminate|lia]|]. split; [discriminate|]. split; [auto|lia].
  - intros n l. unfold bitlist_try_from_bools. split; intros H.
    + replace (n <? blen l) with false by lia. eexists. split; [reflexivity|].
      destruct (bv_extend_spec l bitlist_default bv_ok_new) as (H1 & H3 & H2').
      assert (H2 : bv_clean (bv_extend bitlist_default l)) by (apply H2'; intros i _; apply raw_bit_high; cbn; lia).
      clear H2'. split; [exact H3|]. cbn [valid]. split; [exact H1|]. split; [|exact H2].
      rewrite <- blen_bv_bits. change (fold_left bv_push l bitlist_default) with (bv_extend bitlist_default l).
      rewrite H3. exact H.
    + replace (n <? blen l) with true by lia. reflexivity.
  - intros n l. unfold bitvector_try_from_bools. split.
    + intros Hn Hl. replace (blen l =? n) with true by lia. cbn [negb]. unfold bitvector_default.
      replace (n =? 0) with false by lia. cbn [bind]. eexists. split; [reflexivity|].
      destruct (set_all_spec l (bv_repeat_false n) 0) as (H1 & H2 & H3 & H4);
        [apply bv_repeat_false_ok|apply bv_repeat_false_clean|cbn [bv_repeat_false bv_len]; lia|].
      split.
      * rewrite H4. cbn [N.to_nat firstn app Nat.add]. rewrite skipn_all2; [apply app_nil_r|].
        rewrite bv_bits_length. cbn [bv_repeat_false bv_len]. unfold blen in Hl. lia.
      * cbn [valid]. split; [exact H1|]. split; [rewrite H3; reflexivity|exact H2].
    + intros H. replace (blen l =? n) with false by lia. reflexivity.

@example C47_example
list_try_from 2 [VUint 1; VUint 2; VUint 3] = Err ([VUint 1; VUint 2; VUint 3], EInstance (Bounded 2 3)) /\
  vector_try_from 2 [VUint 1; VUint 2] = Ok [VUint 1; VUint 2] /\
  bitvector_try_from_bools 3 [true; false; true] = Ok (BitVec [x05] 3)
@proof
  repeat split.

@text
Bitvector<0>::try_from(&[]) does not return an error, it panics (bitvector.rs:58).

@thm C47_bitvector_zero
exists p, bitvector_try_from_bools 0 [] = Panic p
@proof
  eexists. reflexivity.

@text
** C48: a Vector always serializes N elements: false after push through DerefMut

@thm C48_refuted
exists t n l ops,
  legal (TVector t n) = true /\ valid (TVector t n) (VSeq l) /\
  forall oc, exists b, ssz_serialize oc (TVector t n) (VSeq (apply_vec_ops l ops)) = Ok b /\
    blen b <> fixed_size (TVector t n)
@proof
  exists (TUint U8), 2, [VUint 1; VUint 2], [OpPush (VUint 3)].
  split; [reflexivity|]. split; [solve_valid|]. intros oc. exists [x01; x02; x03].
  split; [destruct oc; reflexivity|discriminate].

@thm C48_partial
forall oc t n l ops,
  legal (TVector t n) = true -> valid (TVector t n) (VSeq l) ->
  forallb (fun o => match o with OpSet _ _ => true | _ => false end) ops = true ->
  Forall (valid t) (apply_vec_ops l ops) ->
  valid (TVector t n) (VSeq (apply_vec_ops l ops)) /\
  forall b, ssz_serialize oc (TVector t n) (VSeq (apply_vec_ops l ops)) = Ok b ->
    spec_serialize (TVector t n) (VSeq (apply_vec_ops l ops)) = Some b
@proof
  intros oc t n l ops HL [HV _] HO HF.
  assert (G : valid (TVector t n) (VSeq (apply_vec_ops l ops))).
  { cbn [valid]. rewrite apply_set_length by auto. auto. }
  split; [exact G|]. intros b HS. eapply ssz_serialize_ok_spec; eauto.

@thm C48_exact_partial
(* what is encoded is the elements held, however many, never a part of them *)
forall oc t n l, 0 < n -> blen l < 2 ^ 64 -> legal t = true -> Forall (valid t) l ->
  match spec_serialize (TList t (blen l)) (VSeq l) with
  | Some b => ssz_serialize oc (TVector t n) (VSeq l) = Ok b
  | None => exists k, ssz_serialize oc (TVector t n) (VSeq l) = Err (MaximumEncodedLengthReached k)
  end
@proof
  intros oc t n l Hn HB HL HF.
  assert (G1 : legal (TList t (blen l)) = true).
  { cbn [legal]. rewrite HL, andb_true_r. apply N.ltb_lt. exact HB. }
  assert (G2 : valid (TList t (blen l)) (VSeq l)) by (cbn [valid]; split; [apply N.le_refl|exact HF]).
  assert (E : ssz_serialize oc (TVector t n) (VSeq l) = ssz_serialize oc (TList t (blen l)) (VSeq l)).
  { unfold ssz_serialize, serialize_to_vec. cbn [serializable vector_impl list_impl serialize].
    unfold vector_serialize, list_serialize. clear - Hn.
    replace (n =? 0) with false by lia. rewrite N.ltb_irrefl. reflexivity. }
  rewrite E. pose proof (ssz_serialize_spec oc _ _ G1 G2) as G.
  destruct (spec_serialize (TList t (blen l)) (VSeq l)); [exact G|]. destruct G as (k & G & _). eauto.

@example C48_exact_example
ssz_serialize true (TVector (TUint U8) 2) (VSeq (apply_vec_ops [VUint 1; VUint 2] [OpPush (VUint 3)])) = Ok [x01; x02; x03] /\
  spec_serialize (TList (TUint U8) 3) (VSeq [VUint 1; VUint 2; VUint 3]) = Some [x01; x02; x03]
@proof
  split; reflexivity.

@example C48_example
legal (TVector (TUint U8) 2) = true /\ valid (TVector (TUint U8) 2) (VSeq [VUint 1; VUint 2]) /\
  Forall (valid (TUint U8)) (apply_vec_ops [VUint 1; VUint 2] [OpSet 1 (VUint 9); OpSet 7 (VUint 3)])
@proof
  split; [reflexivity|]. split; [solve_valid|]. repeat constructor.

@text
** C49: bit access

@thm C49_get_set
forall b i v, bv_ok b = true ->
  let r := bits_set b i v in
  snd r = nth_error (bv_bits b) (N.to_nat i) /\
  (i < bv_len b <-> snd r <> None) /\
  bv_ok (fst r) = true /\ bv_len (fst r) = bv_len b /\
  (forall j, bits_get (fst r) j =
     if (j =? i) && (i <? bv_len b) then Some v else bits_get b j) /\
  bv_bits (fst r) = replace (N.to_nat i) v (bv_bits b)
@proof
  intros b i v Hok r. destruct (bits_set_spec b i v Hok) as (H1 & H2 & _ & H4). fold r in H1, H2, H4.
  assert (HL : bv_len (fst r) = bv_len b).
  { pose proof (f_equal (@length bool) H2) as G. rewrite replace_length, !bv_bits_length in G. lia. }
  assert (HG : forall c k, bits_get c k = nth_error (bv_bits c) (N.to_nat k)).
  { intros c k. unfold bits_get, bv_get. destruct (k <? bv_len c) eqn:E.
    - rewrite (nth_error_nth' _ false) by (rewrite bv_bits_length; lia). rewrite nth_bv_bits, N2Nat.id, E. reflexivity.
    - symmetry. apply nth_error_None. rewrite bv_bits_length. lia. }
  split; [exact H4|]. split.
  { rewrite H4. rewrite nth_error_Some, bv_bits_length. lia. }
  split; [exact H1|]. split; [exact HL|]. split; [|exact H2].
  intros j. unfold bits_get, bv_get. rewrite HL.
  destruct (j <? bv_len b) eqn:E.
  - assert (G : forall c, bv_len c = bv_len b -> raw_bit (bv_raw c) j = nth (N.to_nat j) (bv_bits c) false).
    { intros c Hc. rewrite nth_bv_bits, N2Nat.id, Hc, E. reflexivity. }
    rewrite (G (fst r)), (G b) by auto. rewrite H2, nth_replace, bv_bits_length.
    destruct (j =? i) eqn:Eji.
    + replace (Nat.eqb (N.to_nat j) (N.to_nat i)) with true by (symmetry; apply Nat.eqb_eq; lia).
      replace (Nat.ltb (N.to_nat i) (N.to_nat (bv_len b))) with true by (symmetry; apply Nat.ltb_lt; lia).
      replace (i <? bv_len b) with true by lia. reflexivity.
    + replace (Nat.eqb (N.to_nat j) (N.to_nat i)) with false by (symmetry; apply Nat.eqb_neq; lia). reflexivity.
  - destruct (j =? i) eqn:Eji; [|reflexivity]. replace (i <? bv_len b) with false by lia. reflexivity.

@example C49_example
let b := BitVec [x05] 3 in
  bits_set b 1 true = (BitVec [x07] 3, Some false) /\ bits_set b 3 true = (b, None) /\ bv_ok b = true
@proof
  repeat split.

@text
** C51: decode errors are truthful

In builds without overflow checks the statement needs containers with at most one variable-size
field; otherwise an error can report a wrapped-around length.

@thm C51_truthful_errors
forall oc t b e,
  legal t = true -> blen b < 2 ^ 63 -> oc = true \/ single_variable t = true ->
  ssz_deserialize oc t b = Err e -> truthful b e
@proof
  intros oc t b e HL HB HO HD.
  pose proof (decode_good True False oc t HL ltac:(intros _; exact HO) ltac:(tauto) b HB) as H.
  unfold ssz_deserialize in HD. rewrite HD in H. exact (H I).

@example C51_example
legal sample_ty = true /\ exists e, ssz_deserialize true sample_ty [x01; x02] = Err e
@proof
  split; [reflexivity|]. eexists. vm_compute. reflexivity.

@thm C51_release_refuted
exists t b provided expected,
  legal t = true /\ ssz_deserialize false t b = Err (ExpectedFurtherInput provided expected) /\
  expected < provided /\ blen b < provided
@proof
  exists (TContainer [("a"%string, TList TBool 4); ("b"%string, TBitlist 9)]).
  exists [xff; x00; x00; x00; xff; x00; x00; x00]. eexists. eexists.
  split; [reflexivity|]. split; [vm_compute; reflexivity|]. split; reflexivity.

@text
** C52: default values are legal, serialize (unless they need 2^32 bytes) and round-trip

@thm C52_defaults
forall oc t, legal t = true -> has_default t = true ->
  exists v, default_value t = Ok v /\ valid t v /\
    match ssz_serialize oc t v with
    | Ok b => spec_serialize t v = Some b /\ (no_transparent t = true -> ssz_deserialize oc t b = Ok v)
    | Err e => exists n, e = MaximumEncodedLengthReached n /\ too_big t v n
    | Panic _ => False
    end
@proof
  intros oc t HL HD. destruct (default_valid t HL HD) as (v & H1 & H2). exists v. split; [exact H1|].
  split; [exact H2|]. pose proof (ssz_serialize_spec oc t v HL H2) as H.
  destruct (spec_serialize t v) as [b|] eqn:E.
  - rewrite H. split; [reflexivity|]. intros HN. apply decode_encode; auto.
  - destruct H as (n & -> & Hn). eauto.

@example C52_example
legal sample_ty = true /\ has_default sample_ty = true /\
  default_value (TContainer [("a"%string, TVector (TUint U8) 2); ("b"%string, TBitvector 3); ("c"%string, TOption TBool)])
  = Ok (VStruct [VSeq [VUint 0; VUint 0]; VBits (BitVec [x00] 3); VNone])
@proof
  repeat split.

@text
** C53: a newtype is encoded as its content (codec part)

@thm C53_newtype_codec
forall oc t,
  is_variable_size (serializable oc (TNewtype t)) = is_variable_size (serializable oc t) /\
  size_hint (serializable oc (TNewtype t)) = size_hint (serializable oc t) /\
  (forall x buffer, serialize (serializable oc (TNewtype t)) (VNewtype x) buffer =
                    serialize (serializable oc t) x buffer) /\
  (forall b x, ssz_deserialize oc (TNewtype t) b = Ok (VNewtype x) <-> ssz_deserialize oc t b = Ok x) /\
  (forall b e, ssz_deserialize oc (TNewtype t) b = Err e <-> ssz_deserialize oc t b = Err e)
@proof
  intros oc t. rewrite !size_hint_spec, !is_variable_size_spec. do 2 (split; [reflexivity|]).
  split; [intros x buf; reflexivity|]. unfold ssz_deserialize.
  cbn [serializable newtype_impl deserialize].
  split; intros b ?; destruct (deserialize (serializable oc t) b); cbn [bind]; split; congruence.

@example C53_example
ssz_deserialize true (TNewtype (TUint U16)) [x01; x02] = Ok (VNewtype (VUint 513))
@proof
  reflexivity.

@text
** C54: Bitlists of every bound decode: false near 2^64

[byte_length] computes N + 8, which overflows: a panic with overflow checks, and without them
every input is rejected, so even the encoding of the empty bit list does not decode.
C16 holds for all smaller bounds.

@thm C54_refuted
exists n b, n < 2 ^ 64 /\
  (forall oc, ssz_serialize oc (TBitlist n) (VBits b) = Ok [x01]) /\ valid (TBitlist n) (VBits b) /\
  (exists p, ssz_deserialize true (TBitlist n) [x01] = Panic p) /\
  (exists e, ssz_deserialize false (TBitlist n) [x01] = Err e)
@proof
  exists (2 ^ 64 - 8), bitlist_default. split; [reflexivity|]. split; [reflexivity|].
  split; [cbn [valid]; split; [reflexivity|]; split; [vm_compute; discriminate|]; intros i _; apply raw_bit_high; cbn; lia|].
  split; eexists; vm_compute; reflexivity.

@thm C54_partial
forall oc1 oc2 n b, n + 8 < 2 ^ 64 -> valid (TBitlist n) (VBits b) ->
  exists e, ssz_serialize oc1 (TBitlist n) (VBits b) = Ok e /\ ssz_deserialize oc2 (TBitlist n) e = Ok (VBits b)
@proof
  intros oc1 oc2 n b Hn HV. exists (spec_bits (bv_bits b ++ [true])).
  assert (HL : legal (TBitlist n) = true) by (cbn [legal]; lia).
  pose proof (ssz_serialize_spec oc1 _ _ HL HV) as H. cbn [spec_serialize] in H. split; [exact H|].
  apply (c01_round_trip oc1 oc2 (TBitlist n)); auto.

@example C54_example
valid (TBitlist 9) (VBits (bits_of [true; false; true]))
@proof
  solve_valid.

@text
** C63: what is decoded is not larger than the input

[encoded_bytes] counts the bytes of the encoding, [nodes] the values inside a value (SpecSize.v).

@raw
Lemma reads_decode oc t b v : legal t = true -> blen b < 2 ^ 63 ->
  (ssz_deserialize oc t b = Ok v <-> read oc t b = Reads v).
Proof.
  intros HL HB. pose proof (c10_partial oc t b HL HB) as HR. destruct (ssz_deserialize oc t b) as [w|e|p].
  - rewrite HR. split; intros [= <-]; reflexivity.
  - rewrite HR. split; discriminate.
  - rewrite HR. split; discriminate.
Qed.

@thm C63_no_amplification
forall oc t b v, legal t = true -> blen b < 2 ^ 63 -> ssz_deserialize oc t b = Ok v ->
  encoded_bytes t v <= blen b /\
  nodes v <= height t * N.max 1 (blen b) /\
  (forall oc2 e, ssz_serialize oc2 t v = Ok e -> blen e = encoded_bytes t v)
@proof
  intros oc t b v HL HB HD. pose proof (c09_decoded_values_valid oc t b v HL HB HD) as HV.
  assert (HE : encoded_bytes t v <= blen b) by (eapply read_bytes; [exact HL|]; apply reads_decode in HD; eauto).
  split; [exact HE|]. split.
  - pose proof (nodes_bytes t HL v HV) as HN.
    pose proof (mul_le_r (height t) (N.max 1 (encoded_bytes t v)) (N.max 1 (blen b)) ltac:(lia)). lia.
  - intros oc2 e HS. pose proof (ssz_serialize_spec oc2 t v HL HV) as HX.
    destruct (spec_serialize t v) as [e'|] eqn:EE.
    + rewrite HX in HS. injection HS as <-. symmetry. eapply encoded_exact; eauto.
    + destruct HX as (n & HX & _). rewrite HX in HS. discriminate.

@example C63_example
(* a first offset of 0: seven bytes are read as an empty list, whose encoding is empty *)
  let t := TList (TList (TUint U8) 4) 4 in let b := [x00; x00; x00; x00; x01; x02; x03] in
  ssz_deserialize true t b = Ok (VSeq []) /\ encoded_bytes t (VSeq []) = 0 /\
  (* the bound on the number of values is reached *)
  ssz_deserialize true (TList (TUint U8) 4) [x07] = Ok (VSeq [VUint 7]) /\
  nodes (VSeq [VUint 7]) = 2 /\ height (TList (TUint U8) 4) = 2
@proof
  repeat split.

@text
** C64: raising bounds and adding variants keeps encodings

[wider] (SpecAlike.v): the same type with larger bounds of lists and bit lists and further variants
at the end of unions, at any depth.

@thm C64_wider_types
forall t t', wider t t' -> legal t = true -> legal t' = true ->
  (forall oc v, valid t v -> valid t' v /\ ssz_serialize oc t' v = ssz_serialize oc t v) /\
  (forall oc b v, blen b < 2 ^ 63 -> ssz_deserialize oc t b = Ok v -> ssz_deserialize oc t' b = Ok v) /\
  (forall oc b v, blen b < 2 ^ 63 -> ssz_deserialize oc t' b = Ok v ->
     (ssz_deserialize oc t b = Ok v <-> valid t v))
@proof
  intros t t' HW HL HL'. split; [|split].
  - intros oc v HV. pose proof (valid_wider t t' v HW HV) as HV'. split; [exact HV'|].
    unfold ssz_serialize, serialize_to_vec.
    rewrite (c06_exact_partial oc t' v [] (valid_typed _ _ HV')), (c06_exact_partial oc t v [] (valid_typed _ _ HV)).
    rewrite (write_wider t t' v HW HV). reflexivity.
  - intros oc b v HB HD. apply reads_decode; auto. eapply read_wider; [exact HW|]. apply reads_decode; auto.
  - intros oc b v HB HD. split.
    + apply c09_decoded_values_valid; auto.
    + intros HV. apply reads_decode; auto. eapply read_narrow; eauto. apply reads_decode; auto.

@example C64_example
let t := TContainer [("a", TList (TUint U8) 2); ("b", TUnion [None; Some (TBitlist 3)])]%string in
  let t' := TContainer [("a", TList (TUint U8) 9); ("b", TUnion [None; Some (TBitlist 5); Some TBool])]%string in
  wider t t' /\ legal t = true /\ legal t' = true /\
  ssz_deserialize true t [x08; x00; x00; x00; x0a; x00; x00; x00; x01; x02; x01; x0d] =
    Ok (VStruct [VSeq [VUint 1; VUint 2]; VVariant 1 (VBits (bits_of [true; false; true]))]) /\
  (* a value of the wider type only *)
  ssz_deserialize true t [x08; x00; x00; x00; x09; x00; x00; x00; x01; x02; x01] = Err (InvalidByte x02) /\
  ssz_deserialize true t' [x08; x00; x00; x00; x09; x00; x00; x00; x01; x02; x01] =
    Ok (VStruct [VSeq [VUint 1]; VVariant 2 (VBool true)])
@proof
  cbn zeta. split; [|repeat split].
  repeat constructor; cbn; discriminate || reflexivity.

@text
** C65: how a type is presented to Rust does not matter (codec part)

[core] (SpecAlike.v) writes arrays as Vectors, Options as unions and newtypes as their content, at
any depth.

@thm C65_presentation_codec
forall t, legal t = true -> legal (core t) = true /\
  (forall oc v buffer, typed t v -> typed (core t) (core_val v) /\
     serialize (serializable oc (core t)) (core_val v) buffer = serialize (serializable oc t) v buffer) /\
  (forall oc b, blen b < 2 ^ 63 ->
     match ssz_deserialize oc t b with
     | Ok v => ssz_deserialize oc (core t) b = Ok (core_val v)
     | Err _ => exists e, ssz_deserialize oc (core t) b = Err e
     | Panic _ => exists p, ssz_deserialize oc (core t) b = Panic p
     end)
@proof
  intros t HL. pose proof (core_legal t HL) as HL'. split; [exact HL'|]. split.
  - intros oc v buffer HT. pose proof (core_typed t v HT) as HT'. split; [exact HT'|].
    rewrite !c06_exact_partial by auto. rewrite core_write by auto. reflexivity.
  - intros oc b HB. pose proof (c10_partial oc t b HL HB) as H1. pose proof (c10_partial oc (core t) b HL' HB) as H2.
    rewrite core_read in H2.
    destruct (ssz_deserialize oc t b) as [v|e|p]; rewrite H1 in H2; cbn [map_reading] in H2;
      destruct (ssz_deserialize oc (core t) b) as [w|e'|p']; try discriminate; eauto. injection H2 as <-. reflexivity.

@example C65_example
let t := TContainer [("a", TArray (TNewtype (TUint U8)) 2); ("b", TOption (TArray TBool 1))]%string in
  legal t = true /\
  core t = TContainer [("a", TVector (TUint U8) 2); ("b", TUnion [None; Some (TVector TBool 1)])]%string /\
  ssz_deserialize true t [x01; x02; x06; x00; x00; x00; x01; x01] =
    Ok (VStruct [VSeq [VNewtype (VUint 1); VNewtype (VUint 2)]; VSome (VSeq [VBool true])]) /\
  ssz_deserialize true (core t) [x01; x02; x06; x00; x00; x00; x01; x01] =
    Ok (VStruct [VSeq [VUint 1; VUint 2]; VVariant 1 (VSeq [VBool true])])
@proof
  repeat split.

@text
** C71: encodings are neither smaller nor larger than the type allows

[least_bytes] and [most_bytes] (SpecSize.v) are computed from the type alone.

@thm C71_size_bounds
forall oc t, legal t = true ->
  (forall v e, valid t v -> ssz_serialize oc t v = Ok e -> least_bytes t <= blen e <= most_bytes t) /\
  (least_bytes t < 2 ^ 32 -> exists v e, valid t v /\ ssz_serialize oc t v = Ok e /\ blen e = least_bytes t) /\
  (most_bytes t < 2 ^ 32 -> exists v e, valid t v /\ ssz_serialize oc t v = Ok e /\ blen e = most_bytes t) /\
  (most_bytes t < 2 ^ 32 -> forall v, valid t v -> exists e, ssz_serialize oc t v = Ok e) /\
  (forall b v, blen b < 2 ^ 63 -> ssz_deserialize oc t b = Ok v -> least_bytes t <= blen b) /\
  (forall b v, no_variable_list t = true -> blen b < 2 ^ 32 -> ssz_deserialize oc t b = Ok v -> blen b <= most_bytes t)
@proof
  intros oc t HL.
  assert (HS : forall v, valid t v -> encoded_bytes t v < 2 ^ 32 ->
                 exists e, ssz_serialize oc t v = Ok e /\ blen e = encoded_bytes t v).
  { intros v HV HB. destruct (small_serializes t v HV HB) as [e E]. exists e.
    pose proof (ssz_serialize_spec oc t v HL HV) as HX. rewrite E in HX. split; [exact HX|]. symmetry. eapply encoded_exact; eauto. }
  assert (HE : forall v e, valid t v -> ssz_serialize oc t v = Ok e -> blen e = encoded_bytes t v).
  { intros v e HV HE. pose proof (ssz_serialize_spec oc t v HL HV) as HX. destruct (spec_serialize t v) as [e'|] eqn:EE.
    - rewrite HX in HE. injection HE as <-. symmetry. eapply encoded_exact; eauto.
    - destruct HX as (n & HX & _). rewrite HX in HE. discriminate. }
  split; [|split; [|split; [|split; [|split]]]].
  - intros v e HV E. rewrite (HE v e HV E). apply bytes_between. exact HV.
  - intros HB. destruct (bytes_reached false t HL) as (v & HV & E). destruct (HS v HV) as (e & S1 & S2); [rewrite E; exact HB|].
    exists v, e. split; [exact HV|]. split; [exact S1|]. rewrite S2. exact E.
  - intros HB. destruct (bytes_reached true t HL) as (v & HV & E). destruct (HS v HV) as (e & S1 & S2); [rewrite E; exact HB|].
    exists v, e. split; [exact HV|]. split; [exact S1|]. rewrite S2. exact E.
  - intros HB v HV. destruct (HS v HV) as (e & S1 & _); [|eauto]. pose proof (bytes_between t v HV). lia.
  - intros b v HB HD. destruct (c63_no_amplification oc t b v HL HB HD) as [H1 _].
    pose proof (bytes_between t v (c09_decoded_values_valid oc t b v HL HB HD)). lia.
  - intros b v HV HB HD. pose proof (c03_canonical oc oc t b v HL HV HB HD) as E.
    assert (HV' : valid t v). { apply (c09_decoded_values_valid oc t b v HL); auto. eapply N.lt_trans; [exact HB|reflexivity]. }
    rewrite (HE v b HV' E). apply bytes_between. exact HV'.

@example C71_example
let t := TContainer [("a"%string, TList (TUint U16) 4); ("b"%string, TUnion [None; Some (TBitlist 9); Some TU256]); ("c"%string, TVector TBool 3)] in
  legal t = true /\ no_variable_list t = true /\ least_bytes t = 4 + 4 + 3 + 0 + 1 /\ most_bytes t = 4 + 4 + 3 + 8 + 33 /\
  ssz_serialize true t (VStruct [VSeq []; VNone; VSeq [VBool true; VBool true; VBool false]]) = Ok [x0b; x00; x00; x00; x0b; x00; x00; x00; x01; x01; x00; x00] /\
  (* the upper bound fails for inputs of lists of variable-size elements, see C04 *)
  (let u := TList (TList (TUint U8) 4) 3 in let b := zeros 4 ++ repeat xff 100 in
   most_bytes u = 24 /\ blen b = 104 /\ ssz_deserialize true u b = Ok (VSeq []))
@proof
  cbv zeta. repeat split.

@text
** C76: equal values have equal encodings: false

[==] on the bit types ignores the bits that are stored beyond the length (Compare.v); [serialize]
writes them, see C17.

@thm C76_refuted
exists n ops1 ops2,
  let v := VBits (apply_bit_ops bitlist_default ops1) in
  let w := VBits (apply_bit_ops bitlist_default ops2) in
  legal (TBitlist n) = true /\ typed (TBitlist n) v /\ typed (TBitlist n) w /\
  ssz_eq v w = true /\
  forall oc, exists e1 e2,
    ssz_serialize oc (TBitlist n) v = Ok e1 /\ ssz_serialize oc (TBitlist n) w = Ok e2 /\ e1 <> e2
@proof
  exists 8, [BPush true; BPush true; BPush true; BTruncate 1], [BPush true].
  cbv zeta. do 3 (split; [reflexivity|]). split; [vm_compute; reflexivity|]. intros oc. exists [x07], [x03].
  split; [vm_compute; reflexivity|]. split; [vm_compute; reflexivity|]. discriminate.

@text
[==] decides [same_value] (SpecCompare.v), an equivalence that ignores nothing but those bits. For
valid values it is equality, and the encodings are equal exactly when the values are.

@thm C76_same_value
(forall v w, ssz_eq v w = true <-> same_value v w) /\
(forall v, ssz_eq v v = true) /\
(forall v w, ssz_eq v w = true -> ssz_eq w v = true) /\
(forall u v w, ssz_eq u v = true -> ssz_eq v w = true -> ssz_eq u w = true)
@proof
  split; [intros v; apply ssz_eq_spec|]. split; [intros v; apply ssz_eq_spec, same_refl|]. split.
  - intros v w E. apply ssz_eq_spec. apply same_sym. apply ssz_eq_spec. exact E.
  - intros u v w E F. apply ssz_eq_spec. apply same_trans with (w := v); apply ssz_eq_spec; assumption.

@thm C76_partial
forall oc1 oc2 t v w, legal t = true -> valid t v -> valid t w ->
  (ssz_eq v w = true <-> v = w) /\
  forall e1 e2, ssz_serialize oc1 t v = Ok e1 -> ssz_serialize oc2 t w = Ok e2 ->
    (ssz_eq v w = true -> e1 = e2) /\
    (no_transparent t = true -> e1 = e2 -> ssz_eq v w = true)
@proof
  intros oc1 oc2 t v w HL HV HW.
  assert (HE : ssz_eq v w = true <-> v = w).
  { rewrite ssz_eq_spec. split; [apply same_valid with (t := t); auto|intros <-; apply same_refl]. }
  split; [exact HE|]. intros e1 e2 E1 E2. split.
  - intros E. apply HE in E. subst w. pose proof (ssz_serialize_spec oc1 t v HL HV) as S1.
    pose proof (ssz_serialize_spec oc2 t v HL HV) as S2. destruct (spec_serialize t v) as [e|]; [congruence|].
    destruct S1 as (n & S1 & _). congruence.
  - intros HN <-. apply HE. exact (c05_injective oc1 oc2 t v w e1 HL HN HV HW E1 E2).

@example C76_example
let t := TContainer [("a", TList (TUint U16) 4); ("b", TOption (TBitlist 9))]%string in
let v := VStruct [VSeq [VUint 1; VUint 2]; VSome (VBits (bits_of [true; false; true]))] in
let w := VStruct [VSeq [VUint 1; VUint 2]; VSome (VBits (BitVec [x0d] 3))] in
let u := VStruct [VSeq [VUint 1; VUint 3]; VSome (VBits (bits_of [true; false; true]))] in
  legal t = true /\ no_transparent t = true /\ valid t v /\ valid t u /\ typed t w /\
  ssz_eq v v = true /\ ssz_eq v u = false /\ ssz_eq v w = true /\ v <> w /\
  ssz_serialize true t v = Ok [x08; x00; x00; x00; x0c; x00; x00; x00; x01; x00; x02; x00; x01; x0d]
@proof
  cbv zeta. split; [reflexivity|]. split; [reflexivity|]. split; [solve_valid|]. split; [solve_valid|].
  split; [repeat constructor|]. do 3 (split; [vm_compute; reflexivity|]). split; [discriminate|vm_compute; reflexivity].

@text
** C77: values of a type are totally ordered, consistently with equality

[value_before] (SpecCompare.v) is the documented order: lexicographic for sequences, bits, bytes
and fields, by position and then contents for variants.

@thm C77_total_order
forall t u v w, typed t u -> typed t v -> typed t w ->
  (ssz_cmp u v = Eq <-> ssz_eq u v = true) /\
  (ssz_cmp u v = Lt <-> value_before u v) /\
  (ssz_cmp u v = Gt <-> value_before v u) /\
  (ssz_cmp u v <> Gt -> ssz_cmp v w <> Gt -> ssz_cmp u w <> Gt) /\
  (ssz_cmp u v <> Gt -> ssz_cmp v w <> Gt -> ssz_cmp u w = Eq -> ssz_eq u v = true /\ ssz_eq v w = true)
@proof
  intros t u v w HU HV HW. pose proof (cmp_spec t u v HU HV) as (C1 & C2 & C3).
  pose proof (cmp_spec t v w HV HW) as (D1 & _).
  split; [rewrite C1, ssz_eq_spec; reflexivity|]. split; [exact C2|]. split; [exact C3|].
  pose proof (cmp_join u v w) as HJ. rewrite !ssz_eq_spec, <- C1, <- D1.
  destruct (ssz_cmp u v), (ssz_cmp v w); cbn [join] in HJ; try rewrite (HJ _ eq_refl); split; intros; auto; congruence.

@example C77_example
let t := TContainer [("a", TList (TUint U16) 4); ("b", TOption (TBitlist 9))]%string in
let v := VStruct [VSeq [VUint 1; VUint 2]; VNone] in
let w := VStruct [VSeq [VUint 1; VUint 2]; VSome (VBits (bits_of [true; false; true]))] in
let u := VStruct [VSeq [VUint 1; VUint 2; VUint 0]; VNone] in
  typed t v /\ typed t w /\ typed t u /\ ssz_cmp v w = Lt /\ ssz_cmp w u = Lt /\ ssz_cmp u v = Gt /\
  (* numbers are not compared by their encodings *)
  ssz_cmp (VUint 255) (VUint 256) = Lt /\
  ssz_cmp (VBits (BitVec [x02] 2)) (VBits (BitVec [x01] 2)) = Lt
@proof
  cbv zeta. do 3 (split; [repeat constructor|]). repeat split.

@text
** C80: the work of decoding is linear in the input

[decode_c] (DeCost.v) is [deserialize] with a counter: every call of a [deserialize], also for elements,
fields and variants and also when it fails, counts the bytes it is given, at least 1. [effort]
(SpecEffort.v) depends on the type only. It is the height of the type, except that a transparent enum
needs the effort of all its variants together. So [deserialize] of nested transparent enums takes
exponential time in the depth, for an input of one byte.

[passes] (SpecEffort.v) are the bytes of a value and of all values inside it. An input that is decoded takes at
least this work, and exactly this if it is the encoding of the value.

@thm C80_linear
forall oc t b, fst (decode_c oc t b) = ssz_deserialize oc t b /\
  (legal t = true -> blen b < 2 ^ 63 ->
   snd (decode_c oc t b) <= effort t * N.max 1 (blen b) /\
   (no_transparent t = true -> snd (decode_c oc t b) <= height t * N.max 1 (blen b)))
@proof
  intros oc t b. split; [apply decode_erased|]. intros HL Hb. pose proof (decode_bound oc t HL b Hb) as HB.
  split; [exact HB|]. intros HN. rewrite <- effort_height by auto. exact HB.

@thm C80_transparent
forall oc d, legal (twofold d) = true /\ height (twofold d) = N.of_nat d + 1 /\
  (exists e, ssz_deserialize oc (twofold d) [x02] = Err e) /\
  snd (decode_c oc (twofold d) [x02]) = 2 ^ (N.of_nat d + 1) - 1 /\
  effort (twofold d) = 2 ^ (N.of_nat d + 1) - 1
@proof
  intros oc d. split; [apply twofold_legal|]. split; [apply twofold_height|]. split; [apply twofold_err|].
  split; [apply twofold_work|apply twofold_effort].

@thm C80_exact
forall oc t b v, legal t = true -> blen b < 2 ^ 63 -> ssz_deserialize oc t b = Ok v ->
  passes t v <= snd (decode_c oc t b) /\
  (no_transparent t = true -> forall oc2, ssz_serialize oc2 t v = Ok b -> snd (decode_c oc t b) = passes t v)
@proof
  intros oc t b v HL HB HD.
  assert (HW : works t (decode_c oc t)).
  { apply decode_works; auto. intros u c w HLu HC HDu. rewrite decode_erased in HDu. apply (c63_no_amplification oc u c w HLu HC HDu). }
  pose proof HD as HF. rewrite <- decode_erased in HF. destruct (HW b v HB HF) as (_ & W2 & W3).
  split; [exact W2|]. intros HN oc2 HS. apply W3; [exact HN|].
  symmetry. eapply encoded_exact; [eapply c09_decoded_values_valid; eauto|].
  eapply ssz_serialize_ok_spec; [exact HL|eapply c09_decoded_values_valid; eauto|exact HS].

@thm C80_round_trip
forall oc1 oc2 t v b, legal t = true -> no_transparent t = true -> valid t v -> ssz_serialize oc1 t v = Ok b -> blen b < 2 ^ 63 ->
  decode_c oc2 t b = (Ok v, passes t v)
@proof
  intros oc1 oc2 t v b HL HN HV HS HB. pose proof (c01_round_trip oc1 oc2 t v b HL HN HV HS) as HD.
  rewrite (surjective_pairing (decode_c oc2 t b)). f_equal; [exact (eq_trans (decode_erased oc2 t b) HD)|].
  destruct (c80_exact oc2 t b v HL HB HD) as [_ HE]. eapply HE; eauto.

@example C80_example
let t := TContainer [("a", TList (TList (TUint U16) 4) 4); ("b", TBool)]%string in
let b := [x05; x00; x00; x00; x01; x08; x00; x00; x00; x0c; x00; x00; x00; x01; x00; x02; x00; x03; x00] in
  legal t = true /\ no_transparent t = true /\ height t = 4 /\ blen b = 19 /\
  ssz_deserialize true t b = Ok (VStruct [VSeq [VSeq [VUint 1; VUint 2]; VSeq [VUint 3]]; VBool true]) /\
  (* 19 for the container, 14 for the list, 4 + 2 for its elements, 6 for the numbers and 1 for the bool *)
  snd (decode_c true t b) = 46 /\
  passes t (VStruct [VSeq [VSeq [VUint 1; VUint 2]; VSeq [VUint 3]]; VBool true]) = 46 /\
  (* the bound is reached *)
  snd (decode_c true (TNewtype (TNewtype (TList (TUint U8) 9))) [x01; x02; x03]) = 12 /\
  height (TNewtype (TNewtype (TList (TUint U8) 9))) = 4 /\
  snd (decode_c true (twofold 9) [x02]) = 1023
@proof
  cbv zeta. repeat apply conj; vm_compute; reflexivity.

@text
** C81: the bytes of a part

[reach t v place] is the part of [v] at a place, [put v place x] is [v] with [x] there. [locate]
(SpecAccess.v) finds the bytes of the part by following offsets, without decoding anything else. The bytes
of a part can be replaced in place by those of another value that has as many.

@thm C81_access
forall oc t v b place u x,
  legal t = true -> valid t v -> ssz_serialize oc t v = Ok b -> reach t v place = Some (u, x) ->
  exists pre c post, b = pre ++ c ++ post /\ ssz_serialize oc u x = Ok c /\
    (no_transparent t = true -> locate t b place = Some (u, blen pre, blen c) /\ ssz_deserialize oc u c = Ok x)
@proof
  intros oc t v b place u x HL HV HS HR. apply ssz_serialize_ok_spec in HS; auto.
  destruct (parts_ok place t v b u x HL HV HS HR) as (c & pre & post & K1 & K2 & K3 & _).
  destruct (reach_ok place t v u x HL HV HR) as [HLu HVu].
  exists pre, c, post. split; [exact K2|]. split; [apply ssz_serialize_spec_ok; auto|]. intros HN. split; [auto|].
  apply decode_encode; auto. eapply reach_no_transparent; eauto.

@thm C81_replace
forall oc t v b place u x,
  legal t = true -> valid t v -> ssz_serialize oc t v = Ok b -> reach t v place = Some (u, x) ->
  exists pre c post, b = pre ++ c ++ post /\ ssz_serialize oc u x = Ok c /\
    forall x' c', valid u x' -> ssz_serialize oc u x' = Ok c' -> blen c' = blen c ->
      valid t (put v place x') /\ reach t (put v place x') place = Some (u, x') /\
      ssz_serialize oc t (put v place x') = Ok (pre ++ c' ++ post) /\
      (no_transparent t = true -> ssz_deserialize oc t (pre ++ c' ++ post) = Ok (put v place x'))
@proof
  intros oc t v b place u x HL HV HS HR. apply ssz_serialize_ok_spec in HS; auto.
  destruct (parts_ok place t v b u x HL HV HS HR) as (c & pre & post & K1 & K2 & _ & K4).
  destruct (reach_ok place t v u x HL HV HR) as [HLu HVu].
  exists pre, c, post. split; [exact K2|]. split; [apply ssz_serialize_spec_ok; auto|].
  intros x' c' HX HC Hc'. apply ssz_serialize_ok_spec in HC; auto. specialize (K4 x' c' HC Hc').
  assert (HP : valid t (put v place x')) by (eapply put_valid; eauto).
  split; [exact HP|]. split; [eapply reach_put; eauto|]. split; [apply ssz_serialize_spec_ok; auto|].
  intros HN. apply decode_encode; auto.

@example C81_example
let t := TContainer [("a", TUint U16); ("b", TList (TUnion [None; Some (TList (TUint U8) 9)]) 4); ("c", TBitlist 9)]%string in
let v := VStruct [VUint 7; VSeq [VNone; VVariant 1 (VSeq [VUint 1; VUint 2; VUint 3])]; VBits (bits_of [true; false])] in
let place := [1; 1; 0] in
let x' := VSeq [VUint 4; VUint 5; VUint 6] in
  legal t = true /\ no_transparent t = true /\ valid t v /\ valid (TList (TUint U8) 9) x' /\
  reach t v place = Some (TList (TUint U8) 9, VSeq [VUint 1; VUint 2; VUint 3]) /\
  ssz_serialize true t v = Ok [x07; x00; x0a; x00; x00; x00; x17; x00; x00; x00;
    x08; x00; x00; x00; x09; x00; x00; x00; x00; x01; x01; x02; x03; x05] /\
  locate t [x07; x00; x0a; x00; x00; x00; x17; x00; x00; x00;
    x08; x00; x00; x00; x09; x00; x00; x00; x00; x01; x01; x02; x03; x05] place = Some (TList (TUint U8) 9, 20, 3) /\
  ssz_deserialize true t [x07; x00; x0a; x00; x00; x00; x17; x00; x00; x00;
    x08; x00; x00; x00; x09; x00; x00; x00; x00; x01; x04; x05; x06; x05] = Ok (put v place x')
@proof
  cbv zeta. split; [reflexivity|]. split; [reflexivity|]. split; [solve_valid|]. split; [solve_valid|].
  repeat apply conj; vm_compute; reflexivity.

@text
** C82: the work of encoding is linear in the encoding

[encode_c] (SerCost.v) is [serialize] with a counter of all bytes that are written: to the buffer of the
caller, to the buffers of elements, and to the variable part of a serializer. A byte is written at most
twice for every level of the type above it. Nested lists reach this, so the work is the product of the length
and the depth. If the value has an encoding the work is exactly [copies] (SpecEffort.v), whatever was in the buffer.

@thm C82_linear
forall oc t v buf, fst (encode_c oc t v buf) = serialize (serializable oc t) v buf /\
  (legal t = true -> valid t v ->
   snd (encode_c oc t v buf) <= (2 * height t - 1) * encoded_bytes t v /\
   forall b, ssz_serialize oc t v = Ok b -> snd (encode_c oc t v buf) <= (2 * height t - 1) * blen b)
@proof
  intros oc t v buf. split; [apply encode_erased|]. intros HL HV. pose proof (encode_bound oc t HL v buf HV) as HB.
  split; [exact HB|]. intros b HS. apply ssz_serialize_ok_spec in HS; auto. rewrite <- (encoded_exact t v b) by auto. exact HB.

@thm C82_depth
forall oc d n b, let leaf := bv_len b / 8 + 1 in let depth := N.of_nat d in
  let t := boxed_ty d (TBitlist n) in let v := boxed d (VBits b) in
  legal (TBitlist n) = true -> valid (TBitlist n) (VBits b) -> leaf + 4 * depth < 2 ^ 32 ->
  legal t = true /\ valid t v /\ height t = depth + 1 /\
  (exists c, ssz_serialize oc t v = Ok c /\ blen c = leaf + 4 * depth) /\
  forall buf, snd (encode_c oc t v buf) = (2 * height t - 1) * leaf + 4 * depth * depth
@proof
  intros oc d n b leaf depth t v HL HV HB.
  destruct (spec_serialize (TBitlist n) (VBits b)) as [e|] eqn:HE; [|discriminate HE].
  pose proof (encoded_exact _ _ _ HV HE) as HX. cbn [encoded_bytes] in HX.
  assert (HW : forall buf, snd (encode_c oc (TBitlist n) (VBits b) buf) = blen e).
  { intros buf. cbn [encode_c]. unfold appending. cbn [snd]. pose proof (serialize_spec oc _ HL _ HV buf) as HS. rewrite HE in HS.
    rewrite HS. cbn [fst]. rewrite blen_app. lia. }
  destruct (boxed_facts oc d (TBitlist n) (VBits b) e HL HV eq_refl HE HW) as (K1 & K2 & _ & K4 & (c & K5 & K6) & K7).
  { rewrite <- HX. exact HB. }
  fold t v in K1, K2, K4, K5, K7. split; [exact K1|]. split; [exact K2|]. split; [exact K4|]. split.
  - exists c. split; [apply ssz_serialize_spec_ok; auto|]. rewrite K6, <- HX. reflexivity.
  - intros buf. rewrite K7, K4, <- HX. cbn [height]. fold leaf depth. replace (2 * (depth + 1) - 1) with (2 * depth + 1) by lia. reflexivity.

@thm C82_exact
forall oc t v b buf, legal t = true -> valid t v -> ssz_serialize oc t v = Ok b ->
  encode_c oc t v buf = ((buf ++ b, Ok (blen b)), copies t v)
@proof
  intros oc t v b buf HL HV HS. apply ssz_serialize_ok_spec in HS; auto.
  rewrite (surjective_pairing (encode_c oc t v buf)). f_equal.
  - rewrite encode_erased. pose proof (serialize_spec oc t HL v HV buf) as HE. rewrite HS in HE. exact HE.
  - eapply encode_copies; eauto.

@example C82_example
let t := TContainer [("a", TList (TList (TUint U16) 4) 4); ("b", TBool)]%string in
let v := VStruct [VSeq [VSeq [VUint 1; VUint 2]; VSeq [VUint 3]]; VBool true] in
  legal t = true /\ valid t v /\ height t = 4 /\ encoded_bytes t v = 19 /\
  ssz_serialize true t v = Ok [x05; x00; x00; x00; x01; x08; x00; x00; x00; x0c; x00; x00; x00; x01; x00; x02; x00; x03; x00] /\
  (* 6 for the numbers, twice 6 for the inner lists, twice 14 for the outer list, 1 for the bool and 19 for the container *)
  snd (encode_c true t v []) = 66 /\ copies t v = 66 /\
  (let leaf := TBitlist 100 in let x := VBits (bits_of (repeat true 79)) in
   legal leaf = true /\ valid leaf x /\ encoded_bytes leaf x = 10 /\
   snd (encode_c true (boxed_ty 6 leaf) (boxed 6 x) []) = 13 * 10 + 4 * 6 * 6)
@proof
  cbv zeta. split; [reflexivity|]. split; [solve_valid|]. split; [reflexivity|]. split; [reflexivity|]. split; [vm_compute; reflexivity|].
  split; [vm_compute; reflexivity|]. split; [vm_compute; reflexivity|]. split; [reflexivity|]. split; [solve_valid|]. split; vm_compute; reflexivity.

@text
** C85: builds with and without overflow checks agree

Whatever a build with overflow checks and debug assertions does other than fail such a check, a build
without them does too: the same value, the same error or the same other panic, and the same bytes in
the buffer. For all types and values, also illegal ones.

@thm C85_codec
forall t v b buf,
  modes_agree (ssz_serialize true t v) (ssz_serialize false t v) /\
  writes_agree (serialize (serializable true t) v buf) (serialize (serializable false t) v buf) /\
  modes_agree (ssz_deserialize true t b) (ssz_deserialize false t b)
@proof
  intros t v b buf. split; [apply serialize_modes|]. split; [apply (ia_write _ _ (impls_modes t))|].
  apply (ia_read _ _ (impls_modes t)).

@example C85_codec_example
let t := TContainer [("a"%string, TList TBool 4); ("b"%string, TBitlist 9)] in
let b := [xff; x00; x00; x00; xff; x00; x00; x00] in
  (* the same value, the same error and the same panic *)
  ssz_deserialize true (TList (TUint U16) 2) [x01; x02] = Ok (VSeq [VUint 513]) /\
  ssz_deserialize false (TList (TUint U16) 2) [x01; x02] = Ok (VSeq [VUint 513]) /\
  ssz_deserialize true (TList (TUint U16) 2) [x01] = ssz_deserialize false (TList (TUint U16) 2) [x01] /\
  (exists e, ssz_deserialize false (TList (TUint U16) 2) [x01] = Err e) /\
  (* a check that fails *)
  ssz_deserialize true t b = Panic POverflow /\ (exists e, ssz_deserialize false t b = Err e)
@proof
  cbv zeta. split; [vm_compute; reflexivity|]. split; [vm_compute; reflexivity|]. split; [vm_compute; reflexivity|].
  split; [eexists; vm_compute; reflexivity|]. split; [vm_compute; reflexivity|]. eexists; vm_compute; reflexivity.

@text
** C86: errors name a fault of the input

[fault] is defined in SpecFault.v. Every error of the decoder is one, with the numbers and bytes that are
in the input, of the whole input or of the piece of some part. An input with any fault is not decoded.

@thm C86_faults
forall oc t b, legal t = true -> blen b < 2 ^ 63 ->
  (forall e, ssz_deserialize oc t b = Err e -> fault oc t b e) /\
  (forall e v, fault oc t b e -> ssz_deserialize oc t b <> Ok v)
@proof
  intros oc t b HL HB. split; [intros e; apply (decode_blames oc t HL b HB)|].
  intros e v HF HD. pose proof (read_ok oc t HL b HB) as HR. unfold ssz_deserialize in HD. rewrite HD in HR.
  exact (fault_unread oc t HL b e HB HF v HR).

@thm C86_every_rejection
forall oc t b, legal t = true -> blen b < 2 ^ 63 -> (forall p, ssz_deserialize oc t b <> Panic p) ->
  ((forall v, ssz_deserialize oc t b <> Ok v) <-> exists e, fault oc t b e)
@proof
  intros oc t b HL HB HP. destruct (c86_faults oc t b HL HB) as [H1 H2]. split.
  - intros HV. destruct (ssz_deserialize oc t b) as [v|e|p]; [exfalso; apply (HV v); reflexivity|exists e; auto|exfalso; apply (HP p); reflexivity].
  - intros (e & HE) v. eapply H2; eauto.

@example C86_example
let l := TList (TUint U8) 5 in
let c := TContainer [("a"%string, TUint U16); ("b"%string, l); ("c"%string, TVector l 3)] in
  legal c = true /\
  (* two elements instead of three *)
  ssz_deserialize true (TVector l 3) [x08; x00; x00; x00; x08; x00; x00; x00] = Err (DInvalidInstance (Exact 3 2)) /\
  (* the third field starts before the second *)
  ssz_deserialize true c [x01; x02; x0a; x00; x00; x00; x09; x00; x00; x00; x07] = Err (OffsetNotIncreasing 10 9) /\
  (* inside the third field *)
  ssz_deserialize true c [x01; x02; x0a; x00; x00; x00; x0b; x00; x00; x00; x07; x06; x00; x00; x00; x00; x00] =
    Err (InvalidOffsetsLength 6) /\
  (* the head ends inside the second field *)
  ssz_deserialize true c [x01; x02; x0a] = Err (ExpectedFurtherInput 1 4) /\
  (* six elements in the second field *)
  ssz_deserialize true c [x01; x02; x0a; x00; x00; x00; x10; x00; x00; x00; x01; x02; x03; x04; x05; x06] =
    Err (DInvalidInstance (Bounded 5 6))
@proof
  cbv zeta. split; [reflexivity|]. do 4 (split; [vm_compute; reflexivity|]). vm_compute. reflexivity.

@text
** C88: where encodings end

An encoding of a type that shows its end is not the beginning of another encoding of this type, so an input that was cut
off or to which bytes were added is not taken for another value.

@thm C88_prefix_free
forall oc1 oc2 t v w b x,
  legal t = true -> self_delimiting t = true -> valid t v -> valid t w ->
  ssz_serialize oc1 t v = Ok b -> ssz_serialize oc2 t w = Ok (b ++ x) ->
  x = [] /\ (no_transparent t = true -> v = w)
@proof
  intros oc1 oc2 t v w b x HL HS HV HW EV EW.
  assert (E : x = []).
  { apply (encoding_prefix_free t HL HS v w b x HV HW); eapply ssz_serialize_ok_spec; eassumption. }
  split; [exact E|]. subst x. rewrite app_nil_r in EW. intros HN. exact (c05_injective oc1 oc2 t v w b HL HN HV HW EV EW).

@thm C88_cut_off
forall oc1 oc2 t b x v,
  legal t = true -> self_delimiting t = true -> no_variable_list t = true -> blen (b ++ x) < 2 ^ 32 -> x <> [] ->
  (ssz_deserialize oc1 t (b ++ x) = Ok v -> forall w, ssz_deserialize oc2 t b <> Ok w) /\
  (ssz_deserialize oc1 t b = Ok v -> forall w, ssz_deserialize oc2 t (b ++ x) <> Ok w)
@proof
  intros oc1 oc2 t b x v HL HS HN HB HX.
  assert (HB1 : blen b < 2 ^ 32) by (rewrite blen_app in HB; lia).
  assert (G : forall o1 o2 v w, ssz_deserialize o1 t b = Ok v -> ssz_deserialize o2 t (b ++ x) = Ok w -> False).
  { intros o1 o2 v1 w1 E1 E2.
    assert (V1 : valid t v1) by (eapply decode_valid; [exact HL| |exact E1]; eapply N.lt_trans; [exact HB1|reflexivity]).
    assert (V2 : valid t w1) by (eapply decode_valid; [exact HL| |exact E2]; eapply N.lt_trans; [exact HB|reflexivity]).
    apply (c03_canonical o1 true) in E1; auto. apply (c03_canonical o2 true) in E2; auto.
    apply HX. exact (proj1 (c88_prefix_free true true t v1 w1 b x HL HS V1 V2 E1 E2)). }
  split; intros E w EW; eapply G; eassumption.

@example C88_example
let t := TContainer [("a", TList (TUint U8) 9); ("b", TUnion [None; Some (TUint U16)]); ("c", TBool)]%string in
let b := [x09; x00; x00; x00; x0b; x00; x00; x00; x01; x05; x06; x01; x07; x00] in
  legal t = true /\ self_delimiting t = true /\ no_variable_list t = true /\ spec_variable t = true /\
  ssz_deserialize true t b = Ok (VStruct [VSeq [VUint 5; VUint 6]; VVariant 1 (VUint 7); VBool true]) /\
  (* lists do not show their end *)
  self_delimiting (TList (TUint U8) 9) = false /\
  ssz_deserialize true (TList (TUint U8) 9) [x05] = Ok (VSeq [VUint 5]) /\
  ssz_deserialize true (TList (TUint U8) 9) [x05; x06] = Ok (VSeq [VUint 5; VUint 6])
@proof
  cbv zeta. repeat apply conj; vm_compute; reflexivity.
