(** Properties of text forms: serde support, Debug output and messages of errors. Only theorems, each proved in
    TextThms.v, and examples that show their hypotheses can be met.

    [foreign] is the serde support of types that are not modelled (Text.v, SpecText.v). *)
From Coq Require Import String Ascii.
From Coq Require Import List NArith Bool Lia.
From Coq Require Import Strings.Byte.
From Verif Require Import Prelude Types Bitvec Ser De Impls Api Merkleize Valid SpecSer SpecMerkle Text SpecText Display
  SpecModes TextThms Samples.
Import ListNotations.
Open Scope N_scope.

(** ** C56: JSON round trip *)

Theorem C56_json_round_trip :
  forall oc foreign t v,
  foreign_round_trips foreign -> legal t = true -> unambiguous t -> valid t v ->
  exists j, to_json (serde oc foreign t) v = Ok j /\ from_json (serde oc foreign t) j = Ok v.
Proof. exact c56_json_round_trip. Qed.
Print Assumptions C56_json_round_trip.

Example C56_example :
  let t := TContainer [("a"%string, TList (TUint U16) 4); ("b"%string, TBitlist 9); ("c"%string, TOption (TBitvector 4))] in
  let v := VStruct [VSeq [VUint 7; VUint 8]; VBits (bits_of [true; false; true]); VNone] in
  foreign_round_trips total_foreign /\ legal t = true /\ unambiguous t /\ valid t v /\
  to_json (serde true sample_foreign t) v =
    Ok (JObj [("a"%string, JArr [JNum 7; JNum 8]); ("b"%string, JStr "0x0d"); ("c"%string, JNull)]) /\
  from_json (serde true sample_foreign t)
    (JObj [("b"%string, JStr "0D"); ("z"%string, JNull); ("a"%string, JArr [JNum 7; JNum 8])]) = Ok v.
Proof.
  cbv zeta. split; [apply total_foreign_round_trips|]. split; [reflexivity|]. split.
  { cbn [unambiguous map fst snd fold_right nullable]. split; [|auto].
    repeat constructor; cbn; intros H; repeat (destruct H as [H|H]; [discriminate|]); exact H. }
  split; [solve_valid|]. split; vm_compute; reflexivity.
Qed.

(** ** C57: what is read from JSON is in bounds *)

Theorem C57_json_reads_valid :
  forall oc foreign t j v,
  foreign_reads_valid foreign -> legal t = true ->
  from_json (serde oc foreign t) j = Ok v -> valid t v.
Proof. exact c57_json_reads_valid. Qed.
Print Assumptions C57_json_reads_valid.

Example C57_example :
  let t := TList (TBitvector 4) 2 in
  foreign_reads_valid sample_foreign /\ legal t = true /\
  from_json (serde true sample_foreign t) (JArr [JStr "0x0f"]) = Ok (VSeq [VBits (BitVec [x0f] 4)]) /\
  from_json (serde true sample_foreign t) (JArr [JStr "0x1f"]) = Err (JCustom (EDeserialize (InvalidByte x1f))) /\
  from_json (serde true sample_foreign t) (JArr [JStr "0x01"; JStr "0x01"; JStr "0x01"]) =
    Err (JCustom (EInstance (Bounded 2 3))).
Proof.
  cbv zeta. split; [apply sample_foreign_reads|]. split; [reflexivity|]. split; [|split]; vm_compute; reflexivity.
Qed.

(** ** C58: JSON of bit collections is the hexadecimal text of the SSZ encoding *)

Theorem C58_hex :
  forall oc foreign n,
  (forall v b, ssz_serialize oc (TBitvector n) v = Ok b ->
     exists s, to_json (serde oc foreign (TBitvector n)) v = Ok (JStr (String.append "0x" s)) /\ spells s b /\ lower s) /\
  (forall v b, n + 8 < 2 ^ 64 -> ssz_serialize oc (TBitlist n) v = Ok b ->
     exists s, to_json (serde oc foreign (TBitlist n)) v = Ok (JStr (String.append "0x" s)) /\ spells s b /\ lower s) /\
  (forall t j v, t = TBitvector n \/ t = TBitlist n ->
     (from_json (serde oc foreign t) j = Ok v <->
      exists s d b, j = JStr s /\ (s = d /\ (forall r, d <> String.append "0x" r) \/ s = String.append "0x" d) /\
        spells d b /\ ssz_deserialize oc t b = Ok v)).
Proof. exact c58_hex. Qed.
Print Assumptions C58_hex.

Example C58_example :
  spells "0d" [x0d] /\ ssz_serialize true (TBitlist 9) (VBits (BitVec [x05] 3)) = Ok [x0d] /\
  from_json (serde true sample_foreign (TBitlist 9)) (JStr "0X0d") = Err JShape /\
  from_json (serde true sample_foreign (TBitlist 9)) (JStr "0d") = Ok (VBits (BitVec [x05] 3)).
Proof.
  split; [apply (spells_cons _ _ 0 13); [left; reflexivity|left; reflexivity|reflexivity|constructor]|].
  split; [|split]; vm_compute; reflexivity.
Qed.

(** ** C59: JSON that is written can be read: false for over-long collections *)

Theorem C59_refuted :
  exists t v j, legal t = true /\ typed t v /\
  (forall oc, to_json (serde oc sample_foreign t) v = Ok j /\
              from_json (serde oc sample_foreign t) j = Err (JCustom (EInstance (Bounded 1 2)))).
Proof. exact c59_refuted. Qed.
Print Assumptions C59_refuted.

Theorem C59_partial :
  (* collections of any length over valid elements: written always, read exactly if in bounds *)
forall oc foreign u n l, foreign_round_trips foreign -> legal u = true -> unambiguous u -> Forall (valid u) l ->
  exists j, to_json (serde oc foreign (TList u n)) (VSeq l) = Ok j /\
    to_json (serde oc foreign (TVector u n)) (VSeq l) = Ok j /\
    from_json (serde oc foreign (TList u n)) j =
      (if blen l <=? n then Ok (VSeq l) else Err (JCustom (EInstance (Bounded n (blen l))))) /\
    from_json (serde oc foreign (TVector u n)) j =
      (if n =? 0 then Err (JCustom (EType (InvalidBound n)))
       else if blen l =? n then Ok (VSeq l) else Err (JCustom (EInstance (Exact n (blen l))))).
Proof. exact c59_partial. Qed.
Print Assumptions C59_partial.

Example C59_example :
  foreign_round_trips total_foreign /\ Forall (valid (TBitvector 4)) [VBits (bits_of [true; true; true; true]); VBits (bits_of [true; false; false; false])] /\
  from_json (serde true total_foreign (TVector (TBitvector 4) 3)) (JArr [JStr "0x0f"; JStr "0x01"]) =
    Err (JCustom (EInstance (Exact 3 2))).
Proof.
  split; [apply total_foreign_round_trips|]. split; [repeat (constructor; [solve_valid|]); constructor|vm_compute; reflexivity].
Qed.

(** ** C60: Debug output of bit collections

A counter of the loop is an i32: with overflow checks, 2^31 bits make it panic. *)

Theorem C60_refuted :
  exists b, bv_ok b = true /\ bitlist_debug true (bv_len b) b = Panic POverflow /\
  bitvector_debug true (bv_len b) b = Panic POverflow.
Proof. exact c60_refuted. Qed.
Print Assumptions C60_refuted.

Theorem C60_partial :
  (forall oc n b, oc = false \/ bv_len b < 2 ^ 31 ->
   bitlist_debug oc n b = Ok (bitlist_text n (bv_bits b)) /\
   bitvector_debug oc n b = Ok (bitvector_text n (bv_bits b))) /\
(forall n b, 2 ^ 31 <= bv_len b ->
   bitlist_debug true n b = Panic POverflow /\ bitvector_debug true n b = Panic POverflow) /\
(forall n m l1 l2, bitlist_text n l1 = bitlist_text m l2 -> l1 = l2) /\
(forall n m l1 l2, bitvector_text n l1 = bitvector_text m l2 -> l1 = l2).
Proof. exact c60_partial. Qed.
Print Assumptions C60_partial.

Example C60_example :
  bitlist_debug true 12 (BitVec [x05; x01] 9) = Ok "Bitlist<len=9, cap=12>[1010_0000_1]"%string /\
  bitvector_debug true 4 (BitVec [x05] 4) = Ok "Bitvector<4>[1010]"%string.
Proof.
  split; vm_compute; reflexivity.
Qed.

(** ** C61: Debug output of Merkle trees: always panics

[Tree::nodes] reads the 32 raw bytes of a node as hexadecimal text, which needs 64 digits. *)

Theorem C61_refuted :
  exists tree, (forall oc, compute_merkle_tree (fun _ => zeros 32) oc (zeros 32) 1 = Ok tree) /\
  tree_debug tree = Panic PExpect.
Proof. exact c61_refuted. Qed.
Print Assumptions C61_refuted.

Theorem C61_partial :
  forall H : bytes -> bytes, (forall x, blen (H x) = 32) -> forall oc D (cs : list bytes) tree,
  (D <= 57)%nat -> Forall (fun c : bytes => blen c = 32) cs -> blen cs <= 2 ^ N.of_nat D ->
  compute_merkle_tree H oc (concat cs) (2 ^ N.of_nat D) = Ok tree -> tree_debug tree = Panic PExpect.
Proof. exact c61_partial. Qed.
Print Assumptions C61_partial.

Example C61_example :
  compute_merkle_tree (fun _ => zeros 32) true (concat [zeros 32; zeros 32]) 2 = Ok (zeros 96).
Proof.
  vm_compute. reflexivity.
Qed.

(** ** C66: texts of errors *)

Theorem C66_messages :
  (forall a b, type_error_text a = type_error_text b -> a = b) /\
(forall a b, instance_error_text a = instance_error_text b -> a = b) /\
(forall a b, serialize_error_text a = serialize_error_text b -> a = b) /\
(forall a b, deserialize_error_text a = deserialize_error_text b -> a = b) /\
(forall a b, merkleization_error_text a = merkleization_error_text b -> a = b) /\
(forall a b, error_text a = error_text b -> a = b).
Proof. exact c66_messages. Qed.
Print Assumptions C66_messages.

Example C66_example :
  error_text (AMerkleization (InvalidPath [Index 12; Field "a""b\"; Length]))
  = "merkleization error: invalid path [Index(12), Field(""a\""b\\""), Length]"%string /\
  error_text (AMerkleization (SerializationError (SInvalidInstance (Bounded 4 5))))
  = "merkleization error: failed to serialize value: invalid instance: 5 elements given for a type with (inclusive) upper bound 4"%string /\
  error_text (ADeserialize (InvalidByte xfa))
  = "could not deserialize: invalid byte fa when decoding data of the expected type"%string /\
  error_text (ASerialize (MaximumEncodedLengthReached 4294967296))
  = "could not serialize: the encoded length is 4294967296 which meets or exceeds the maximum length 4294967296"%string.
Proof.
  repeat apply conj; vm_compute; reflexivity.
Qed.

(** ** C85: builds with and without overflow checks agree

On text forms too. *)

Theorem C85_text :
  forall foreign t v j n b,
  modes_agree (to_json (serde true foreign t) v) (to_json (serde false foreign t) v) /\
  modes_agree (from_json (serde true foreign t) j) (from_json (serde false foreign t) j) /\
  modes_agree (bitlist_debug true n b) (bitlist_debug false n b) /\
  modes_agree (bitvector_debug true n b) (bitvector_debug false n b).
Proof. exact c85_text. Qed.
Print Assumptions C85_text.

Example C85_text_example :
  exists s, bitlist_debug true 9 (bits_of [true; false; true]) = Ok s /\
          bitlist_debug false 9 (bits_of [true; false; true]) = Ok s.
Proof.
  eexists. split; vm_compute; reflexivity.
Qed.
