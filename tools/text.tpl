@head lemmas
(** Proofs of the properties of text forms. The statements are repeated in PropText.v. *)
From Coq Require Import String Ascii.
From Coq Require Import List NArith ZArith Bool Lia ZifyBool ZifyNat ZifyN.
From Coq Require Import Strings.Byte.
From Verif Require Import Prelude Types Bitvec Ser De Impls Api Merkleize Valid SpecSer SpecMerkle Text SpecText Display
  Lib BitsLib SerSpec BitsDe RoundTrip DecValid MerkProof TreeProof TextProof DisplayProof SpecModes ModesProof Samples.
Import ListNotations.
Open Scope N_scope.

Ltac Zify.zify_post_hook ::= Z.div_mod_to_equations.

@head theorems
(** Properties of text forms: serde support, Debug output and messages of errors. Only theorems, each proved in
    TextThms.v, and examples that show their hypotheses can be met.

    [foreign] is the serde support of types that are not modelled (Text.v, SpecText.v). *)
From Coq Require Import String Ascii.
From Coq Require Import List NArith Bool Lia.
From Coq Require Import Strings.Byte.
From Verif Require Import Prelude Types Bitvec Ser De Impls Api Merkleize Valid SpecSer SpecMerkle Text SpecText Display
  SpecModes TextThms Samples.
Import ListNotations.
Open Scope N_scope.

@raw
(** Serde support of bool and the integers, for the examples. *)
Definition sample_foreign (t : ty) : Serde := {|
  to_json v :=
    match v with
    | VBool b => Ok (JBool b)
    | VUint n => Ok (JNum n)
    | _ => Err JShape
    end;
  from_json j :=
    match t, j with
    | TBool, JBool b => Ok (VBool b)
    | TUint w, JNum n => if n <? uint_bound w then Ok (VUint n) else Err JShape
    | _, _ => Err JShape
    end;
  when_missing := None |}.

Lemma sample_foreign_reads : foreign_reads_valid sample_foreign.
Proof.
  intros t _. split; [|discriminate]. intros j v H. destruct t; try discriminate; destruct j; try discriminate.
  - injection H as <-. exact I.
  - cbn [sample_foreign from_json] in H. destruct (n <? uint_bound w) eqn:E; [|discriminate]. injection H as <-.
    apply N.ltb_lt. exact E.
Qed.

@text
** C56: JSON round trip

@thm C56_json_round_trip
forall oc foreign t v,
  foreign_round_trips foreign -> legal t = true -> unambiguous t -> valid t v ->
  exists j, to_json (serde oc foreign t) v = Ok j /\ from_json (serde oc foreign t) j = Ok v
@proof
  intros oc foreign t v HF HL HU HV. destruct (serde_round_trip oc foreign t HF HL HU v HV) as (j & H1 & _ & H2). eauto.

@raw
(** Total support: writes any value as something that is read back. *)
Fixpoint val_json (v : val) : json :=
  match v with
  | VBool b => JArr [JNum 0; JBool b]
  | VUint n => JArr [JNum 1; JNum n]
  | VNode b => JArr [JNum 2; JStr (hex_encode b)]
  | VSeq l => JArr [JNum 3; JArr (map val_json l)]
  | VBits b => JArr [JNum 4; JStr (hex_encode (bv_raw b)); JNum (bv_len b)]
  | VStruct l => JArr [JNum 5; JArr (map val_json l)]
  | VNewtype x => JArr [JNum 6; val_json x]
  | VNone => JArr [JNum 7]
  | VSome x => JArr [JNum 8; val_json x]
  | VVariant i x => JArr [JNum 9; JNum i; val_json x]
  end.

Fixpoint json_val (j : json) : val :=
  match j with
  | JArr [JNum 0; JBool b] => VBool b
  | JArr [JNum 1; JNum n] => VUint n
  | JArr [JNum 2; JStr s] => VNode (match hex_decode s with Some b => b | None => [] end)
  | JArr [JNum 3; JArr l] => VSeq (map json_val l)
  | JArr [JNum 4; JStr s; JNum n] => VBits (BitVec (match hex_decode s with Some b => b | None => [] end) n)
  | JArr [JNum 5; JArr l] => VStruct (map json_val l)
  | JArr [JNum 6; x] => VNewtype (json_val x)
  | JArr [JNum 8; x] => VSome (json_val x)
  | JArr [JNum 9; JNum i; x] => VVariant i (json_val x)
  | _ => VNone
  end.

Fixpoint json_val_json (v : val) : json_val (val_json v) = v.
Proof.
  destruct v as [| | |l|[raw len]|l| | | |]; cbn [val_json json_val bv_raw bv_len]; rewrite ?hex_decode_encode; try reflexivity.
  - f_equal. induction l as [|x l IH]; [reflexivity|]. cbn [map]. rewrite json_val_json, IH. reflexivity.
  - f_equal. induction l as [|x l IH]; [reflexivity|]. cbn [map]. rewrite json_val_json, IH. reflexivity.
  - f_equal. apply json_val_json.
  - f_equal. apply json_val_json.
  - f_equal. apply json_val_json.
Qed.

Definition total_foreign (t : ty) : Serde :=
  {| to_json v := Ok (val_json v); from_json j := Ok (json_val j); when_missing := None |}.

Lemma total_foreign_round_trips : foreign_round_trips total_foreign.
Proof.
  intros t v _ _. exists (val_json v). split; [reflexivity|]. split; [destruct v; discriminate|].
  cbn [total_foreign from_json]. rewrite json_val_json. reflexivity.
Qed.

@example C56_example
let t := TContainer [("a"%string, TList (TUint U16) 4); ("b"%string, TBitlist 9); ("c"%string, TOption (TBitvector 4))] in
  let v := VStruct [VSeq [VUint 7; VUint 8]; VBits (bits_of [true; false; true]); VNone] in
  foreign_round_trips total_foreign /\ legal t = true /\ unambiguous t /\ valid t v /\
  to_json (serde true sample_foreign t) v =
    Ok (JObj [("a"%string, JArr [JNum 7; JNum 8]); ("b"%string, JStr "0x0d"); ("c"%string, JNull)]) /\
  from_json (serde true sample_foreign t)
    (JObj [("b"%string, JStr "0D"); ("z"%string, JNull); ("a"%string, JArr [JNum 7; JNum 8])]) = Ok v
@proof
  cbv zeta. split; [apply total_foreign_round_trips|]. split; [reflexivity|]. split.
  { cbn [unambiguous map fst snd fold_right nullable]. split; [|auto].
    repeat constructor; cbn; intros H; repeat (destruct H as [H|H]; [discriminate|]); exact H. }
  split; [solve_valid|]. split; vm_compute; reflexivity.

@text
** C57: what is read from JSON is in bounds

@thm C57_json_reads_valid
forall oc foreign t j v,
  foreign_reads_valid foreign -> legal t = true ->
  from_json (serde oc foreign t) j = Ok v -> valid t v
@proof
  intros oc foreign t j v HF HL HJ. destruct (serde_reads_valid oc foreign t HF HL) as [G _]. eauto.

@example C57_example
let t := TList (TBitvector 4) 2 in
  foreign_reads_valid sample_foreign /\ legal t = true /\
  from_json (serde true sample_foreign t) (JArr [JStr "0x0f"]) = Ok (VSeq [VBits (BitVec [x0f] 4)]) /\
  from_json (serde true sample_foreign t) (JArr [JStr "0x1f"]) = Err (JCustom (EDeserialize (InvalidByte x1f))) /\
  from_json (serde true sample_foreign t) (JArr [JStr "0x01"; JStr "0x01"; JStr "0x01"]) =
    Err (JCustom (EInstance (Bounded 2 3)))
@proof
  cbv zeta. split; [apply sample_foreign_reads|]. split; [reflexivity|]. split; [|split]; vm_compute; reflexivity.

@text
** C58: JSON of bit collections is the hexadecimal text of the SSZ encoding

@thm C58_hex
forall oc foreign n,
  (forall v b, ssz_serialize oc (TBitvector n) v = Ok b ->
     exists s, to_json (serde oc foreign (TBitvector n)) v = Ok (JStr (String.append "0x" s)) /\ spells s b /\ lower s) /\
  (forall v b, n + 8 < 2 ^ 64 -> ssz_serialize oc (TBitlist n) v = Ok b ->
     exists s, to_json (serde oc foreign (TBitlist n)) v = Ok (JStr (String.append "0x" s)) /\ spells s b /\ lower s) /\
  (forall t j v, t = TBitvector n \/ t = TBitlist n ->
     (from_json (serde oc foreign t) j = Ok v <->
      exists s d b, j = JStr s /\ (s = d /\ (forall r, d <> String.append "0x" r) \/ s = String.append "0x" d) /\
        spells d b /\ ssz_deserialize oc t b = Ok v))
@proof
  intros oc foreign n.
  assert (HS : forall b, spells (hex_encode b) b) by (intros b; apply hex_decode_sound, hex_decode_encode).
  assert (HLo : forall b, lower (hex_encode b)).
  { induction b as [|x b IH]; intros i c H; [destruct i; discriminate|]. destruct i as [|[|i]].
    - injection H as <-. exists (N.to_nat (byte_to_N x / 16)). destruct x; reflexivity.
    - injection H as <-. exists (N.to_nat (byte_to_N x mod 16)). destruct x; reflexivity.
    - apply (IH i c H). }
  split; [|split].
  - intros v b H. exists (hex_encode b). split; [|auto]. cbn [serde bitvector_serde to_json]. rewrite H. reflexivity.
  - intros v b Hn H. exists (hex_encode b). split; [|auto]. cbn [serde bitlist_serde to_json].
    destruct v; try (vm_compute in H; discriminate).
    assert (HB : bv_len b0 <= n).
    { unfold ssz_serialize, serialize_to_vec in H. cbn [serializable bitlist_impl serialize bitlist_serialize] in H.
      unfold bitlist_serialize_with_length in H. destruct (n <? bv_len b0) eqn:E; [discriminate|]. lia. }
    rewrite bitlist_byte_length_ok by lia. cbn [bind]. rewrite H. reflexivity.
  - intros t j v Ht.
    assert (E : from_json (serde oc foreign t) j = do data <- hex_from_json j; map_err JCustom (map_err EDeserialize (ssz_deserialize oc t data))).
    { destruct Ht as [-> | ->]; reflexivity. }
    rewrite E. clear E Ht.
    assert (SP : forall s, s = strip_prefix s /\ (forall r, strip_prefix s <> String.append "0x" r) \/
                           s = String.append "0x" (strip_prefix s)).
    { intros s. destruct s as [|a [|c s]]; [left; split; [reflexivity|discriminate]|left; split; [reflexivity|cbn; congruence]|].
      cbn [strip_prefix]. destruct (Ascii.eqb_spec a "0") as [->|Ha]; [destruct (Ascii.eqb_spec c "x") as [->|Hc]|]; cbn [andb].
      - right. reflexivity.
      - left. split; [reflexivity|]. cbn. congruence.
      - left. split; [reflexivity|]. cbn. congruence. }
    split.
    + intros H. destruct j; try discriminate. destruct (hex_from_json (JStr s)) as [b| |] eqn:EH; try discriminate.
      cbn [bind] in H. apply map_err_ok_inv, map_err_ok_inv in H. apply hex_from_json_iff in EH.
      exists s, (strip_prefix s), b. auto.
    + intros (s & d & b & -> & Hd & HB & HD).
      assert (G : strip_prefix s = d).
      { destruct Hd as [[-> Hd]| ->]; [|reflexivity]. destruct (SP d) as [[G _]|G]; [auto|]. exfalso. eapply Hd. exact G. }
      assert (EH : hex_from_json (JStr s) = Ok b) by (apply hex_from_json_iff; rewrite G; exact HB).
      rewrite EH. cbn [bind]. rewrite HD. reflexivity.

@example C58_example
spells "0d" [x0d] /\ ssz_serialize true (TBitlist 9) (VBits (BitVec [x05] 3)) = Ok [x0d] /\
  from_json (serde true sample_foreign (TBitlist 9)) (JStr "0X0d") = Err JShape /\
  from_json (serde true sample_foreign (TBitlist 9)) (JStr "0d") = Ok (VBits (BitVec [x05] 3))
@proof
  split; [apply (spells_cons _ _ 0 13); [left; reflexivity|left; reflexivity|reflexivity|constructor]|].
  split; [|split]; vm_compute; reflexivity.

@text
** C59: JSON that is written can be read: false for over-long collections

@thm C59_refuted
exists t v j, legal t = true /\ typed t v /\
  (forall oc, to_json (serde oc sample_foreign t) v = Ok j /\
              from_json (serde oc sample_foreign t) j = Err (JCustom (EInstance (Bounded 1 2))))
@proof
  exists (TList (TUint U8) 1), (VSeq [VUint 1; VUint 2]), (JArr [JNum 1; JNum 2]).
  split; [reflexivity|]. split; [repeat constructor|]. intros oc. split; reflexivity.

@thm C59_partial
(* collections of any length over valid elements: written always, read exactly if in bounds *)
forall oc foreign u n l, foreign_round_trips foreign -> legal u = true -> unambiguous u -> Forall (valid u) l ->
  exists j, to_json (serde oc foreign (TList u n)) (VSeq l) = Ok j /\
    to_json (serde oc foreign (TVector u n)) (VSeq l) = Ok j /\
    from_json (serde oc foreign (TList u n)) j =
      (if blen l <=? n then Ok (VSeq l) else Err (JCustom (EInstance (Bounded n (blen l))))) /\
    from_json (serde oc foreign (TVector u n)) j =
      (if n =? 0 then Err (JCustom (EType (InvalidBound n)))
       else if blen l =? n then Ok (VSeq l) else Err (JCustom (EInstance (Exact n (blen l)))))
@proof
  intros oc foreign u n l HF HL HU HV.
  destruct (mapM_write_read (serde oc foreign u) l) as (js & H1 & H2).
  { eapply Forall_impl; [|exact HV]. intros x Hx. destruct (serde_round_trip oc foreign u HF HL HU x Hx) as (j & A & _ & B). eauto. }
  exists (JArr js). cbn [serde list_serde vector_serde to_json from_json]. unfold vec_to_json, vec_from_json.
  rewrite H1, H2. cbn [bind]. split; [reflexivity|]. split; [reflexivity|].
  unfold list_try_from, vector_try_from. split.
  - destruct (n <? blen l) eqn:E.
    + replace (blen l <=? n) with false by lia. reflexivity.
    + replace (blen l <=? n) with true by lia. reflexivity.
  - destruct (n =? 0); [reflexivity|]. destruct (blen l =? n); reflexivity.

@example C59_example
foreign_round_trips total_foreign /\ Forall (valid (TBitvector 4)) [VBits (bits_of [true; true; true; true]); VBits (bits_of [true; false; false; false])] /\
  from_json (serde true total_foreign (TVector (TBitvector 4) 3)) (JArr [JStr "0x0f"; JStr "0x01"]) =
    Err (JCustom (EInstance (Exact 3 2)))
@proof
  split; [apply total_foreign_round_trips|]. split; [repeat (constructor; [solve_valid|]); constructor|vm_compute; reflexivity].

@text
** C60: Debug output of bit collections

A counter of the loop is an i32: with overflow checks, 2^31 bits make it panic.

@thm C60_refuted
exists b, bv_ok b = true /\ bitlist_debug true (bv_len b) b = Panic POverflow /\
  bitvector_debug true (bv_len b) b = Panic POverflow
@proof
  exists (BitVec (repeat x00 (N.to_nat (2 ^ 28))) (2 ^ 31)). split.
  - unfold bv_ok. cbn [bv_raw bv_len]. unfold blen. rewrite repeat_length, N2Nat.id. reflexivity.
  - apply bits_debug_panics. cbn [bv_len]. apply N.le_refl.

@thm C60_partial
(forall oc n b, oc = false \/ bv_len b < 2 ^ 31 ->
   bitlist_debug oc n b = Ok (bitlist_text n (bv_bits b)) /\
   bitvector_debug oc n b = Ok (bitvector_text n (bv_bits b))) /\
(forall n b, 2 ^ 31 <= bv_len b ->
   bitlist_debug true n b = Panic POverflow /\ bitvector_debug true n b = Panic POverflow) /\
(forall n m l1 l2, bitlist_text n l1 = bitlist_text m l2 -> l1 = l2) /\
(forall n m l1 l2, bitvector_text n l1 = bitvector_text m l2 -> l1 = l2)
@proof
  split; [|split; [exact bits_debug_panics|split; [exact bitlist_text_inj|exact bitvector_text_inj]]].
  intros oc n b Ho. assert (G : oc = true -> bv_len b < 2 ^ 31) by (intros ->; destruct Ho; [discriminate|auto]).
  split; [apply bitlist_debug_ok; auto|apply bitvector_debug_ok; auto].

@example C60_example
bitlist_debug true 12 (BitVec [x05; x01] 9) = Ok "Bitlist<len=9, cap=12>[1010_0000_1]"%string /\
  bitvector_debug true 4 (BitVec [x05] 4) = Ok "Bitvector<4>[1010]"%string
@proof
  split; vm_compute; reflexivity.

@text
** C61: Debug output of Merkle trees: always panics

[Tree::nodes] reads the 32 raw bytes of a node as hexadecimal text, which needs 64 digits.

@thm C61_refuted
exists tree, (forall oc, compute_merkle_tree (fun _ => zeros 32) oc (zeros 32) 1 = Ok tree) /\
  tree_debug tree = Panic PExpect
@proof
  exists (zeros 32). split; [intros [|]; vm_compute; reflexivity|apply tree_debug_panics; discriminate].

@thm C61_partial
forall H : bytes -> bytes, (forall x, blen (H x) = 32) -> forall oc D (cs : list bytes) tree,
  (D <= 57)%nat -> Forall (fun c : bytes => blen c = 32) cs -> blen cs <= 2 ^ N.of_nat D ->
  compute_merkle_tree H oc (concat cs) (2 ^ N.of_nat D) = Ok tree -> tree_debug tree = Panic PExpect
@proof
  intros H Hlen oc D cs tree HD HF HB HT. apply tree_debug_panics. intros ->.
  destruct (compute_merkle_tree_ok H Hlen oc D cs HF HB HD) as (T & E & HS). rewrite E in HT. injection HT as HT.
  destruct HS as (HA & HN & _). destruct T as [|c T].
  - change (blen (@nil bytes)) with 0 in HN. pose proof (N.pow_nonzero 2 (N.of_nat D)). lia.
  - inversion HA; subst. cbn [concat] in HT. apply app_eq_nil in HT as [-> _]. discriminate.

@example C61_example
compute_merkle_tree (fun _ => zeros 32) true (concat [zeros 32; zeros 32]) 2 = Ok (zeros 96)
@proof
  vm_compute. reflexivity.

@text
** C66: texts of errors

@thm C66_messages
(forall a b, type_error_text a = type_error_text b -> a = b) /\
(forall a b, instance_error_text a = instance_error_text b -> a = b) /\
(forall a b, serialize_error_text a = serialize_error_text b -> a = b) /\
(forall a b, deserialize_error_text a = deserialize_error_text b -> a = b) /\
(forall a b, merkleization_error_text a = merkleization_error_text b -> a = b) /\
(forall a b, error_text a = error_text b -> a = b)
@proof
  repeat apply conj;
    [exact type_error_text_inj|exact instance_error_text_inj|exact serialize_error_text_inj
    |exact deserialize_error_text_inj|exact merkleization_error_text_inj|exact error_text_inj].

@example C66_example
error_text (AMerkleization (InvalidPath [Index 12; Field "a""b\"; Length]))
  = "merkleization error: invalid path [Index(12), Field(""a\""b\\""), Length]"%string /\
  error_text (AMerkleization (SerializationError (SInvalidInstance (Bounded 4 5))))
  = "merkleization error: failed to serialize value: invalid instance: 5 elements given for a type with (inclusive) upper bound 4"%string /\
  error_text (ADeserialize (InvalidByte xfa))
  = "could not deserialize: invalid byte fa when decoding data of the expected type"%string /\
  error_text (ASerialize (MaximumEncodedLengthReached 4294967296))
  = "could not serialize: the encoded length is 4294967296 which meets or exceeds the maximum length 4294967296"%string
@proof
  repeat apply conj; vm_compute; reflexivity.

@text
** C85: builds with and without overflow checks agree

On text forms too.

@thm C85_text
forall foreign t v j n b,
  modes_agree (to_json (serde true foreign t) v) (to_json (serde false foreign t) v) /\
  modes_agree (from_json (serde true foreign t) j) (from_json (serde false foreign t) j) /\
  modes_agree (bitlist_debug true n b) (bitlist_debug false n b) /\
  modes_agree (bitvector_debug true n b) (bitvector_debug false n b)
@proof
  intros foreign t v j n b. split; [apply (sa_write _ _ (serde_modes foreign t))|].
  split; [apply (sa_read _ _ (serde_modes foreign t))|]. apply debug_modes.

@example C85_text_example
exists s, bitlist_debug true 9 (bits_of [true; false; true]) = Ok s /\
          bitlist_debug false 9 (bits_of [true; false; true]) = Ok s
@proof
  eexists. split; vm_compute; reflexivity.
