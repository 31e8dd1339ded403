(** The unit tests of the crate (ssz-rs/src) and its examples (ssz-rs/examples) that have literal
    expectations or check proofs, transcribed by hand. These are tests of the model, not proofs
    about the code. Left out: tests whose trees are too large to be hashed here
    (proofs.rs:299-324, one of the containers of container.rs:227-284), some of the paths of
    vector.rs:630-703, and tests of printing. *)
From Coq Require Import String List NArith Bool.
From Coq Require Import Strings.Byte.
From Verif Require Import Prelude Types Bitvec Compare Ser De Impls Api Merkleize Proofs MerkImpls Multiproofs
  Text Lib Sha256 Conform ConformTypes.
Import ListNotations.
Open Scope N_scope.

(** [decode_node_from_hex] *)
Definition node (s : string) : bytes :=
  match node_from_hex s with Some b => b | None => [] end.

Definition u8s (l : list N) : bytes := map byte_of_N l.
Definition f (name : string) : PathElement := Field name.
Definition bools (l : list bool) : val := VSeq (map VBool l).
Definition from_bools (l : list bool) : bitvec := fold_left bv_push l bv_new.

(** The library with its table, see [zero_table]. *)
Definition lib (t : ty) : SimpleSerialize := simple_serialize sha256 zero_table true t.

Definition ok_unit (x : mres unit) : bool := match x with Ok _ => true | _ => false end.
Definition ok_index (x : mres N) (n : N) : bool := match x with Ok m => m =? n | _ => false end.
Definition ok_text (x : jres json) (t : string) : bool :=
  match x with Ok (JStr u) => String.eqb u t | _ => false end.

(** [compute_and_verify_proof_for_path], proofs.rs:244-252 *)
Definition proof_verifies (t : ty) (v : val) (path : Path) : bool :=
  match prove sha256 true (lib t) v path with
  | Ok (pf, w) =>
      ok_bytes (hash_tree_root (lib t) v) w &&
      match verify sha256 true pf w with Ok _ => true | _ => false end
  | _ => false
  end.

(** [compute_and_verify_proof_against_index], vector.rs:509-526 *)
Definition index_is (t : ty) (path : Path) (index : N) : bool :=
  match generalized_index (lib t) path with Ok i => i =? index | _ => false end.

Definition proof_at (t : ty) (v : val) (path : Path) (index : N) : bool :=
  index_is t path index && proof_verifies t v path.

Definition encodes (t : ty) (v : val) (encoding : bytes) : bool :=
  forallb (fun oc => ok_bytes (ssz_serialize oc t v) encoding && ok_val (ssz_deserialize oc t encoding) v)
          [true; false].

(** ** generalized_index.rs:108-170 and examples/generalized_indices.rs *)
Definition Qux : ty := TContainer [("a"%string, TVector (TUint U16) 8)].
Definition IFoo : ty := TContainer [("x"%string, TVector (TUint U8) 32); ("y"%string, TList Qux 256)].
Definition IBar : ty := TContainer [("c"%string, TUint U8); ("f"%string, IFoo); ("a"%string, TList (TUint U8) 25)].

Definition basic_generalized_index_computation_result : bool := Eval vm_compute in
  index_is (TVector (TUint U8) 16) [Index 2] 1 &&
  index_is (TList (TUint U8) 256) [Index 2] 16 &&
  index_is (TList (TUint U8) 256) [Length] 3 &&
  index_is IBar [f "c"] 4 &&
  index_is IBar [f "a"; Index 2] 12 &&
  index_is IBar [f "f"; f "y"; Index 2; f "a"; Index 3] 5634 &&
  index_is IBar [f "f"; f "y"; Length] 23.

Example basic_generalized_index_computation : basic_generalized_index_computation_result = true.
Proof. reflexivity. Qed.

(** ** proofs.rs:254-297 *)
Definition known_branch : list bytes :=
  [node "8f594dbb4f4219ad4967f86b9cccdb26e37e44995a291582a431eef36ecba45c";
   node "f8c2ed25e9c31399d4149dcaa48c51f394043a6a1297e65780a5979e3d7bb77c";
   node "382ba9638ce263e802593b387538faefbaed106e9f51ce793d405f161b105ee6"].
Definition known_leaf : bytes := node "94159da973dfa9e40ed02535ee57023ba2d06bad1017e451055470967eb71cd5".
Definition known_root : bytes := node "27097c728aade54ff1376d5954681f6d45c282a81596ef19183148441b754abb".

Definition simple_proof_result : bool := Eval vm_compute in
  ok_unit (is_valid_merkle_branch sha256 true known_leaf known_branch 3 2 known_root) &&
  ok_unit (verify sha256 true (MkProof known_leaf known_branch (2 ^ 3 + 2)) known_root).

Example simple_proof : simple_proof_result = true.
Proof. reflexivity. Qed.

(** proofs.rs:326-370 *)
Definition fails_to_prove (t : ty) (v : val) (path : Path) : bool :=
  fails (prove sha256 true (lib t) v path).

Definition prove_primitives_result : bool := Eval vm_compute in
  fails_to_prove (TUint U8) (VUint 8) [Length] &&
  fails_to_prove TBool (VBool true) [Index 234] &&
  proof_verifies (TUint U8) (VUint 8) [] &&
  proof_verifies (TUint U8) (VUint 0) [] &&
  proof_verifies (TUint U64) (VUint 234238) [] &&
  proof_verifies (TUint U128) (VUint 0) [] &&
  proof_verifies (TUint U128) (VUint (2 ^ 128 - 1)) [] &&
  proof_verifies TU256 (VUint 0xf8c2ed25e9c31399d4149dcaa48c51f394043a6a1297e65780a5979e3d7bb77c) [] &&
  proof_verifies TBool (VBool true) [] &&
  proof_verifies TBool (VBool false) [].

Example prove_primitives : prove_primitives_result = true.
Proof. reflexivity. Qed.

(** ** merkleize.rs:341-498 *)
Definition packing_result : bool := Eval vm_compute in
  ok_bytes (pack bool_impl [VBool true])
           (x01 :: zeros 31) &&
  ok_bytes (pack bool_impl [VBool true; VBool false; VBool false; VBool true])
           ([x01; x00; x00; x01] ++ zeros 28) &&
  ok_bytes (pack u256_impl (repeat (VUint (le_value (repeat x01 32))) 3))
           (repeat x01 96).

Example packing : packing_result = true.
Proof. reflexivity. Qed.

Definition merkleize_basic_result : bool := Eval vm_compute in
  ok_bytes (merkleize sha256 zero_table true [] None)
           (zeros 32) &&
  ok_bytes (merkleize sha256 zero_table true (x01 :: zeros 31) None)
           (x01 :: zeros 31).

Example merkleize_basic : merkleize_basic_result = true.
Proof. reflexivity. Qed.

Definition naive_root (chunks : bytes) (leaf_count : N) : mres bytes :=
  do tree <- compute_merkle_tree sha256 true chunks leaf_count; tree_index true tree 1.

Definition naive_merkleize_chunks_result : bool := Eval vm_compute in
  ok_bytes (naive_root (zeros 64) 2)
           (node "f5a5fd42d16a20302798ef6ed309979b43003d2320d9f0e8ea9831a92759fb4b") &&
  ok_bytes (naive_root (repeat x01 64) 2)
           (node "7c8975e1e60a5c8337f28edf8c33c3b180360b7279644a9bc1af3c51e6220bf5") &&
  ok_bytes (naive_root (zeros 32) 4)
           (node "db56114e00fdd4c1f85c892bf35ac9a89289aaecb1ebd0a96cde606a748b5d71") &&
  ok_bytes (naive_root (repeat x01 32) 4)
           (node "29797eded0e83376b70f2bf034cc0811ae7f1414653b1d720dfd18f74cf13309") &&
  ok_bytes (naive_root (repeat x02 32) 8)
           (node "fa4cf775712aa8a2fe5dcb5a517d19b2e9effcf58ff311b9fd8e4a7d308e6d00") &&
  ok_bytes (naive_root (repeat x01 160) 8)
           (node "0ae67e34cba4ad2bbfea5dc39e6679b444021522d861fab00f05063c54341289").

Example naive_merkleize_chunks : naive_merkleize_chunks_result = true.
Proof. reflexivity. Qed.

Definition padded_root (n : nat) (leaf_count : N) : mres bytes :=
  merkleize_chunks_with_virtual_padding sha256 zero_table true (repeat x01 (32 * n)) leaf_count.

Definition merkleize_chunks_result : bool := Eval vm_compute in
  ok_bytes (padded_root 3 4)
           (node "65aa94f2b59e517abd400cab655f42821374e433e41b8fe599f6bb15484adcec") &&
  ok_bytes (padded_root 5 8)
           (node "0ae67e34cba4ad2bbfea5dc39e6679b444021522d861fab00f05063c54341289") &&
  ok_bytes (padded_root 6 8)
           (node "0ef7df63c204ef203d76145627b8083c49aa7c55ebdee2967556f55a4f65a238") &&
  ok_bytes (padded_root 5 (2 ^ 10))
           (node "2647cb9e26bd83eeb0982814b2ac4d6cc4a65d0d98637f1a73a4c06d3db0e6ce") &&
  ok_bytes (padded_root 70 (2 ^ 63))
           (node "9317695d95b5a3b46e976b5a9cbfcfccb600accaddeda9ac867cc9669b862979").

Example merkleize_chunks : merkleize_chunks_result = true.
Proof. reflexivity. Qed.

(** merkleize.rs:500-551. The first list has 316 elements. *)
Definition root_of_list_result : bool := Eval vm_compute in
  ok_bytes (hash_tree_root (lib (TList (TUint U16) 1024)) (VSeq (repeat (VUint 65535) 316)))
           (node "d20d2246e1438d88de46f6f41c7b041f92b673845e51f2de93b944bf599e63b1") &&
  ok_bytes (hash_tree_root (lib (TList (TUint U16) 1024)) (VSeq []))
           (node "c9eece3e14d3c3db45c38bbf69a4cb7464981e2506d8424a0ba450dad9b9af30").

Example root_of_list : root_of_list_result = true.
Proof. reflexivity. Qed.

(** merkleize.rs:553-648 *)
Definition MBar : ty := TUnion [Some (TUint U32); Some (TList TBool 32)].
Definition MFoo : ty :=
  TContainer
    [("a"%string, TUint U32); ("b"%string, TVector (TUint U32) 4); ("c"%string, TBool);
     ("d"%string, TBitlist 27); ("e"%string, MBar); ("f"%string, TBitvector 4);
     ("g"%string, TList (TUint U16) 7)].

Definition foo_d : bitvec :=
  from_bools [true; false; false; true; true; false; true; false; true; true; false; false; true; true;
              false; true; false; true; true; false; false; true; true; false; true; false; true].
Definition foo_value : val :=
  VStruct [VUint 16; uints [3; 2; 1; 10]; VBool true; VBits foo_d;
           VVariant 1 (bools [true; true; false; false; false; true]);
           VBits (from_bools [false; true; false; true]); uints [1; 2]].

(** After [foo.b[2] = 44], [foo.d.pop()] and [foo.e = Bar::A(33)]. *)
Definition foo_changed (d : bitvec) : val :=
  VStruct [VUint 16; uints [3; 2; 44; 10]; VBool true; VBits d; VVariant 0 (VUint 33);
           VBits (from_bools [false; true; false; true]); uints [1; 2]].

Definition first_root : bytes := node "7078155bf8f0dc42d8afccec8d9b5aeb54f0a2e8e58fcef3e723f6a867232ce7".
Definition second_root : bytes := node "0063bfcfabbca567483a2ee859fcfafb958329489eb328ac7f07790c7df1b231".

Definition root_of_foo_result : bool := Eval vm_compute in
  ok_bytes (hash_tree_root (lib MFoo) foo_value) first_root &&
  ok_bytes (hash_tree_root (lib MFoo) (foo_changed (snd (bv_pop foo_d)))) second_root &&
  match ssz_serialize true MFoo foo_value with
  | Ok encoding => ok_val (ssz_deserialize true MFoo encoding) foo_value
  | _ => false
  end.

Example root_of_foo : root_of_foo_result = true.
Proof. reflexivity. Qed.

(** The root that this test expects after [pop] covers the popped bit: an equal value that was
    never popped has another root. *)
Definition foo_d_fresh : bitvec := from_bools (firstn 26 (bv_bits foo_d)).

Definition root_of_foo_covers_popped_bit_result : bool := Eval vm_compute in
  bv_eqb (snd (bv_pop foo_d)) foo_d_fresh &&
  negb (ok_bytes (hash_tree_root (lib MFoo) (foo_changed foo_d_fresh)) second_root).

Example root_of_foo_covers_popped_bit : root_of_foo_covers_popped_bit_result = true.
Proof. reflexivity. Qed.

(** merkleize.rs:650-682 *)
Definition root_of_node_result : bool := Eval vm_compute in
  encodes TNode (VNode (zeros 32)) (zeros 32) &&
  ok_bytes (hash_tree_root (lib TNode) (VNode (zeros 32))) (zeros 32) &&
  ok_bytes (hash_tree_root (lib (TContainer [("a"%string, TU256)])) (VStruct [VUint 68]))
           (node "4400000000000000000000000000000000000000000000000000000000000000").

Example root_of_node : root_of_node_result = true.
Proof. reflexivity. Qed.

(** ** container.rs:79-224 *)
Definition CFoo : ty := TContainer [("a"%string, TUint U32)].
Definition CBar : ty := TContainer [("a"%string, TList (TUint U32) 128)].
Definition BasicContainer : ty := TContainer [("a"%string, TUint U32); ("d"%string, TBool)].
Definition SomeContainer : ty :=
  TContainer [("a"%string, TUint U32); ("b"%string, TBool); ("c"%string, TList TBool 32)].
Definition AnotherContainer : ty :=
  TContainer [("a"%string, TUint U32); ("b"%string, TBool); ("c"%string, TList TBool 32);
              ("d"%string, TVector TBool 4); ("e"%string, TUint U8)].
Definition YetAnotherContainer : ty :=
  TContainer [("a"%string, TUint U32); ("b"%string, TBool); ("c"%string, TList TBool 32);
              ("d"%string, TVector TBool 4); ("e"%string, TUint U8); ("f"%string, TList (TUint U32) 32)].
Definition AnotherVarTestStruct : ty :=
  TContainer [("a"%string, TList (TUint U16) 1024); ("b"%string, TUint U16); ("c"%string, TUint U8)].

Definition encode_container_result : bool := Eval vm_compute in
  encodes CFoo (VStruct [VUint 5]) (u8s [5; 0; 0; 0]) &&
  encodes CBar (VStruct [VSeq []]) (u8s [4; 0; 0; 0]) &&
  encodes BasicContainer (VStruct [VUint 5; VBool true]) (u8s [5; 0; 0; 0; 1]) &&
  encodes SomeContainer (VStruct [VUint 5; VBool true; bools [true; false]])
          (u8s [5; 0; 0; 0; 1; 9; 0; 0; 0; 1; 0]) &&
  encodes AnotherContainer
          (VStruct [VUint 5; VBool true; bools [true; false]; bools [false; false; false; false]; VUint 12])
          (u8s [5; 0; 0; 0; 1; 14; 0; 0; 0; 0; 0; 0; 0; 12; 1; 0]).

Example encode_container : encode_container_result = true.
Proof. reflexivity. Qed.

Definition round_trips (t : ty) (v : val) : bool :=
  match ssz_serialize true t v with
  | Ok encoding => ok_val (ssz_deserialize true t encoding) v
  | _ => false
  end.

Definition further_input_expected (t : ty) (b : bytes) : bool :=
  match ssz_deserialize true t b with Err (ExpectedFurtherInput _ _) => true | _ => false end.

Definition decode_container_result : bool := Eval vm_compute in
  round_trips YetAnotherContainer
    (VStruct [VUint 5; VBool true; bools [true; false; false; false; true; true];
              bools [true; false; false; true]; VUint 24; uints [234; 567]]) &&
  fails (ssz_deserialize true VarTestStruct (u8s [5; 0; 7; 0; 0; 0; 5; 255])) &&
  further_input_expected AnotherVarTestStruct [] && further_input_expected BasicContainer [].

Example decode_container : decode_container_result = true.
Proof. reflexivity. Qed.

(** container.rs:227-284 *)
Definition ACval : val :=
  VStruct [VUint 23089; VBool false; bools [true; false; false; false; true];
           bools [true; true; false; true]; VUint 255].

Definition prove_container_result : bool := Eval vm_compute in
  forallb (proof_verifies BasicContainer (VStruct [VUint 2343; VBool true])) [[f "a"]; [f "d"]] &&
  forallb (proof_verifies AnotherContainer ACval)
    [[f "a"]; [f "c"; Index 27]; [f "c"; Length]; [f "d"; Index 2]; [f "e"]].

Example prove_container : prove_container_result = true.
Proof. reflexivity. Qed.

Definition prove_container_of_vectors_result : bool := Eval vm_compute in
  forallb (proof_verifies
             (TContainer [("a"%string, TVector (TVector TU256 70) 2); ("b"%string, TUint U64)])
             (VStruct [VSeq (repeat (VSeq (repeat (VUint 11) 70)) 2); VUint 88888]))
    [[f "a"; Index 0; Index 64]].

Example prove_container_of_vectors : prove_container_of_vectors_result = true.
Proof. reflexivity. Qed.

(** ** union.rs:177-518 *)
Definition AnotherOption : ty := TUnion [None; Some (TUint U8); Some (TUint U8)].
Definition Inner : ty := TContainer [("data"%string, TList (TUint U8) 8)].
Definition Boo : ty :=
  TUnion [Some (TUint U32); Some Inner; Some (TList (TUint U8) 12); Some (TVector (TUint U8) 2)].

Definition additional_input (t : ty) (b : bytes) : bool :=
  match ssz_deserialize true t b with Err (AdditionalInput _ _) => true | _ => false end.

Definition options_result : bool := Eval vm_compute in
  encodes (TOption (TUint U8)) (VSome (VUint 12)) (u8s [1; 12]) &&
  encodes (TOption (TUint U8)) VNone (u8s [0]) &&
  additional_input (TOption (TUint U8)) (u8s [0; 123; 234]) &&
  additional_input AnotherOption (u8s [0; 123; 234]) &&
  encodes AnotherOption (VVariant 1 (VUint 12)) (u8s [1; 12]) &&
  encodes AnotherOption VNone (u8s [0]).

Example options : options_result = true.
Proof. reflexivity. Qed.

Definition unions_result : bool := Eval vm_compute in
  encodes Boo (VVariant 0 (VUint 12)) (u8s [0; 12; 0; 0; 0]) &&
  encodes Boo (VVariant 1 (VStruct [uints [123]])) (u8s [1; 4; 0; 0; 0; 123]) &&
  encodes Boo (VVariant 2 (uints [123; 253])) (u8s [2; 123; 253]) &&
  encodes Boo (VVariant 3 (uints [123; 253])) (u8s [3; 123; 253]).

Example unions : unions_result = true.
Proof. reflexivity. Qed.

Definition prove_option_result : bool := Eval vm_compute in
  forallb (proof_verifies (TOption (TUint U8)) (VSome (VUint 11))) [[Index 0]; [Index 1]] &&
  forallb (proof_verifies (TOption TU256) (VSome (VUint 23423))) [[Index 0]; [Index 1]; [Selector]] &&
  forallb (proof_verifies (TOption TU256) VNone) [[Index 0]; [Index 1]] &&
  forallb (proof_verifies (TOption (TUint U16)) VNone) [[Index 0]; [Index 1]; [Selector]].

Example prove_option : prove_option_result = true.
Proof. reflexivity. Qed.

Definition prove_unions_result : bool := Eval vm_compute in
  proof_verifies Boo (VVariant 0 (VUint 0)) [Index 0] &&
  forallb (proof_verifies Boo (VVariant 1 (VStruct [VSeq []]))) [[Index 1]; [Index 1; f "data"; Index 7]] &&
  forallb (proof_verifies Boo (VVariant 2 (VSeq []))) [[Index 2]; [Index 2; Index 0]] &&
  forallb (proof_verifies Boo (VVariant 3 (uints [0; 0]))) [[Index 3]; [Index 3; Index 0]; [Index 3; Index 1]].

Example prove_unions : prove_unions_result = true.
Proof. reflexivity. Qed.

(** ** vector.rs:328-703, list.rs:341-497 *)
Definition vectors_result : bool := Eval vm_compute in
  match vector_try_from_slice 1 (repeat 2 10) with Err (EInstance (Exact 1 10)) => true | _ => false end &&
  encodes (TVector (TUint U16) 32) (VSeq (repeat (VUint 33) 32)) (concat (repeat (u8s [33; 0]) 32)) &&
  encodes (TList (TUint U16) 32) (VSeq (repeat (VUint 33) 32)) (concat (repeat (u8s [33; 0]) 32)) &&
  further_input_expected (TVector (TUint U8) 6) [] &&
  encodes (TVector (TList (TUint U8) 1) 4) (VSeq [uints [0]; uints [1]; uints [2]; VSeq []])
    (u8s [16; 0; 0; 0; 17; 0; 0; 0; 18; 0; 0; 0; 19; 0; 0; 0; 0; 1; 2]) &&
  round_trips (TList (TList (TUint U8) 1) 4) (VSeq [uints [0]; VSeq []; uints [1]]) &&
  round_trips (TList (TList (TUint U8) 16) 32) (VSeq [VSeq []]) &&
  fails (generalized_index (lib (TVector (TUint U8) 4)) [Index 5]) &&
  fails (generalized_index (lib (TList (TUint U8) 4)) [Index 5]).

Example vectors : vectors_result = true.
Proof. reflexivity. Qed.

Definition pairs_below (v w : N) : list Path :=
  flat_map (fun i => map (fun j => [Index i; Index j]) (map N.of_nat (seq 0 (N.to_nat w))))
           (map N.of_nat (seq 0 (N.to_nat v))).

Definition aligned : ty := TVector (TVector TU256 2) 2.
Definition non_aligned : ty := TVector (TVector (TUint U64) 2) 2.

Definition vector_indices_result : bool := Eval vm_compute in
  forallb (fun x => ok_index (fst x) (snd x))
    (combine (map (generalized_index (lib non_aligned)) (pairs_below 2 2)) [2; 2; 3; 3]) &&
  forallb (fun x => ok_index (fst x) (snd x))
    (combine (map (generalized_index (lib aligned)) (pairs_below 2 2)) [4; 5; 6; 7]).

Example vector_indices : vector_indices_result = true.
Proof. reflexivity. Qed.

Definition all_proofs (t : ty) (v : val) (tests : list (Path * N)) : bool :=
  forallb (fun x => proof_at t v (fst x) (snd x)) tests.

Definition prove_vectors_result : bool := Eval vm_compute in
  proof_at (TVector TU256 7) (uints [23; 34; 45; 56; 67; 78; 11]) [Index 3] 11 &&
  proof_at (TVector (TUint U64) 7) (uints [23; 34; 45; 56; 67; 78; 11]) [Index 3] 2 &&
  all_proofs (TVector (TVector TBool 2) 2) (VSeq [bools [true; true]; bools [true; true]])
    [([Index 0], 2); ([Index 1], 3); ([Index 0; Index 0], 2); ([Index 0; Index 1], 2);
     ([Index 1; Index 0], 3); ([Index 1; Index 1], 3)] &&
  all_proofs aligned (VSeq [uints [1; 2]; uints [1; 2]])
    [([Index 0], 2); ([Index 1], 3); ([Index 0; Index 0], 4); ([Index 0; Index 1], 5);
     ([Index 1; Index 0], 6); ([Index 1; Index 1], 7)].

Example prove_vectors : prove_vectors_result = true.
Proof. reflexivity. Qed.

Definition prove_nested_vectors_result : bool := Eval vm_compute in
  forallb (proof_verifies (TVector (TVector (TUint U64) 18) 2) (VSeq (repeat (VSeq (repeat (VUint 11) 18)) 2)))
          [[Index 0; Index 0]; [Index 0; Index 17]; [Index 1; Index 9]] &&
  forallb (proof_verifies (TVector (TVector (TUint U64) 3) 18) (VSeq (repeat (VSeq (repeat (VUint 11) 3)) 18)))
          [[Index 0; Index 2]; [Index 17; Index 1]].

Example prove_nested_vectors : prove_nested_vectors_result = true.
Proof. reflexivity. Qed.

Definition prove_list_result : bool := Eval vm_compute in
  proof_verifies (TList TBool 32) (bools [true; true; false; true]) [Index 27] &&
  forallb (proof_verifies (TList TBool 32) (VSeq [])) [[Index 27]; [Length]] &&
  proof_verifies (TList TU256 1) (VSeq []) [Index 0] &&
  forallb (proof_verifies (TList TU256 3) (uints [23])) [[Index 2]; [Length]] &&
  proof_verifies (TList TU256 3) (VSeq []) [Index 0].

Example prove_list : prove_list_result = true.
Proof. reflexivity. Qed.

Definition prove_list_with_missing_data_result : bool := Eval vm_compute in
  proof_verifies (TList TU256 256) (uints [11]) [Index 255].

Example prove_list_with_missing_data : prove_list_with_missing_data_result = true.
Proof. reflexivity. Qed.

(** ** bitlist.rs:288-398, bitvector.rs:270-347 *)
Definition bl (l : list bool) : val := VBits (from_bools l).

Definition bitlists_result : bool := Eval vm_compute in
  encodes (TBitlist 256) (bl []) (u8s [1]) &&
  encodes (TBitlist 256) (bl [false; true]) (u8s [6]) &&
  encodes (TBitlist 256) (bl [false; false; false; true; true; false; false; false]) (u8s [24; 1]) &&
  encodes (TBitlist 256) (bl [false; false; false; true; true; false; false; false; false]) (u8s [24; 2]) &&
  encodes (TBitlist 256) (bl [false; false; false; true; true; false; false; false; true]) (u8s [24; 3]) &&
  match ssz_deserialize true (TBitlist 256) (u8s [24; 0]) with Err (InvalidByte b) => byte_eqb b x00 | _ => false end
 .

Example bitlists : bitlists_result = true.
Proof. reflexivity. Qed.

Definition set_bits (b : bitvec) (l : list N) : bitvec := fold_left (fun b i => fst (bits_set b i true)) l b.

Definition bitvectors_result : bool := Eval vm_compute in
  encodes (TBitvector 4) (VBits (bv_repeat_false 4)) (u8s [0]) &&
  encodes (TBitvector 12) (VBits (bv_repeat_false 12)) (u8s [0; 0]) &&
  encodes (TBitvector 12) (VBits (set_bits (bv_repeat_false 12) [3; 4])) (u8s [24; 0]) &&
  encodes (TBitvector 4) (bl [false; false; true; true]) (u8s [12]) &&
  encodes (TBitvector 12) (VBits (set_bits (bv_repeat_false 12) [3; 4; 8])) (u8s [24; 1]).

Example bitvectors : bitvectors_result = true.
Proof. reflexivity. Qed.

(** The serde tests of both files. *)
Definition no_serde (t : ty) : Serde := {| to_json := fun _ => j_ill_typed; from_json := fun _ => j_ill_typed; when_missing := None |}.

Definition serde_bits_result : bool := Eval vm_compute in
  ok_text (to_json (serde true no_serde (TBitlist 256))
    (bl [true; true; true; true; true; true; true; true; false; true; true; true])) "0xff1e" &&
  ok_text (to_json (serde true no_serde (TBitvector 12)) (VBits (set_bits (bv_repeat_false 12) [3; 4; 9]))) "0x1802".

Example serde_bits : serde_bits_result = true.
Proof. reflexivity. Qed.

(** ** examples/another_container.rs *)
Definition var (a b c : N) : val := VStruct [VUint a; uints [b]; VUint c].
Definition fixed (a b c : N) : val := VStruct [VUint a; VUint b; VUint c].
Definition complex : val :=
  VStruct
    [VUint 51972; uints [48645]; VUint 46; uints [105]; var 1558 39947 65;
     VSeq [fixed 70 905948488145107787 2675781419; fixed 3 12539792087931462647 4719259;
           fixed 73 13544872847030609257 2819826618; fixed 159 16328658841145598323 2375225558];
     VSeq [var 30336 30909 240; var 64263 38121 100]].

Definition another_container_result : bool := Eval vm_compute in
  encodes ComplexTestStruct complex
    (u8s [4; 203; 71; 0; 0; 0; 46; 73; 0; 0; 0; 74; 0; 0; 0; 70; 75; 251; 176; 156; 89; 147; 146; 12;
          43; 47; 125; 159; 3; 247; 163; 104; 30; 119; 74; 6; 174; 155; 2; 72; 0; 73; 105; 229; 23;
          47; 23; 14; 249; 187; 186; 35; 19; 168; 159; 115; 97; 6; 253; 179; 12; 155; 226; 214; 16;
          147; 141; 83; 0; 0; 0; 5; 190; 105; 22; 6; 7; 0; 0; 0; 65; 11; 156; 8; 0; 0; 0; 17; 0; 0;
          0; 128; 118; 7; 0; 0; 0; 240; 189; 120; 7; 251; 7; 0; 0; 0; 100; 233; 148]) &&
  ok_bytes (hash_tree_root (lib ComplexTestStruct) complex)
           (node "69b0ce69dfbc8abb8ae4fba564dcb813f5cc5b93c76d2b3d0689687c35821036").

Example another_container : another_container_result = true.
Proof. reflexivity. Qed.

(** ** examples/proofs.rs *)
Definition proofs_example_result : bool := Eval vm_compute in
  forallb (proof_verifies ComplexTestStruct complex)
    [[f "a"]; [f "b"; Index 0]; [f "e"; f "a"]; [f "e"; f "b"; Index 0]; [f "e"; f "b"; Index 33];
     [f "g"; Index 1; f "b"; Index 0]].

Example proofs_example : proofs_example_result = true.
Proof. reflexivity. Qed.

(** list.rs:500-515, vector.rs:707-745 *)
Definition order_result : list comparison := Eval vm_compute in
  map (fun k => ssz_cmp (uints [1; 22]) (uints (repeat 0 k))) (seq 0 5) ++
  map (fun x => ssz_cmp (uints [23; 34; 45; 56; 67; 78; 11]) (uints [23; 34; 45; 56; 67; 78; x])) [11; 12].

Example order : order_result = repeat Gt 5 ++ [Eq; Lt].
Proof. reflexivity. Qed.
