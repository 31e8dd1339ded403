(** Properties of Merkle trees, roots, generalized indices and proofs. Only theorems, each proved in
    MerkleThms.v, and examples that show their hypotheses can be met.

    [H] is any function with 32-byte results in the theorems and SHA-256 in the examples.
    [oc] is true in builds with overflow checks. *)
From Coq Require Import String.
From Coq Require Import List NArith Bool Lia Permutation Sorted.
From Coq Require Import Strings.Byte.
From Verif Require Import Prelude Types Bitvec Ser De Impls Api Merkleize Proofs MerkImpls Multiproofs Sha256
  Compare Valid SpecSer SpecApi SpecMerkle SpecPack SpecWrite SpecAlike SpecRoot SpecMulti SpecMinimal SpecSize SpecCost Cost SpecProve SpecFound SpecTree SpecBeside SpecJoin SpecLater SpecSummary SpecHuge CostVerify SpecVerify SpecModes MerkleThms Samples.
Import ListNotations.
Open Scope N_scope.

(** ** C23: merkleization with virtual padding *)

Theorem C23_merkleize :
  forall H : bytes -> bytes, (forall x, blen (H x) = 32) -> forall oc (cs : list bytes),
  Forall (fun c : bytes => blen c = 32) cs -> blen cs <= 2 ^ 63 ->
  merkleize H (CONTEXT_of (compute_zero_hashes H)) oc (concat cs) None =
    Ok (spec_merkleize H (tree_depth (blen cs)) cs) /\
  forall limit, blen cs <= limit -> limit <= 2 ^ 63 ->
    merkleize H (CONTEXT_of (compute_zero_hashes H)) oc (concat cs) (Some limit) =
      Ok (spec_merkleize H (tree_depth limit) cs).
Proof. exact c23_merkleize. Qed.
Print Assumptions C23_merkleize.

Example C23_example :
  Forall (fun c => blen c = 32) [zero_chunk; num_chunk 7; num_chunk 9] /\
  merkleize sha256 (CONTEXT_of (compute_zero_hashes sha256)) true
    (concat [zero_chunk; num_chunk 7; num_chunk 9]) (Some 5) =
  Ok (sha256 (sha256 (sha256 (zero_chunk ++ num_chunk 7) ++ sha256 (num_chunk 9 ++ zero_chunk)) ++
              sha256 (sha256 (zero_chunk ++ zero_chunk) ++ sha256 (zero_chunk ++ zero_chunk)))).
Proof.
  split; [repeat constructor|]. vm_compute. reflexivity.
Qed.

(** ** C24: the merkleization limit *)

Theorem C24_limit :
  forall H : bytes -> bytes, (forall x, blen (H x) = 32) -> forall oc (cs : list bytes) limit,
  Forall (fun c : bytes => blen c = 32) cs -> blen cs <= 2 ^ 63 -> limit <= 2 ^ 63 ->
  let r := merkleize H (CONTEXT_of (compute_zero_hashes H)) oc (concat cs) (Some limit) in
  (r = Err (InputExceedsLimit limit) <-> limit < blen cs) /\
  (limit < blen cs \/ exists root, r = Ok root) /\ forall p, r <> Panic p.
Proof. exact c24_limit. Qed.
Print Assumptions C24_limit.

Example C24_example :
  merkleize sha256 (CONTEXT_of (compute_zero_hashes sha256)) false (zeros 96) (Some 2) = Err (InputExceedsLimit 2).
Proof.
  vm_compute. reflexivity.
Qed.

(** ** C25: the table of zero hashes *)

Theorem C25_zero_hashes :
  forall H : bytes -> bytes, (forall x, blen (H x) = 32) ->
  exists b, compute_zero_hashes H = Ok b /\
    forall d, (d < 64)%nat -> context_index b (N.of_nat d) = Ok (subtree H d (fun _ => zero_chunk)).
Proof. exact c25_zero_hashes. Qed.
Print Assumptions C25_zero_hashes.

Example C25_example :
  context_index (CONTEXT_of (compute_zero_hashes sha256)) 2 =
  Ok (sha256 (sha256 (zero_chunk ++ zero_chunk) ++ sha256 (zero_chunk ++ zero_chunk))).
Proof.
  vm_compute. reflexivity.
Qed.

(** ** C26: compute_merkle_tree

The tree has 2^D leaves; [tree_index] is the indexing of the Rust type [Tree]. For D > 57 the
buffer would be larger than a Rust allocation can be. *)

Theorem C26_compute_merkle_tree :
  forall H : bytes -> bytes, (forall x, blen (H x) = 32) -> forall oc D (cs : list bytes),
  (D <= 57)%nat -> Forall (fun c : bytes => blen c = 32) cs -> blen cs <= 2 ^ N.of_nat D ->
  exists tree, compute_merkle_tree H oc (concat cs) (2 ^ N.of_nat D) = Ok tree /\
    (forall g, 1 <= g < 2 ^ N.of_nat D -> exists a b,
       tree_index oc tree (2 * g) = Ok a /\ tree_index oc tree (2 * g + 1) = Ok b /\
       tree_index oc tree g = Ok (H (a ++ b))) /\
    (forall i, i < 2 ^ N.of_nat D -> tree_index oc tree (2 ^ N.of_nat D + i) = Ok (chunk_at cs i)) /\
    tree_index oc tree 1 =
      merkleize H (CONTEXT_of (compute_zero_hashes H)) oc (concat cs) (Some (2 ^ N.of_nat D)).
Proof. exact c26_compute_merkle_tree. Qed.
Print Assumptions C26_compute_merkle_tree.

Example C26_example :
  exists tree, compute_merkle_tree sha256 true (concat [num_chunk 7; num_chunk 9; num_chunk 2]) (2 ^ N.of_nat 2) = Ok tree /\
  tree_index true tree 3 = Ok (sha256 (num_chunk 2 ++ zero_chunk)).
Proof.
  eexists. split; [vm_compute; reflexivity|]. vm_compute. reflexivity.
Qed.

(** ** C27: hash_tree_root follows the specification

[regular] (SpecMerkle.v) excludes collections of arrays of non-composite elements (unless 32 bytes
long) and of newtypes of basic types. *)

Theorem C27_hash_tree_root :
  forall H : bytes -> bytes, (forall x, blen (H x) = 32) -> forall oc t v,
  legal t = true -> regular t = true -> valid t v ->
  ssz_hash_tree_root H oc t v = Ok (spec_root H t v).
Proof. exact c27_hash_tree_root. Qed.
Print Assumptions C27_hash_tree_root.

Example C27_example :
  legal sample_ty = true /\ regular sample_ty = true /\ valid sample_ty sample_val /\
  (forall x, blen (sha256 x) = 32) /\
  exists r, ssz_hash_tree_root sha256 true sample_ty sample_val = Ok r.
Proof.
  split; [vm_compute; reflexivity|]. split; [vm_compute; reflexivity|]. split; [exact sample_valid|].
  split; [exact sha256_blen|]. eexists. vm_compute. reflexivity.
Qed.

(** ** C28: hash_tree_root for all types: false

Elements that are arrays of non-composite elements are packed like basic elements, and newtypes of
basic types are given a chunk each. C27 has the types on which the root is right. *)

Theorem C28_arrays_refuted :
  exists t v, legal t = true /\ valid t v /\
  forall oc, exists r, ssz_hash_tree_root sha256 oc t v = Ok r /\ r <> spec_root sha256 t v.
Proof. exact c28_arrays_refuted. Qed.
Print Assumptions C28_arrays_refuted.

Theorem C28_newtypes_refuted :
  exists t v, legal t = true /\ valid t v /\
  forall oc, exists r, ssz_hash_tree_root sha256 oc t v = Ok r /\ r <> spec_root sha256 t v.
Proof. exact c28_newtypes_refuted. Qed.
Print Assumptions C28_newtypes_refuted.

(** The root of every type: [root_with] (SpecPack.v) is the root of the specification with the choice of the
packed element types left open. The specification packs the basic types; ssz-rs those of [packed].
[sized] only bounds sizes. *)

Theorem C28_partial :
  forall H : bytes -> bytes, (forall x, blen (H x) = 32) -> forall oc t v,
  legal t = true -> sized t = true -> valid t v ->
  spec_root H t v = root_with spec_basic H t v /\
  ssz_hash_tree_root H oc t v = Ok (root_with packed H t v).
Proof. exact c28_partial. Qed.
Print Assumptions C28_partial.

Example C28_example :
  let t := TList (TArray (TNewtype (TUint U8)) 2) 3 in let v := VSeq [VSeq [VNewtype (VUint 1); VNewtype (VUint 2)]] in
  legal t = true /\ sized t = true /\ regular t = false /\ valid t v /\
  root_with packed sha256 t v <> root_with spec_basic sha256 t v.
Proof.
  split; [reflexivity|]. split; [vm_compute; reflexivity|]. split; [vm_compute; reflexivity|]. split; [solve_valid|].
  vm_compute. discriminate.
Qed.

(** The outcome for every value that a Rust type can hold, also out of bounds or with left-over bits:
[root_any] (SpecRoot.v) gives the root or the error. The chunks of every collection in the value are
fewer than 2^63 bytes. *)

Theorem C28_exact_partial :
  forall H : bytes -> bytes, (forall x, blen (H x) = 32) -> forall oc t v,
  legal t = true -> sized t = true -> typed t v -> (forall u y, part t v u y -> in_memory u y) ->
  ssz_hash_tree_root H oc t v = match root_any H t v with inl r => Ok r | inr e => Err e end.
Proof. exact c28_exact_partial. Qed.
Print Assumptions C28_exact_partial.

Example C28_exact_example :
  (* a Vector that lost an element; a Bitvector that grew by a chunk; a Bitlist with a left-over bit *)
let t := TVector (TUint U8) 33 in let v := VSeq (repeat (VUint 1) 32) in
  let b := apply_bit_ops bitlist_default [BPush true; BPush true; BPush true; BTruncate 1] in
  legal t = true /\ sized t = true /\ typed t v /\ (forall u y, part t v u y -> in_memory u y) /\
  root_any sha256 t v = inl (repeat x01 32) /\
  typed (TBitvector 2) (VBits (bits_of (repeat false 257))) /\
  root_any sha256 (TBitvector 2) (VBits (bits_of (repeat false 257))) = inr (InputExceedsLimit 1) /\
  typed (TBitlist 8) (VBits b) /\
  root_any sha256 (TBitlist 8) (VBits b) = inl (sha256 ((x07 :: zeros 31) ++ num_chunk 1)).
Proof.
  cbv zeta. split; [reflexivity|]. split; [vm_compute; reflexivity|]. split; [cbn; repeat constructor|]. split.
  - intros u y HP. remember (TVector (TUint U8) 33) as t. remember (VSeq (repeat (VUint 1) 32)) as v.
    destruct HP as [? ?|? ? t1 v1 t2 v2 HI HP]; subst; [vm_compute; reflexivity|].
    cbn [children] in HI. apply in_map_iff in HI as (x & [= <- <-] & HI). apply repeat_spec in HI. subst x.
    remember (TUint U8) as t. remember (VUint 1) as v.
    destruct HP as [? ?|? ? t1 v1 t2 v2 HI HP]; subst; [exact I|destruct HI].
  - split; [vm_compute; reflexivity|]. split; [reflexivity|]. split; [vm_compute; reflexivity|].
    split; [reflexivity|]. vm_compute. reflexivity.
Qed.

(** ** C29: roots are binding

If two values have the same root, they are equal, or two of the byte strings hashed for their
roots ([hashed], SpecMerkle.v) differ and have the same hash. *)

Theorem C29_binding_partial :
  forall H : bytes -> bytes, (forall x, blen (H x) = 32) -> forall oc1 oc2 t v w r,
  legal t = true -> regular t = true -> no_transparent t = true -> valid t v -> valid t w ->
  ssz_hash_tree_root H oc1 t v = Ok r -> ssz_hash_tree_root H oc2 t w = Ok r ->
  v = w \/ exists x y, hashed H t v x /\ hashed H t w y /\ x <> y /\ H x = H y.
Proof. exact c29_binding_partial. Qed.
Print Assumptions C29_binding_partial.

Example C29_example :
  legal sample_ty = true /\ regular sample_ty = true /\ no_transparent sample_ty = true /\
  hashed sha256 sample_ty sample_val (zero_chunk ++ num_chunk 0).
Proof.
  split; [vm_compute; reflexivity|]. split; [vm_compute; reflexivity|]. split; [vm_compute; reflexivity|].
  exists (TList (TUint U8) 4), (VSeq []). split.
  - eapply part_step; [right; left; reflexivity|]. eapply part_step; [right; left; reflexivity|]. apply part_refl.
  - right. vm_compute. reflexivity.
Qed.

(** All types without transparent enums. [hashed_with] leaves out the parts of packed elements, which have no
root of their own. *)

Theorem C29_partial :
  forall H : bytes -> bytes, (forall x, blen (H x) = 32) -> forall oc1 oc2 t v w r,
  legal t = true -> sized t = true -> no_transparent t = true -> valid t v -> valid t w ->
  ssz_hash_tree_root H oc1 t v = Ok r -> ssz_hash_tree_root H oc2 t w = Ok r ->
  v = w \/ exists x y, hashed_with packed H t v x /\ hashed_with packed H t w y /\ x <> y /\ H x = H y.
Proof. exact c29_partial. Qed.
Print Assumptions C29_partial.

Example C29_partial_example :
  let t := TList (TArray (TUint U8) 2) 3 in let v := VSeq [VSeq [VUint 1; VUint 2]] in
  legal t = true /\ sized t = true /\ regular t = false /\ no_transparent t = true /\ valid t v /\
  hashed_with packed sha256 t v (spec_uint 32 513 ++ num_chunk 1).
Proof.
  split; [reflexivity|]. split; [vm_compute; reflexivity|]. split; [vm_compute; reflexivity|]. split; [reflexivity|].
  split; [solve_valid|]. apply hashed_here. right. vm_compute. reflexivity.
Qed.

(** The variant of a transparent enum is not hashed: values of different variants can have the same root
although nothing is hashed at all. *)

Theorem C29_transparent_refuted :
  exists t v w, legal t = true /\ regular t = true /\ valid t v /\ valid t w /\ v <> w /\
  (forall oc, ssz_hash_tree_root sha256 oc t v = ssz_hash_tree_root sha256 oc t w /\
              exists r, ssz_hash_tree_root sha256 oc t v = Ok r) /\
  forall x, ~ hashed sha256 t v x.
Proof. exact c29_transparent_refuted. Qed.
Print Assumptions C29_transparent_refuted.

(** ** C30: over-long lists have no root: false

A list of basic elements keeps a root as long as its chunks fit. *)

Theorem C30_refuted :
  exists u n l, legal (TList u n) = true /\ Forall (valid u) l /\ n < blen l /\
  forall oc, exists r, ssz_hash_tree_root sha256 oc (TList u n) (VSeq l) = Ok r.
Proof. exact c30_refuted. Qed.
Print Assumptions C30_refuted.

(** The root of a list of any length: it fails exactly when the chunks of the elements are too many,
in particular for every over-long list of composite elements. *)

Theorem C30_partial :
  forall H : bytes -> bytes, (forall x, blen (H x) = 32) -> forall oc u n l,
  legal (TList u n) = true -> regular (TList u n) = true -> Forall (valid u) l ->
  blen l * spec_item_length u < 2 ^ 64 ->
  let limit := (n * spec_item_length u + 31) / 32 in
  let needed := (blen l * spec_item_length u + 31) / 32 in
  ssz_hash_tree_root H oc (TList u n) (VSeq l) =
    (if limit <? needed then Err (InputExceedsLimit limit)
     else Ok (spec_mix_in H (spec_merkleize H (tree_depth limit) (seq_chunks H u l)) (blen l))) /\
  (spec_basic u = false -> limit = n /\ needed = blen l).
Proof. exact c30_partial. Qed.
Print Assumptions C30_partial.

Example C30_example :
  legal (TList (TList (TUint U8) 4) 1) = true /\ regular (TList (TList (TUint U8) 4) 1) = true /\
  ssz_hash_tree_root sha256 true (TList (TList (TUint U8) 4) 1) (VSeq [VSeq []; VSeq []]) = Err (InputExceedsLimit 1).
Proof.
  split; [reflexivity|]. split; [reflexivity|]. vm_compute. reflexivity.
Qed.

(** For every element type: an over-long list has a root exactly when its elements are packed and their
chunks fit. *)

Theorem C30_all_types_partial :
  forall H : bytes -> bytes, (forall x, blen (H x) = 32) -> forall oc u n l,
  legal (TList u n) = true -> sized (TList u n) = true -> Forall (valid u) l -> n < blen l ->
  blen l * item_length_with packed u < 2 ^ 63 ->
  ((exists r, ssz_hash_tree_root H oc (TList u n) (VSeq l) = Ok r) <->
   packed u = true /\ (blen l * fixed_size u + 31) / 32 <= (n * fixed_size u + 31) / 32) /\
  (forall p, ssz_hash_tree_root H oc (TList u n) (VSeq l) <> Panic p).
Proof. exact c30_all_types_partial. Qed.
Print Assumptions C30_all_types_partial.

Example C30_all_types_example :
  let u := TArray (TUint U8) 3 in let w := TNewtype (TUint U8) in
  legal (TList u 11) = true /\ sized (TList u 11) = true /\ packed u = true /\
  (12 * fixed_size u + 31) / 32 = 2 /\ (11 * fixed_size u + 31) / 32 = 2 /\ (10 * fixed_size u + 31) / 32 = 1 /\
  packed w = false.
Proof.
  repeat apply conj; vm_compute; reflexivity.
Qed.

(** ** C31: generalized indices

[indexable] (SpecMerkle.v): the type is not a collection of newtypes of basic types or of more than
2^64 bytes. Paths through transparent enums are those of unions ([as_unions]). *)

Theorem C31_partial :
  forall H oc t path g, along indexable (as_unions t) path = true -> spec_gindex (as_unions t) path = Some g -> g < 2 ^ 64 ->
  ssz_generalized_index H oc t path = Ok g.
Proof. exact c31_partial. Qed.
Print Assumptions C31_partial.

Example C31_example :
  let path := [Field "b"%string; Index 2; Index 1] in
  as_unions sample_ty = sample_ty /\ along indexable sample_ty path = true /\ spec_gindex sample_ty path = Some 276 /\
  ssz_generalized_index sha256 true sample_ty path = Ok 276.
Proof.
  vm_compute. auto.
Qed.

(** For a collection of newtypes of basic types the index is another one. *)

Theorem C31_newtypes_refuted :
  exists t path g, legal t = true /\ spec_gindex t path = Some g /\
  forall H oc, exists g', ssz_generalized_index H oc t path = Ok g' /\ g' <> g.
Proof. exact c31_newtypes_refuted. Qed.
Print Assumptions C31_newtypes_refuted.

(** The index for every type, up to overflow: [gindex_with] (SpecPack.v) is the index of the specification with
the choice of the types that share a chunk left open. ssz-rs lets the plain basic types do so. *)

Theorem C31_all_types_partial :
  forall H oc t path g, countable_path item_basic (as_unions t) path = true ->
  gindex_with item_basic (as_unions t) path = Some g -> g < 2 ^ 64 ->
  spec_gindex (as_unions t) path = gindex_with spec_basic (as_unions t) path /\
  ssz_generalized_index H oc t path = Ok g.
Proof. exact c31_all_types_partial. Qed.
Print Assumptions C31_all_types_partial.

Example C31_all_types_example :
  let t := TVector (TNewtype (TUint U8)) 2 in
  countable_path item_basic t [Index 1] = true /\ gindex_with item_basic t [Index 1] = Some 3.
Proof.
  vm_compute. auto.
Qed.

(** With overflow checks every result is right. *)

Theorem C31_checked_partial :
  forall H t path g, ssz_generalized_index H true t path = Ok g <->
  countable_path item_basic (as_unions t) path = true /\
  gindex_with item_basic (as_unions t) path = Some g /\ g < 2 ^ 64.
Proof. exact c31_checked_partial. Qed.
Print Assumptions C31_checked_partial.

(** ** C32: invalid paths

The only panics are overflows, in builds with overflow checks. *)

Theorem C32_invalid_paths :
  forall H oc t path,
  match ssz_generalized_index H oc t path with
  | Ok _ => spec_path_error (as_unions t) path = None
  | Err e => spec_path_error (as_unions t) path = Some e
  | Panic p => oc = true /\ p = POverflow
  end /\
  (spec_path_error (as_unions t) path = None <-> exists g, spec_gindex (as_unions t) path = Some g).
Proof. exact c32_invalid_paths. Qed.
Print Assumptions C32_invalid_paths.

Example C32_example :
  spec_path_error sample_ty [Field "a"%string; Index 0] = Some (InvalidPath [Index 0]) /\
  spec_path_error sample_ty [Field "b"%string; Index 3] = Some (InvalidPathElement (Index 3)) /\
  spec_path_error sample_ty [Field "z"%string; Index 3] = Some (InvalidPathElement (Field "z"%string)) /\
  ssz_generalized_index sha256 true sample_ty [Field "b"%string; Index 3] = Err (InvalidPathElement (Index 3)).
Proof.
  vm_compute. auto.
Qed.

(** ** C33: generalized indices nest *)

Theorem C33_nesting :
  forall H oc t p q g, countable_path item_basic (as_unions t) (p ++ q) = true ->
  gindex_with item_basic (as_unions t) (p ++ q) = Some g -> g < 2 ^ 64 ->
  exists a u b,
    spec_target (as_unions t) p = Some u /\
    ssz_generalized_index H oc t p = Ok a /\
    ssz_generalized_index H oc u q = Ok b /\
    ssz_generalized_index H oc t (p ++ q) = Ok (graft a b) /\
    graft a b / 2 ^ N.log2 b = a.
Proof. exact c33_nesting. Qed.
Print Assumptions C33_nesting.

(** Builds with overflow checks: no hypothesis but that there is a result. *)

Theorem C33_checked :
  forall H t p q g, ssz_generalized_index H true t (p ++ q) = Ok g ->
  exists a u b,
    spec_target (as_unions t) p = Some u /\
    ssz_generalized_index H true t p = Ok a /\
    ssz_generalized_index H true u q = Ok b /\
    g = graft a b /\ g / 2 ^ N.log2 b = a.
Proof. exact c33_checked. Qed.
Print Assumptions C33_checked.

Example C33_example :
  let p := [Field "b"%string] in let q := [Index 2; Index 1] in
  countable_path item_basic sample_ty (p ++ q) = true /\ gindex_with item_basic sample_ty (p ++ q) = Some 276 /\ graft 17 20 = 276 /\
  ssz_generalized_index sha256 true sample_ty p = Ok 17 /\
  ssz_generalized_index sha256 true (TList (TList (TUint U8) 4) 3) q = Ok 20.
Proof.
  vm_compute. auto.
Qed.

(** ** C34, C35: proofs verify, and prove the addressed part

[spec_leaf t v path] is the node that the path addresses in the tree of [v]; it is [None] when the
value has no such part. [provable] and [along provable]: the trees of the whole
and of the parts that the path goes through have at most 2^57 leaves and belong to no transparent
enum; the part at its end can be anything. *)

Theorem C34_partial :
  forall H : bytes -> bytes, (forall x, blen (H x) = 32) -> forall oc t v path b g,
  legal t = true -> regular t = true -> valid t v -> provable t = true -> along provable t path = true ->
  spec_leaf H t v path = Some b -> spec_gindex t path = Some g -> g < 2 ^ 64 ->
  exists pf witness,
    ssz_prove H oc t v path = Ok (pf, witness) /\
    ssz_hash_tree_root H oc t v = Ok witness /\
    ssz_generalized_index H oc t path = Ok (proof_index pf) /\
    proof_index pf = g /\
    forall oc', verify H oc' pf witness = Ok tt.
Proof. exact c34_partial. Qed.
Print Assumptions C34_partial.

Example C34_example :
  let path := [Field "b"%string; Index 2; Index 1] in
  legal sample_ty = true /\ regular sample_ty = true /\ valid sample_ty sample_val /\ provable sample_ty = true /\ along provable sample_ty path = true /\
  spec_leaf sha256 sample_ty sample_val path = Some (x08 :: x09 :: zeros 30) /\ spec_gindex sample_ty path = Some 276.
Proof.
  split; [vm_compute; reflexivity|]. split; [vm_compute; reflexivity|]. split; [exact sample_valid|]. split; [vm_compute; reflexivity|].
  split; [vm_compute; reflexivity|]. split; [vm_compute; reflexivity|]. vm_compute. reflexivity.
Qed.

(** For every type: with the roots that ssz-rs computes ([root_with packed]), its choice of the elements
that share a chunk and its indices. [provable_with] asks that on the path these choices fit together,
which they do not for arrays of basic elements inside a collection, unless they fill a chunk. *)

Theorem C34_all_types_partial :
  forall H : bytes -> bytes, (forall x, blen (H x) = 32) -> forall oc t v path b g,
  legal t = true -> sized t = true -> valid t v ->
  provable_with t = true -> along provable_with t path = true ->
  leaf_with H t v path = Some b -> gindex_with item_basic t path = Some g -> g < 2 ^ 64 ->
  exists pf witness,
    ssz_prove H oc t v path = Ok (pf, witness) /\
    ssz_hash_tree_root H oc t v = Ok witness /\
    ssz_generalized_index H oc t path = Ok (proof_index pf) /\
    proof_index pf = g /\
    forall oc', verify H oc' pf witness = Ok tt.
Proof. exact c34_all_types_partial. Qed.
Print Assumptions C34_all_types_partial.

Example C34_all_types_example :
  (* newtypes of u64 in a list next to an array of arrays *)
let t := TContainer [("a"%string, TList (TNewtype (TUint U64)) 4); ("b"%string, TVector (TArray (TUint U8) 3) 5)] in
let v := VStruct [VSeq [VNewtype (VUint 7); VNewtype (VUint 8)];
                  VSeq (repeat (VSeq [VUint 1; VUint 2; VUint 3]) 5)] in
let path := [Field "a"%string; Index 1] in
  legal t = true /\ sized t = true /\ regular t = false /\ valid t v /\ provable_with t = true /\ along provable_with t path = true /\
  leaf_with sha256 t v path = Some (num_chunk 8) /\ gindex_with item_basic t path = Some 17 /\ spec_gindex t path = Some 4.
Proof.
  split; [vm_compute; reflexivity|]. split; [vm_compute; reflexivity|]. split; [vm_compute; reflexivity|]. split; [solve_valid|].
  split; [vm_compute; reflexivity|]. split; [vm_compute; reflexivity|]. split; [vm_compute; reflexivity|]. split; vm_compute; reflexivity.
Qed.

(** A path through the variant of a union that the value does not have is not rejected. Its proof can
fail to verify (the siblings below a length or selector are read from the unused part of the tree),
or prove a part of another variant. *)

Theorem C34_variants_refuted :
  exists t v path, legal t = true /\ regular t = true /\ valid t v /\ provable t = true /\ along provable t path = true /\
  forall oc, exists pf witness, ssz_prove sha256 oc t v path = Ok (pf, witness) /\
    ssz_hash_tree_root sha256 oc t v = Ok witness /\ verify sha256 oc pf witness = Err InvalidProof.
Proof. exact c34_variants_refuted. Qed.
Print Assumptions C34_variants_refuted.

(** Every proof that [prove] returns, for every type, value and path: its leaf, branch and witness. The
witness is the root of the tree over the same chunks as [hash_tree_root], with the number of leaves
that the types give. The proof verifies if and only if its branch leads from the leaf to the
witness, which it does when every part on the way has as its root the leaf of the tree above it. *)

Theorem C34_exact_partial :
  forall H : bytes -> bytes, (forall x, blen (H x) = 32) -> forall oc t v path pf w,
  legal t = true -> sized t = true -> addressable t = true -> valid t v ->
  ssz_prove H oc t v path = Ok (pf, w) ->
  exists g, ssz_generalized_index H oc t path = Ok g /\ 1 <= g /\ probe t v g = Made /\
    pf = MkProof (fst (found H t v g)) (snd (found H t v g)) g /\ w = tree_node H t v 1 /\
    blen (snd (found H t v g)) = N.log2 g /\
    (forall oc', verify H oc' pf w = if bytes_eqb (climb H g (leaf pf) (branch pf)) w then Ok tt else Err InvalidProof) /\
    (connected H t v g -> forall oc', verify H oc' pf w = Ok tt) /\
    (let r := spec_merkleize H (tree_depth (chunk_count_with item_basic t)) (chunks_with packed H t v) in
     w = match number t v with Some n => spec_mix_in H r n | None => r end) /\
    (tree_depth (chunk_count_with item_basic t) = tree_depth (chunk_count_with packed t) -> number t v = spec_decoration t v ->
     ssz_hash_tree_root H oc t v = Ok w).
Proof. exact c34_exact_partial. Qed.
Print Assumptions C34_exact_partial.

Example C34_exact_example :
  (* a byte of the second element of the first variant of a union; a byte of an array in a vector *)
let t := TUnion [Some (TList (TList (TUint U8) 4) 3); Some TBool] in
let v := VVariant 0 (VSeq [VSeq []; VSeq [VUint 7]]) in
let path := [Index 0; Index 1; Index 0] in
let t' := TVector (TArray (TUint U8) 3) 4 in
let v' := VSeq (repeat (VSeq (repeat (VUint 1) 3)) 4) in
  legal t = true /\ sized t = true /\ addressable t = true /\ valid t v /\ connected sha256 t v 34 /\
  (exists r, ssz_prove sha256 true t v path = Ok r) /\ ssz_generalized_index sha256 true t path = Ok 34 /\
  tree_depth (chunk_count_with item_basic t) = tree_depth (chunk_count_with packed t) /\ number t v = spec_decoration t v /\
  legal t' = true /\ sized t' = true /\ addressable t' = true /\ valid t' v' /\
  (exists r, ssz_prove sha256 true t' v' [Index 2; Index 1] = Ok r) /\
  ssz_generalized_index sha256 true t' [Index 2; Index 1] = Ok 6.
Proof.
  repeat apply conj; try (vm_compute; reflexivity); try solve_valid; try (eexists; vm_compute; reflexivity).
  all: vm_compute; auto 20.
Qed.

(** For arrays of basic elements in a collection the witness of a proof is not the root of the value: the
trees have different numbers of leaves. The proof verifies against the witness only. A transparent
enum has its selector mixed in in proofs only. *)

Theorem C34_arrays_refuted :
  exists t v, legal t = true /\ sized t = true /\ addressable t = true /\ valid t v /\
  forall oc path, In path [[]; [Index 2]; [Index 2; Index 1]] -> exists pf witness root, ssz_prove sha256 oc t v path = Ok (pf, witness) /\
    ssz_hash_tree_root sha256 oc t v = Ok root /\ witness <> root /\ witness <> spec_root sha256 t v /\
    verify sha256 oc pf witness = Ok tt /\ verify sha256 oc pf root = Err InvalidProof.
Proof. exact c34_arrays_refuted. Qed.
Print Assumptions C34_arrays_refuted.

Theorem C34_transparent_refuted :
  exists t v, legal t = true /\ regular t = true /\ addressable t = true /\ valid t v /\
  forall oc path, In path [[]; [Selector]; [Index 1]] -> exists pf witness root, ssz_prove sha256 oc t v path = Ok (pf, witness) /\
    ssz_hash_tree_root sha256 oc t v = Ok root /\ witness <> root /\
    verify sha256 oc pf witness = Ok tt /\ verify sha256 oc pf root = Err InvalidProof.
Proof. exact c34_transparent_refuted. Qed.
Print Assumptions C34_transparent_refuted.

Theorem C35_variants_refuted :
  exists t v path, legal t = true /\ regular t = true /\ valid t v /\ provable t = true /\ along provable t path = true /\
  spec_leaf sha256 t v path = None /\
  forall oc, exists pf witness, ssz_prove sha256 oc t v path = Ok (pf, witness) /\
    verify sha256 oc pf witness = Ok tt.
Proof. exact c35_variants_refuted. Qed.
Print Assumptions C35_variants_refuted.

Theorem C35_partial :
  forall H : bytes -> bytes, (forall x, blen (H x) = 32) -> forall oc t v path b g,
  legal t = true -> regular t = true -> valid t v -> provable t = true -> along provable t path = true ->
  spec_leaf H t v path = Some b -> spec_gindex t path = Some g -> g < 2 ^ 64 ->
  exists pf witness, ssz_prove H oc t v path = Ok (pf, witness) /\ leaf pf = b /\
    (* the branch leads from the leaf to the root *)
    blen (branch pf) = N.log2 g /\ climb H g b (branch pf) = witness.
Proof. exact c35_partial. Qed.
Print Assumptions C35_partial.

Example C35_example :
  let path := [Field "f"%string; Selector] in
  provable sample_ty = true /\ along provable sample_ty path = true /\ spec_gindex sample_ty path = Some 43 /\
  spec_leaf sha256 sample_ty sample_val path = Some (num_chunk 2).
Proof.
  split; [vm_compute; reflexivity|]. split; [vm_compute; reflexivity|]. split; [vm_compute; reflexivity|]. vm_compute. reflexivity.
Qed.

Theorem C35_all_types_partial :
  forall H : bytes -> bytes, (forall x, blen (H x) = 32) -> forall oc t v path b g,
  legal t = true -> sized t = true -> valid t v ->
  provable_with t = true -> along provable_with t path = true ->
  leaf_with H t v path = Some b -> gindex_with item_basic t path = Some g -> g < 2 ^ 64 ->
  exists pf witness, ssz_prove H oc t v path = Ok (pf, witness) /\ leaf pf = b /\
    blen (branch pf) = N.log2 g /\ climb H g b (branch pf) = witness /\ witness = root_with packed H t v.
Proof. exact c35_all_types_partial. Qed.
Print Assumptions C35_all_types_partial.

Example C35_all_types_example :
  (* the root of an array of arrays, as ssz-rs packs it *)
let t := TContainer [("a"%string, TBool); ("b"%string, TArray (TArray (TUint U8) 4) 4)] in
let v := VStruct [VBool true; VSeq (repeat (VSeq [VUint 1; VUint 2; VUint 3; VUint 4]) 4)] in
let path := [Field "b"%string] in
  legal t = true /\ sized t = true /\ regular t = false /\ valid t v /\ provable_with t = true /\ along provable_with t path = true /\
  leaf_with sha256 t v path = Some (concat (repeat [x01; x02; x03; x04] 4) ++ zeros 16) /\ gindex_with item_basic t path = Some 3.
Proof.
  split; [vm_compute; reflexivity|]. split; [vm_compute; reflexivity|]. split; [vm_compute; reflexivity|]. split; [solve_valid|].
  split; [vm_compute; reflexivity|]. split; [vm_compute; reflexivity|]. split; vm_compute; reflexivity.
Qed.

(** ** C36: prove does not panic: false

A path below an element that a List does not have is an index out of bounds. *)

Theorem C36_refuted :
  exists t v path g, legal t = true /\ regular t = true /\ valid t v /\ provable t = true /\ along provable t path = true /\
  spec_gindex t path = Some g /\ forall oc, exists p, ssz_prove sha256 oc t v path = Panic p.
Proof. exact c36_refuted. Qed.
Print Assumptions C36_refuted.

Theorem C36_partial :
  forall H : bytes -> bytes, (forall x, blen (H x) = 32) -> forall oc t v path,
  (* parts that the value has *)
  (forall b g, legal t = true -> regular t = true -> valid t v -> provable t = true -> along provable t path = true ->
     spec_leaf H t v path = Some b -> spec_gindex t path = Some g -> g < 2 ^ 64 ->
     exists r, ssz_prove H oc t v path = Ok r) /\
  (* invalid paths *)
  (forall e, spec_path_error (as_unions t) path = Some e ->
     ssz_prove H oc t v path = Err e \/ (oc = true /\ ssz_prove H oc t v path = Panic POverflow)).
Proof. exact c36_partial. Qed.
Print Assumptions C36_partial.

(** What prove does for every value and every path: [probe] follows the generalized index, not the path,
and says whether the proof is made, an error is returned or the call panics. *)

Theorem C36_exact_partial :
  forall H : bytes -> bytes, (forall x, blen (H x) = 32) -> forall oc t v path,
  legal t = true -> sized t = true -> addressable t = true -> valid t v ->
  match ssz_generalized_index H oc t path with
  | Ok g =>
      match probe t v g with
      | Made => exists pf witness, ssz_prove H oc t v path = Ok (pf, witness) /\ proof_index pf = g
      | Fails e => ssz_prove H oc t v path = Err e
      | Crashes => exists p, ssz_prove H oc t v path = Panic p
      end
  | Err e => ssz_prove H oc t v path = Err e
  | Panic p => ssz_prove H oc t v path = Panic p
  end.
Proof. exact c36_exact_partial. Qed.
Print Assumptions C36_exact_partial.

Example C36_exact_example :
  (* an element that a list of lists does not have; a vector of arrays of more than a chunk *)
let t := TList (TList (TUint U8) 4) 3 in
let u := TVector (TArray (TUint U8) 40) 7 in
  legal t = true /\ sized t = true /\ addressable t = true /\ valid t (VSeq [VSeq []]) /\
  legal u = true /\ sized u = true /\ addressable u = true /\ valid u (VSeq (repeat (VSeq (repeat (VUint 0) 40)) 7)) /\
  probe t (VSeq [VSeq []]) 16 = Made /\ probe t (VSeq [VSeq []]) 18 = Crashes /\
  probe t (VSeq [VSeq []]) 22 = Fails InvalidInnerIndex /\ probe t (VSeq [VSeq [VUint 1]]) 64 = Fails NoInnerElement /\
  probe u (VSeq (repeat (VSeq (repeat (VUint 0) 40)) 7)) 8 = Crashes /\
  probe t (VSeq []) 8 = Made.
Proof.
  split; [vm_compute; reflexivity|]. split; [vm_compute; reflexivity|]. split; [vm_compute; reflexivity|]. split; [solve_valid|].
  split; [vm_compute; reflexivity|]. split; [vm_compute; reflexivity|]. split; [vm_compute; reflexivity|]. split; [solve_valid|].
  vm_compute. auto 10.
Qed.

Example C36_example :
  spec_path_error (as_unions sample_ty) [Field "b"%string; Index 3] = Some (InvalidPathElement (Index 3)) /\
  ssz_prove sha256 true sample_ty sample_val [Field "b"%string; Index 3] = Err (InvalidPathElement (Index 3)).
Proof.
  vm_compute. auto.
Qed.

(** ** C37: branches are binding *)

Theorem C37_branches_bind :
  forall H : bytes -> bytes, (forall x, blen (H x) = 32) -> forall oc1 oc2 p1 p2 root,
  proof_index p1 = proof_index p2 -> proof_index p1 < 2 ^ 64 ->
  blen (leaf p1) = 32 -> blen (leaf p2) = 32 ->
  Forall (fun c : bytes => blen c = 32) (branch p1) -> Forall (fun c : bytes => blen c = 32) (branch p2) ->
  verify H oc1 p1 root = Ok tt -> verify H oc2 p2 root = Ok tt ->
  p1 = p2 \/
  exists x y, In x (climb_inputs H (proof_index p1) (leaf p1) (branch p1)) /\
              In y (climb_inputs H (proof_index p2) (leaf p2) (branch p2)) /\ x <> y /\ H x = H y.
Proof. exact c37_branches_bind. Qed.
Print Assumptions C37_branches_bind.

Example C37_example :
  let p := MkProof (num_chunk 1) [num_chunk 2] 2 in
  verify sha256 true p (sha256 (num_chunk 1 ++ num_chunk 2)) = Ok tt /\
  climb_inputs sha256 (proof_index p) (leaf p) (branch p) = [num_chunk 1 ++ num_chunk 2].
Proof.
  vm_compute. auto.
Qed.

(** ** C38: is_valid_merkle_branch; panics for more than 64 nodes *)

Theorem C38_refuted :
  forall leaf : bytes, exists br index root, Forall (fun c : bytes => blen c = 32) br /\
  forall oc, exists p, is_valid_merkle_branch sha256 oc leaf br (blen br) index root = Panic p.
Proof. exact c38_refuted. Qed.
Print Assumptions C38_refuted.

(** It panics exactly for such branches, and is right on all others. *)

Theorem C38_partial :
  forall H oc leaf (br : list bytes) depth index root,
  (blen br <= 64 \/ blen br <> depth ->
   is_valid_merkle_branch H oc leaf br depth index root =
     if (blen br =? depth) && bytes_eqb (climb H index leaf br) root then Ok tt else Err InvalidProof) /\
  (64 < blen br -> blen br = depth ->
   exists p, is_valid_merkle_branch H oc leaf br depth index root = Panic p) /\
  (bytes_eqb (climb H index leaf br) root = true <-> climb H index leaf br = root).
Proof. exact c38_partial. Qed.
Print Assumptions C38_partial.

Example C38_example :
  is_valid_merkle_branch sha256 true (num_chunk 1) [num_chunk 2; num_chunk 3] 2 1
  (sha256 (sha256 (num_chunk 2 ++ num_chunk 1) ++ num_chunk 3)) = Ok tt.
Proof.
  vm_compute. reflexivity.
Qed.

(** ** C39: both verifiers agree *)

Theorem C39_verifiers_agree :
  forall H oc leaf br g root, g < 2 ^ 64 ->
  verify_merkle_proof H oc leaf br g root = verify H oc (MkProof leaf br g) root /\
  (g = 0 -> verify_merkle_proof H oc leaf br g root = Err InvalidGeneralizedIndex) /\
  (verify_merkle_proof H oc leaf br g root = Ok tt <-> 1 <= g /\ blen br = N.log2 g /\ climb H g leaf br = root).
Proof. exact c39_verifiers_agree. Qed.
Print Assumptions C39_verifiers_agree.

Example C39_example :
  verify_merkle_proof sha256 true (num_chunk 1) [num_chunk 2] 3 (sha256 (num_chunk 2 ++ num_chunk 1)) = Ok tt.
Proof.
  vm_compute. reflexivity.
Qed.

(** ** C40: honest multiproofs

[enum] is the order in which hash maps enumerate their keys. *)

Theorem C40_honest_multiproofs :
  forall H enum, (forall l, Permutation (enum l) l) -> forall indices M,
  merkle_over H indices M -> (exists i, In i indices /\ 1 <= i) ->
  exists hs, get_helper_indices enum indices = Ok hs /\
    calculate_multi_merkle_root H enum (map M indices) (map M hs) indices = Ok (M 1) /\
    verify_merkle_multiproof H enum (map M indices) (map M hs) indices (M 1) = Ok tt.
Proof. exact c40_honest_multiproofs. Qed.
Print Assumptions C40_honest_multiproofs.

Example C40_example :
  merkle_over sha256 [5; 3] small_tree /\ get_helper_indices (fun l => l) [5; 3] = Ok [4] /\
  calculate_multi_merkle_root sha256 (fun l => l) [num_chunk 5; num_chunk 3] [num_chunk 4] [5; 3] = Ok (small_tree 1).
Proof.
  split; [exact small_tree_over|]. vm_compute. auto.
Qed.

(** ** C41: multiproofs of independent indices are sound *)

Theorem C41_multiproofs_sound :
  forall H : bytes -> bytes, (forall x, blen (H x) = 32) -> forall enum, (forall l, Permutation (enum l) l) ->
  forall indices leaves proof M,
  independent indices -> (forall i, In i indices -> 1 <= i) ->
  Forall (fun c : bytes => blen c = 32) leaves -> Forall (fun c : bytes => blen c = 32) proof ->
  (forall g, blen (M g) = 32) -> merkle_over H indices M ->
  verify_merkle_multiproof H enum leaves proof indices (M 1) = Ok tt ->
  exists hs, get_helper_indices enum indices = Ok hs /\
  ((leaves = map M indices /\ proof = map M hs) \/
   exists x y, opened_input H (combine indices leaves ++ combine hs proof) x /\ tree_input indices M y /\ x <> y /\ H x = H y).
Proof. exact c41_multiproofs_sound. Qed.
Print Assumptions C41_multiproofs_sound.

Example C41_example :
  independent [5; 3] /\ merkle_over sha256 [5; 3] small_tree /\ (forall g, blen (small_tree g) = 32) /\
  verify_merkle_multiproof sha256 (fun l => l) [num_chunk 5; num_chunk 3] [num_chunk 4] [5; 3] (small_tree 1) = Ok tt.
Proof.
  split; [exact small_tree_independent|]. split; [exact small_tree_over|]. split; [exact small_tree_blen|].
  vm_compute. reflexivity.
Qed.

(** ** C42: multiproofs of arbitrary indices are not sound

A leaf below another leaf is not checked: nothing at all is hashed here. *)

Theorem C42_refuted :
  exists indices leaves proof M,
  merkle_over sha256 indices M /\ (forall g, blen (M g) = 32) /\ (forall i, In i indices -> 1 <= i) /\
  (forall enum, (forall l, Permutation (enum l) l) ->
     verify_merkle_multiproof sha256 enum leaves proof indices (M 1) = Ok tt /\
     get_helper_indices enum indices = Ok [3]) /\
  Forall (fun c : bytes => blen c = 32) (leaves ++ proof) /\ leaves <> map M indices /\
  forall x, ~ opened_input sha256 (combine indices leaves ++ combine [3] proof) x.
Proof. exact c42_refuted. Qed.
Print Assumptions C42_refuted.

(** Of several leaves for one index the last one counts; every leaf that is not below another index is
right. *)

Theorem C42_partial :
  forall H : bytes -> bytes, (forall x, blen (H x) = 32) -> forall enum, (forall l, Permutation (enum l) l) ->
  forall indices leaves proof M,
  Forall (fun c : bytes => blen c = 32) leaves -> Forall (fun c : bytes => blen c = 32) proof ->
  (forall g, blen (M g) = 32) -> merkle_over H indices M ->
  verify_merkle_multiproof H enum leaves proof indices (M 1) = Ok tt ->
  exists hs, get_helper_indices enum indices = Ok hs /\
  ((forall i v, 1 <= i -> given (combine indices leaves) i = Some v -> (forall j, In j indices -> ~ ancestor j i) -> v = M i) \/
   exists x y, opened_input H (combine indices leaves ++ combine hs proof) x /\ tree_input indices M y /\ x <> y /\ H x = H y).
Proof. exact c42_partial. Qed.
Print Assumptions C42_partial.

Example C42_example :
  given (combine [2; 3; 2] [zero_chunk; zero_chunk; num_chunk 5]) 2 = Some (num_chunk 5) /\
  verify_merkle_multiproof sha256 (fun l => l) [num_chunk 9; zero_chunk; zero_chunk] [] [2; 3; 2] (tiny_tree 1) = Ok tt.
Proof.
  split; [reflexivity|]. vm_compute. reflexivity.
Qed.

(** ** C43: helper indices *)

Theorem C43_helper_indices :
  forall enum, (forall l, Permutation (enum l) l) -> forall indices,
  exists hs, get_helper_indices enum indices = Ok hs /\
    Sorted.StronglySorted (fun a b => b < a) hs /\
    forall j, In j hs <-> on_path indices (spec_sibling j) /\ ~ on_path indices j.
Proof. exact c43_helper_indices. Qed.
Print Assumptions C43_helper_indices.

Example C43_example :
  get_helper_indices (fun l => rev l) [9; 8; 14] = Ok [15; 6; 5].
Proof.
  reflexivity.
Qed.

(** ** C44: one index *)

Theorem C44_single_index :
  forall H enum, (forall l, Permutation (enum l) l) -> forall oc leaf proof i, 1 <= i -> i < 2 ^ 64 ->
  calculate_multi_merkle_root H enum [leaf] proof [i] = calculate_merkle_root H oc leaf proof i /\
  forall root, verify_merkle_multiproof H enum [leaf] proof [i] root = verify H oc (MkProof leaf proof i) root.
Proof. exact c44_single_index. Qed.
Print Assumptions C44_single_index.

Example C44_example :
  calculate_multi_merkle_root sha256 (fun l => l) [num_chunk 1] [num_chunk 2; num_chunk 3] [6] =
  Ok (sha256 (num_chunk 3 ++ sha256 (num_chunk 1 ++ num_chunk 2))).
Proof.
  vm_compute. reflexivity.
Qed.

(** ** C45: multiproof verification does not panic: false *)

Theorem C45_refuted :
  forall H, exists p, forall enum : list N -> list N, (forall l, Permutation (enum l) l) ->
  calculate_multi_merkle_root H enum [] [] [] = Panic p.
Proof. exact c45_refuted. Qed.
Print Assumptions C45_refuted.

(** It panics exactly when no index is nonzero and the numbers of leaves and of proof nodes are right. *)

Theorem C45_partial :
  forall H enum, (forall l, Permutation (enum l) l) -> forall leaves proof indices,
  exists hs, get_helper_indices enum indices = Ok hs /\
  ((exists p, calculate_multi_merkle_root H enum leaves proof indices = Panic p) <->
   blen leaves = blen indices /\ blen proof = blen hs /\ forall i, In i indices -> i = 0) /\
  (forall e, calculate_multi_merkle_root H enum leaves proof indices = Err e <->
     e = InvalidProof /\ (blen leaves <> blen indices \/ blen proof <> blen hs)).
Proof. exact c45_partial. Qed.
Print Assumptions C45_partial.

Example C45_example :
  calculate_multi_merkle_root sha256 (fun l => l) [zero_chunk] [] [0] = Panic PExpect /\
  calculate_multi_merkle_root sha256 (fun l => l) [zero_chunk] [zero_chunk; zero_chunk] [2] = Err InvalidProof.
Proof.
  split; reflexivity.
Qed.

(** ** C46: the order of hash maps *)

Theorem C46_map_order :
  forall H enum1 enum2, (forall l, Permutation (enum1 l) l) -> (forall l, Permutation (enum2 l) l) ->
  forall leaves proof indices,
  calculate_multi_merkle_root H enum1 leaves proof indices = calculate_multi_merkle_root H enum2 leaves proof indices.
Proof. exact c46_map_order. Qed.
Print Assumptions C46_map_order.

Example C46_example :
  (forall l : list N, Permutation (rev l) l) /\
  calculate_multi_merkle_root sha256 (@rev N) [num_chunk 5; num_chunk 3] [num_chunk 4] [5; 3] = Ok (small_tree 1).
Proof.
  split; [intros l; symmetry; apply Permutation_rev|]. vm_compute. reflexivity.
Qed.

(** ** Roots of integers (C13), bit lists (C17), transparent enums (C21) and newtypes (C53) *)

Theorem C13_root :
  forall H : bytes -> bytes, (forall x, blen (H x) = 32) -> forall oc x,
  (forall w, x < 2 ^ uint_bits w -> ssz_hash_tree_root H oc (TUint w) (VUint x) = Ok (spec_uint 32 x)) /\
  (x < 2 ^ 256 -> ssz_hash_tree_root H oc TU256 (VUint x) = Ok (spec_uint 32 x)).
Proof. exact c13_root. Qed.
Print Assumptions C13_root.

Example C13_root_example :
  ssz_hash_tree_root sha256 true (TUint U16) (VUint 513) = Ok (x01 :: x02 :: zeros 30).
Proof.
  vm_compute. reflexivity.
Qed.

Theorem C17_root_refuted :
  exists n ops1 ops2,
  let b1 := apply_bit_ops bitlist_default ops1 in
  let b2 := apply_bit_ops bitlist_default ops2 in
  bv_bits b1 = bv_bits b2 /\
  forall oc, exists r1 r2,
    ssz_hash_tree_root sha256 oc (TBitlist n) (VBits b1) = Ok r1 /\
    ssz_hash_tree_root sha256 oc (TBitlist n) (VBits b2) = Ok r2 /\ r1 <> r2.
Proof. exact c17_root_refuted. Qed.
Print Assumptions C17_root_refuted.

(** Equal bit lists have equal roots exactly when their stored bits agree, up to collisions among the byte
strings that are hashed. This includes the bit at the place of the end marker. *)

Theorem C17_root_exact_partial :
  forall H : bytes -> bytes, (forall x, blen (H x) = 32) -> forall oc n b1 b2, n + 8 < 2 ^ 64 ->
  bv_ok b1 = true -> bv_ok b2 = true -> bv_len b1 <= n -> bv_len b1 < 2 ^ 63 -> bv_bits b1 = bv_bits b2 ->
  exists r1 r2,
    ssz_hash_tree_root H oc (TBitlist n) (VBits b1) = Ok r1 /\
    ssz_hash_tree_root H oc (TBitlist n) (VBits b2) = Ok r2 /\
    (stored_bits b1 = stored_bits b2 -> r1 = r2) /\
    (r1 = r2 -> stored_bits b1 = stored_bits b2 \/
       exists x y, bitlist_inputs H n b1 x /\ bitlist_inputs H n b2 y /\ x <> y /\ H x = H y).
Proof. exact c17_root_exact_partial. Qed.
Print Assumptions C17_root_exact_partial.

Example C17_root_exact_example :
  (* a bit left over at the place of the end marker does not show in the encoding, but in the root *)
let b1 := apply_bit_ops bitlist_default [BPush true; BPush true; BTruncate 1] in
  let b2 := apply_bit_ops bitlist_default [BPush true] in
  bv_ok b1 = true /\ bv_ok b2 = true /\ bv_bits b1 = bv_bits b2 /\ dead_bits b1 = dead_bits b2 /\
  stored_bits b1 <> stored_bits b2 /\
  ssz_hash_tree_root sha256 true (TBitlist 8) (VBits b1) <> ssz_hash_tree_root sha256 true (TBitlist 8) (VBits b2).
Proof.
  cbv zeta. repeat apply conj; try (vm_compute; reflexivity); vm_compute; discriminate.
Qed.

Theorem C21_root :
  forall H oc ts i u x, nth_error ts (N.to_nat i) = Some u ->
  ssz_hash_tree_root H oc (TTransparent ts) (VVariant i x) = ssz_hash_tree_root H oc u x.
Proof. exact c21_root. Qed.
Print Assumptions C21_root.

Example C21_root_example :
  ssz_hash_tree_root sha256 true (TTransparent [TBool; TUint U16]) (VVariant 1 (VUint 513)) = Ok (x01 :: x02 :: zeros 30).
Proof.
  vm_compute. reflexivity.
Qed.

Theorem C53_newtype_merkle :
  forall H : bytes -> bytes, (forall x, blen (H x) = 32) -> forall oc t x,
  ssz_hash_tree_root H oc (TNewtype t) (VNewtype x) = ssz_hash_tree_root H oc t x /\
  (forall path, ssz_generalized_index H oc (TNewtype t) path = ssz_generalized_index H oc t path) /\
  (forall path, ssz_prove H oc (TNewtype t) (VNewtype x) path = ssz_prove H oc t x path).
Proof. exact c53_newtype_merkle. Qed.
Print Assumptions C53_newtype_merkle.

Example C53_merkle_example :
  ssz_prove sha256 true (TNewtype (TVector (TUint U8) 2)) (VNewtype (VSeq [VUint 1; VUint 2])) [Index 1] =
  Ok (MkProof (x01 :: x02 :: zeros 30) [] 1, x01 :: x02 :: zeros 30).
Proof.
  vm_compute. reflexivity.
Qed.

(** ** C62: arithmetic on generalized indices *)

Theorem C62_index_arithmetic :
  (forall oc x, x <= 2 ^ 63 -> exists k, get_power_of_two_ceil oc x = Ok (2 ^ k) /\ x <= 2 ^ k /\
   forall j, x <= 2 ^ j -> 2 ^ k <= 2 ^ j) /\
(forall oc x, 2 ^ 63 < x -> get_power_of_two_ceil oc x = if oc then Panic POverflow else Ok 0) /\
(get_path_length 0 = Err InvalidGeneralizedIndex) /\
(forall g, 0 < g -> exists k, get_path_length g = Ok k /\ 2 ^ k <= g < 2 ^ (k + 1) /\
   (* k steps to the parent lead to the root, and no fewer *)
   N.iter k parent g = 1 /\ forall j, j < k -> 1 < N.iter j parent g) /\
(forall g, sibling g = (if N.even g then g + 1 else g - 1) /\ sibling (sibling g) = g /\
   parent (sibling g) = parent g /\ (1 < g -> parent (2 * g) = g /\ parent (2 * g + 1) = g)) /\
(forall oc g i, i < 64 -> get_bit oc g i = Ok (N.odd (N.iter i parent g))) /\
(forall g i, 64 <= i -> get_bit true g i = Panic POverflow).
Proof. exact c62_index_arithmetic. Qed.
Print Assumptions C62_index_arithmetic.

Example C62_example :
  get_power_of_two_ceil true 5 = Ok 8 /\ get_path_length 13 = Ok 3 /\ sibling 13 = 12 /\ parent 13 = 6 /\
  get_bit true 13 1 = Ok false.
Proof.
  repeat (split; [reflexivity|]). reflexivity.
Qed.

(** ** C65: how a type is presented to Rust (Merkle part)

The root of the type without arrays, newtypes and Options is always the root that the specification
gives the original type. It is the same as that of the original type if this is [regular] (see C28). *)

Theorem C65_presentation_merkle :
  forall H : bytes -> bytes, (forall x, blen (H x) = 32) -> forall t, legal t = true ->
  (forall u, regular_element (core u) = true) /\
  (forall oc v, valid t v -> regular (core t) = true ->
     ssz_hash_tree_root H oc (core t) (core_val v) = Ok (spec_root H t v)) /\
  (forall oc v, valid t v -> regular (core t) = true -> regular t = true ->
     ssz_hash_tree_root H oc (core t) (core_val v) = ssz_hash_tree_root H oc t v).
Proof. exact c65_presentation_merkle. Qed.
Print Assumptions C65_presentation_merkle.

Example C65_merkle_example :
  let t := TVector (TArray (TUint U8) 2) 2 in let v := VSeq [VSeq [VUint 1; VUint 2]; VSeq [VUint 3; VUint 4]] in
  legal t = true /\ regular (core t) = true /\ regular t = false /\ valid t v /\
  core t = TVector (TVector (TUint U8) 2) 2 /\
  (let t' := TArray (TOption (TUint U8)) 2 in regular t' = true /\ core t' = TVector (TUnion [None; Some (TUint U8)]) 2).
Proof.
  split; [reflexivity|]. split; [reflexivity|]. split; [reflexivity|]. split; [solve_valid|]. repeat split.
Qed.

(** ** C67: the number of hashes of a root

[root_c] (Cost.v) is hash_tree_root with a counter of the calls of the hash function; the root is the
same for every value. The count is [root_hashes] (SpecCost.v). It grows with the encoding of the value and
the number of [trees] in it, one for each value that is not packed. The bound of a List or Bitlist
only adds the depth of its tree. *)

Theorem C67_hashes :
  forall (H : bytes -> bytes) oc t v, fst (root_c H (table H) oc t v) = ssz_hash_tree_root H oc t v /\
  ((forall x, blen (H x) = 32) -> legal t = true -> sized t = true -> typed t v ->
   (forall u y, part t v u y -> in_memory u y) ->
   (forall r, ssz_hash_tree_root H oc t v = Ok r -> snd (root_c H (table H) oc t v) = root_hashes t v) /\
   snd (root_c H (table H) oc t v) <= root_hashes t v /\
   32 * root_hashes t v + 32 <= encoded_bytes t v + 32 * 66 * trees t v).
Proof. exact c67_hashes. Qed.
Print Assumptions C67_hashes.

Example C67_example :
  let t := TContainer [("a", TList (TUint U64) (2 ^ 40)); ("b", TVector TNode 3); ("c", TBitlist 1000)]%string in
let v := VStruct [VSeq (repeat (VUint 7) 5); VSeq (repeat (VNode (zeros 32)) 3); VBits (bits_of [true; false])] in
  legal t = true /\ sized t = true /\ typed t v /\ (forall u y, part t v u y -> in_memory u y) /\
  root_hashes t v = (1 + 37 + 1) + (2 + 1) + (1 + 1 + 1) + (2 + 1) /\ trees t v = 4 /\ encoded_bytes t v = 145 /\
  snd (root_c (fun _ => zeros 32) (table (fun _ => zeros 32)) true t v) = 48.
Proof.
  cbv zeta. split; [reflexivity|]. split; [vm_compute; reflexivity|]. split; [cbn; repeat constructor|].
  split; [apply (all_fit_ok 3); vm_compute; reflexivity|]. repeat apply conj; vm_compute; reflexivity.
Qed.

(** C68: making a proof. [prove_c] is [prove] with the number of its hashes. The whole tree of every value
on the way to the leaf is built, with its padding, beside the roots of the children that are its
chunks: [prove_hashes] gives the number. So the bound of a List counts in full. The proof for the
length of an empty [List<u8, 2^k>] takes [2^(k-4)] hashes, where the root takes one. *)

Theorem C68_hashes :
  forall (H : bytes -> bytes) oc t v path, fst (prove_c H (table H) oc t v path) = ssz_prove H oc t v path /\
  ((forall x, blen (H x) = 32) -> legal t = true -> sized t = true -> addressable t = true -> valid t v ->
   (forall u y, part t v u y -> in_memory u y) ->
   match ssz_generalized_index H oc t path with
   | Ok g =>
       (forall r, ssz_prove H oc t v path = Ok r -> snd (prove_c H (table H) oc t v path) = prove_hashes t v g) /\
       snd (prove_c H (table H) oc t v path) <= prove_hashes t v g
   | _ => snd (prove_c H (table H) oc t v path) = 0
   end).
Proof. exact c68_hashes. Qed.
Print Assumptions C68_hashes.

Theorem C68_padding :
  forall H : bytes -> bytes, (forall x, blen (H x) = 32) -> forall oc k, 5 <= k -> k <= 61 ->
  let t := TList (TUint U8) (2 ^ k) in
  (exists r, ssz_prove H oc t (VSeq []) [Length] = Ok r) /\
  snd (prove_c H (table H) oc t (VSeq []) [Length]) = 2 ^ (k - 4) /\
  snd (root_c H (table H) oc t (VSeq [])) = 1.
Proof. exact c68_padding. Qed.
Print Assumptions C68_padding.

Example C68_example :
  let t := TContainer [("a", TList (TContainer [("x", TUint U64); ("y", TNode)]) 8); ("b", TBitlist 1000)]%string in
let v := VStruct [VSeq (repeat (VStruct [VUint 7; VNode (zeros 32)]) 3); VBits (bits_of [true; false])] in
let path := [Field "a"; Index 2; Field "y"]%string in
  legal t = true /\ sized t = true /\ addressable t = true /\ valid t v /\
  (forall u y, part t v u y -> in_memory u y) /\
  ssz_generalized_index (fun _ => zeros 32) true t path = Ok 69 /\
  (* the element; three elements and the tree of the list; the two fields and the tree of the container *)
  prove_hashes t v 69 = 1 + (3 + 15 + 1) + ((3 + (2 + 1 + 1) + 1) + (1 + 1 + 1) + 1) /\
  snd (prove_c (fun _ => zeros 32) (table (fun _ => zeros 32)) true t v path) = 32.
Proof.
  cbv zeta. split; [reflexivity|]. split; [vm_compute; reflexivity|]. split; [vm_compute; reflexivity|]. split; [solve_valid|].
  split; [apply (all_fit_ok 4); vm_compute; reflexivity|]. repeat apply conj; vm_compute; reflexivity.
Qed.

(** (** ** Proofs about values *) *)

Theorem C69_all_types :
  forall H : bytes -> bytes, (forall x, blen (H x) = 32) -> forall oc oc' t v path g b root,
  legal t = true -> sized t = true -> valid t v -> along counts t path = true ->
  gindex_with item_basic t path = Some g -> g < 2 ^ 64 -> leaf_with H t v path = Some b ->
  ssz_hash_tree_root H oc t v = Ok root ->
  verify H oc' (MkProof b (map (value_node H t v) (branch_of g)) g) root = Ok tt /\
  forall p, proof_index p = g -> blen (leaf p) = 32 -> Forall (fun c : bytes => blen c = 32) (branch p) ->
    verify H oc' p root = Ok tt ->
    p = MkProof b (map (value_node H t v) (branch_of g)) g \/
    exists x y, In x (climb_inputs H g (leaf p) (branch p)) /\ hashed_with packed H t v y /\ x <> y /\ H x = H y.
Proof. exact c69_all_types. Qed.
Print Assumptions C69_all_types.

Theorem C69_proofs_sound :
  forall H : bytes -> bytes, (forall x, blen (H x) = 32) -> forall oc oc' t v path g b root,
  legal t = true -> regular t = true -> valid t v ->
  spec_gindex t path = Some g -> g < 2 ^ 64 -> spec_leaf H t v path = Some b ->
  ssz_hash_tree_root H oc t v = Ok root ->
  verify H oc' (MkProof b (map (value_node H t v) (branch_of g)) g) root = Ok tt /\
  forall p, proof_index p = g -> blen (leaf p) = 32 -> Forall (fun c : bytes => blen c = 32) (branch p) ->
    verify H oc' p root = Ok tt ->
    p = MkProof b (map (value_node H t v) (branch_of g)) g \/
    exists x y, In x (climb_inputs H g (leaf p) (branch p)) /\ hashed_with packed H t v y /\ x <> y /\ H x = H y.
Proof. exact c69_proofs_sound. Qed.
Print Assumptions C69_proofs_sound.

(** (** The proofs that [prove] returns are these. *) *)

Theorem C69_honest_proofs :
  forall H : bytes -> bytes, (forall x, blen (H x) = 32) -> forall oc t v path g b,
  legal t = true -> sized t = true -> valid t v -> provable_with t = true -> along provable_with t path = true ->
  gindex_with item_basic t path = Some g -> g < 2 ^ 64 -> leaf_with H t v path = Some b ->
  exists root, ssz_hash_tree_root H oc t v = Ok root /\
    ssz_prove H oc t v path = Ok (MkProof b (map (value_node H t v) (branch_of g)) g, root).
Proof. exact c69_honest_proofs. Qed.
Print Assumptions C69_honest_proofs.

Example C69_example :
  let t := TContainer [("a", TList (TContainer [("x", TUint U64); ("y", TNode)]) 4); ("b", TBitlist 1000)]%string in
let v := VStruct [VSeq [VStruct [VUint 7; VNode (zeros 32)]; VStruct [VUint 8; VNode (num_chunk 9)]]; VBits (bits_of [true; false])] in
let path := [Field "a"; Index 1; Field "y"]%string in
  legal t = true /\ regular t = true /\ valid t v /\ spec_gindex t path = Some 35 /\
  spec_leaf sha256 t v path = Some (num_chunk 9) /\ branch_of 35 = [34; 16; 9; 5; 3] /\
  match ssz_prove sha256 true t v path, ssz_hash_tree_root sha256 true t v with
  | Ok (p, w), Ok root => p = MkProof (num_chunk 9) (map (value_node sha256 t v) (branch_of 35)) 35 /\ w = root /\ verify sha256 true p root = Ok tt
  | _, _ => False
  end.
Proof.
  cbv zeta. split; [reflexivity|]. split; [vm_compute; reflexivity|]. split; [solve_valid|].
  split; [vm_compute; reflexivity|]. split; [vm_compute; reflexivity|]. split; [vm_compute; reflexivity|].
  vm_compute. auto.
Qed.

Theorem C70_all_types :
  forall H : bytes -> bytes, (forall x, blen (H x) = 32) -> forall enum, (forall l, Permutation (enum l) l) ->
  forall oc t v paths gs bs root,
  legal t = true -> sized t = true -> valid t v -> paths <> [] -> Forall (fun path => along counts t path = true) paths ->
  Forall2 (fun path g => gindex_with item_basic t path = Some g) paths gs ->
  Forall2 (fun path b => leaf_with H t v path = Some b) paths bs ->
  ssz_hash_tree_root H oc t v = Ok root ->
  exists hs, get_helper_indices enum gs = Ok hs /\
    verify_merkle_multiproof H enum bs (map (value_node H t v) hs) gs root = Ok tt /\
    (independent gs -> forall leaves proof,
     Forall (fun c : bytes => blen c = 32) leaves -> Forall (fun c : bytes => blen c = 32) proof ->
     verify_merkle_multiproof H enum leaves proof gs root = Ok tt ->
     (leaves = bs /\ proof = map (value_node H t v) hs) \/
     exists x y, opened_input H (combine gs leaves ++ combine hs proof) x /\ hashed_with packed H t v y /\ x <> y /\ H x = H y).
Proof. exact c70_all_types. Qed.
Print Assumptions C70_all_types.

Theorem C70_multiproofs :
  forall H : bytes -> bytes, (forall x, blen (H x) = 32) -> forall enum, (forall l, Permutation (enum l) l) ->
  forall oc t v paths gs bs root,
  legal t = true -> regular t = true -> valid t v -> paths <> [] ->
  Forall2 (fun path g => spec_gindex t path = Some g) paths gs ->
  Forall2 (fun path b => spec_leaf H t v path = Some b) paths bs ->
  ssz_hash_tree_root H oc t v = Ok root ->
  exists hs, get_helper_indices enum gs = Ok hs /\
    verify_merkle_multiproof H enum bs (map (value_node H t v) hs) gs root = Ok tt /\
    (independent gs -> forall leaves proof,
     Forall (fun c : bytes => blen c = 32) leaves -> Forall (fun c : bytes => blen c = 32) proof ->
     verify_merkle_multiproof H enum leaves proof gs root = Ok tt ->
     (leaves = bs /\ proof = map (value_node H t v) hs) \/
     exists x y, opened_input H (combine gs leaves ++ combine hs proof) x /\ hashed_with packed H t v y /\ x <> y /\ H x = H y).
Proof. exact c70_multiproofs. Qed.
Print Assumptions C70_multiproofs.

Example C70_example :
  let t := TContainer [("a", TList (TContainer [("x", TUint U64); ("y", TNode)]) 4); ("b", TBitlist 1000)]%string in
let v := VStruct [VSeq [VStruct [VUint 7; VNode (zeros 32)]; VStruct [VUint 8; VNode (num_chunk 9)]]; VBits (bits_of [true; false])] in
let paths := [[Field "a"; Index 1; Field "y"]; [Field "a"; Length]; [Field "a"; Index 0]]%string in
  legal t = true /\ regular t = true /\ valid t v /\
  map (spec_gindex t) paths = [Some 35; Some 5; Some 16] /\ independent [35; 5; 16] /\
  get_helper_indices (fun l => l) [35; 5; 16] = Ok [34; 9; 3] /\
  match map (spec_leaf sha256 t v) paths, ssz_hash_tree_root sha256 true t v with
  | [Some a; Some b; Some c], Ok root =>
      verify_merkle_multiproof sha256 (fun l => l) [a; b; c] (map (value_node sha256 t v) [34; 9; 3]) [35; 5; 16] root = Ok tt
  | _, _ => False
  end.
Proof.
  cbv zeta. split; [reflexivity|]. split; [vm_compute; reflexivity|]. split; [solve_valid|]. split; [vm_compute; reflexivity|].
  split.
  - split; [repeat (constructor; [cbn; lia|]); constructor|]. intros i j Hi Hj [Ha (k & Hk & E)].
    assert (HD : 2 <= 2 ^ k) by (change 2 with (2 ^ 1) at 1; apply N.pow_le_mono_r; lia).
    assert (i <= j / 2) by (subst i; apply N.div_le_compat_l; lia).
    destruct Hj as [<-|[<-|[<-|[]]]]; [change (35 / 2) with 17 in *|change (5 / 2) with 2 in *|change (16 / 2) with 8 in *];
      destruct Hi as [<-|[<-|[<-|[]]]]; try lia.
    + destruct (N.eq_dec k 1) as [->|]; [discriminate|]. destruct (N.eq_dec k 2) as [->|]; [discriminate|].
      assert (2 ^ 3 <= 2 ^ k) by (apply N.pow_le_mono_r; lia). change (2 ^ 3) with 8 in *.
      assert (35 / 2 ^ k <= 35 / 8) by (apply N.div_le_compat_l; lia). change (35 / 8) with 4 in *. lia.
    + destruct (N.eq_dec k 1) as [->|]; [discriminate|].
      assert (2 ^ 2 <= 2 ^ k) by (apply N.pow_le_mono_r; lia). change (2 ^ 2) with 4 in *.
      assert (35 / 2 ^ k <= 35 / 4) by (apply N.div_le_compat_l; lia). change (35 / 4) with 8 in *. lia.
  - split; vm_compute; reflexivity.
Qed.

(** ** C72: proofs of a part outlive changes of the part

[agree_off t v w path]: the values differ at most in the part that the path addresses (and in the
basic elements or bits that share its chunk). Then their proofs have the same branch, and the root
of the new value follows from the old branch and the new leaf. *)

Theorem C72_all_types :
  forall H : bytes -> bytes, (forall x, blen (H x) = 32) -> forall oc t v w path g b c,
  legal t = true -> sized t = true -> valid t v -> valid t w -> provable_with t = true -> along provable_with t path = true ->
  gindex_with item_basic t path = Some g -> g < 2 ^ 64 -> leaf_with H t v path = Some b -> leaf_with H t w path = Some c ->
  agree_off t v w path ->
  exists br root root',
    ssz_prove H oc t v path = Ok (MkProof b br g, root) /\ ssz_prove H oc t w path = Ok (MkProof c br g, root') /\
    ssz_hash_tree_root H oc t v = Ok root /\ ssz_hash_tree_root H oc t w = Ok root' /\
    root = climb H g b br /\ root' = climb H g c br /\
    forall oc', verify H oc' (MkProof c br g) root' = Ok tt.
Proof. exact c72_all_types. Qed.
Print Assumptions C72_all_types.

Theorem C72_branches_last :
  forall H : bytes -> bytes, (forall x, blen (H x) = 32) -> forall oc t v w path g b c,
  legal t = true -> regular t = true -> valid t v -> valid t w -> provable t = true -> along provable t path = true ->
  spec_gindex t path = Some g -> g < 2 ^ 64 -> spec_leaf H t v path = Some b -> spec_leaf H t w path = Some c ->
  agree_off t v w path ->
  exists br,
    ssz_prove H oc t v path = Ok (MkProof b br g, spec_root H t v) /\
    ssz_prove H oc t w path = Ok (MkProof c br g, spec_root H t w) /\
    spec_root H t v = climb H g b br /\ spec_root H t w = climb H g c br /\
    forall oc', verify H oc' (MkProof c br g) (spec_root H t w) = Ok tt.
Proof. exact c72_branches_last. Qed.
Print Assumptions C72_branches_last.

Example C72_example :
  let t := TContainer [("a", TList (TContainer [("x", TUint U64); ("y", TList (TUint U16) 40)]) 4); ("b", TBitlist 1000)]%string in
let v := VStruct [VSeq [VStruct [VUint 7; VSeq []]; VStruct [VUint 8; VSeq (repeat (VUint 5) 20)]]; VBits (bits_of [true; false])] in
let w := VStruct [VSeq [VStruct [VUint 7; VSeq []]; VStruct [VUint 8; VSeq (repeat (VUint 5) 16 ++ [VUint 6; VUint 7; VUint 8; VUint 5])]]; VBits (bits_of [true; false])] in
let path := [Field "a"; Index 1; Field "y"; Index 17]%string in
  legal t = true /\ regular t = true /\ valid t v /\ valid t w /\ provable t = true /\ along provable t path = true /\
  spec_gindex t path = Some 281 /\ agree_off t v w path /\ v <> w /\
  match ssz_prove sha256 true t v path, ssz_prove sha256 true t w path with
  | Ok (p, r), Ok (q, r') => branch p = branch q /\ leaf p <> leaf q /\ r <> r' /\ climb sha256 281 (leaf q) (branch p) = r'
  | _, _ => False
  end.
Proof.
  cbv zeta. split; [reflexivity|]. split; [vm_compute; reflexivity|]. split; [solve_valid|]. split; [solve_valid|].
  split; [vm_compute; reflexivity|]. split; [vm_compute; reflexivity|]. split; [vm_compute; reflexivity|]. split; [|split; [discriminate|]].
  - cbn [agree_off peel]. repeat apply conj; try reflexivity.
    + intros j Hj. destruct (N.to_nat j) as [|[|k]] eqn:E; try reflexivity. exfalso. apply Hj. cbn [fst]. lia.
    + intros j Hj. destruct (N.to_nat j) as [|[|k]] eqn:E; try reflexivity. exfalso. apply Hj. cbn [fst]. lia.
    + intros j Hj. destruct (N.to_nat j) as [|[|k]] eqn:E; try reflexivity. exfalso. apply Hj. cbn [fst]. lia.
    + intros j Hj. rewrite <- (Nnat.N2Nat.id j) in Hj. assert (HD : (N.to_nat j < 20 \/ 20 <= N.to_nat j)%nat) by lia. destruct HD as [HL|HG].
      * revert Hj HL. generalize (N.to_nat j). intros k Hj HL.
        do 20 (destruct k as [|k]; [try reflexivity; exfalso; apply Hj; reflexivity|]). lia.
      * transitivity (@None val); [|symmetry]; apply nth_error_None; cbn; lia.
  - vm_compute. repeat split; discriminate.
Qed.

(** ** C73: proofs can be chained and taken apart

[part_at t v p]: the type and the value of the part that the path [p] leads to. *)

Theorem C73_chained :
  forall H oc oc1 oc2 leaf1 (br1 br2 : list bytes) g1 g2 root,
  1 <= g1 -> 1 <= g2 -> graft g2 g1 < 2 ^ 64 -> blen br1 = N.log2 g1 ->
  (verify H oc (MkProof leaf1 (br1 ++ br2) (graft g2 g1)) root = Ok tt <->
   exists middle, verify H oc1 (MkProof leaf1 br1 g1) middle = Ok tt /\ verify H oc2 (MkProof middle br2 g2) root = Ok tt).
Proof. exact c73_chained. Qed.
Print Assumptions C73_chained.

Theorem C73_all_types :
  forall H : bytes -> bytes, (forall x, blen (H x) = 32) -> forall oc t v p q u x g b,
  legal t = true -> sized t = true -> valid t v -> provable_with t = true -> provable_with u = true ->
  along provable_with t (p ++ q) = true -> part_at t v p = Some (u, x) ->
  gindex_with item_basic t (p ++ q) = Some g -> g < 2 ^ 64 -> leaf_with H t v (p ++ q) = Some b ->
  exists gp gq brp brq middle root,
    ssz_prove H oc u x q = Ok (MkProof b brq gq, middle) /\
    ssz_prove H oc t v p = Ok (MkProof middle brp gp, root) /\
    g = graft gp gq /\ ssz_prove H oc t v (p ++ q) = Ok (MkProof b (brq ++ brp) g, root) /\
    ssz_hash_tree_root H oc u x = Ok middle /\ ssz_hash_tree_root H oc t v = Ok root.
Proof. exact c73_all_types. Qed.
Print Assumptions C73_all_types.

Theorem C73_parts_of_parts :
  forall H : bytes -> bytes, (forall x, blen (H x) = 32) -> forall oc t v p q u x g b,
  legal t = true -> regular t = true -> valid t v -> provable t = true -> provable u = true ->
  along provable t (p ++ q) = true -> part_at t v p = Some (u, x) ->
  spec_gindex t (p ++ q) = Some g -> g < 2 ^ 64 -> spec_leaf H t v (p ++ q) = Some b ->
  exists gp gq brp brq,
    ssz_prove H oc u x q = Ok (MkProof b brq gq, spec_root H u x) /\
    ssz_prove H oc t v p = Ok (MkProof (spec_root H u x) brp gp, spec_root H t v) /\
    ssz_prove H oc t v (p ++ q) = Ok (MkProof b (brq ++ brp) g, spec_root H t v) /\ g = graft gp gq.
Proof. exact c73_parts_of_parts. Qed.
Print Assumptions C73_parts_of_parts.

Example C73_example :
  let t := TContainer [("a", TList (TContainer [("x", TUint U64); ("y", TList (TUint U16) 40)]) 4); ("b", TBitlist 1000)]%string in
let y := VStruct [VUint 8; VSeq (repeat (VUint 5) 20)] in
let v := VStruct [VSeq [VStruct [VUint 7; VSeq []]; y]; VBits (bits_of [true; false])] in
let u := TContainer [("x", TUint U64); ("y", TList (TUint U16) 40)]%string in
let p := [Field "a"; Index 1]%string in let q := [Field "y"; Index 17]%string in
  legal t = true /\ regular t = true /\ valid t v /\ provable t = true /\ provable u = true /\ along provable t (p ++ q) = true /\
  part_at t v p = Some (u, y) /\ spec_gindex t (p ++ q) = Some 281 /\ 281 = graft 17 25 /\
  match ssz_prove sha256 true u y q, ssz_prove sha256 true t v p, ssz_prove sha256 true t v (p ++ q) with
  | Ok (pq, m), Ok (pp, r), Ok (ppq, r') =>
      branch ppq = branch pq ++ branch pp /\ leaf pp = m /\ leaf ppq = leaf pq /\ r = r' /\
      blen (branch pp) = 4 /\ blen (branch pq) = 4 /\ verify sha256 true pq m = Ok tt /\ verify sha256 true pp r = Ok tt
  | _, _, _ => False
  end.
Proof.
  cbv zeta. split; [reflexivity|]. split; [vm_compute; reflexivity|]. split; [solve_valid|].
  split; [vm_compute; reflexivity|]. split; [vm_compute; reflexivity|]. split; [vm_compute; reflexivity|]. split; [reflexivity|].
  split; [vm_compute; reflexivity|]. split; [vm_compute; reflexivity|]. vm_compute. repeat split.
Qed.

(** ** C74: multiproofs outlive changes of the parts they prove

[changes t paths v w]: [w] comes about from [v] by changes of the parts that the paths address. *)

Theorem C74_all_types :
  forall H : bytes -> bytes, (forall x, blen (H x) = 32) -> forall enum, (forall l, Permutation (enum l) l) ->
  forall oc t v w paths gs bs cs root root',
  legal t = true -> sized t = true -> valid t v -> valid t w -> paths <> [] -> Forall (fun path => along counts t path = true) paths ->
  Forall2 (fun path g => gindex_with item_basic t path = Some g) paths gs -> independent gs ->
  Forall2 (fun path b => leaf_with H t v path = Some b) paths bs ->
  Forall2 (fun path c => leaf_with H t w path = Some c) paths cs ->
  changes t paths v w ->
  ssz_hash_tree_root H oc t v = Ok root -> ssz_hash_tree_root H oc t w = Ok root' ->
  exists hs, get_helper_indices enum gs = Ok hs /\ map (value_node H t v) hs = map (value_node H t w) hs /\
    verify_merkle_multiproof H enum bs (map (value_node H t v) hs) gs root = Ok tt /\
    verify_merkle_multiproof H enum cs (map (value_node H t v) hs) gs root' = Ok tt /\
    calculate_multi_merkle_root H enum cs (map (value_node H t v) hs) gs = Ok root'.
Proof. exact c74_all_types. Qed.
Print Assumptions C74_all_types.

Theorem C74_updates :
  forall H : bytes -> bytes, (forall x, blen (H x) = 32) -> forall enum, (forall l, Permutation (enum l) l) ->
  forall t v w paths gs bs cs,
  legal t = true -> regular t = true -> valid t v -> valid t w -> paths <> [] ->
  Forall2 (fun path g => spec_gindex t path = Some g) paths gs -> independent gs ->
  Forall2 (fun path b => spec_leaf H t v path = Some b) paths bs ->
  Forall2 (fun path c => spec_leaf H t w path = Some c) paths cs ->
  changes t paths v w ->
  exists hs, get_helper_indices enum gs = Ok hs /\ map (value_node H t v) hs = map (value_node H t w) hs /\
    verify_merkle_multiproof H enum bs (map (value_node H t v) hs) gs (spec_root H t v) = Ok tt /\
    verify_merkle_multiproof H enum cs (map (value_node H t v) hs) gs (spec_root H t w) = Ok tt /\
    calculate_multi_merkle_root H enum cs (map (value_node H t v) hs) gs = Ok (spec_root H t w).
Proof. exact c74_updates. Qed.
Print Assumptions C74_updates.

Example C74_example :
  let t := TContainer [("a", TList (TContainer [("x", TUint U64); ("y", TUint U16)]) 4); ("b", TUint U32)]%string in
let v := VStruct [VSeq [VStruct [VUint 7; VUint 1]; VStruct [VUint 8; VUint 2]]; VUint 3] in
let u := VStruct [VSeq [VStruct [VUint 7; VUint 1]; VStruct [VUint 8; VUint 20]]; VUint 3] in
let w := VStruct [VSeq [VStruct [VUint 7; VUint 1]; VStruct [VUint 8; VUint 20]]; VUint 30] in
let paths := [[Field "a"; Index 1; Field "y"]; [Field "b"]]%string in
  legal t = true /\ regular t = true /\ valid t v /\ valid t u /\ valid t w /\
  map (spec_gindex t) paths = [Some 35; Some 3] /\ independent [35; 3] /\ changes t paths v w /\
  get_helper_indices (fun l => l) [35; 3] = Ok [34; 16; 9; 5] /\
  match map (spec_leaf sha256 t w) paths with
  | [Some a; Some b] =>
      calculate_multi_merkle_root sha256 (fun l => l) [a; b] (map (value_node sha256 t v) [34; 16; 9; 5]) [35; 3] = Ok (spec_root sha256 t w) /\
      spec_root sha256 t w <> spec_root sha256 t v
  | _ => False
  end.
Proof.
  cbv zeta. split; [reflexivity|]. split; [vm_compute; reflexivity|]. split; [solve_valid|]. split; [solve_valid|]. split; [solve_valid|].
  split; [vm_compute; reflexivity|]. split; [|split].
  - split; [repeat (constructor; [cbn; lia|]); constructor|]. intros i j Hi Hj [Ha (k & Hk & E)].
    assert (HD : 2 <= 2 ^ k) by (change 2 with (2 ^ 1) at 1; apply N.pow_le_mono_r; lia).
    assert (i <= j / 2) by (subst i; apply N.div_le_compat_l; lia).
    destruct Hj as [<-|[<-|[]]]; [change (35 / 2) with 17 in *|change (3 / 2) with 1 in *]; destruct Hi as [<-|[<-|[]]]; try lia.
    destruct (N.eq_dec k 1) as [->|]; [discriminate|]. destruct (N.eq_dec k 2) as [->|]; [discriminate|].
    destruct (N.eq_dec k 3) as [->|]; [discriminate|].
    assert (2 ^ 4 <= 2 ^ k) by (apply N.pow_le_mono_r; lia). change (2 ^ 4) with 16 in *.
    assert (35 / 2 ^ k <= 35 / 16) by (apply N.div_le_compat_l; lia). change (35 / 16) with 2 in *. lia.
  - eapply (changed _ _ _ (VStruct [VSeq [VStruct [VUint 7; VUint 1]; VStruct [VUint 8; VUint 20]]; VUint 3])); [left; reflexivity|solve_valid| |].
    + cbn [agree_off peel field_position]. repeat apply conj; try reflexivity;
        intros j Hj; destruct (N.to_nat j) as [|[|k]] eqn:E; try reflexivity; exfalso; apply Hj; cbn [fst]; lia.
    + eapply (changed _ _ _ (VStruct [VSeq [VStruct [VUint 7; VUint 1]; VStruct [VUint 8; VUint 20]]; VUint 30])); [right; left; reflexivity|solve_valid| |apply unchanged].
      cbn [agree_off peel field_position]. repeat apply conj; try reflexivity;
        intros j Hj; destruct (N.to_nat j) as [|[|k]] eqn:E; try reflexivity; exfalso; apply Hj; cbn [fst]; lia.
  - split; [reflexivity|]. vm_compute. split; [reflexivity|discriminate].
Qed.

(** ** C75: lists that get longer or shorter

[same_entries t v w i]: the two values have the same entries except in the chunk of entry [i], and
any lengths. Their proofs of entry [i] differ in the leaf and in the length at the end of the
branch only. *)

Theorem C75_all_types :
  forall H : bytes -> bytes, (forall x, blen (H x) = 32) -> forall oc t v w i g b c,
  legal t = true -> sized t = true -> valid t v -> valid t w -> provable_with t = true ->
  gindex_with item_basic t [Index i] = Some g -> g < 2 ^ 64 ->
  leaf_with H t v [Index i] = Some b -> leaf_with H t w [Index i] = Some c ->
  same_entries t v w i ->
  exists br root root',
    ssz_prove H oc t v [Index i] = Ok (MkProof b (br ++ [num_chunk (entry_count t v)]) g, root) /\
    ssz_prove H oc t w [Index i] = Ok (MkProof c (br ++ [num_chunk (entry_count t w)]) g, root') /\
    ssz_hash_tree_root H oc t v = Ok root /\ ssz_hash_tree_root H oc t w = Ok root' /\
    root = climb H g b (br ++ [num_chunk (entry_count t v)]) /\ root' = climb H g c (br ++ [num_chunk (entry_count t w)]).
Proof. exact c75_all_types. Qed.
Print Assumptions C75_all_types.

Theorem C75_append :
  forall H : bytes -> bytes, (forall x, blen (H x) = 32) -> forall oc u n l x g,
  legal (TList u n) = true -> regular (TList u n) = true -> valid (TList u n) (VSeq (l ++ [x])) -> provable (TList u n) = true ->
  spec_basic u = false -> spec_gindex (TList u n) [Index (blen l)] = Some g -> g < 2 ^ 64 ->
  exists br,
    ssz_prove H oc (TList u n) (VSeq l) [Index (blen l)] =
      Ok (MkProof zero_chunk (br ++ [num_chunk (blen l)]) g, spec_root H (TList u n) (VSeq l)) /\
    ssz_hash_tree_root H oc (TList u n) (VSeq (l ++ [x])) = Ok (climb H g (spec_root H u x) (br ++ [num_chunk (blen l + 1)])).
Proof. exact c75_append. Qed.
Print Assumptions C75_append.

Example C75_example :
  let u := TContainer [("x", TUint U64); ("y", TUint U16)]%string in
let l := [VStruct [VUint 7; VUint 1]; VStruct [VUint 8; VUint 2]] in
let x := VStruct [VUint 9; VUint 3] in
  legal (TList u 5) = true /\ regular (TList u 5) = true /\ valid (TList u 5) (VSeq (l ++ [x])) /\ provable (TList u 5) = true /\
  spec_basic u = false /\ spec_gindex (TList u 5) [Index (blen l)] = Some 18 /\
  match ssz_prove sha256 true (TList u 5) (VSeq l) [Index 2], ssz_hash_tree_root sha256 true (TList u 5) (VSeq (l ++ [x])) with
  | Ok (p, _), Ok root => leaf p = zero_chunk /\ climb sha256 18 (spec_root sha256 u x) (firstn 3 (branch p) ++ [num_chunk 3]) = root
  | _, _ => False
  end.
Proof.
  cbv zeta. split; [reflexivity|]. split; [vm_compute; reflexivity|]. split; [solve_valid|]. split; [vm_compute; reflexivity|].
  split; [reflexivity|]. split; [vm_compute; reflexivity|]. vm_compute. split; reflexivity.
Qed.

Example C75_bits_example :
  let t := TBitlist 600 in
let v := VBits (bits_of (repeat true 300)) in let w := VBits (bits_of (repeat true 301)) in
  legal t = true /\ valid t v /\ valid t w /\ provable_with t = true /\ gindex_with item_basic t [Index 300] = Some 9 /\ same_entries t v w 300 /\
  match ssz_prove sha256 true t v [Index 300], ssz_prove sha256 true t w [Index 300] with
  | Ok (p, _), Ok (q, _) => firstn 2 (branch p) = firstn 2 (branch q) /\ nth 2 (branch p) [] = num_chunk 300 /\ nth 2 (branch q) [] = num_chunk 301
  | _, _ => False
  end.
Proof.
  cbv zeta. split; [reflexivity|]. split; [solve_valid|]. split; [solve_valid|]. split; [vm_compute; reflexivity|].
  split; [vm_compute; reflexivity|]. split; [|vm_compute; repeat split].
  unfold same_entries. cbn [peel]. intros j Hj.
  replace (bv_bits (bits_of (repeat true 301))) with (bv_bits (bits_of (repeat true 300)) ++ [true]) by (vm_compute; reflexivity).
  symmetry. assert (Ek : length (bv_bits (bits_of (repeat true 300))) = 300%nat) by (vm_compute; reflexivity).
  assert (HJ : (N.to_nat j < 300 \/ 301 <= N.to_nat j)%nat).
  { assert (Nj : N.to_nat j <> 300%nat); [|lia]. intros E. apply Hj. replace j with 300 by lia. reflexivity. }
  destruct HJ as [HJ|HJ].
  - apply nth_error_app1. lia.
  - transitivity (@None bool); [|symmetry]; apply nth_error_None; rewrite ?app_length; cbn [length]; lia.
Qed.

(** ** C76: equal values have equal roots

For valid values; see C76_refuted for bits that are stored beyond the length. *)

Theorem C76_roots_partial :
  forall H : bytes -> bytes, (forall x, blen (H x) = 32) -> forall oc1 oc2 t v w r1 r2,
  legal t = true -> sized t = true -> valid t v -> valid t w ->
  ssz_hash_tree_root H oc1 t v = Ok r1 -> ssz_hash_tree_root H oc2 t w = Ok r2 ->
  (ssz_eq v w = true -> r1 = r2) /\
  (no_transparent t = true -> ssz_eq v w = false -> r1 = r2 ->
   exists x y, hashed_with packed H t v x /\ hashed_with packed H t w y /\ x <> y /\ H x = H y).
Proof. exact c76_roots_partial. Qed.
Print Assumptions C76_roots_partial.

Theorem C76_roots_refuted :
  exists n ops1 ops2,
  let v := VBits (apply_bit_ops bitlist_default ops1) in
  let w := VBits (apply_bit_ops bitlist_default ops2) in
  legal (TBitlist n) = true /\ regular (TBitlist n) = true /\ typed (TBitlist n) v /\ typed (TBitlist n) w /\
  ssz_eq v w = true /\
  forall oc, exists r1 r2,
    ssz_hash_tree_root sha256 oc (TBitlist n) v = Ok r1 /\ ssz_hash_tree_root sha256 oc (TBitlist n) w = Ok r2 /\ r1 <> r2.
Proof. exact c76_roots_refuted. Qed.
Print Assumptions C76_roots_refuted.

Example C76_roots_example :
  let t := TContainer [("a", TList (TUint U16) 4); ("b", TOption (TBitlist 9))]%string in
let v := VStruct [VSeq [VUint 1; VUint 2]; VSome (VBits (bits_of [true; false; true]))] in
let u := VStruct [VSeq [VUint 1; VUint 3]; VSome (VBits (bits_of [true; false; true]))] in
  legal t = true /\ sized t = true /\ no_transparent t = true /\ valid t v /\ valid t u /\ ssz_eq v u = false /\
  (exists r, ssz_hash_tree_root sha256 true t v = Ok r) /\ exists r, ssz_hash_tree_root sha256 true t u = Ok r.
Proof.
  cbv zeta. do 3 (split; [reflexivity|]). split; [solve_valid|]. split; [solve_valid|]. split; [reflexivity|].
  split; eexists; vm_compute; reflexivity.
Qed.

(** ** C78: later versions of a type keep roots, indices and proofs

[grows] (SpecLater.v) raises bounds of lists and appends variants to unions; the encodings stay the
same (C64), and so do the roots, the indices and the proofs if no tree gets higher. *)

Theorem C78_roots :
  forall H : bytes -> bytes, (forall x, blen (H x) = 32) -> forall oc oc' t t' v,
  legal t = true -> sized t = true -> legal t' = true -> sized t' = true ->
  grows (same_height packed) t t' -> valid t v ->
  valid t' v /\ ssz_hash_tree_root H oc' t' v = ssz_hash_tree_root H oc t v.
Proof. exact c78_roots. Qed.
Print Assumptions C78_roots.

(** Indices are kept by more changes, as vectors may get longer and containers further fields
([enlarges]). *)

Theorem C78_indices :
  forall H t t' path g, enlarges t t' -> addressable t' = true ->
  ssz_generalized_index H true t path = Ok g -> forall oc, ssz_generalized_index H oc t' path = Ok g.
Proof. exact c78_indices. Qed.
Print Assumptions C78_indices.

(** Further fields keep the indices of the old ones exactly if the tree keeps its height. *)

Theorem C78_fields :
  forall H oc fs gs name pos u, field_position name fs = Some (pos, u) -> blen (fs ++ gs) <= 2 ^ 62 ->
  ssz_generalized_index H oc (TContainer fs) [Field name] = Ok (width (blen fs) + pos) /\
  ssz_generalized_index H oc (TContainer (fs ++ gs)) [Field name] = Ok (width (blen (fs ++ gs)) + pos) /\
  (ssz_generalized_index H oc (TContainer (fs ++ gs)) [Field name] = ssz_generalized_index H oc (TContainer fs) [Field name] <->
   blen (fs ++ gs) <= width (blen fs)).
Proof. exact c78_fields. Qed.
Print Assumptions C78_fields.

Theorem C78_proofs :
  forall H : bytes -> bytes, (forall x, blen (H x) = 32) -> forall t t' v path pf root,
  legal t = true -> sized t = true -> addressable t = true ->
  legal t' = true -> sized t' = true -> addressable t' = true ->
  grows both_heights t t' -> valid t v ->
  ssz_prove H true t v path = Ok (pf, root) -> forall oc, ssz_prove H oc t' v path = Ok (pf, root).
Proof. exact c78_proofs. Qed.
Print Assumptions C78_proofs.

Example C78_example :
  let t := TContainer [("a", TList (TUint U64) 5); ("b", TUnion [None; Some (TBitlist 300)]); ("c", TList (TList TNode 3) 6)]%string in
let t' := TContainer [("a", TList (TUint U64) 8); ("b", TUnion [None; Some (TBitlist 512); Some TU256]); ("c", TList (TList TNode 4) 8)]%string in
let v := VStruct [VSeq [VUint 1; VUint 2]; VVariant 1 (VBits (bits_of [true; false; true])); VSeq [VSeq []; VSeq [VNode (zeros 32)]]] in
  legal t = true /\ sized t = true /\ addressable t = true /\ legal t' = true /\ sized t' = true /\ addressable t' = true /\
  grows both_heights t t' /\ valid t v /\
  (exists pf root, ssz_prove sha256 true t v [Field "c"%string; Index 1] = Ok (pf, root) /\
                   ssz_prove sha256 true t' v [Field "c"%string; Index 1] = Ok (pf, root)) /\
  (* a field keeps its index as long as there is room, and loses it afterwards *)
  (let s := TContainer [("a", TBool); ("b", TBool); ("c", TBool)]%string in
   let s4 := TContainer [("a", TBool); ("b", TBool); ("c", TBool); ("d", TU256)]%string in
   let s5 := TContainer [("a", TBool); ("b", TBool); ("c", TBool); ("d", TU256); ("e", TU256)]%string in
   enlarges s s4 /\ addressable s4 = true /\
   map (fun t => ssz_generalized_index sha256 true t [Field "c"%string]) [s; s4; s5] = [Ok 6; Ok 6; Ok 10]) /\
  (* a list limit that makes the tree higher changes the root *)
  (exists r1 r2, ssz_hash_tree_root sha256 true (TList TU256 4) (VSeq [VUint 1]) = Ok r1 /\
                 ssz_hash_tree_root sha256 true (TList TU256 5) (VSeq [VUint 1]) = Ok r2 /\ r1 <> r2).
Proof.
  cbv zeta. do 6 (split; [reflexivity|]).
  split; [cbn [grows map]; repeat constructor; try (vm_compute; discriminate)|]. split; [solve_valid|].
  split; [eexists; eexists; split; vm_compute; reflexivity|]. split.
  - split; [split; [reflexivity|]; cbn [map firstn length]; repeat constructor|]. split; reflexivity.
  - eexists. eexists. split; [vm_compute; reflexivity|]. split; [vm_compute; reflexivity|]. discriminate.
Qed.

(** ** C79: the number of hashes of verification

[verify_c], [is_valid_merkle_branch_c], [verify_merkle_proof_c] and [verify_merkle_multiproof_c]
(CostVerify.v) are the verifiers with a counter of the calls of the hash function. A proof with the wrong
number of nodes is rejected before anything is hashed. A multiproof hashes once for each node above the
indices that is not itself an index, so paths that meet share their hashes. *)

Theorem C79_single :
  forall (H : bytes -> bytes) oc,
  (forall p root, fst (verify_c H oc p root) = verify H oc p root /\
    (proof_index p < 2 ^ 64 -> snd (verify_c H oc p root) =
      if (1 <=? proof_index p) && (blen (branch p) =? node_depth (proof_index p)) then node_depth (proof_index p) else 0)) /\
  (forall leaf proof index root,
    fst (verify_merkle_proof_c H oc leaf proof index root) = verify_merkle_proof H oc leaf proof index root /\
    (index < 2 ^ 64 -> snd (verify_merkle_proof_c H oc leaf proof index root) =
      if (1 <=? index) && (blen proof =? node_depth index) then node_depth index else 0)) /\
  (forall leaf branch depth index root,
    fst (is_valid_merkle_branch_c H oc leaf branch depth index root) = is_valid_merkle_branch H oc leaf branch depth index root /\
    snd (is_valid_merkle_branch_c H oc leaf branch depth index root) = if blen branch =? depth then N.min depth 64 else 0).
Proof. exact c79_single. Qed.
Print Assumptions C79_single.

Theorem C79_multi :
  forall (H : bytes -> bytes) (enum : list N -> list N), (forall l, Permutation (enum l) l) ->
  forall indices hs leaves proof root, helper_list indices hs ->
  fst (verify_merkle_multiproof_c H enum leaves proof indices root) = verify_merkle_multiproof H enum leaves proof indices root /\
  exists above, work_list indices above /\
    snd (verify_merkle_multiproof_c H enum leaves proof indices root) =
      (if (blen leaves =? blen indices) && (blen proof =? blen hs) then blen above else 0) /\
    blen above <= depths indices /\
    (independent indices -> indices <> [] -> Forall (fun i => 1 <= i) indices -> blen above + 1 = blen indices + blen hs).
Proof. exact c79_multi. Qed.
Print Assumptions C79_multi.

Example C79_example :
  let z := zeros 32 in
  helper_list [9; 12; 13] [8; 7; 5] /\ independent [9; 12; 13] /\ work_list [9; 12; 13] [4; 2; 6; 3; 1] /\
  depths [9; 12; 13] = 9 /\
  snd (verify_merkle_multiproof_c sha256 (fun l => l) [z; z; z] [z; z; z] [9; 12; 13] z) = 5 /\
  (* with an index above another one *)
  helper_list [9; 4] [8; 5; 3] /\ work_list [9; 4] [2; 1] /\
  snd (verify_merkle_multiproof_c sha256 (fun l => l) [z; z] [z; z; z] [9; 4] z) = 2 /\
  snd (verify_merkle_multiproof_c sha256 (fun l => l) [z; z] [z; z] [9; 4] z) = 0 /\
  snd (verify_c sha256 true (MkProof z [z; z; z] 9) z) = 3 /\
  snd (verify_merkle_proof_c sha256 true z [z; z; z] 9 z) = 3 /\
  snd (verify_c sha256 true (MkProof z [z; z] 9) z) = 0.
Proof.
  cbv zeta.
  assert (HW : forall l, helper_list l (match get_helper_indices (fun l => l) l with Ok hs => hs | _ => [] end)).
  { intros l. destruct (MultiProof.helper_indices_ok (fun l => l) (fun l => Permutation_refl l) l) as (hs & -> & HH). exact HH. }
  split; [exact (HW [9; 12; 13])|].
  split. { split; [repeat constructor; cbn; lia|]. intros i j Hi Hj HA. apply CostVerifyProof.ancestor_list in HA. cbn in Hi, Hj.
           destruct Hj as [<-|[<-|[<-|[]]]]; vm_compute in HA; lia. }
  split; [exact (CostVerifyProof.computed_list_ok [9; 12; 13])|]. split; [reflexivity|]. split; [vm_compute; reflexivity|].
  split; [exact (HW [9; 4])|]. split; [exact (CostVerifyProof.computed_list_ok [9; 4])|].
  repeat apply conj; vm_compute; reflexivity.
Qed.

(** ** C83: summaries keep roots, indices and proofs

[summary_ty] and [summary_val] (SpecSummary.v) replace parts of a value, chosen by a mask, by their roots, as
a block header does with the body of the block. The root stays the same. So does the index of every path that
does not go below a replaced part, and a proof made from the summary is the proof made from the whole value.
With the mask [Cut] the summary is the root itself, a value of type [Node]: a root does not tell the type. *)

Theorem C83_roots :
  forall H : bytes -> bytes, (forall x, blen (H x) = 32) -> forall oc oc' t v m,
  let t' := summary_ty t m in let v' := summary_val H t v m in
  legal t = true -> sized t = true -> legal t' = true -> sized t' = true -> valid t v ->
  valid t' v' /\ ssz_hash_tree_root H oc' t' v' = ssz_hash_tree_root H oc t v /\
  exists r, ssz_hash_tree_root H oc t v = Ok r.
Proof. exact c83_roots. Qed.
Print Assumptions C83_roots.

Theorem C83_indices :
  forall H t m path g, addressable t = true ->
  ssz_generalized_index H true (summary_ty t m) path = Ok g -> forall oc, ssz_generalized_index H oc t path = Ok g.
Proof. exact c83_indices. Qed.
Print Assumptions C83_indices.

Theorem C83_proofs :
  forall H : bytes -> bytes, (forall x, blen (H x) = 32) -> forall t v m path pf root,
  let t' := summary_ty t m in let v' := summary_val H t v m in
  legal t = true -> sized t = true -> addressable t = true -> legal t' = true -> sized t' = true -> valid t v ->
  inside t m = true ->
  ssz_prove H true t' v' path = Ok (pf, root) -> forall oc, ssz_prove H oc t v path = Ok (pf, root).
Proof. exact c83_proofs. Qed.
Print Assumptions C83_proofs.

Example C83_example :
  let body := TContainer [("data", TList (TUint U8) 100); ("votes", TList (TBitlist 9) 4)]%string in
let block := TContainer [("slot", TUint U64); ("parent", TNode); ("body", body); ("extra", TList (TUnion [None; Some body]) 3)]%string in
let b := VStruct [VSeq [VUint 7; VUint 8]; VSeq [VBits (bits_of [true]); VBits (bits_of [])]] in
let v := VStruct [VUint 5; VNode (zeros 32); b; VSeq [VNone; VVariant 1 b]] in
let m := Below [Keep; Keep; Cut; Below [Below [Keep; Below [Cut; Keep]]]] in
let t' := summary_ty block m in
  t' = TContainer [("slot", TUint U64); ("parent", TNode); ("body", TNode);
    ("extra", TList (TUnion [None; Some (TContainer [("data", TNode); ("votes", TList (TBitlist 9) 4)])]) 3)]%string /\
  legal block = true /\ sized block = true /\ addressable block = true /\ legal t' = true /\ sized t' = true /\
  valid block v /\ inside block m = true /\ summary_val sha256 block v m <> v /\
  (exists pf root,
     ssz_prove sha256 true t' (summary_val sha256 block v m) [Field "extra"; Index 1; Index 1; Field "votes"; Index 0]%string = Ok (pf, root) /\
     ssz_prove sha256 true block v [Field "extra"; Index 1; Index 1; Field "votes"; Index 0]%string = Ok (pf, root) /\
     ssz_hash_tree_root sha256 true block v = Ok root /\ ssz_hash_tree_root sha256 true TNode (VNode root) = Ok root) /\
  (* the body itself is still there, what is in it is not *)
  (exists pf, ssz_prove sha256 true t' (summary_val sha256 block v m) [Field "body"]%string = Ok pf) /\
  (exists e, ssz_prove sha256 true t' (summary_val sha256 block v m) [Field "body"; Field "data"]%string = Err e).
Proof.
  cbv zeta. do 6 (split; [vm_compute; reflexivity|]). split; [solve_valid; change (Pos.to_nat 1) with 1%nat; cbn [nth_error]; solve_valid|]. split; [reflexivity|].
  split; [vm_compute; discriminate|]. split; [eexists; eexists; repeat apply conj; vm_compute; reflexivity|].
  split; eexists; vm_compute; reflexivity.
Qed.

(** ** C84: lists of every bound

A List may have any bound below 2^64. The number of leaves of its tree is computed in usize: it overflows
when the chunks are more than 2^63, and so do the bytes of packed elements at 2^64. *)

Theorem C84_refuted :
  exists t v w, legal t = true /\ valid t v /\ valid t w /\ v <> w /\
  (exists r, ssz_hash_tree_root sha256 false t v = Ok r /\ ssz_hash_tree_root sha256 false t w = Ok r) /\
  ssz_hash_tree_root sha256 true t v = Panic POverflow.
Proof. exact c84_refuted. Qed.
Print Assumptions C84_refuted.

Theorem C84_packed_refuted :
  exists t v, legal t = true /\ valid t v /\
  ssz_hash_tree_root sha256 false t v = Err (InputExceedsLimit 0) /\
  ssz_hash_tree_root sha256 true t v = Panic POverflow.
Proof. exact c84_packed_refuted. Qed.
Print Assumptions C84_packed_refuted.

(** (** What happens instead. With overflow checks there is no root at all. Without them, lists of packed
elements get the limit of the wrapped number of bytes; of other lists only the first half of the elements
is hashed, with hashes of two zero chunks as padding, and the empty list panics. *) *)

Theorem C84_merkleize_partial :
  forall H : bytes -> bytes, (forall x, blen (H x) = 32) -> forall oc (cs : list bytes) limit,
  Forall (fun c : bytes => blen c = 32) cs -> blen cs <= 2 ^ 63 -> 2 ^ 63 < limit ->
  merkleize H (CONTEXT_of (compute_zero_hashes H)) oc (concat cs) (Some limit) =
  if oc then Panic POverflow
  else if blen cs =? 0 then Panic PIndex
  else Ok (subtree H 63 (half_leaves H cs ((blen cs + 1) / 2))).
Proof. exact c84_merkleize_partial. Qed.
Print Assumptions C84_merkleize_partial.

Theorem C84_partial :
  forall H : bytes -> bytes, (forall x, blen (H x) = 32) -> forall oc u n l,
  legal (TList u n) = true -> sized u = true -> (packed u = true -> fixed_size u < 2 ^ 32) -> Forall (valid u) l ->
  (if packed u then 2 ^ 64 <= n * fixed_size u else 2 ^ 63 < n) -> blen l * item_length_with packed u < 2 ^ 63 ->
  ssz_hash_tree_root H oc (TList u n) (VSeq l) =
  (if oc then Panic POverflow
   else if packed u then
     let limit := (n * fixed_size u mod 2 ^ 64 + 31) / 32 in
     if limit <? (blen l * fixed_size u + 31) / 32 then Err (InputExceedsLimit limit)
     else Ok (spec_mix_in H (spec_merkleize H (tree_depth limit) (seq_chunks_with packed H u l)) (blen l))
   else if blen l =? 0 then Panic PIndex
   else Ok (spec_mix_in H (subtree H 63 (half_leaves H (seq_chunks_with packed H u l) ((blen l + 1) / 2))) (blen l))).
Proof. exact c84_partial. Qed.
Print Assumptions C84_partial.

Theorem C84_collision_partial :
  forall H : bytes -> bytes, (forall x, blen (H x) = 32) -> forall u n a b b',
  legal (TList u n) = true -> sized u = true -> packed u = false -> 2 ^ 63 < n ->
  Forall (valid u) (a ++ b) -> Forall (valid u) b' -> blen b = blen b' -> blen b <= blen a -> a <> [] ->
  (blen a + blen b) * 32 < 2 ^ 63 ->
  exists r, ssz_hash_tree_root H false (TList u n) (VSeq (a ++ b)) = Ok r /\
            ssz_hash_tree_root H false (TList u n) (VSeq (a ++ b')) = Ok r.
Proof. exact c84_collision_partial. Qed.
Print Assumptions C84_collision_partial.

Example C84_example :
  let t := TList (TList (TUint U8) 5) (2 ^ 63 + 1) in let w := TList (TUint U64) (2 ^ 61 + 5) in
  legal t = true /\ sized (TList (TUint U8) 5) = true /\ packed (TList (TUint U8) 5) = false /\
  Forall (valid (TList (TUint U8) 5)) ([VSeq [VUint 1]; VSeq []] ++ [VSeq [VUint 7]]) /\ 2 ^ 63 < 2 ^ 63 + 1 /\
  legal w = true /\ packed (TUint U64) = true /\ 2 ^ 64 <= (2 ^ 61 + 5) * fixed_size (TUint U64) /\
  (* room for 64 bytes is left of the bound *)
  ssz_hash_tree_root sha256 false w (VSeq (repeat (VUint 1) 8)) =
    ssz_hash_tree_root sha256 false (TList (TUint U64) 5) (VSeq (repeat (VUint 1) 8)) /\
  ssz_hash_tree_root sha256 false w (VSeq (repeat (VUint 1) 9)) = Err (InputExceedsLimit 2).
Proof.
  cbv zeta. split; [reflexivity|]. split; [reflexivity|]. split; [reflexivity|]. split; [constructor; [solve_valid|]; constructor; [solve_valid|]; constructor; [solve_valid|constructor]|].
  split; [reflexivity|]. split; [reflexivity|]. split; [reflexivity|]. split; [vm_compute; discriminate|].
  split; vm_compute; reflexivity.
Qed.

(** ** C85: builds with and without overflow checks agree

Unless an overflow check or an assertion fails, both builds give the same roots, indices and proofs, accept the
same proofs, and give the same errors and the same other panics. *)

Theorem C85_merkle :
  forall H t v path leaf branch depth index proof root chunks limit count,
  modes_agree (ssz_hash_tree_root H true t v) (ssz_hash_tree_root H false t v) /\
  modes_agree (ssz_generalized_index H true t path) (ssz_generalized_index H false t path) /\
  modes_agree (ssz_prove H true t v path) (ssz_prove H false t v path) /\
  modes_agree (verify H true proof root) (verify H false proof root) /\
  modes_agree (is_valid_merkle_branch H true leaf branch depth index root) (is_valid_merkle_branch H false leaf branch depth index root) /\
  modes_agree (verify_merkle_proof H true leaf branch index root) (verify_merkle_proof H false leaf branch index root) /\
  modes_agree (merkleize H (CONTEXT_of (compute_zero_hashes H)) true chunks limit)
              (merkleize H (CONTEXT_of (compute_zero_hashes H)) false chunks limit) /\
  modes_agree (compute_merkle_tree H true chunks count) (compute_merkle_tree H false chunks count).
Proof. exact c85_merkle. Qed.
Print Assumptions C85_merkle.

Example C85_merkle_example :
  let t := TList (TUint U64) (2 ^ 61) in
  (* a check that fails, the same value and the same error *)
  ssz_hash_tree_root sha256 true t (VSeq [VUint 1]) = Panic POverflow /\
  ssz_hash_tree_root sha256 false t (VSeq [VUint 1]) = Err (InputExceedsLimit 0) /\
  (exists r, ssz_hash_tree_root sha256 true (TList (TUint U64) 5) (VSeq [VUint 1]) = Ok r /\
             ssz_hash_tree_root sha256 false (TList (TUint U64) 5) (VSeq [VUint 1]) = Ok r) /\
  (exists e, ssz_prove sha256 true (TList (TUint U64) 5) (VSeq [VUint 1]) [Field "a"%string] = Err e /\
             ssz_prove sha256 false (TList (TUint U64) 5) (VSeq [VUint 1]) [Field "a"%string] = Err e).
Proof.
  cbv zeta. split; [vm_compute; reflexivity|]. split; [vm_compute; reflexivity|].
  split; eexists; split; vm_compute; reflexivity.
Qed.

(** ** C87: multiproofs have no superfluous nodes

The root can be computed from the indices and their helpers, and the verifier takes exactly one node for each helper.
No other choice of nodes beside the paths from the indices to the root makes do with fewer, and none of the helpers can
be left out. *)

Theorem C87_minimal :
  forall enum, (forall l, Permutation (enum l) l) -> forall indices,
  independent indices -> (exists i, In i indices) -> (forall i, In i indices -> 1 <= i) ->
  exists hs, get_helper_indices enum indices = Ok hs /\
    computable (indices ++ hs) 1 /\
    (forall others, (forall j, In j others -> j <> 1 /\ ~ on_path indices j) ->
       computable (indices ++ others) 1 -> blen hs <= blen others) /\
    (forall h, In h hs -> ~ computable (indices ++ remove N.eq_dec h hs) 1) /\
    (forall H leaves proof root, calculate_multi_merkle_root H enum leaves proof indices = Ok root -> blen proof = blen hs).
Proof. exact c87_minimal. Qed.
Print Assumptions C87_minimal.

Example C87_example :
  independent [9; 8; 14] /\ get_helper_indices (fun l => l) [9; 8; 14] = Ok [15; 6; 5] /\
  (* another choice, with more nodes *)
  (forall j, In j [15; 6; 10; 11] -> j <> 1 /\ ~ on_path [9; 8; 14] j) /\ computable ([9; 8; 14] ++ [15; 6; 10; 11]) 1 /\
  (* below another index helpers are superfluous *)
  get_helper_indices (fun l => l) [2; 4] = Ok [5; 3] /\ computable ([2; 4] ++ [3]) 1.
Proof.
  assert (A : forall i j, 1 <= i -> ancestor i j -> i < j).
  { intros i j Hi (_ & k & Hk & E). destruct (N.lt_ge_cases i j) as [L|L]; [exact L|exfalso].
    assert (2 <= 2 ^ k) by (change 2 with (2 ^ 1) at 1; apply N.pow_le_mono_r; lia).
    pose proof (N.mul_div_le j (2 ^ k) ltac:(lia)). nia. }
  assert (D : forall i j, ancestor i j -> i = j / 2 \/ i = j / 2 / 2 \/ i = j / 2 / 2 / 2 \/ i <= j / 2 / 2 / 2 / 2).
  { intros i j (_ & k & Hk & E). destruct (N.eq_dec k 1) as [->|K1]; [left; exact E|].
    destruct (N.eq_dec k 2) as [->|K2]; [right; left; rewrite N.div_div by lia; exact E|].
    destruct (N.eq_dec k 3) as [->|K3]; [right; right; left; rewrite !N.div_div by lia; exact E|].
    right; right; right. rewrite !N.div_div by lia. rewrite E. apply N.div_le_compat_l. split; [lia|].
    change (2 * (2 * (2 * 2))) with (2 ^ 4). apply N.pow_le_mono_r; lia. }
  assert (N0 : forall i j, ancestor i j -> 1 <= i) by (intros i j [G _]; exact G).
  split.
  { split; [repeat constructor; cbn; intuition discriminate|].
    intros i j Hi Hj HA. pose proof (A i j (N0 _ _ HA) HA). pose proof (D _ _ HA) as HD.
    cbn in Hi, Hj. repeat (destruct Hi as [<-|Hi] || destruct Hi); repeat (destruct Hj as [<-|Hj] || destruct Hj); cbn in HD; lia. }
  split; [reflexivity|]. split.
  { intros j Hj. cbn in Hj. repeat (destruct Hj as [<-|Hj] || destruct Hj); (split; [discriminate|]);
    intros (_ & i & Hi & [E|HA]); cbn in Hi; repeat (destruct Hi as [<-|Hi] || destruct Hi); try discriminate;
    pose proof (D _ _ HA) as HD; cbn in HD; lia. }
  split; [|split; [reflexivity|]].
  - apply Combined; [apply Combined|apply Combined]; cbn [N.mul N.add Pos.mul Pos.add Pos.succ].
    + apply Combined; apply Given; cbn; tauto.
    + apply Combined; apply Given; cbn; tauto.
    + apply Given; cbn; tauto.
    + apply Combined; apply Given; cbn; tauto.
  - apply Combined; apply Given; cbn; tauto.
Qed.
