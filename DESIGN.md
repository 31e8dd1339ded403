# Formal model of ssz-rs in Rocq: design

Source: `/repo` (ralexstokes/ssz-rs at the pinned commit), read as text only.
Model and proofs: `/verif/rocq/theories`, Rocq/Coq 8.16.1, standard library only.

## Approach

* The Rust functions are transcribed one by one into total Gallina functions. Each definition
  cites file and lines. `&mut` functions return the new state, `Result` is `Ok`/`Err`, and every
  Rust panic (slice index out of range, arithmetic overflow with overflow checks on, `expect`,
  `assert!`, `unreachable!`) is the third outcome `Panic why` of the result type `res E A`.
* The build mode is a boolean parameter `oc`: `true` means overflow checks and debug assertions
  are on (panic), `false` means release mode (wrap modulo 2^64, no debug assertions).
* Traits are records of functions (`Serializable`, `SimpleSerialize`). Each Rust `impl` is a
  definition taking the record of the element type. The SSZ type grammar is a deep embedding `ty`;
  a fixpoint builds the record for every `ty`, so a theorem "for all `t`" covers every nesting.
* Values are an untyped tree `val`; `typed t v` holds when `v` is a value that the Rust type can
  hold (any length for `Vector`/`List` because `DerefMut` exposes the inner `Vec`), `valid t v`
  adds the SSZ bounds and, for bit lists, zeroed dead bits.
* The hash function is a parameter `H : bytes -> bytes` with 32-byte results; theorems hold for
  all such `H`. A concrete SHA-256 is also defined and used for test vectors and refutations.
* Specifications (`Spec*.v`) are written from the SSZ specification text, share no code with the
  model beyond the data types, and are mathematical (for instance a Merkle root is the root of a
  perfect binary tree given by a function from leaf numbers to chunks).

## Properties

For each property: what is modelled, and how it is proved. Status is in `MANIFEST.json`.

* C01 round trip: all `impl Serialize`/`Deserialize`; induction on `ty`, via C02 and a decoder/encoder lemma per impl.
* C02 encoding = specification: the literal spec algorithm (fixed parts, offsets, variable parts) as `spec_serialize`; induction on `ty`, invariant of `Serializer`.
* C03 canonical (fragment): induction on `ty`; inverse lemmas for offsets, bit lists, containers.
* C04 canonical (all): false; witness list of variable-size elements with first offset 0.
* C05 injectivity: corollary of C01.
* C06 append-only and count: induction on `ty`, arbitrary values including out-of-bounds ones.
* C07 buffer on error: false for unions (selector already written); true for the others.
* C08 size_hint: induction on `ty`.
* C09 decoded values are valid: induction on `ty`.
* C10 decode never panics: false; for every list of variable-size elements an 8-byte input panics; also containers with two variable fields in checked builds.
* C11 no panic in fragment: induction on `ty`.
* C12 failure conditions of serialize: from C02 plus bound lemmas.
* C13, C14 integers, bool: direct.
* C15, C16 bitvector, bitlist decoding: bit-level model of `bitvec::BitVec<u8, Lsb0>` (raw bytes plus bit length).
* C17 equal bitlists: false after `pop`/`truncate` (dead bits leak); witness by computation.
* C18 bitlists without shrinking: invariant over operation sequences.
* C19 container offsets: characterisation of `ContainerDeserializer`.
* C20 unions: case analysis.
* C21, C22 transparent enums: list of variant dictionaries; C22 is false.
* C23, C24 merkleize: in-place loops on the flat byte buffer, refined to lists of chunks, then to the perfect tree.
* C25 zero hashes: loop of `build.rs`.
* C26 compute_merkle_tree: loop invariant on the flat buffer.
* C27, C28 hash_tree_root: induction on `ty`; C28 false (arrays and newtypes as elements).
* C29 binding: induction on trees; a collision is exhibited by an explicit function.
* C30 over-long lists: false for packed elements.
* C31-C33 generalized indices: `spec_gindex` from the merkle-proofs spec; induction on `ty`.
* C34-C36 prover: `compute_proof` with an explicit prover state; induction on `ty`. C36 false.
* C37-C39 branch verification: induction on the branch.
* C40-C46 multiproofs: `HashMap`/`HashSet` as association lists with an arbitrary enumeration order; work-list invariant. C42, C45 false.
* C47-C49, C52 constructors and accessors. C48 false (Vector has DerefMut to Vec).
* C50 derive validation: `validate_derive_input` over an abstract syntax of declarations.
* C51 truthfulness of errors. C53 newtypes.
* C54 Bitlists of every bound round-trip: false for bounds of 2^64 - 8 or more (`N + 8` overflows); all smaller bounds from C01.
* C55 what the derive macro accepts is a legal type, up to size bounds.
* C56 - C59 serde support: JSON round trip; what is read is in bounds; bit collections are hex text
  of their encoding; JSON that is written can be read (false for over-long collections).
* C60, C61 Debug output of bit collections (false for 2^31 bits or more) and of trees (always panics).
* C62 arithmetic on generalized indices.
* C63 decoded values are not larger than the input: induction on `ty` over the exact reading of C10.
* C64 raised bounds and added variants; C65 presentations (arrays, Options, newtypes): relations between types
  (SpecAlike.v), by induction on `ty` over the exact reading and writing of C10 and C06.
* C66 messages of errors tell them apart
* C67 number of hashes of a root: the model with a counter (Cost.v), shown to give the same roots; induction on `ty`.
* C68 number of hashes of a proof: the same for `prove`; induction on `ty`.
* C69 proofs and C70 multiproofs that verify against the root of a value are about its parts: the whole tree of a
  value (`value_node`, SpecTree.v) has the addressed parts at the indices of their paths, and every pair that it
  hashes above them is hashed for the root; the rest is C37, C40 and C41. No limits on the sizes of trees beyond
  those of the root. The claim is also proved with ssz-rs's own choices for all types (`_all_types`), where the
  items along the path fill their chunks (`counts`).
  `C69_honest_proofs`: the proofs that `prove` returns consist of the nodes of this tree.
* C71 sizes of encodings: bounds by induction on `ty` over `encoded_bytes` (C63), reached by explicit values.
* C72 branches do not depend on the part they prove: `agree_off` (SpecBeside.v) by recursion on the path; the siblings
  on the way up from a leaf are over other chunks, and these are equal.
* C73 proofs can be chained: the branch of a grafted index is that of the part followed by that of the whole
  (`branch_of_graft`), and the nodes below a part are those of its own tree (`part_at_ok`, `part_at` in SpecJoin.v).
* C74 multiproofs survive changes: every node that is neither above nor below the index of the changed part is equal
  in both trees (`node_agree`), and helper nodes of independent indices are such nodes.
* C75 lists that get longer or shorter: as C72 in the tree of the list, with the length as the last node (GrowProof.v).
* C76 equality: `==` decides `same_value` (SpecCompare.v) by induction on values; false for left-over bits (as C17).
* C77 order: `cmp` decides `value_before`, an inductive description of the documented order; transitivity by induction on values (CompareProof.v).
* C78 later versions of a type: the specifications of roots, indices and proofs agree on both types by induction on the type (LaterProof.v).
* C79 number of hashes of verification: the verifiers with a counter (CostVerify.v), shown to give the same results; for
  multiproofs the invariant of C40 with the nodes that are computed as a list without duplicates.
* C80 work of decoding: the decoder with a counter (DeCost.v), shown to give the same results; induction on `ty`. The spans
  of elements and fields do not overlap, and 4 bytes of offset pay for an empty one. The exact work of successful decoding
  from the pieces given to elements and fields (DeExact.v): each is at least as long as the encoding of its value, and
  together they are no longer than the input.
* C81 parts of encodings: one level by induction on the list of encoded parts with the fixed and variable bytes written
  before (`lay`, AccessProof.v), then induction on the place.
* C82 work of encoding: the serializer with a counter of the bytes written (SerCost.v), shown to give the same results.
  Induction on `ty`, with the sums kept by the serializer as invariant. Nested lists of one element reach the bound.
  The exact count of a value with an encoding by induction as well (SerExact.v).
* C83 summaries: a mask says which parts are replaced by their roots (SpecSummary.v). Induction on `ty`: the chunks of every
  tree stay the same, so do the numbers of leaves; then the proofs by the exact description of C34/C36.
* C84 lists of every bound: the loops of `merkleize` once more for the wrapped number of leaves 0, with the invariant that
  the layer holds the nodes over the first half of the chunks (SpecHuge.v gives the leaves of that tree).
* C85 build modes agree: `modes_agree` (SpecModes.v) is kept by sequencing and by every arithmetic primitive; induction over
  types, with one record per trait that relates the two implementations of a type.
* C86 errors name a fault: `fault` (SpecFault.v) says by recursion on the type what can be wrong at which bytes; the stages of
  the decoders are followed up to the one that fails. The converse goes through `read` (SpecDecode.v).
* C87 multiproofs have no superfluous nodes: `computable` (SpecMinimal.v) is the closure of given nodes under combining two
  children. Every other sufficient set has a node in the subtree of each helper, and these subtrees are disjoint.
* C88 encodings show where they end: `self_delimiting` (SpecPrefix.v) looks at the last variable-size part. The offset of this
  part lies at the same place in both encodings, so the parts begin at the same place; then induction on `ty`.

Properties that are false in general have a `_refuted` theorem with a computed witness and
`_partial` theorems. Where possible a `_partial` theorem describes the outcome on *every* input:

* `C10_partial`: the outcome of decode for every legal type and byte string (`read`, SpecDecode.v).
* `C06_exact_partial`: what serialize appends and reports for every value a Rust type can hold
  (`write`, SpecWrite.v).
* `C28_partial`: the root of every legal type (SpecPack.v: the specification's tree with the
  choice of packed element types that ssz-rs makes).
* `C28_exact_partial`: the root or the error for every value a Rust type can hold (`root_any`,
  SpecRoot.v).
* `C17_root_exact_partial`: equal bit lists have equal roots exactly if their stored bits agree, up to
  collisions among the byte strings that are hashed.
* `C31_checked_partial`: the generalized index for every type and path.
* `C36_exact_partial`: the outcome of `prove` for every value and path (`probe`, SpecProve.v).
* `C30_partial`, `C38_partial`, `C45_partial`: exact for over-long lists, branch checks, and
  multiproofs.

## Hypotheses used in theorems

* `legal t` (Valid.v): positive Vector/Bitvector/array lengths, 1 to 127 variants, at least one
  field, bounds below 2^64 (Bitlist below 2^64 - 8), fixed sizes at most 2^63. C55 relates it to
  what the macro accepts.
* `typed t v`: a value the Rust type can hold after arbitrary safe mutation. `valid t v`: also
  within bounds, with zero left-over bits.
* `blen b < 2^63` in decode theorems: Rust slices cannot be longer than isize::MAX.
* `regular` (SpecMerkle.v): the types on which ssz-rs and the specification pack alike, with
  chunk counts up to 2^63. `sized` (SpecPack.v): only the size bounds.
* `in_memory` (SpecRoot.v): the chunks of every collection in the value take fewer than 2^63 bytes.
* `provable`, `provable_with`, `addressable`: trees of at most 2^57 leaves on the path, since
  `compute_proof` builds the whole tree of 2^58 nodes of 32 bytes in one buffer.

## Files

| Files | Contents |
|---|---|
| Prelude, Types | results with panics, usize arithmetic, byte strings; errors, `ty`, `val` |
| Bitvec | the part of the `bitvec` crate that is used or exposed |
| Ser, De, Impls, Api | ser.rs, de.rs, every `impl Serialize/Deserialize`, constructors and accessors |
| SizeHint | `size_hint` in 64-bit arithmetic; `C08_no_overflow` shows that the unbounded one of Impls agrees |
| Merkleize, Proofs, MerkImpls, Multiproofs | merkleize.rs, build.rs, generalized_index.rs, proofs.rs, every `HashTreeRoot`/`GeneralizedIndexable`/`Prove` impl, multiproofs.rs |
| Compare | `==` and `cmp` of the crate's types; of user structs and enums as rustc derives them |
| Derive | validation and choice of impls of the derive macro |
| Text | serde support (JSON) and Debug output of bit collections and trees |
| Display | messages of the error types |
| Cost | `hash_tree_root` and `prove` with a counter of hashes; the counter is the only difference (first parts of `C67_hashes` and `C68_hashes`) |
| CostVerify | the verifiers of proofs and multiproofs with a counter of hashes (first parts of `C79_single` and `C79_multi`) |
| DeCost | `deserialize` with a counter of the bytes looked at (first part of `C80_linear`) |
| SerCost | `serialize` with a counter of the bytes written (first part of `C82_linear`) |
| Sha256 | SHA-256, for examples and witnesses only |
| Valid, Spec* | specifications and hypotheses |
| Lib ... ProbeProof, FoundProof, ValueTree, BesideProof, JoinProof, GrowProof, CompareProof, LaterProof, SummaryProof, HugeProof, ModesProof, FaultProof, MinimalProof, PrefixProof, RootAny, AlikeProof, AlikeRoot, SizeProof, DeCostProof, DeExact, SerCostProof, SerExact, CostProof, CostProve, CostVerifyProof, SizeHintProof, CodecFacts, AccessProof, DeriveProof, TextProof, DisplayProof | lemmas |
| Samples | sample values for the examples |
| CodecThms, MerkleThms, DeriveThms, TextThms | proofs of the properties |
| PropCodec, PropMerkle, PropDerive, PropText | the property theorems, one `exact` each, examples, Print Assumptions |
| Conform, ConformTypes, Conform1-4, ConformUnit | the test suite of the crate run on the model: tests, not proofs |

The pairs Thms/Prop are generated by `tools/split_props.py` from `tools/*.tpl`, so that statements
agree; `tools/gen_props.py` and `tools/gen_manifest.py` write the JSON files; `tools/mutate.py`
runs wrong programs (results in `seeded/LOG.jsonl`).

## Tests of the model

The model is also run on the tests of the repository. These are bounded checks and support no claim;
they guard against transcription errors.

* `tools/gen_conformance.py` reads `ssz-rs/tests/*.rs` and the snappy-compressed data files as text and
  writes Conform1-4: for each test with a value that serialize gives the file, that deserialize gives the
  value back, and that the root is the expected one; for each `should_panic` test that deserialize
  returns an error. 729 + 912 of the 1865 tests are in the build, those with at most 1500 bytes and 100
  hashes. The results are computed with `Eval vm_compute` when the files are compiled and compared
  by `reflexivity`. The remaining 224 were run once outside the build, with the limits in the script raised; all passed.
* ConformUnit has the unit tests and examples with literal expectations: encodings, roots, generalized
  indices, proofs, and hexadecimal JSON. One of them (merkleize.rs:553-648) expects a root that covers a
  popped bit, which is finding 4 below.

## Findings

The theorems that refute a property show these behaviours of the code:

1. Decoding a collection of variable-size elements panics on an offset beyond the input (C10).
2. A first offset of 0 is accepted as an empty list whatever follows (C04).
3. `ContainerDeserializer` underflows with two or more variable-size fields: a panic with overflow
   checks (C11), untruthful errors without (C51).
4. Left-over bits of a Bitlist after pop/truncate/clear are serialized and hashed (C17). A
   bit left over at the place of the end marker shows in the root but not in the encoding.
5. Elements that are arrays of basic types are packed, giving other roots than the specification
   (C28). Proofs use the number of leaves of the specification with the packed chunks: they verify
   against their own witness, which is the root of neither (C34).
6. Newtypes of basic types count as composite: other roots and indices (C28, C31).
7. `Vector` can change its length through `DerefMut` (C48); over-long packed lists may have a root
   (C30).
8. Unions write the selector before the payload fails (C07).
9. Transparent enums: an empty encoding is rejected and the last matching variant wins (C22); their
   indices and proofs are those of a union while the root is the payload's (C29, C32, C34).
10. `List::prove` panics below an absent element (C36); union proofs ignore the path's variant and
    return non-verifying proofs (C34, C35).
11. `is_valid_merkle_branch` panics for 65 or more nodes (C38).
12. Multiproofs: no indices panics, a leaf below another index is not checked (C42, C45).
13. Bitlist has no length path; Bitvector reports ceil(N/8) whatever its length (C06).
14. Bitlist bounds of 2^64 - 8 or more overflow (C54); `Bitvector<0>::try_from(&[])` panics (C47).
15. Inputs of 2^32 bytes or more may decode to values that cannot be serialized (C03, C04 exclude them).
16. `Debug for Tree` parses the 32 raw bytes of a node as hexadecimal text and unwraps, so it panics on
    every tree (C61).
17. `Debug` of a Bitlist or Bitvector counts bits in an i32 and panics at 2^31 bits with overflow
    checks (C60).
18. Over-long collections are written as JSON that cannot be read back (C59). Directly nested Options
    are ambiguous in JSON (`unambiguous` in SpecText.v excludes them from C56).
19. `prove` builds the padded tree of each value it passes, so its memory and hashes follow the bounds
    of the types and not the value (C68). A List of bound 2^40, as in beacon states, needs 2^41 hashes.
20. Decoding nested transparent enums takes time exponential in the depth of nesting, since every level tries all
    its variants (C80_transparent).
21. Lists with more than 2^63 chunks or 2^64 packed bytes by their bound: the root panics with overflow checks. Without
    them the second half of the elements is not hashed, so different lists share a root, and packed lists get a wrong
    limit (C84).

## Trusted base

* Coq's kernel (including `vm_compute`).
* `Print Assumptions` is run after every property theorem in Prop*.v. For every one of them it
  prints `Closed under the global context`: no axioms, not even from the standard library. The
  theorems are those in the table at the end.
* The correspondence between the Rust text and the model, as documented at each definition.
* Models of library code outside `/repo`: `Vec`/slice operations, integer methods
  (`next_power_of_two`, `pow`, `trailing_zeros`, `div_ceil`), `HashMap`/`HashSet`/sort, and
  `bitvec::BitVec<u8, Lsb0>` (`push` zero-fills a new byte, shrinking only changes the length).
* Models of serde (sequences, newtypes, structs with missing fields, `Option` as null), of a
  self-describing JSON-like format, and of hexadecimal text as const-hex reads and writes it. Serde
  support of types of other crates is a parameter of the theorems, with the hypotheses
  `foreign_round_trips` and `foreign_reads_valid`.
* Rust's formatting of integers and derived `Debug` of paths in messages of errors; non-ASCII
  characters of field names are copied there, while Rust escapes some of them.
* usize has 64 bits; allocations below isize::MAX bytes succeed, and running time and stack depth
  are unbounded.

## Not modelled

Serde support of other crates' types and of enums, JSON as text, `Display` of values and the remaining
`Debug` output (which only forward to the elements), parsing of Rust syntax and generics by the derive
macro, timing and memory use.

## Assumptions of each theorem

| Theorem | Print Assumptions |
|---|---|
| C01_round_trip | Closed under the global context |
| C02_encoding_follows_spec | Closed under the global context |
| C03_canonical | Closed under the global context |
| C04_partial | Closed under the global context |
| C04_refuted | Closed under the global context |
| C05_injective | Closed under the global context |
| C06_exact_partial | Closed under the global context |
| C06_partial | Closed under the global context |
| C06_refuted | Closed under the global context |
| C07_exact_partial | Closed under the global context |
| C07_partial | Closed under the global context |
| C07_refuted | Closed under the global context |
| C08_fixed_size | Closed under the global context |
| C08_no_overflow | Closed under the global context |
| C09_decoded_values_valid | Closed under the global context |
| C10_partial | Closed under the global context |
| C10_refuted | Closed under the global context |
| C11_container_panics | Closed under the global context |
| C11_no_panic | Closed under the global context |
| C12_when_serialize_fails | Closed under the global context |
| C13_root | Closed under the global context |
| C13_uints | Closed under the global context |
| C14_bool | Closed under the global context |
| C15_bitvector_decode | Closed under the global context |
| C16_bitlist_decode | Closed under the global context |
| C17_exact_partial | Closed under the global context |
| C17_partial | Closed under the global context |
| C17_refuted | Closed under the global context |
| C17_root_exact_partial | Closed under the global context |
| C17_root_refuted | Closed under the global context |
| C18_growing_bitlists | Closed under the global context |
| C19_container_decode | Closed under the global context |
| C19_offsets | Closed under the global context |
| C20_union_decode | Closed under the global context |
| C21_root | Closed under the global context |
| C21_transparent | Closed under the global context |
| C22_partial | Closed under the global context |
| C22_refuted | Closed under the global context |
| C23_merkleize | Closed under the global context |
| C24_limit | Closed under the global context |
| C25_zero_hashes | Closed under the global context |
| C26_compute_merkle_tree | Closed under the global context |
| C27_hash_tree_root | Closed under the global context |
| C28_arrays_refuted | Closed under the global context |
| C28_exact_partial | Closed under the global context |
| C28_newtypes_refuted | Closed under the global context |
| C28_partial | Closed under the global context |
| C29_binding_partial | Closed under the global context |
| C29_partial | Closed under the global context |
| C29_transparent_refuted | Closed under the global context |
| C30_all_types_partial | Closed under the global context |
| C30_partial | Closed under the global context |
| C30_refuted | Closed under the global context |
| C31_all_types_partial | Closed under the global context |
| C31_checked_partial | Closed under the global context |
| C31_newtypes_refuted | Closed under the global context |
| C31_partial | Closed under the global context |
| C32_invalid_paths | Closed under the global context |
| C33_checked | Closed under the global context |
| C33_nesting | Closed under the global context |
| C34_all_types_partial | Closed under the global context |
| C34_arrays_refuted | Closed under the global context |
| C34_exact_partial | Closed under the global context |
| C34_partial | Closed under the global context |
| C34_transparent_refuted | Closed under the global context |
| C34_variants_refuted | Closed under the global context |
| C35_all_types_partial | Closed under the global context |
| C35_partial | Closed under the global context |
| C35_variants_refuted | Closed under the global context |
| C36_exact_partial | Closed under the global context |
| C36_partial | Closed under the global context |
| C36_refuted | Closed under the global context |
| C37_branches_bind | Closed under the global context |
| C38_partial | Closed under the global context |
| C38_refuted | Closed under the global context |
| C39_verifiers_agree | Closed under the global context |
| C40_honest_multiproofs | Closed under the global context |
| C41_multiproofs_sound | Closed under the global context |
| C42_partial | Closed under the global context |
| C42_refuted | Closed under the global context |
| C43_helper_indices | Closed under the global context |
| C44_single_index | Closed under the global context |
| C45_partial | Closed under the global context |
| C45_refuted | Closed under the global context |
| C46_map_order | Closed under the global context |
| C47_bitvector_zero | Closed under the global context |
| C47_constructors | Closed under the global context |
| C48_exact_partial | Closed under the global context |
| C48_partial | Closed under the global context |
| C48_refuted | Closed under the global context |
| C49_get_set | Closed under the global context |
| C50_derive | Closed under the global context |
| C50_derive_attrs | Closed under the global context |
| C50_rejection | Closed under the global context |
| C50_validation | Closed under the global context |
| C50_validation_helpers | Closed under the global context |
| C50_validation_transparent | Closed under the global context |
| C51_release_refuted | Closed under the global context |
| C51_truthful_errors | Closed under the global context |
| C52_defaults | Closed under the global context |
| C53_newtype_codec | Closed under the global context |
| C53_newtype_merkle | Closed under the global context |
| C54_partial | Closed under the global context |
| C54_refuted | Closed under the global context |
| C55_legal | Closed under the global context |
| C56_json_round_trip | Closed under the global context |
| C57_json_reads_valid | Closed under the global context |
| C58_hex | Closed under the global context |
| C59_partial | Closed under the global context |
| C59_refuted | Closed under the global context |
| C60_partial | Closed under the global context |
| C60_refuted | Closed under the global context |
| C61_partial | Closed under the global context |
| C61_refuted | Closed under the global context |
| C62_index_arithmetic | Closed under the global context |
| C63_no_amplification | Closed under the global context |
| C64_wider_types | Closed under the global context |
| C65_presentation_codec | Closed under the global context |
| C65_presentation_merkle | Closed under the global context |
| C66_messages | Closed under the global context |
| C67_hashes | Closed under the global context |
| C68_hashes | Closed under the global context |
| C68_padding | Closed under the global context |
| C69_all_types | Closed under the global context |
| C69_honest_proofs | Closed under the global context |
| C69_proofs_sound | Closed under the global context |
| C70_all_types | Closed under the global context |
| C70_multiproofs | Closed under the global context |
| C71_size_bounds | Closed under the global context |
| C72_all_types | Closed under the global context |
| C72_branches_last | Closed under the global context |
| C73_all_types | Closed under the global context |
| C73_chained | Closed under the global context |
| C73_parts_of_parts | Closed under the global context |
| C74_all_types | Closed under the global context |
| C74_updates | Closed under the global context |
| C75_all_types | Closed under the global context |
| C75_append | Closed under the global context |
| C76_partial | Closed under the global context |
| C76_refuted | Closed under the global context |
| C76_roots_partial | Closed under the global context |
| C76_roots_refuted | Closed under the global context |
| C76_same_value | Closed under the global context |
| C77_total_order | Closed under the global context |
| C78_fields | Closed under the global context |
| C78_indices | Closed under the global context |
| C78_proofs | Closed under the global context |
| C78_roots | Closed under the global context |
| C79_multi | Closed under the global context |
| C79_single | Closed under the global context |
| C80_exact | Closed under the global context |
| C80_linear | Closed under the global context |
| C80_round_trip | Closed under the global context |
| C80_transparent | Closed under the global context |
| C81_access | Closed under the global context |
| C81_replace | Closed under the global context |
| C82_depth | Closed under the global context |
| C82_exact | Closed under the global context |
| C82_linear | Closed under the global context |
| C83_indices | Closed under the global context |
| C83_proofs | Closed under the global context |
| C83_roots | Closed under the global context |
| C84_collision_partial | Closed under the global context |
| C84_merkleize_partial | Closed under the global context |
| C84_packed_refuted | Closed under the global context |
| C84_partial | Closed under the global context |
| C84_refuted | Closed under the global context |
| C85_codec | Closed under the global context |
| C85_merkle | Closed under the global context |
| C85_text | Closed under the global context |
| C86_every_rejection | Closed under the global context |
| C86_faults | Closed under the global context |
| C87_minimal | Closed under the global context |
| C88_cut_off | Closed under the global context |
| C88_prefix_free | Closed under the global context |
