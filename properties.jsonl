{"id": "C01", "title": "Round trip", "statement": "If `serialize(&v)` returns `Ok(bytes)` for a value built through the public constructors, then `T::deserialize(&bytes)` returns `Ok(w)` with `w == v`.", "quantifier": "every SSZ type built from bool, uints, U256, Node, Vector, array, List, Bitvector, Bitlist, containers, newtypes, Option and unions nested to any depth (Bitlist bounds below 2^64 - 8, fixed sizes up to 2^63), and every value of that type", "why_tests_cant": "the type grammar is infinite and nesting interacts through offsets; tests sample a few types and values", "anchors": ["ssz-rs/src/ser.rs:Serializer", "ssz-rs/src/de.rs:deserialize_homogeneous_composite", "ssz-rs/src/de.rs:ContainerDeserializer", "ssz-rs-derive/src/lib.rs:derive_serialize_impl", "ssz-rs-derive/src/lib.rs:derive_deserialize_impl"]}
{"id": "C02", "title": "Encoding follows the SSZ specification", "statement": "`serialize` appends exactly the byte string that the SSZ specification (simple-serialize.md) defines for the value: little-endian uints, fixed parts in order, 4-byte offsets, variable parts in order, bit lists with a delimiter bit, one-byte union selectors.", "quantifier": "every SSZ type, every in-bounds value whose composite encodings are below 2^32 bytes, every initial buffer", "why_tests_cant": "agreement with an independently written encoder must hold at every nesting shape and length", "anchors": ["ssz-rs/src/ser.rs:Serializer::serialize", "ssz-rs/src/ser.rs:Serializer::with_element", "ssz-rs/src/uint.rs", "ssz-rs/src/bitlist.rs:serialize_with_length", "ssz-rs/src/bitvector.rs"]}
{"id": "C03", "title": "Accepted encodings are canonical (no lists of variable-size elements)", "statement": "If `T::deserialize(b)` returns `Ok(v)` and b is shorter than 2^32 bytes, then `serialize(&v)` returns exactly b, for every type in which no `List` has variable-size elements.", "quantifier": "every byte string and every SSZ type without a List of variable-size elements", "why_tests_cant": "the space of malformed encodings is unbounded; malleability shows only on inputs nobody thought to write", "anchors": ["ssz-rs/src/de.rs", "ssz-rs/src/bitlist.rs:deserialize", "ssz-rs/src/bitvector.rs:deserialize", "ssz-rs-derive/src/lib.rs:derive_deserialize_impl"]}
{"id": "C04", "title": "Accepted encodings are canonical (all types)", "statement": "For every SSZ type, `T::deserialize(b) == Ok(v)` implies `serialize(&v) == Ok(b)` for b below 2^32 bytes: no two byte strings decode to the same value.", "quantifier": "every byte string and every SSZ type, including Lists of variable-size elements", "why_tests_cant": "a single unnoticed malformed shape is enough to break it", "anchors": ["ssz-rs/src/de.rs:deserialize_variable_homogeneous_composite", "ssz-rs/src/list.rs:deserialize"]}
{"id": "C05", "title": "Distinct values never share an encoding", "statement": "Two different values of the same type never serialize to the same bytes.", "quantifier": "all pairs of values of every SSZ type", "why_tests_cant": "quantifies over pairs of values of unbounded size", "anchors": ["ssz-rs/src/ser.rs:Serializer"]}
{"id": "C06", "title": "serialize only appends and reports the byte count", "statement": "`serialize(&mut buffer)` never changes or removes bytes already in buffer, on success and on error alike, and on success the returned count is the number of bytes appended.", "quantifier": "every type, every value (also out-of-bounds values reached by mutation), every initial buffer", "why_tests_cant": "the initial buffer is arbitrary; tests use an empty one", "anchors": ["ssz-rs/src/ser.rs:Serialize", "ssz-rs/src/bitlist.rs:serialize_with_length", "ssz-rs/src/union.rs:serialize"]}
{"id": "C07", "title": "A failed serialize leaves the buffer untouched", "statement": "If `serialize(&mut buffer)` returns `Err`, buffer is unchanged.", "quantifier": "every type, every value, every initial buffer", "why_tests_cant": "needs every failing value under every composite", "anchors": ["ssz-rs/src/ser.rs:Serializer::serialize", "ssz-rs/src/union.rs:serialize", "ssz-rs-derive/src/lib.rs:derive_serialize_impl"]}
{"id": "C08", "title": "size_hint is exact for fixed-size types", "statement": "For a type with `is_variable_size() == false`, every in-bounds value serializes to exactly `size_hint()` bytes, and `deserialize` rejects every input of another length.", "quantifier": "every fixed-size type, every value, every input", "why_tests_cant": "size computations compose multiplicatively over nested types", "anchors": ["ssz-rs/src/lib.rs:Serializable", "ssz-rs/src/vector.rs:size_hint", "ssz-rs/src/bitvector.rs:size_hint", "ssz-rs-derive/src/lib.rs:derive_size_hint_impl"]}
{"id": "C09", "title": "Decoding enforces the bounds of the type", "statement": "A value returned by `deserialize` satisfies every bound of its type at every nesting level: List and Bitlist length at most N, Vector, array and Bitvector length exactly N, uints in range, selectors of existing variants.", "quantifier": "every byte string, every SSZ type", "why_tests_cant": "input is attacker controlled and unbounded", "anchors": ["ssz-rs/src/list.rs:deserialize", "ssz-rs/src/vector.rs:deserialize", "ssz-rs/src/array.rs:deserialize", "ssz-rs/src/bitlist.rs:deserialize"]}
{"id": "C10", "title": "Decoding never panics", "statement": "`T::deserialize(b)` returns `Ok` or `Err` and never panics.", "quantifier": "every byte string, every SSZ type, both with and without overflow checks", "why_tests_cant": "input is attacker controlled; a panic needs one specific malformed offset table", "anchors": ["ssz-rs/src/de.rs:deserialize_variable_homogeneous_composite", "ssz-rs/src/de.rs:ContainerDeserializer::parse"]}
{"id": "C11", "title": "Decoding never panics (fragment)", "statement": "`T::deserialize(b)` never panics when T contains no collection of variable-size elements and, if overflow checks are on, no container with two or more variable-size fields; without overflow checks containers of any shape are safe.", "quantifier": "every byte string, every type of the fragment, both build modes", "why_tests_cant": "input is unbounded", "anchors": ["ssz-rs/src/de.rs", "ssz-rs/src/bitlist.rs:deserialize", "ssz-rs/src/bitvector.rs:deserialize", "ssz-rs/src/union.rs:deserialize"]}
{"id": "C12", "title": "When serialize fails", "statement": "`serialize` never panics; on values within bounds it fails exactly when some composite encoding on the way reaches 2^32 bytes, with MaximumEncodedLengthReached carrying that length; a List or Bitlist longer than its bound always fails with InvalidInstance(Bounded{bound: N, provided: len}).", "quantifier": "every legal type, every value", "why_tests_cant": "2^32-byte values are out of reach for tests", "anchors": ["ssz-rs/src/ser.rs:Serializer::serialize", "ssz-rs/src/list.rs:serialize", "ssz-rs/src/bitlist.rs:serialize_with_length"]}
{"id": "C13", "title": "Unsigned integers", "statement": "uN and U256 serialize to their exact little-endian bytes, decode by the inverse map, reject every other length, and their root is those bytes zero-padded to 32.", "quantifier": "every integer width and every value", "why_tests_cant": "up to 2^256 values", "anchors": ["ssz-rs/src/uint.rs:define_uint", "ssz-rs/src/uint.rs:U256"]}
{"id": "C14", "title": "Booleans are strict", "statement": "bool decodes only from the one-byte strings 00 and 01; anything else is rejected with the right error.", "quantifier": "every byte string", "why_tests_cant": "unbounded inputs", "anchors": ["ssz-rs/src/boolean.rs"]}
{"id": "C15", "title": "Bitvector decoding", "statement": "`Bitvector<N>::deserialize(b)` succeeds exactly when b has ceil(N/8) bytes and the unused high bits of the last byte are zero; bit i of the result is bit i%8 of byte i/8.", "quantifier": "every N > 0 and every byte string", "why_tests_cant": "every N and every padding pattern", "anchors": ["ssz-rs/src/bitvector.rs:deserialize", "ssz-rs/src/bitvector.rs:serialize"]}
{"id": "C16", "title": "Bitlist decoding", "statement": "`Bitlist<N>::deserialize(b)` succeeds exactly when b is nonempty, at most N/8+1 bytes, its last byte is nonzero and the number of bits below the highest set bit is at most N; the result is exactly those bits.", "quantifier": "every N and every byte string", "why_tests_cant": "every N, every length and delimiter position", "anchors": ["ssz-rs/src/bitlist.rs:deserialize", "ssz-rs/src/bitlist.rs:byte_length"]}
{"id": "C17", "title": "Equal bitlists are observed equal", "statement": "Two Bitlists that compare equal with `==` serialize to the same bytes and have the same hash_tree_root.", "quantifier": "every pair of Bitlists reachable by any sequence of BitVec operations exposed through DerefMut (push, pop, truncate, clear, set)", "why_tests_cant": "depends on the history of the value, not only on its contents", "anchors": ["ssz-rs/src/bitlist.rs:serialize_with_length", "ssz-rs/src/bitlist.rs:DerefMut", "ssz-rs/src/merkleization/merkleize.rs:test_hash_tree_root"]}
{"id": "C18", "title": "Bitlists that never shrink behave like bool sequences", "statement": "A Bitlist built by default, try_from or deserialize and then modified only by push and set serializes to the spec encoding of the bool sequence those operations describe.", "quantifier": "every sequence of operations without pop/truncate/clear", "why_tests_cant": "histories are unbounded", "anchors": ["ssz-rs/src/bitlist.rs:serialize_with_length", "ssz-rs/src/bitlist.rs:set", "ssz-rs/src/bitlist.rs:TryFrom"]}
{"id": "C19", "title": "Container decoding validates offsets", "statement": "A derived container decodes b only if the first offset equals the size of the fixed part, offsets never decrease and never pass the end of b; each field is then decoded from its own span, and the spans together with the offset slots cover b exactly once.", "quantifier": "every container shape and every byte string", "why_tests_cant": "attacker-controlled offsets", "anchors": ["ssz-rs/src/de.rs:ContainerDeserializer", "ssz-rs-derive/src/lib.rs:derive_deserialize_impl"]}
{"id": "C20", "title": "Union decoding", "statement": "A union decodes only when the first byte is an existing selector and the rest decodes as that variant (empty for None); otherwise it is rejected: empty input, unknown selector with InvalidByte, extra bytes after None with AdditionalInput.", "quantifier": "every union and every byte string", "why_tests_cant": "all selectors and payloads", "anchors": ["ssz-rs/src/union.rs:deserialize", "ssz-rs-derive/src/lib.rs:derive_deserialize_impl"]}
{"id": "C21", "title": "Transparent enums", "statement": "Serializing a transparent enum gives the bytes and the root of its payload; decoding returns the last-declared variant that accepts the bytes, or NoMatchingVariant.", "quantifier": "every list of variant types, every value, every nonempty byte string", "why_tests_cant": "needs all variant combinations", "anchors": ["ssz-rs-derive/src/lib.rs:derive_serialize_impl", "ssz-rs-derive/src/lib.rs:derive_deserialize_impl", "ssz-rs-derive/src/lib.rs:derive_merkleization_impl"]}
{"id": "C22", "title": "Transparent enums round trip", "statement": "Decoding the encoding of a transparent enum value gives back that value.", "quantifier": "every transparent enum and every value", "why_tests_cant": "depends on overlaps between variant encodings", "anchors": ["ssz-rs-derive/src/lib.rs:derive_deserialize_impl"]}
{"id": "C23", "title": "Merkleization with virtual padding equals the full tree", "statement": "`merkleize(chunks, limit)` returns the root of the perfect binary tree with next_power_of_two(limit or chunk count) leaves, whose leaf i is chunk i or 32 zero bytes.", "quantifier": "every number of chunks, every chunk contents, every limit up to 2^63, every 32-byte hash function", "why_tests_cant": "limits up to 2^63 leaves cannot be materialised by a test oracle", "anchors": ["ssz-rs/src/merkleization/merkleize.rs:merkleize", "ssz-rs/src/merkleization/merkleize.rs:merkleize_chunks_with_virtual_padding"]}
{"id": "C24", "title": "Merkleization limit", "statement": "`merkleize(chunks, Some(limit))` fails with InputExceedsLimit(limit) exactly when there are more chunks than limit, and never panics for limits up to 2^63.", "quantifier": "all chunk counts and limits", "why_tests_cant": "unbounded", "anchors": ["ssz-rs/src/merkleization/merkleize.rs:merkleize"]}
{"id": "C25", "title": "Zero-hash table", "statement": "Entry d of the precomputed table is the root of a perfect tree of depth d whose leaves are all zero, for all 64 depths.", "quantifier": "all 64 depths, any hash function", "why_tests_cant": "a 2^63-leaf zero tree cannot be built by a test", "anchors": ["ssz-rs/build.rs:compute_zero_hashes", "ssz-rs/src/merkleization/merkleize.rs:Context"]}
{"id": "C26", "title": "compute_merkle_tree builds a Merkle heap", "statement": "In the tree returned by compute_merkle_tree, node g is the hash of nodes 2g and 2g+1 for every interior g, node leaf_count+i is chunk i or zero, and node 1 equals merkleize of the same chunks.", "quantifier": "every power-of-two leaf count, every chunk list that fits", "why_tests_cant": "every tree size", "anchors": ["ssz-rs/src/merkleization/merkleize.rs:compute_merkle_tree", "ssz-rs/src/merkleization/merkleize.rs:Tree"]}
{"id": "C27", "title": "hash_tree_root follows the SSZ specification (fragment)", "statement": "`hash_tree_root` equals the root defined by the SSZ specification for every type in which collections do not have, as element type, a Rust array of non-composite elements (unless 32 bytes long) or a newtype around a basic type.", "quantifier": "every type of the fragment, every in-bounds value, every 32-byte hash function", "why_tests_cant": "must hold for all shapes and sizes", "anchors": ["ssz-rs/src/merkleization/merkleize.rs", "ssz-rs/src/list.rs:compute_hash_tree_root", "ssz-rs/src/vector.rs:compute_hash_tree_root", "ssz-rs-derive/src/lib.rs:derive_merkleization_impl"]}
{"id": "C28", "title": "hash_tree_root follows the SSZ specification (all types)", "statement": "`hash_tree_root` equals the specification root for every type, including collections of arrays and of newtypes.", "quantifier": "every type, every value", "why_tests_cant": "a type-directed mistake only shows on particular nestings", "anchors": ["ssz-rs/src/array.rs:is_composite_type", "ssz-rs-derive/src/lib.rs:derive_merkleization_impl"]}
{"id": "C29", "title": "hash_tree_root is binding", "statement": "Two values of the same type with the same hash_tree_root are equal, unless two different byte strings with the same SHA-256 digest can be read off the two trees.", "quantifier": "all pairs of values of every type", "why_tests_cant": "quantifies over pairs of unbounded values", "anchors": ["ssz-rs/src/merkleization/merkleize.rs"]}
{"id": "C30", "title": "Over-long lists have no root", "statement": "hash_tree_root fails on a List holding more than N elements.", "quantifier": "every List type and every length above N", "why_tests_cant": "needs all element sizes", "anchors": ["ssz-rs/src/list.rs:compute_hash_tree_root"]}
{"id": "C31", "title": "Generalized index equals the specification", "statement": "`T::generalized_index(path)` is the number defined by get_generalized_index in the SSZ merkle-proofs specification (extended to unions) whenever that number and the intermediate products fit in 64 bits.", "quantifier": "every type and every path", "why_tests_cant": "all nestings and limits", "anchors": ["ssz-rs/src/merkleization/generalized_index.rs", "ssz-rs/src/list.rs:compute_generalized_index", "ssz-rs/src/vector.rs:compute_generalized_index", "ssz-rs/src/bitlist.rs:compute_generalized_index", "ssz-rs/src/union.rs:compute_generalized_index", "ssz-rs-derive/src/lib.rs:derive_generalized_indexable_impl"]}
{"id": "C32", "title": "Generalized index rejects invalid paths", "statement": "generalized_index returns an error exactly for paths that do not address a part of the type (index out of bounds, unknown field, Length of a non-list, steps below a basic value), and the error names the offending path element or rest of the path.", "quantifier": "every type and every path", "why_tests_cant": "all malformed paths", "anchors": ["ssz-rs/src/merkleization/generalized_index.rs", "ssz-rs-derive/src/lib.rs:derive_generalized_indexable_impl"]}
{"id": "C33", "title": "Generalized indices nest", "statement": "The generalized index of a path p ++ q is the index of q inside the type addressed by p, grafted under the index of p; so the node of p ++ q lies below the node of p.", "quantifier": "every type and every split of every path", "why_tests_cant": "all nestings", "anchors": ["ssz-rs/src/merkleization/generalized_index.rs:compute_generalized_index"]}
{"id": "C34", "title": "Proofs verify", "statement": "If `v.prove(path)` returns `Ok((proof, witness))` then witness equals v.hash_tree_root(), proof.index equals T::generalized_index(path), and proof.verify(witness) is Ok.", "quantifier": "every type of the fragment, every value, every path, every 32-byte hash function", "why_tests_cant": "all shapes, sizes and paths", "anchors": ["ssz-rs/src/merkleization/proofs.rs:Prover::compute_proof", "ssz-rs/src/merkleization/proofs.rs:Proof::verify"]}
{"id": "C35", "title": "Proofs prove the addressed part", "statement": "In the situation of C34 the leaf of the proof is the hash_tree_root of the part of v addressed by path (for packed basic elements: the 32-byte chunk that contains it; for Length and Selector: that number).", "quantifier": "every type of the fragment, every value, every path", "why_tests_cant": "all shapes, sizes and paths", "anchors": ["ssz-rs/src/merkleization/proofs.rs:Prover::compute_proof"]}
{"id": "C36", "title": "prove does not panic", "statement": "`v.prove(path)` returns Ok or Err, never panics.", "quantifier": "every type, value, path", "why_tests_cant": "depends on value length and path", "anchors": ["ssz-rs/src/list.rs:prove_element", "ssz-rs/src/merkleization/proofs.rs:Prover::compute_proof", "ssz-rs/src/array.rs"]}
{"id": "C37", "title": "Verified branches are binding", "statement": "If two proofs for the same generalized index verify against the same root, they have the same leaf and branch, unless a SHA-256 collision can be read off them.", "quantifier": "all proofs, roots and indices", "why_tests_cant": "adversarial proofs", "anchors": ["ssz-rs/src/merkleization/proofs.rs:is_valid_merkle_branch_for_generalized_index"]}
{"id": "C38", "title": "is_valid_merkle_branch", "statement": "is_valid_merkle_branch accepts exactly when the branch has `depth` nodes and folding the leaf with it along the bits of index gives root; it never panics.", "quantifier": "all leaves, branches, depths, indices, roots", "why_tests_cant": "unbounded branch lengths", "anchors": ["ssz-rs/src/merkleization/proofs.rs:is_valid_merkle_branch"]}
{"id": "C39", "title": "Both single-proof verifiers agree", "statement": "multiproofs::verify_merkle_proof(leaf, branch, index, root) accepts exactly when Proof{leaf, branch, index}.verify(root) does, and rejects index 0 with InvalidGeneralizedIndex.", "quantifier": "all inputs", "why_tests_cant": "two separately written bit walks", "anchors": ["ssz-rs/src/merkleization/multiproofs.rs:verify_merkle_proof", "ssz-rs/src/merkleization/proofs.rs:Proof::verify"]}
{"id": "C40", "title": "Multiproofs: honest proofs are accepted", "statement": "For any Merkle tree, giving the nodes at `indices` as leaves and the nodes at the helper indices as proof makes calculate_multi_merkle_root return the root.", "quantifier": "every tree, every nonempty list of nonzero indices", "why_tests_cant": "every index set", "anchors": ["ssz-rs/src/merkleization/multiproofs.rs:calculate_multi_merkle_root"]}
{"id": "C41", "title": "Multiproofs: sound for independent indices", "statement": "If verify_merkle_multiproof accepts against the root of a Merkle tree and the indices are distinct, nonzero and none is an ancestor of another, then every leaf is the tree node at its index, unless a SHA-256 collision can be read off.", "quantifier": "all trees, leaves, proofs and independent index lists", "why_tests_cant": "adversarial proofs", "anchors": ["ssz-rs/src/merkleization/multiproofs.rs:verify_merkle_multiproof"]}
{"id": "C42", "title": "Multiproofs: sound for all indices", "statement": "The conclusion of C41 holds for any list of indices.", "quantifier": "all index lists, including nested and repeated ones", "why_tests_cant": "adversarial index lists", "anchors": ["ssz-rs/src/merkleization/multiproofs.rs:calculate_multi_merkle_root"]}
{"id": "C43", "title": "Helper indices", "statement": "The helper indices of a multiproof are, in strictly decreasing order and without repetition, exactly the siblings of the nodes on the paths from the indices to the root that are not on such a path themselves.", "quantifier": "every index list", "why_tests_cant": "every index set", "anchors": ["ssz-rs/src/merkleization/multiproofs.rs:get_helper_indices", "ssz-rs/src/merkleization/multiproofs.rs:get_branch_indices", "ssz-rs/src/merkleization/multiproofs.rs:get_path_indices"]}
{"id": "C44", "title": "A multiproof for one index is a single proof", "statement": "calculate_multi_merkle_root(&[leaf], proof, &[i]) equals calculate_merkle_root(leaf, proof, i) for every nonzero i.", "quantifier": "all leaves, proofs, indices", "why_tests_cant": "two different algorithms", "anchors": ["ssz-rs/src/merkleization/multiproofs.rs"]}
{"id": "C45", "title": "Multiproof verification does not panic", "statement": "calculate_multi_merkle_root returns Ok or Err on every input.", "quantifier": "all inputs", "why_tests_cant": "adversarial inputs", "anchors": ["ssz-rs/src/merkleization/multiproofs.rs:calculate_multi_merkle_root"]}
{"id": "C46", "title": "Multiproofs do not depend on hash-map order", "statement": "The result of calculate_multi_merkle_root is the same whatever order the hash map and hash set enumerate their keys (so std and no_std builds agree).", "quantifier": "every enumeration order", "why_tests_cant": "orders are chosen by a random seed at run time", "anchors": ["ssz-rs/src/merkleization/multiproofs.rs", "ssz-rs/src/lib.rs"]}
{"id": "C47", "title": "Construction enforces bounds", "statement": "List::try_from and Bitlist::try_from succeed exactly when the length is at most N; Vector::try_from and Bitvector::try_from exactly when it equals N (and N > 0); a failed Vec conversion gives the vector back unchanged.", "quantifier": "all N and all inputs", "why_tests_cant": "all lengths", "anchors": ["ssz-rs/src/list.rs:TryFrom", "ssz-rs/src/vector.rs:TryFrom", "ssz-rs/src/bitlist.rs:TryFrom", "ssz-rs/src/bitvector.rs:TryFrom"]}
{"id": "C48", "title": "A Vector always serializes N elements", "statement": "Whatever safe operations are applied to a Vector<T, N>, serialize either fails or encodes exactly N elements.", "quantifier": "every sequence of operations available through the public API, including DerefMut", "why_tests_cant": "histories", "anchors": ["ssz-rs/src/vector.rs:DerefMut", "ssz-rs/src/vector.rs:serialize"]}
{"id": "C49", "title": "Bit access", "statement": "get and set on Bitvector and Bitlist: set returns the previous bit or None out of range, get after set returns the new bit, other bits and the length do not change.", "quantifier": "all lengths, indices, values", "why_tests_cant": "all positions, across byte boundaries", "anchors": ["ssz-rs/src/bitvector.rs:set", "ssz-rs/src/bitlist.rs:set"]}
{"id": "C50", "title": "The derive macro accepts exactly legal SSZ types", "statement": "The validation run by the derive macro accepts a struct or enum exactly when it is a container with at least one named field, a newtype, or a union with 1 to 127 variants where a unit variant may only be a leading None followed by at least one variant.", "quantifier": "every struct and enum declaration", "why_tests_cant": "unbounded declarations", "anchors": ["ssz-rs-derive/src/lib.rs:validate_derive_input"]}
{"id": "C51", "title": "Decode errors are truthful", "statement": "ExpectedFurtherInput always reports provided < expected, AdditionalInput provided > expected, OffsetNotIncreasing start > end, Bounded provided > bound, Exact provided != required.", "quantifier": "every input, every type, builds with overflow checks", "why_tests_cant": "every error site under every nesting", "anchors": ["ssz-rs/src/de.rs:DeserializeError", "ssz-rs/src/error.rs:InstanceError"]}
{"id": "C52", "title": "Default values are legal", "statement": "The Default value of every legal collection and container is in bounds, serializes (unless its encoding needs 2^32 bytes or more) and round-trips.", "quantifier": "every legal type", "why_tests_cant": "every N", "anchors": ["ssz-rs/src/vector.rs:Default", "ssz-rs/src/list.rs:Default", "ssz-rs/src/bitvector.rs:Default", "ssz-rs/src/bitlist.rs:Default"]}
{"id": "C53", "title": "Encoding of a newtype is the encoding of its content", "statement": "A newtype struct serializes, decodes, hashes, computes indices and proves exactly as the type it wraps.", "quantifier": "every wrapped type, value, input, path", "why_tests_cant": "every wrapped type", "anchors": ["ssz-rs-derive/src/lib.rs"]}
{"id": "C54", "title": "Bitlists of every bound round-trip", "statement": "The encoding of every Bitlist<N> value decodes to that value, for every N.", "quantifier": "every N and every value", "why_tests_cant": "bounds near 2^64 are never tried", "anchors": ["ssz-rs/src/bitlist.rs:byte_length", "ssz-rs/src/bitlist.rs:deserialize"]}
{"id": "C55", "title": "Derived types are legal", "statement": "A type emitted by the derive macro is a legal SSZ type whenever the types written in the declaration are and its size is in range.", "quantifier": "every declaration the macro accepts", "why_tests_cant": "unbounded declarations", "anchors": ["ssz-rs-derive/src/lib.rs:validate_derive_input", "ssz-rs-derive/src/lib.rs:derive"]}
{"id": "C56", "title": "JSON round trip", "statement": "With the serde feature, a value of a Vector, List, Bitvector or Bitlist, nested in any way and in containers, newtypes and Options that are not directly nested, written as JSON is read back as the same value, if this holds for the element types of other crates.", "quantifier": "every type, every valid value", "why_tests_cant": "unbounded values and nesting", "anchors": ["ssz-rs/src/list.rs:ListVisitor", "ssz-rs/src/vector.rs:VectorVisitor", "ssz-rs/src/bitlist.rs:serde::Deserialize", "ssz-rs/src/bitvector.rs:serde::Deserialize"]}
{"id": "C57", "title": "Values read from JSON are in bounds", "statement": "With the serde feature, whatever is read from JSON satisfies the bounds of its type at every level.", "quantifier": "every type, every JSON value", "why_tests_cant": "every JSON value", "anchors": ["ssz-rs/src/list.rs:serde::Deserialize", "ssz-rs/src/vector.rs:serde::Deserialize", "ssz-rs/src/bitlist.rs:serde::Deserialize", "ssz-rs/src/bitvector.rs:serde::Deserialize"]}
{"id": "C58", "title": "JSON of bit collections is hexadecimal SSZ", "statement": "A Bitvector or Bitlist is written in JSON as \"0x\" and the lower-case hexadecimal digits of its SSZ encoding; it is read exactly from texts that spell, in either case and with or without the prefix, bytes that decode.", "quantifier": "all N, values and JSON values", "why_tests_cant": "all texts", "anchors": ["ssz-rs/src/bitlist.rs:serde::Serialize", "ssz-rs/src/bitvector.rs:serde::Serialize"]}
{"id": "C59", "title": "JSON that is written can be read", "statement": "Whatever safe operations are applied to a collection, if it is written as JSON then the JSON is read back as the same value.", "quantifier": "every value a List or Vector can hold", "why_tests_cant": "histories", "anchors": ["ssz-rs/src/list.rs:List", "ssz-rs/src/vector.rs:Vector"]}
{"id": "C60", "title": "Debug output shows the bits", "statement": "Debug formatting of a Bitvector or Bitlist never panics and shows exactly its bits, so different bits give different text.", "quantifier": "all N, lengths and bits", "why_tests_cant": "lengths around 2^31 are never tried", "anchors": ["ssz-rs/src/bitlist.rs:Debug", "ssz-rs/src/bitvector.rs:Debug"]}
{"id": "C61", "title": "Debug output of a tree", "statement": "Debug formatting of a computed Merkle tree never panics.", "quantifier": "every computed tree", "why_tests_cant": "every tree", "anchors": ["ssz-rs/src/merkleization/merkleize.rs:nodes"]}
{"id": "C62", "title": "Arithmetic on generalized indices", "statement": "get_power_of_two_ceil is the least power of two not below its argument, get_path_length the number of steps to the root, sibling and parent are those of the binary tree, and get_bit tells on which side the path lies.", "quantifier": "all usize arguments", "why_tests_cant": "all arguments, near the top of the range", "anchors": ["ssz-rs/src/merkleization/generalized_index.rs:get_power_of_two_ceil", "ssz-rs/src/merkleization/generalized_index.rs:get_bit"]}
{"id": "C63", "title": "Decoding does not amplify", "statement": "A decoded value needs no more bytes to encode than the bytes it was decoded from, and it contains at most h * max(1, n) values, where n is the number of input bytes and h the nesting depth of the type.", "quantifier": "every legal type, every input", "why_tests_cant": "every input, also crafted offsets", "anchors": ["ssz-rs/src/de.rs:deserialize_variable_homogeneous_composite", "ssz-rs/src/de.rs:ContainerDeserializer"]}
{"id": "C64", "title": "Raising bounds keeps encodings", "statement": "If List and Bitlist bounds are raised and variants are added at the end of unions, at any depth, then valid values stay valid with the same encoding, every input that decoded decodes to the same value, and an input that decodes with the wider type decodes with the narrower one exactly if the value is in its bounds.", "quantifier": "every pair of such types, all values and inputs", "why_tests_cant": "relation between types", "anchors": ["ssz-rs/src/list.rs:deserialize", "ssz-rs/src/bitlist.rs:deserialize", "ssz-rs-derive/src/lib.rs:derive_deserialize_impl"]}
{"id": "C65", "title": "Presentation does not matter", "statement": "Replacing arrays by Vectors, Options by unions and newtypes by their content, at any depth, changes neither what serialize writes or reports nor which inputs decode to what; the root of the replaced type is the root that the specification gives the original one.", "quantifier": "every legal type, all values and inputs", "why_tests_cant": "relation between types", "anchors": ["ssz-rs/src/array.rs", "ssz-rs/src/union.rs", "ssz-rs/src/vector.rs", "ssz-rs-derive/src/lib.rs"]}
{"id": "C66", "title": "Messages tell errors apart", "statement": "Two different errors of one of the error types of the crate have different messages, including the numbers, paths and wrapped errors they carry.", "quantifier": "every pair of errors of every error type", "why_tests_cant": "all numbers, names and paths", "anchors": ["ssz-rs/src/error.rs", "ssz-rs/src/ser.rs", "ssz-rs/src/de.rs", "ssz-rs/src/merkleization/mod.rs"]}
{"id": "C67", "title": "Hashing work of a root", "statement": "hash_tree_root computes one hash for every node above a chunk of the value, one for each length or selector that is mixed in, and none for subtrees of padding. So n bytes of encoding in k trees (values that are not packed into the chunks of another) take at most n/32 + 66k hashes, whatever the bounds of the type are.", "quantifier": "every legal type with trees of at most 2^63 chunks, every value in memory", "why_tests_cant": "cost for all bounds and values; tests do not count hashes", "anchors": ["ssz-rs/src/merkleization/merkleize.rs:merkleize_chunks_with_virtual_padding", "ssz-rs/src/list.rs:hash_tree_root", "ssz-rs/src/union.rs", "ssz-rs-derive/src/lib.rs"]}
{"id": "C68", "title": "Hashing work of a proof", "statement": "prove hashes the whole tree of every value on the way to the node, with all its padding, and the roots of the children that are its chunks. The number is given exactly when a proof is made and is an upper limit when not. So it grows with the bounds of the type: the length of an empty List<u8, 2^k> takes 2^(k-4) hashes to prove, where the root takes one.", "quantifier": "every legal type with trees that can be built, every valid value in memory, every path", "why_tests_cant": "cost for all bounds; large bounds do not fit in memory", "anchors": ["ssz-rs/src/merkleization/proofs.rs:compute_proof", "ssz-rs/src/merkleization/merkleize.rs:compute_merkle_tree", "ssz-rs/src/list.rs:prove_element", "ssz-rs/src/container.rs"]}
{"id": "C69", "title": "Verified proofs are about the value", "statement": "If a Proof of 32-byte nodes for the index of a path verifies against hash_tree_root of a value, then its leaf is the root or packed chunk of the part that the path addresses and its branch is that of the tree of the value, or a collision of the hash can be read off. The proof with that leaf and branch always verifies, also where prove cannot make it, and it is what prove returns where it can.", "quantifier": "every legal type as in C27 and value, every path to a part of it, all leaves and branches", "why_tests_cant": "adversarial proofs for all types and paths", "anchors": ["ssz-rs/src/merkleization/proofs.rs:is_valid_merkle_branch_for_generalized_index", "ssz-rs/src/merkleization/proofs.rs:Proof::verify", "ssz-rs/src/merkleization/generalized_index.rs"]}
{"id": "C70", "title": "Multiproofs about several parts of a value", "statement": "For any paths to parts of a value, the roots or packed chunks of the parts and the helper nodes of the tree of the value are accepted as a multiproof against hash_tree_root; and if no index lies above another, nothing else is accepted unless a collision of the hash can be read off.", "quantifier": "every legal type as in C27 and value, every list of paths, all leaves and helper nodes", "why_tests_cant": "adversarial proofs for all types and sets of paths", "anchors": ["ssz-rs/src/merkleization/multiproofs.rs:verify_merkle_multiproof", "ssz-rs/src/merkleization/multiproofs.rs:get_helper_indices", "ssz-rs/src/merkleization/multiproofs.rs:calculate_multi_merkle_root"]}
{"id": "C71", "title": "Sizes of encodings are bounded by the type", "statement": "An encoding is never shorter or longer than bounds computed from the type alone; both are reached, and all values of a type whose largest encoding is below 2^32 bytes can be encoded. deserialize rejects inputs that are shorter than the smallest encoding, and, if no List has variable-size elements, inputs that are longer than the largest (with such a List it does not, see C04).", "quantifier": "every legal type, all values and inputs", "why_tests_cant": "extreme sizes of all types", "anchors": ["ssz-rs/src/ser.rs", "ssz-rs/src/de.rs", "ssz-rs/src/list.rs:deserialize", "ssz-rs/src/bitlist.rs:deserialize", "ssz-rs/src/vector.rs:deserialize"]}
{"id": "C72", "title": "Branches do not depend on the part they prove", "statement": "If two values differ only in the part that a path addresses (or in the basic elements or bits that share its chunk), prove returns the same branch and index for both, so the root of the changed value is computed from the old branch and the new leaf, and the old branch with the new leaf verifies against it.", "quantifier": "every legal type as in C34, all pairs of values that agree outside the part, every path to a part", "why_tests_cant": "pairs of values that agree outside an arbitrarily nested part", "anchors": ["ssz-rs/src/merkleization/proofs.rs:compute_proof", "ssz-rs/src/merkleization/proofs.rs:extend_branch", "ssz-rs/src/merkleization/proofs.rs:verify"]}
{"id": "C73", "title": "Proofs can be chained and taken apart", "statement": "A proof whose branch is that of a part followed by that of the whole, with the indices grafted, verifies exactly if there is a middle node for which the inner proof verifies and which the outer proof proves; and prove of a path p ++ q returns the branch of prove of q in the part at p followed by the branch of prove of p in the value, the leaf of the latter being the root of the part.", "quantifier": "every pair of branches and indices; every legal type as in C34, every value, every split of every path", "why_tests_cant": "unbounded branches, arbitrarily nested parts", "anchors": ["ssz-rs/src/merkleization/proofs.rs:compute_proof", "ssz-rs/src/merkleization/proofs.rs:extend_branch", "ssz-rs/src/merkleization/proofs.rs:verify", "ssz-rs/src/merkleization/generalized_index.rs:generalized_index"]}
{"id": "C74", "title": "Multiproofs survive changes of the parts they prove", "statement": "If a value is changed, any number of times, in parts addressed by given paths, none of whose indices lies above another, then the helper nodes of the multiproof of these indices do not change: with the new leaves it verifies against the new root, and calculate_multi_merkle_root computes the new root from the new leaves and the old helper nodes.", "quantifier": "every legal type, all values and sequences of changes, every list of paths with independent indices, every iteration order of the hash maps", "why_tests_cant": "arbitrary sequences of changes of arbitrarily nested parts", "anchors": ["ssz-rs/src/merkleization/multiproofs.rs:calculate_multi_merkle_root", "ssz-rs/src/merkleization/multiproofs.rs:verify_merkle_multiproof", "ssz-rs/src/merkleization/multiproofs.rs:get_helper_indices"]}
{"id": "C75", "title": "Proofs when a list gets longer or shorter", "statement": "If two lists (or bit lists) have the same entries except in the chunk of entry i, and any lengths, the proofs of entry i differ in the leaf and in the last node of the branch only, which is the length; so the root after an element is appended follows from the branch of the empty place, the root of the element and the new length.", "quantifier": "every list and bit list type as in C34, all pairs of lists, every entry", "why_tests_cant": "unbounded lists and pairs of lists", "anchors": ["ssz-rs/src/merkleization/proofs.rs:compute_proof", "ssz-rs/src/merkleization/proofs.rs:extend_branch", "ssz-rs/src/list.rs:decoration"]}
{"id": "C76", "title": "Equal values have equal encodings and roots", "statement": "Two values that are equal under == have the same encoding and the same root; values that are not equal have different encodings, and different roots unless the hash function collides. == is an equivalence.", "quantifier": "all legal types, all pairs of values a type can hold", "why_tests_cant": "pairs of values of unbounded size; values after arbitrary mutation", "anchors": ["ssz-rs/src/list.rs:PartialEq", "ssz-rs/src/vector.rs:PartialEq", "ssz-rs/src/bitlist.rs:Bitlist", "ssz-rs/src/bitvector.rs:Bitvector"]}
{"id": "C77", "title": "Values are totally ordered", "statement": "Comparison of values of one type is a total order consistent with ==: numbers by size, sequences, bits, bytes and fields lexicographically, variants by position and then contents, None before Some.", "quantifier": "all types, all triples of values a type can hold", "why_tests_cant": "triples of values of unbounded size", "anchors": ["ssz-rs/src/list.rs:List", "ssz-rs/src/vector.rs:Vector", "ssz-rs/src/bitlist.rs:Bitlist", "ssz-rs/src/bitvector.rs:Bitvector"]}
{"id": "C78", "title": "Later versions of a type", "statement": "If bounds of lists are raised and variants appended to unions, at any depth, so that no tree gets higher, values keep their roots and their proofs; indices are also kept when vectors get longer and containers get further fields. Further fields keep the indices of the old fields exactly if the tree keeps its height.", "quantifier": "all pairs of types in the relation, all values, all paths", "why_tests_cant": "relation between types; unbounded types and values", "anchors": ["ssz-rs/src/merkleization/generalized_index.rs:GeneralizedIndexable", "ssz-rs/src/merkleization/merkleize.rs:HashTreeRoot", "ssz-rs/src/merkleization/proofs.rs:Prover", "ssz-rs-derive/src/lib.rs"]}
{"id": "C79", "title": "Number of hashes of verification", "statement": "A proof with the wrong number of nodes is rejected before anything is hashed; otherwise verification hashes once per level. A multiproof hashes exactly once for every node above the indices that is not itself an index, whatever the iteration order, so at most the sum of the depths; for indices none of which lies above another this is the number of leaves plus helper nodes minus one.", "quantifier": "every proof and multiproof, valid or not, every hash function, every iteration order of the hash maps", "why_tests_cant": "hash calls are not observable in tests; all proofs, also malformed ones", "anchors": ["ssz-rs/src/merkleization/proofs.rs:is_valid_merkle_branch", "ssz-rs/src/merkleization/proofs.rs:verify", "ssz-rs/src/merkleization/multiproofs.rs:verify_merkle_proof", "ssz-rs/src/merkleization/multiproofs.rs:calculate_multi_merkle_root"]}
{"id": "C80", "title": "Decoding takes linear work", "statement": "deserialize, with all the calls for elements, fields and variants that it makes, looks at no more bytes in total than the length of the input (at least 1) times a factor that depends on the type only: the height of the type if it contains no transparent enum. For transparent enums the factor is the sum over the variants, so nested ones take exponential work in their depth, also on an input of one byte. Decoding the encoding of a value takes exactly the bytes of the value and of all values inside it; another input with the same result takes at least that.", "quantifier": "every legal type, every input below 2^63 bytes, valid or not", "why_tests_cant": "worst case over all inputs and types, also malformed offsets that could make elements overlap", "anchors": ["ssz-rs/src/de.rs:deserialize_variable_homogeneous_composite", "ssz-rs/src/de.rs:deserialize_fixed_homogeneous_composite", "ssz-rs/src/de.rs:ContainerDeserializer", "ssz-rs-derive/src/lib.rs"]}
{"id": "C81", "title": "Parts of encodings", "statement": "The encoding of a value contains the encoding of each of its parts as a contiguous piece. Its position follows from the type and the offsets in the bytes, without decoding anything else, and the piece alone decodes to the part. If the piece is replaced by the encoding of another value with the same number of bytes, the result is the encoding of the value with that part replaced, and decodes to it.", "quantifier": "every legal type and value, every place inside the value, every replacement of the same encoded length", "why_tests_cant": "unbounded nesting, all parts of all values, all replacements", "anchors": ["ssz-rs/src/ser.rs:Serializer", "ssz-rs/src/de.rs:ContainerDeserializer", "ssz-rs/src/de.rs:deserialize_variable_homogeneous_composite", "ssz-rs-derive/src/lib.rs"]}
{"id": "C82", "title": "Encoding takes linear work", "statement": "serialize, with all the calls for elements and fields that it makes, writes no more bytes in total (to the buffer of the caller, to the buffers of elements and to the variable parts) than the length of the encoding times twice the height of the type less one, also if it fails. Lists nested d deep reach this factor, so the work grows with the product of length and depth. If the value has an encoding, the number is exactly that of the bytes of all encodings of sequences, containers and leaves inside it, those of variable-size elements and fields once more.", "quantifier": "all types, all valid values, all nesting depths", "why_tests_cant": "Tests measure time on a few values and cannot bound the copies made for every type and depth.", "anchors": ["ssz-rs/src/ser.rs:60-117", "ssz-rs/src/vector.rs:163-174", "ssz-rs/src/list.rs:150-163", "ssz-rs/src/array.rs:30-41", "ssz-rs/src/union.rs:34-51", "ssz-rs-derive/src/lib.rs:44-110"]}
{"id": "C83", "title": "Summaries", "statement": "If parts of a value are replaced by their roots (fields by Node fields, the elements of a collection all together, payloads of unions, at any depth), hash_tree_root stays the same, as between a block and its header. Every path into the summary has the same generalized index in the whole value, and every proof made from the summary is the proof made from the whole value. In particular a root is also the root of the Node with the same bytes, so roots do not determine types.", "quantifier": "all types, values and choices of parts, all paths, any hash function with 32-byte results", "why_tests_cant": "Tests compare a few pairs of types such as a block and its header.", "anchors": ["ssz-rs/src/merkleization/node.rs:43-60", "ssz-rs/src/merkleization/proofs.rs:69-120", "ssz-rs/src/merkleization/generalized_index.rs:GeneralizedIndexable", "ssz-rs-derive/src/lib.rs:310-720"]}
{"id": "C84", "title": "Lists of every bound", "statement": "For every list type with a bound below 2^64 the hash tree root of every value exists and is bound to all of its elements. It is false: the number of leaves is computed in usize, which overflows for more than 2^63 chunks or 2^64 bytes of packed elements. With overflow checks every such root panics; without them the second half of the elements is not hashed, an empty list panics, and packed lists get the limit of the wrapped byte count.", "quantifier": "every list type with a bound for which the arithmetic overflows, every list of valid elements, both build modes", "why_tests_cant": "The bounds involved exceed 2^61 and the collisions concern all pairs of lists with a common first half; tests use bounds of a few thousand.", "anchors": ["ssz-rs/src/merkleization/merkleize.rs:96-206", "ssz-rs/src/list.rs:210-236"]}
{"id": "C85", "title": "Build modes agree", "statement": "Whatever a build with overflow checks and debug assertions does, other than stop at an overflow or an assertion, a build without them does too: the same value, error or other panic and the same bytes in the buffer. So results tested in debug builds carry over to release builds, unless a check fails there.", "quantifier": "all types, values, inputs, paths and proofs, legal or not, every hash function, all texts", "why_tests_cant": "Tests run in one mode; the comparison ranges over every input of every function.", "anchors": ["ssz-rs/src/ser.rs:60-117", "ssz-rs/src/de.rs:60-140", "ssz-rs/src/merkleization/merkleize.rs:90-206", "ssz-rs/src/merkleization/generalized_index.rs", "ssz-rs/src/merkleization/proofs.rs", "ssz-rs/src/merkleization/multiproofs.rs", "ssz-rs/src/serde.rs"]}
{"id": "C86", "title": "Errors name a fault of the input", "statement": "Every error of deserialize names something that is wrong with the input or with the piece of it that belongs to some part of the value, with the lengths, offsets, counts and bytes that are there (in builds without overflow checks an offset behind the input can be reported with a length that wrapped around). Conversely an input with any such fault is never decoded. NoMatchingVariant means that every variant has a fault.", "quantifier": "every legal type, every input below 2^63 bytes, both build modes", "why_tests_cant": "all malformed inputs of all types; tests check a few errors of a few types", "anchors": ["ssz-rs/src/de.rs:74-287", "ssz-rs/src/vector.rs:177-208", "ssz-rs/src/list.rs:166-193", "ssz-rs/src/array.rs:44-73", "ssz-rs/src/bitvector.rs:134-168", "ssz-rs/src/bitlist.rs:138-179", "ssz-rs/src/union.rs:53-75", "ssz-rs-derive/src/lib.rs:124-237"]}
{"id": "C87", "title": "Multiproofs have no superfluous nodes", "statement": "For independent indices the helper indices of a multiproof suffice to compute the root, no choice of nodes beside the paths from the indices to the root suffices with fewer nodes, none of the helpers can be left out, and calculate_multi_merkle_root accepts only proofs with exactly one node per helper.", "quantifier": "every nonempty list of independent nonzero indices, every other choice of nodes", "why_tests_cant": "a minimum over all sets of nodes of an unbounded tree", "anchors": ["ssz-rs/src/merkleization/multiproofs.rs:get_helper_indices", "ssz-rs/src/merkleization/multiproofs.rs:calculate_multi_merkle_root"]}
{"id": "C88", "title": "Encodings show where they end", "statement": "An encoding of a type whose last variable-size part is not a list, a bit list or a transparent enum is never a proper prefix of another encoding of the type; for such types without lists of variable-size elements, adding bytes to or removing trailing bytes from an accepted input always gives an input that is not accepted.", "quantifier": "all such types, values and inputs", "why_tests_cant": "every split of every encoding of nested types", "anchors": ["ssz-rs/src/ser.rs:Serializer", "ssz-rs/src/de.rs:ContainerDeserializer", "ssz-rs/src/union.rs:deserialize"]}
