#!/usr/bin/env python3
"""Regenerates /verif/properties.jsonl (one JSON object per line)."""
import json, os
S='ssz-rs/src/'
P=[]
def p(id,title,statement,quantifier,why,anchors):
    P.append(dict(id=id,title=title,statement=statement,quantifier=quantifier,why_tests_cant=why,anchors=anchors))

p('C01','Round trip','If `serialize(&v)` returns `Ok(bytes)` for a value built through the public constructors, then `T::deserialize(&bytes)` returns `Ok(w)` with `w == v`.',
  'every SSZ type built from bool, uints, U256, Node, Vector, array, List, Bitvector, Bitlist, containers, newtypes, Option and unions nested to any depth (Bitlist bounds below 2^64 - 8, fixed sizes up to 2^63), and every value of that type',
  'the type grammar is infinite and nesting interacts through offsets; tests sample a few types and values',
  [S+'ser.rs:Serializer', S+'de.rs:deserialize_homogeneous_composite', S+'de.rs:ContainerDeserializer', 'ssz-rs-derive/src/lib.rs:derive_serialize_impl','ssz-rs-derive/src/lib.rs:derive_deserialize_impl'])
p('C02','Encoding follows the SSZ specification','`serialize` appends exactly the byte string that the SSZ specification (simple-serialize.md) defines for the value: little-endian uints, fixed parts in order, 4-byte offsets, variable parts in order, bit lists with a delimiter bit, one-byte union selectors.',
  'every SSZ type, every in-bounds value whose composite encodings are below 2^32 bytes, every initial buffer',
  'agreement with an independently written encoder must hold at every nesting shape and length',
  [S+'ser.rs:Serializer::serialize',S+'ser.rs:Serializer::with_element',S+'uint.rs',S+'bitlist.rs:serialize_with_length',S+'bitvector.rs'])
p('C03','Accepted encodings are canonical (no lists of variable-size elements)','If `T::deserialize(b)` returns `Ok(v)` and b is shorter than 2^32 bytes, then `serialize(&v)` returns exactly b, for every type in which no `List` has variable-size elements.',
  'every byte string and every SSZ type without a List of variable-size elements',
  'the space of malformed encodings is unbounded; malleability shows only on inputs nobody thought to write',
  [S+'de.rs',S+'bitlist.rs:deserialize',S+'bitvector.rs:deserialize','ssz-rs-derive/src/lib.rs:derive_deserialize_impl'])
p('C04','Accepted encodings are canonical (all types)','For every SSZ type, `T::deserialize(b) == Ok(v)` implies `serialize(&v) == Ok(b)` for b below 2^32 bytes: no two byte strings decode to the same value.',
  'every byte string and every SSZ type, including Lists of variable-size elements',
  'a single unnoticed malformed shape is enough to break it',
  [S+'de.rs:deserialize_variable_homogeneous_composite',S+'list.rs:deserialize'])
p('C05','Distinct values never share an encoding','Two different values of the same type never serialize to the same bytes.',
  'all pairs of values of every SSZ type',
  'quantifies over pairs of values of unbounded size',
  [S+'ser.rs:Serializer'])
p('C06','serialize only appends and reports the byte count','`serialize(&mut buffer)` never changes or removes bytes already in buffer, on success and on error alike, and on success the returned count is the number of bytes appended.',
  'every type, every value (also out-of-bounds values reached by mutation), every initial buffer',
  'the initial buffer is arbitrary; tests use an empty one',
  [S+'ser.rs:Serialize',S+'bitlist.rs:serialize_with_length',S+'union.rs:serialize'])
p('C07','A failed serialize leaves the buffer untouched','If `serialize(&mut buffer)` returns `Err`, buffer is unchanged.',
  'every type, every value, every initial buffer',
  'needs every failing value under every composite',
  [S+'ser.rs:Serializer::serialize',S+'union.rs:serialize','ssz-rs-derive/src/lib.rs:derive_serialize_impl'])
p('C08','size_hint is exact for fixed-size types','For a type with `is_variable_size() == false`, every in-bounds value serializes to exactly `size_hint()` bytes, and `deserialize` rejects every input of another length.',
  'every fixed-size type, every value, every input',
  'size computations compose multiplicatively over nested types',
  [S+'lib.rs:Serializable',S+'vector.rs:size_hint',S+'bitvector.rs:size_hint','ssz-rs-derive/src/lib.rs:derive_size_hint_impl'])
p('C09','Decoding enforces the bounds of the type','A value returned by `deserialize` satisfies every bound of its type at every nesting level: List and Bitlist length at most N, Vector, array and Bitvector length exactly N, uints in range, selectors of existing variants.',
  'every byte string, every SSZ type',
  'input is attacker controlled and unbounded',
  [S+'list.rs:deserialize',S+'vector.rs:deserialize',S+'array.rs:deserialize',S+'bitlist.rs:deserialize'])
p('C10','Decoding never panics','`T::deserialize(b)` returns `Ok` or `Err` and never panics.',
  'every byte string, every SSZ type, both with and without overflow checks',
  'input is attacker controlled; a panic needs one specific malformed offset table',
  [S+'de.rs:deserialize_variable_homogeneous_composite',S+'de.rs:ContainerDeserializer::parse'])
p('C11','Decoding never panics (fragment)','`T::deserialize(b)` never panics when T contains no collection of variable-size elements and, if overflow checks are on, no container with two or more variable-size fields; without overflow checks containers of any shape are safe.',
  'every byte string, every type of the fragment, both build modes',
  'input is unbounded',
  [S+'de.rs',S+'bitlist.rs:deserialize',S+'bitvector.rs:deserialize',S+'union.rs:deserialize'])
p('C12','When serialize fails','`serialize` never panics; on values within bounds it fails exactly when some composite encoding on the way reaches 2^32 bytes, with MaximumEncodedLengthReached carrying that length; a List or Bitlist longer than its bound always fails with InvalidInstance(Bounded{bound: N, provided: len}).',
  'every legal type, every value',
  '2^32-byte values are out of reach for tests',
  [S+'ser.rs:Serializer::serialize',S+'list.rs:serialize',S+'bitlist.rs:serialize_with_length'])
p('C13','Unsigned integers','uN and U256 serialize to their exact little-endian bytes, decode by the inverse map, reject every other length, and their root is those bytes zero-padded to 32.',
  'every integer width and every value',
  'up to 2^256 values',
  [S+'uint.rs:define_uint',S+'uint.rs:U256'])
p('C14','Booleans are strict','bool decodes only from the one-byte strings 00 and 01; anything else is rejected with the right error.',
  'every byte string','unbounded inputs',
  [S+'boolean.rs'])
p('C15','Bitvector decoding','`Bitvector<N>::deserialize(b)` succeeds exactly when b has ceil(N/8) bytes and the unused high bits of the last byte are zero; bit i of the result is bit i%8 of byte i/8.',
  'every N > 0 and every byte string','every N and every padding pattern',
  [S+'bitvector.rs:deserialize',S+'bitvector.rs:serialize'])
p('C16','Bitlist decoding','`Bitlist<N>::deserialize(b)` succeeds exactly when b is nonempty, at most N/8+1 bytes, its last byte is nonzero and the number of bits below the highest set bit is at most N; the result is exactly those bits.',
  'every N and every byte string','every N, every length and delimiter position',
  [S+'bitlist.rs:deserialize',S+'bitlist.rs:byte_length'])
p('C17','Equal bitlists are observed equal','Two Bitlists that compare equal with `==` serialize to the same bytes and have the same hash_tree_root.',
  'every pair of Bitlists reachable by any sequence of BitVec operations exposed through DerefMut (push, pop, truncate, clear, set)',
  'depends on the history of the value, not only on its contents',
  [S+'bitlist.rs:serialize_with_length',S+'bitlist.rs:DerefMut',S+'merkleization/merkleize.rs:test_hash_tree_root'])
p('C18','Bitlists that never shrink behave like bool sequences','A Bitlist built by default, try_from or deserialize and then modified only by push and set serializes to the spec encoding of the bool sequence those operations describe.',
  'every sequence of operations without pop/truncate/clear','histories are unbounded',
  [S+'bitlist.rs:serialize_with_length',S+'bitlist.rs:set',S+'bitlist.rs:TryFrom'])
p('C19','Container decoding validates offsets','A derived container decodes b only if the first offset equals the size of the fixed part, offsets never decrease and never pass the end of b; each field is then decoded from its own span, and the spans together with the offset slots cover b exactly once.',
  'every container shape and every byte string','attacker-controlled offsets',
  [S+'de.rs:ContainerDeserializer','ssz-rs-derive/src/lib.rs:derive_deserialize_impl'])
p('C20','Union decoding','A union decodes only when the first byte is an existing selector and the rest decodes as that variant (empty for None); otherwise it is rejected: empty input, unknown selector with InvalidByte, extra bytes after None with AdditionalInput.',
  'every union and every byte string','all selectors and payloads',
  [S+'union.rs:deserialize','ssz-rs-derive/src/lib.rs:derive_deserialize_impl'])
p('C21','Transparent enums','Serializing a transparent enum gives the bytes and the root of its payload; decoding returns the last-declared variant that accepts the bytes, or NoMatchingVariant.',
  'every list of variant types, every value, every nonempty byte string','needs all variant combinations',
  ['ssz-rs-derive/src/lib.rs:derive_serialize_impl','ssz-rs-derive/src/lib.rs:derive_deserialize_impl','ssz-rs-derive/src/lib.rs:derive_merkleization_impl'])
p('C22','Transparent enums round trip','Decoding the encoding of a transparent enum value gives back that value.',
  'every transparent enum and every value','depends on overlaps between variant encodings',
  ['ssz-rs-derive/src/lib.rs:derive_deserialize_impl'])
p('C23','Merkleization with virtual padding equals the full tree','`merkleize(chunks, limit)` returns the root of the perfect binary tree with next_power_of_two(limit or chunk count) leaves, whose leaf i is chunk i or 32 zero bytes.',
  'every number of chunks, every chunk contents, every limit up to 2^63, every 32-byte hash function','limits up to 2^63 leaves cannot be materialised by a test oracle',
  [S+'merkleization/merkleize.rs:merkleize',S+'merkleization/merkleize.rs:merkleize_chunks_with_virtual_padding'])
p('C24','Merkleization limit','`merkleize(chunks, Some(limit))` fails with InputExceedsLimit(limit) exactly when there are more chunks than limit, and never panics for limits up to 2^63.',
  'all chunk counts and limits','unbounded',
  [S+'merkleization/merkleize.rs:merkleize'])
p('C25','Zero-hash table','Entry d of the precomputed table is the root of a perfect tree of depth d whose leaves are all zero, for all 64 depths.',
  'all 64 depths, any hash function','a 2^63-leaf zero tree cannot be built by a test',
  ['ssz-rs/build.rs:compute_zero_hashes',S+'merkleization/merkleize.rs:Context'])
p('C26','compute_merkle_tree builds a Merkle heap','In the tree returned by compute_merkle_tree, node g is the hash of nodes 2g and 2g+1 for every interior g, node leaf_count+i is chunk i or zero, and node 1 equals merkleize of the same chunks.',
  'every power-of-two leaf count, every chunk list that fits','every tree size',
  [S+'merkleization/merkleize.rs:compute_merkle_tree',S+'merkleization/merkleize.rs:Tree'])
p('C27','hash_tree_root follows the SSZ specification (fragment)','`hash_tree_root` equals the root defined by the SSZ specification for every type in which collections do not have, as element type, a Rust array of non-composite elements (unless 32 bytes long) or a newtype around a basic type.',
  'every type of the fragment, every in-bounds value, every 32-byte hash function','must hold for all shapes and sizes',
  [S+'merkleization/merkleize.rs',S+'list.rs:compute_hash_tree_root',S+'vector.rs:compute_hash_tree_root','ssz-rs-derive/src/lib.rs:derive_merkleization_impl'])
p('C28','hash_tree_root follows the SSZ specification (all types)','`hash_tree_root` equals the specification root for every type, including collections of arrays and of newtypes.',
  'every type, every value','a type-directed mistake only shows on particular nestings',
  [S+'array.rs:is_composite_type','ssz-rs-derive/src/lib.rs:derive_merkleization_impl'])
p('C29','hash_tree_root is binding','Two values of the same type with the same hash_tree_root are equal, unless two different byte strings with the same SHA-256 digest can be read off the two trees.',
  'all pairs of values of every type','quantifies over pairs of unbounded values',
  [S+'merkleization/merkleize.rs'])
p('C30','Over-long lists have no root','hash_tree_root fails on a List holding more than N elements.',
  'every List type and every length above N','needs all element sizes',
  [S+'list.rs:compute_hash_tree_root'])
p('C31','Generalized index equals the specification','`T::generalized_index(path)` is the number defined by get_generalized_index in the SSZ merkle-proofs specification (extended to unions) whenever that number and the intermediate products fit in 64 bits.',
  'every type and every path','all nestings and limits',
  [S+'merkleization/generalized_index.rs',S+'list.rs:compute_generalized_index',S+'vector.rs:compute_generalized_index',S+'bitlist.rs:compute_generalized_index',S+'union.rs:compute_generalized_index','ssz-rs-derive/src/lib.rs:derive_generalized_indexable_impl'])
p('C32','Generalized index rejects invalid paths','generalized_index returns an error exactly for paths that do not address a part of the type (index out of bounds, unknown field, Length of a non-list, steps below a basic value), and the error names the offending path element or rest of the path.',
  'every type and every path','all malformed paths',
  [S+'merkleization/generalized_index.rs','ssz-rs-derive/src/lib.rs:derive_generalized_indexable_impl'])
p('C33','Generalized indices nest','The generalized index of a path p ++ q is the index of q inside the type addressed by p, grafted under the index of p; so the node of p ++ q lies below the node of p.',
  'every type and every split of every path','all nestings',
  [S+'merkleization/generalized_index.rs:compute_generalized_index'])
p('C34','Proofs verify','If `v.prove(path)` returns `Ok((proof, witness))` then witness equals v.hash_tree_root(), proof.index equals T::generalized_index(path), and proof.verify(witness) is Ok.',
  'every type of the fragment, every value, every path, every 32-byte hash function','all shapes, sizes and paths',
  [S+'merkleization/proofs.rs:Prover::compute_proof',S+'merkleization/proofs.rs:Proof::verify'])
p('C35','Proofs prove the addressed part','In the situation of C34 the leaf of the proof is the hash_tree_root of the part of v addressed by path (for packed basic elements: the 32-byte chunk that contains it; for Length and Selector: that number).',
  'every type of the fragment, every value, every path','all shapes, sizes and paths',
  [S+'merkleization/proofs.rs:Prover::compute_proof'])
p('C36','prove does not panic','`v.prove(path)` returns Ok or Err, never panics.',
  'every type, value, path','depends on value length and path',
  [S+'list.rs:prove_element',S+'merkleization/proofs.rs:Prover::compute_proof',S+'array.rs'])
p('C37','Verified branches are binding','If two proofs for the same generalized index verify against the same root, they have the same leaf and branch, unless a SHA-256 collision can be read off them.',
  'all proofs, roots and indices','adversarial proofs',
  [S+'merkleization/proofs.rs:is_valid_merkle_branch_for_generalized_index'])
p('C38','is_valid_merkle_branch','is_valid_merkle_branch accepts exactly when the branch has `depth` nodes and folding the leaf with it along the bits of index gives root; it never panics.',
  'all leaves, branches, depths, indices, roots','unbounded branch lengths',
  [S+'merkleization/proofs.rs:is_valid_merkle_branch'])
p('C39','Both single-proof verifiers agree','multiproofs::verify_merkle_proof(leaf, branch, index, root) accepts exactly when Proof{leaf, branch, index}.verify(root) does, and rejects index 0 with InvalidGeneralizedIndex.',
  'all inputs','two separately written bit walks',
  [S+'merkleization/multiproofs.rs:verify_merkle_proof',S+'merkleization/proofs.rs:Proof::verify'])
p('C40','Multiproofs: honest proofs are accepted','For any Merkle tree, giving the nodes at `indices` as leaves and the nodes at the helper indices as proof makes calculate_multi_merkle_root return the root.',
  'every tree, every nonempty list of nonzero indices','every index set',
  [S+'merkleization/multiproofs.rs:calculate_multi_merkle_root'])
p('C41','Multiproofs: sound for independent indices','If verify_merkle_multiproof accepts against the root of a Merkle tree and the indices are distinct, nonzero and none is an ancestor of another, then every leaf is the tree node at its index, unless a SHA-256 collision can be read off.',
  'all trees, leaves, proofs and independent index lists','adversarial proofs',
  [S+'merkleization/multiproofs.rs:verify_merkle_multiproof'])
p('C42','Multiproofs: sound for all indices','The conclusion of C41 holds for any list of indices.',
  'all index lists, including nested and repeated ones','adversarial index lists',
  [S+'merkleization/multiproofs.rs:calculate_multi_merkle_root'])
p('C43','Helper indices','The helper indices of a multiproof are, in strictly decreasing order and without repetition, exactly the siblings of the nodes on the paths from the indices to the root that are not on such a path themselves.',
  'every index list','every index set',
  [S+'merkleization/multiproofs.rs:get_helper_indices',S+'merkleization/multiproofs.rs:get_branch_indices',S+'merkleization/multiproofs.rs:get_path_indices'])
p('C44','A multiproof for one index is a single proof','calculate_multi_merkle_root(&[leaf], proof, &[i]) equals calculate_merkle_root(leaf, proof, i) for every nonzero i.',
  'all leaves, proofs, indices','two different algorithms',
  [S+'merkleization/multiproofs.rs'])
p('C45','Multiproof verification does not panic','calculate_multi_merkle_root returns Ok or Err on every input.',
  'all inputs','adversarial inputs',
  [S+'merkleization/multiproofs.rs:calculate_multi_merkle_root'])
p('C46','Multiproofs do not depend on hash-map order','The result of calculate_multi_merkle_root is the same whatever order the hash map and hash set enumerate their keys (so std and no_std builds agree).',
  'every enumeration order','orders are chosen by a random seed at run time',
  [S+'merkleization/multiproofs.rs',S+'lib.rs'])
p('C47','Construction enforces bounds','List::try_from and Bitlist::try_from succeed exactly when the length is at most N; Vector::try_from and Bitvector::try_from exactly when it equals N (and N > 0); a failed Vec conversion gives the vector back unchanged.',
  'all N and all inputs','all lengths',
  [S+'list.rs:TryFrom',S+'vector.rs:TryFrom',S+'bitlist.rs:TryFrom',S+'bitvector.rs:TryFrom'])
p('C48','A Vector always serializes N elements','Whatever safe operations are applied to a Vector<T, N>, serialize either fails or encodes exactly N elements.',
  'every sequence of operations available through the public API, including DerefMut','histories',
  [S+'vector.rs:DerefMut',S+'vector.rs:serialize'])
p('C49','Bit access','get and set on Bitvector and Bitlist: set returns the previous bit or None out of range, get after set returns the new bit, other bits and the length do not change.',
  'all lengths, indices, values','all positions, across byte boundaries',
  [S+'bitvector.rs:set',S+'bitlist.rs:set'])
p('C50','The derive macro accepts exactly legal SSZ types','The validation run by the derive macro accepts a struct or enum exactly when it is a container with at least one named field, a newtype, or a union with 1 to 127 variants where a unit variant may only be a leading None followed by at least one variant.',
  'every struct and enum declaration','unbounded declarations',
  ['ssz-rs-derive/src/lib.rs:validate_derive_input'])
p('C51','Decode errors are truthful','ExpectedFurtherInput always reports provided < expected, AdditionalInput provided > expected, OffsetNotIncreasing start > end, Bounded provided > bound, Exact provided != required.',
  'every input, every type, builds with overflow checks','every error site under every nesting',
  [S+'de.rs:DeserializeError',S+'error.rs:InstanceError'])
p('C52','Default values are legal','The Default value of every legal collection and container is in bounds, serializes (unless its encoding needs 2^32 bytes or more) and round-trips.',
  'every legal type','every N',
  [S+'vector.rs:Default',S+'list.rs:Default',S+'bitvector.rs:Default',S+'bitlist.rs:Default'])
p('C53','Encoding of a newtype is the encoding of its content','A newtype struct serializes, decodes, hashes, computes indices and proves exactly as the type it wraps.',
  'every wrapped type, value, input, path','every wrapped type',
  ['ssz-rs-derive/src/lib.rs'])
p('C54','Bitlists of every bound round-trip','The encoding of every Bitlist<N> value decodes to that value, for every N.',
  'every N and every value','bounds near 2^64 are never tried',
  [S+'bitlist.rs:byte_length',S+'bitlist.rs:deserialize'])
p('C55','Derived types are legal','A type emitted by the derive macro is a legal SSZ type whenever the types written in the declaration are and its size is in range.',
  'every declaration the macro accepts','unbounded declarations',
  ['ssz-rs-derive/src/lib.rs:validate_derive_input','ssz-rs-derive/src/lib.rs:derive'])
p('C56','JSON round trip','With the serde feature, a value of a Vector, List, Bitvector or Bitlist, nested in any way and in containers, newtypes and Options that are not directly nested, written as JSON is read back as the same value, if this holds for the element types of other crates.',
  'every type, every valid value','unbounded values and nesting',
  [S+'list.rs:ListVisitor',S+'vector.rs:VectorVisitor',S+'bitlist.rs:serde::Deserialize',S+'bitvector.rs:serde::Deserialize'])
p('C57','Values read from JSON are in bounds','With the serde feature, whatever is read from JSON satisfies the bounds of its type at every level.',
  'every type, every JSON value','every JSON value',
  [S+'list.rs:serde::Deserialize',S+'vector.rs:serde::Deserialize',S+'bitlist.rs:serde::Deserialize',S+'bitvector.rs:serde::Deserialize'])
p('C58','JSON of bit collections is hexadecimal SSZ','A Bitvector or Bitlist is written in JSON as "0x" and the lower-case hexadecimal digits of its SSZ encoding; it is read exactly from texts that spell, in either case and with or without the prefix, bytes that decode.',
  'all N, values and JSON values','all texts',
  [S+'bitlist.rs:serde::Serialize',S+'bitvector.rs:serde::Serialize'])
p('C59','JSON that is written can be read','Whatever safe operations are applied to a collection, if it is written as JSON then the JSON is read back as the same value.',
  'every value a List or Vector can hold','histories',
  [S+'list.rs:List',S+'vector.rs:Vector'])
p('C60','Debug output shows the bits','Debug formatting of a Bitvector or Bitlist never panics and shows exactly its bits, so different bits give different text.',
  'all N, lengths and bits','lengths around 2^31 are never tried',
  [S+'bitlist.rs:Debug',S+'bitvector.rs:Debug'])
p('C61','Debug output of a tree','Debug formatting of a computed Merkle tree never panics.',
  'every computed tree','every tree',
  [S+'merkleization/merkleize.rs:nodes'])
p('C62','Arithmetic on generalized indices','get_power_of_two_ceil is the least power of two not below its argument, get_path_length the number of steps to the root, sibling and parent are those of the binary tree, and get_bit tells on which side the path lies.',
  'all usize arguments','all arguments, near the top of the range',
  [S+'merkleization/generalized_index.rs:get_power_of_two_ceil',S+'merkleization/generalized_index.rs:get_bit'])
p('C63','Decoding does not amplify','A decoded value needs no more bytes to encode than the bytes it was decoded from, and it contains at most h * max(1, n) values, where n is the number of input bytes and h the nesting depth of the type.',
  'every legal type, every input','every input, also crafted offsets',
  [S+'de.rs:deserialize_variable_homogeneous_composite',S+'de.rs:ContainerDeserializer'])
p('C64','Raising bounds keeps encodings','If List and Bitlist bounds are raised and variants are added at the end of unions, at any depth, then valid values stay valid with the same encoding, every input that decoded decodes to the same value, and an input that decodes with the wider type decodes with the narrower one exactly if the value is in its bounds.',
  'every pair of such types, all values and inputs','relation between types',
  [S+'list.rs:deserialize',S+'bitlist.rs:deserialize','ssz-rs-derive/src/lib.rs:derive_deserialize_impl'])
p('C65','Presentation does not matter','Replacing arrays by Vectors, Options by unions and newtypes by their content, at any depth, changes neither what serialize writes or reports nor which inputs decode to what; the root of the replaced type is the root that the specification gives the original one.',
  'every legal type, all values and inputs','relation between types',
  [S+'array.rs',S+'union.rs',S+'vector.rs','ssz-rs-derive/src/lib.rs'])
p('C66','Messages tell errors apart','Two different errors of one of the error types of the crate have different messages, including the numbers, paths and wrapped errors they carry.',
  'every pair of errors of every error type','all numbers, names and paths',
  [S+'error.rs',S+'ser.rs',S+'de.rs',S+'merkleization/mod.rs'])
p('C67','Hashing work of a root','hash_tree_root computes one hash for every node above a chunk of the value, one for each length or selector that is mixed in, and none for subtrees of padding. So n bytes of encoding in k trees (values that are not packed into the chunks of another) take at most n/32 + 66k hashes, whatever the bounds of the type are.',
  'every legal type with trees of at most 2^63 chunks, every value in memory','cost for all bounds and values; tests do not count hashes',
  [S+'merkleization/merkleize.rs:merkleize_chunks_with_virtual_padding',S+'list.rs:hash_tree_root',S+'union.rs','ssz-rs-derive/src/lib.rs'])
p('C68','Hashing work of a proof','prove hashes the whole tree of every value on the way to the node, with all its padding, and the roots of the children that are its chunks. The number is given exactly when a proof is made and is an upper limit when not. So it grows with the bounds of the type: the length of an empty List<u8, 2^k> takes 2^(k-4) hashes to prove, where the root takes one.',
  'every legal type with trees that can be built, every valid value in memory, every path','cost for all bounds; large bounds do not fit in memory',
  [S+'merkleization/proofs.rs:compute_proof',S+'merkleization/merkleize.rs:compute_merkle_tree',S+'list.rs:prove_element',S+'container.rs'])
p('C69','Verified proofs are about the value','If a Proof of 32-byte nodes for the index of a path verifies against hash_tree_root of a value, then its leaf is the root or packed chunk of the part that the path addresses and its branch is that of the tree of the value, or a collision of the hash can be read off. The proof with that leaf and branch always verifies, also where prove cannot make it, and it is what prove returns where it can.',
  'every legal type as in C27 and value, every path to a part of it, all leaves and branches','adversarial proofs for all types and paths',
  [S+'merkleization/proofs.rs:is_valid_merkle_branch_for_generalized_index',S+'merkleization/proofs.rs:Proof::verify',S+'merkleization/generalized_index.rs'])
p('C70','Multiproofs about several parts of a value','For any paths to parts of a value, the roots or packed chunks of the parts and the helper nodes of the tree of the value are accepted as a multiproof against hash_tree_root; and if no index lies above another, nothing else is accepted unless a collision of the hash can be read off.',
  'every legal type as in C27 and value, every list of paths, all leaves and helper nodes','adversarial proofs for all types and sets of paths',
  [S+'merkleization/multiproofs.rs:verify_merkle_multiproof',S+'merkleization/multiproofs.rs:get_helper_indices',S+'merkleization/multiproofs.rs:calculate_multi_merkle_root'])
p('C71','Sizes of encodings are bounded by the type','An encoding is never shorter or longer than bounds computed from the type alone; both are reached, and all values of a type whose largest encoding is below 2^32 bytes can be encoded. deserialize rejects inputs that are shorter than the smallest encoding, and, if no List has variable-size elements, inputs that are longer than the largest (with such a List it does not, see C04).',
  'every legal type, all values and inputs','extreme sizes of all types',
  [S+'ser.rs',S+'de.rs',S+'list.rs:deserialize',S+'bitlist.rs:deserialize',S+'vector.rs:deserialize'])
p('C72','Branches do not depend on the part they prove','If two values differ only in the part that a path addresses (or in the basic elements or bits that share its chunk), prove returns the same branch and index for both, so the root of the changed value is computed from the old branch and the new leaf, and the old branch with the new leaf verifies against it.',
  'every legal type as in C34, all pairs of values that agree outside the part, every path to a part','pairs of values that agree outside an arbitrarily nested part',
  [S+'merkleization/proofs.rs:compute_proof',S+'merkleization/proofs.rs:extend_branch',S+'merkleization/proofs.rs:verify'])
p('C73','Proofs can be chained and taken apart','A proof whose branch is that of a part followed by that of the whole, with the indices grafted, verifies exactly if there is a middle node for which the inner proof verifies and which the outer proof proves; and prove of a path p ++ q returns the branch of prove of q in the part at p followed by the branch of prove of p in the value, the leaf of the latter being the root of the part.',
  'every pair of branches and indices; every legal type as in C34, every value, every split of every path','unbounded branches, arbitrarily nested parts',
  [S+'merkleization/proofs.rs:compute_proof',S+'merkleization/proofs.rs:extend_branch',S+'merkleization/proofs.rs:verify',S+'merkleization/generalized_index.rs:generalized_index'])
p('C74','Multiproofs survive changes of the parts they prove','If a value is changed, any number of times, in parts addressed by given paths, none of whose indices lies above another, then the helper nodes of the multiproof of these indices do not change: with the new leaves it verifies against the new root, and calculate_multi_merkle_root computes the new root from the new leaves and the old helper nodes.',
  'every legal type, all values and sequences of changes, every list of paths with independent indices, every iteration order of the hash maps','arbitrary sequences of changes of arbitrarily nested parts',
  [S+'merkleization/multiproofs.rs:calculate_multi_merkle_root',S+'merkleization/multiproofs.rs:verify_merkle_multiproof',S+'merkleization/multiproofs.rs:get_helper_indices'])
p('C75','Proofs when a list gets longer or shorter','If two lists (or bit lists) have the same entries except in the chunk of entry i, and any lengths, the proofs of entry i differ in the leaf and in the last node of the branch only, which is the length; so the root after an element is appended follows from the branch of the empty place, the root of the element and the new length.',
  'every list and bit list type as in C34, all pairs of lists, every entry','unbounded lists and pairs of lists',
  [S+'merkleization/proofs.rs:compute_proof',S+'merkleization/proofs.rs:extend_branch',S+'list.rs:decoration'])
p('C76','Equal values have equal encodings and roots','Two values that are equal under == have the same encoding and the same root; values that are not equal have different encodings, and different roots unless the hash function collides. == is an equivalence.',
  'all legal types, all pairs of values a type can hold','pairs of values of unbounded size; values after arbitrary mutation',
  [S+'list.rs:PartialEq',S+'vector.rs:PartialEq',S+'bitlist.rs:Bitlist',S+'bitvector.rs:Bitvector'])
p('C77','Values are totally ordered','Comparison of values of one type is a total order consistent with ==: numbers by size, sequences, bits, bytes and fields lexicographically, variants by position and then contents, None before Some.',
  'all types, all triples of values a type can hold','triples of values of unbounded size',
  [S+'list.rs:List',S+'vector.rs:Vector',S+'bitlist.rs:Bitlist',S+'bitvector.rs:Bitvector'])
p('C78','Later versions of a type','If bounds of lists are raised and variants appended to unions, at any depth, so that no tree gets higher, values keep their roots and their proofs; indices are also kept when vectors get longer and containers get further fields. Further fields keep the indices of the old fields exactly if the tree keeps its height.',
  'all pairs of types in the relation, all values, all paths','relation between types; unbounded types and values',
  [S+'merkleization/generalized_index.rs:GeneralizedIndexable',S+'merkleization/merkleize.rs:HashTreeRoot',S+'merkleization/proofs.rs:Prover','ssz-rs-derive/src/lib.rs'])
p('C79','Number of hashes of verification','A proof with the wrong number of nodes is rejected before anything is hashed; otherwise verification hashes once per level. A multiproof hashes exactly once for every node above the indices that is not itself an index, whatever the iteration order, so at most the sum of the depths; for indices none of which lies above another this is the number of leaves plus helper nodes minus one.',
  'every proof and multiproof, valid or not, every hash function, every iteration order of the hash maps','hash calls are not observable in tests; all proofs, also malformed ones',
  [S+'merkleization/proofs.rs:is_valid_merkle_branch',S+'merkleization/proofs.rs:verify',S+'merkleization/multiproofs.rs:verify_merkle_proof',S+'merkleization/multiproofs.rs:calculate_multi_merkle_root'])
p('C80','Decoding takes linear work','deserialize, with all the calls for elements, fields and variants that it makes, looks at no more bytes in total than the length of the input (at least 1) times a factor that depends on the type only: the height of the type if it contains no transparent enum. For transparent enums the factor is the sum over the variants, so nested ones take exponential work in their depth, also on an input of one byte. Decoding the encoding of a value takes exactly the bytes of the value and of all values inside it; another input with the same result takes at least that.',
  'every legal type, every input below 2^63 bytes, valid or not','worst case over all inputs and types, also malformed offsets that could make elements overlap',
  [S+'de.rs:deserialize_variable_homogeneous_composite',S+'de.rs:deserialize_fixed_homogeneous_composite',S+'de.rs:ContainerDeserializer','ssz-rs-derive/src/lib.rs'])
p('C81','Parts of encodings','The encoding of a value contains the encoding of each of its parts as a contiguous piece. Its position follows from the type and the offsets in the bytes, without decoding anything else, and the piece alone decodes to the part. If the piece is replaced by the encoding of another value with the same number of bytes, the result is the encoding of the value with that part replaced, and decodes to it.',
  'every legal type and value, every place inside the value, every replacement of the same encoded length','unbounded nesting, all parts of all values, all replacements',
  [S+'ser.rs:Serializer',S+'de.rs:ContainerDeserializer',S+'de.rs:deserialize_variable_homogeneous_composite','ssz-rs-derive/src/lib.rs'])
p('C82','Encoding takes linear work','serialize, with all the calls for elements and fields that it makes, writes no more bytes in total (to the buffer of the caller, to the buffers of elements and to the variable parts) than the length of the encoding times twice the height of the type less one, also if it fails. Lists nested d deep reach this factor, so the work grows with the product of length and depth. If the value has an encoding, the number is exactly that of the bytes of all encodings of sequences, containers and leaves inside it, those of variable-size elements and fields once more.',
  'all types, all valid values, all nesting depths','Tests measure time on a few values and cannot bound the copies made for every type and depth.',
  [S+'ser.rs:60-117',S+'vector.rs:163-174',S+'list.rs:150-163',S+'array.rs:30-41',S+'union.rs:34-51','ssz-rs-derive/src/lib.rs:44-110'])
p('C83','Summaries','If parts of a value are replaced by their roots (fields by Node fields, the elements of a collection all together, payloads of unions, at any depth), hash_tree_root stays the same, as between a block and its header. Every path into the summary has the same generalized index in the whole value, and every proof made from the summary is the proof made from the whole value. In particular a root is also the root of the Node with the same bytes, so roots do not determine types.',
  'all types, values and choices of parts, all paths, any hash function with 32-byte results','Tests compare a few pairs of types such as a block and its header.',
  [S+'merkleization/node.rs:43-60',S+'merkleization/proofs.rs:69-120',S+'merkleization/generalized_index.rs:GeneralizedIndexable','ssz-rs-derive/src/lib.rs:310-720'])
p('C84','Lists of every bound','For every list type with a bound below 2^64 the hash tree root of every value exists and is bound to all of its elements. It is false: the number of leaves is computed in usize, which overflows for more than 2^63 chunks or 2^64 bytes of packed elements. With overflow checks every such root panics; without them the second half of the elements is not hashed, an empty list panics, and packed lists get the limit of the wrapped byte count.',
  'every list type with a bound for which the arithmetic overflows, every list of valid elements, both build modes','The bounds involved exceed 2^61 and the collisions concern all pairs of lists with a common first half; tests use bounds of a few thousand.',
  [S+'merkleization/merkleize.rs:96-206',S+'list.rs:210-236'])

p('C85','Build modes agree','Whatever a build with overflow checks and debug assertions does, other than stop at an overflow or an assertion, a build without them does too: the same value, error or other panic and the same bytes in the buffer. So results tested in debug builds carry over to release builds, unless a check fails there.',
  'all types, values, inputs, paths and proofs, legal or not, every hash function, all texts','Tests run in one mode; the comparison ranges over every input of every function.',
  [S+'ser.rs:60-117',S+'de.rs:60-140',S+'merkleization/merkleize.rs:90-206',S+'merkleization/generalized_index.rs',S+'merkleization/proofs.rs',S+'merkleization/multiproofs.rs',S+'serde.rs'])

p('C86','Errors name a fault of the input','Every error of deserialize names something that is wrong with the input or with the piece of it that belongs to some part of the value, with the lengths, offsets, counts and bytes that are there (in builds without overflow checks an offset behind the input can be reported with a length that wrapped around). Conversely an input with any such fault is never decoded. NoMatchingVariant means that every variant has a fault.',
  'every legal type, every input below 2^63 bytes, both build modes','all malformed inputs of all types; tests check a few errors of a few types',
  [S+'de.rs:74-287',S+'vector.rs:177-208',S+'list.rs:166-193',S+'array.rs:44-73',S+'bitvector.rs:134-168',S+'bitlist.rs:138-179',S+'union.rs:53-75','ssz-rs-derive/src/lib.rs:124-237'])

p('C87','Multiproofs have no superfluous nodes','For independent indices the helper indices of a multiproof suffice to compute the root, no choice of nodes beside the paths from the indices to the root suffices with fewer nodes, none of the helpers can be left out, and calculate_multi_merkle_root accepts only proofs with exactly one node per helper.',
  'every nonempty list of independent nonzero indices, every other choice of nodes','a minimum over all sets of nodes of an unbounded tree',
  [S+'merkleization/multiproofs.rs:get_helper_indices',S+'merkleization/multiproofs.rs:calculate_multi_merkle_root'])
p('C88','Encodings show where they end','An encoding of a type whose last variable-size part is not a list, a bit list or a transparent enum is never a proper prefix of another encoding of the type; for such types without lists of variable-size elements, adding bytes to or removing trailing bytes from an accepted input always gives an input that is not accepted.',
  'all such types, values and inputs','every split of every encoding of nested types',
  [S+'ser.rs:Serializer',S+'de.rs:ContainerDeserializer',S+'union.rs:deserialize'])
out=os.path.join(os.path.dirname(os.path.abspath(__file__)),'..','properties.jsonl')
with open(out,'w') as f:
    for x in P: f.write(json.dumps(x)+'\n')
print(len(P))
