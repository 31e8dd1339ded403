{
 "C01": [
  null,
  "Holds for every legal type without transparent enums (C22 covers those). Legal bounds Bitlist limits below 2^64-8 and sizes of fixed-size types by 2^63."
 ],
 "C02": [
  null,
  "Against an independent transcription of simple-serialize.md (SpecSer.v)."
 ],
 "C04": [
  null,
  "False: a List of variable-size elements decodes as empty from four zero bytes followed by anything. C04_partial is an exact description of what every type without transparent enums accepts, and a necessary one for all types; C10_partial is exact for all types."
 ],
 "C06": [
  null,
  "Append-only holds always. The count is false for a Bitvector whose length was changed through DerefMut; C06_partial has it for all other values. C06_exact_partial gives bytes and report for every value a type can hold (write, SpecWrite.v)."
 ],
 "C07": [
  null,
  "False for Option and unions: the selector byte is written before the payload fails. C07_partial covers all other types. C07_exact_partial: for all types exactly the selectors leading to the failing part are left in the buffer."
 ],
 "C10": [
  null,
  "False: a collection of variable-size elements slices its input with unchecked offsets. C10_partial describes the outcome on every byte string for every type: the value, an error, or a panic. C11 gives the types that never panic."
 ],
 "C11": [
  "proved",
  "C11_container_panics shows the restriction on containers is needed with overflow checks."
 ],
 "C17": [
  null,
  "False after pop, truncate or clear: dead bits of the last byte are serialized and hashed. C17_partial covers lists that never shrink (they are equal as values, so roots agree too). C17_exact_partial: equal lists encode alike exactly if their left-over bits agree. C17_root_exact_partial: their roots agree exactly if all stored bits agree, up to collisions of the hash function; this includes the bit at the place of the end marker, which the encoding does not show."
 ],
 "C22": [
  null,
  "False: a later variant may accept the bytes, and an empty encoding is rejected. C22_partial states when it holds; C10_partial gives the decoded value in all cases."
 ],
 "C47": [
  "proved",
  "Bitvector<0>::try_from(&[]) panics instead of returning an error (C47_bitvector_zero)."
 ],
 "C48": [
  null,
  "False: push through DerefMut makes the Vector longer and serialize does not notice. C48_partial covers assignments to elements. C48_exact_partial: in every case exactly the elements held are encoded."
 ],
 "C51": [
  "proved",
  "Also in builds without overflow checks when containers have at most one variable-size field; C51_release_refuted shows it fails there otherwise."
 ],
 "C54": [
  null,
  "False for N >= 2^64-8: N + 8 overflows. C54_partial has all smaller bounds."
 ],
 "C23": [
  null,
  "For every 32-byte hash function; limits and chunk counts up to 2^63."
 ],
 "C26": [
  null,
  "For leaf counts up to 2^57: the buffer of a larger tree cannot be addressed with 64-bit sizes."
 ],
 "C27": [
  null,
  "Against an independent transcription of the specification (SpecMerkle.v), for every 32-byte hash function; `regular` is the fragment of the statement plus bounds of 2^63 on chunk counts."
 ],
 "C28": [
  null,
  "False: Vector<[u8; 2], 2> and Vector<Wrapper(u8), 2> have other roots. C28_partial describes the root of every legal type (up to size bounds): the specification's, with another choice of packed element types. C27 is the fragment where both agree. C28_exact_partial describes the outcome for every value a Rust type can hold, also out of bounds."
 ],
 "C29": [
  null,
  "C29_partial: every legal type without transparent enums, up to size bounds; C29_binding_partial: the same with the specification's tree on the fragment of C27. The collision is between byte strings hashed for the two roots. C29_transparent_refuted: different variants of a transparent enum can have the same root."
 ],
 "C30": [
  null,
  "False: List<u8, 1> with two elements has a root. C30_partial is an exact description of the root of a list of any length. C30_all_types_partial: for every element type, an over-long list has a root exactly when its elements are packed and their chunks fit."
 ],
 "C31": [
  null,
  "Proved except for collections of newtypes of basic types, where it is false (C31_newtypes_refuted). C31_all_types_partial and C31_checked_partial give the index of every type; the latter is an equivalence."
 ],
 "C32": [
  "proved",
  "Paths through transparent enums are those of the union with the same variants. The only panics are index overflows in builds with overflow checks."
 ],
 "C34": [
  null,
  "C34_partial: types of the fragment (trees of at most 2^57 leaves on the path), parts that the value has, index below 2^64. C34_all_types_partial is the same for every type (newtypes of basic types and nested arrays included), with the index and leaf that ssz-rs uses. C34_exact_partial gives leaf, branch and witness of every proof that prove returns, for every type, value and path, says when it verifies and when its witness is the root. False for paths through a variant that a union value does not have (C34_variants_refuted: the proof does not verify), for arrays of basic elements in a collection and for transparent enums (C34_arrays_refuted, C34_transparent_refuted: the witness is not the root)."
 ],
 "C35": [
  null,
  "As C34, with C35_all_types_partial for every type; C34_exact_partial gives the leaf of every proof. prove also returns verifying proofs for parts that the value does not have (C35_variants_refuted)."
 ],
 "C36": [
  null,
  "False: a path below an absent List element panics. C36_partial covers parts that the value has and all invalid paths. C36_exact_partial gives the outcome (proof, error or panic) for every value and path; missing are only types with more than 2^64 bytes in a collection."
 ],
 "C38": [
  null,
  "False: branches of more than 64 nodes panic. C38_partial is exact for all inputs."
 ],
 "C42": [
  null,
  "False: a leaf below another leaf is not checked. C42_partial covers every leaf that is not below another index."
 ],
 "C45": [
  null,
  "False: the empty list of indices panics. C45_partial is exact for all inputs."
 ],
 "C50": [
  null,
  "Attributes (#[ssz(...)]) and the transparent helper are included. Declarations are an abstract syntax of the parsed input; parsing, generics and hygiene of the emitted tokens are not modelled."
 ],
 "C55": [
  null,
  "legal is the hypothesis on types of the other properties."
 ],
 "C33": [
  null,
  "For every type; with overflow checks without any condition (C33_checked)."
 ],
 "C56": [
  null,
  "Serde support of bool, integers, U256, Node, arrays and enums comes from other crates (or their derive) and is a parameter; that of structs, newtypes and Option is modelled after serde."
 ],
 "C57": [
  null,
  "As C56; the parameter is assumed to read only values in range."
 ],
 "C58": [
  null,
  "Hexadecimal text is modelled after const-hex (optional prefix 0x, both cases, even length)."
 ],
 "C59": [
  null,
  "False: a List pushed beyond its bound through DerefMut is written and rejected on reading. C59_partial is exact for List and Vector over valid elements."
 ],
 "C60": [
  null,
  "False: the loop counter is an i32, so 2^31 bits panic with overflow checks. C60_partial gives the text in all other cases and shows it determines the bits."
 ],
 "C61": [
  null,
  "False: nodes are parsed as hexadecimal text, so formatting any tree panics (C61_partial)."
 ],
 "C62": [
  null,
  "For arguments above 2^63 get_power_of_two_ceil panics with overflow checks and gives 0 without; get_bit panics for positions of 64 or more."
 ],
 "C76": [
  null,
  "False for bitlists and bitvectors that store bits beyond their length (after pop or truncate): == ignores them, encodings and roots do not. C76_same_value: == ignores nothing else. C76_partial and C76_roots_partial: true for all valid values."
 ],
 "C77": [
  null,
  "Structs and enums are taken to derive their comparisons; that code is generated by rustc, not by the crate."
 ],
 "C78": [
  null,
  "Indices and proofs that are computed without overflow for the old type. The roots need equal heights of the trees that hash_tree_root builds, the indices of those that generalized indices count in."
 ],
 "C79": [
  null,
  "Work is the number of calls of the hash function, in a copy of the verifiers with a counter that is shown to return the same results. Hash map operations are not counted."
 ],
 "C80": [
  null,
  "Work is the number of bytes given to all calls of deserialize (at least 1 each), in a copy of the decoder with a counter that is shown to return the same results. The bookkeeping of offsets and spans, and reallocation of vectors, is not counted."
 ],
 "C81": [
  null,
  "Locating and decoding need a type without transparent enums, as C01; replacing bytes does not."
 ],
 "C82": [
  null,
  "Bytes written are counted, not the growth of vectors by reallocation. The count of the leaf types is the growth of their buffer."
 ],
 "C83": [
  null,
  "The type of the summary must be legal and sized as well: a Node may take more bytes than the part it replaces. Elements that share chunks are not replaced, and an array of other elements becomes a Vector (an array of Nodes would be packed, see C28). The proofs need that the value as a whole is not replaced."
 ],
 "C84": [
  null,
  "The partial theorems give the outcome for every bound for which the arithmetic overflows; C27, C28 and C30 cover the others. Element types nested inside are of ordinary size."
 ],
 "C85": [
  null,
  "Assertions of both builds (assert!) are treated like debug assertions: nothing is said when the checked build stops at one. Functions of multiproofs.rs that do no checked arithmetic are not listed; they are the same function in both builds."
 ],
 "C86": [
  null,
  "Which of several faults is reported is not specified."
 ],
 "C87": [
  null,
  "For indices below other indices helpers can be superfluous (see the example)."
 ],
 "C88": [
  null,
  "Inputs of lists of variable-size elements are excluded in the decoding part because accepted inputs need not be canonical there (C04)."
 ]
}