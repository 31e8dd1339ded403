{
 "claims": [
  {
   "property": "C01",
   "status": "proved",
   "theorems": [
    "C01_round_trip"
   ],
   "note": "Holds for every legal type without transparent enums (C22 covers those). Legal bounds Bitlist limits below 2^64-8 and sizes of fixed-size types by 2^63."
  },
  {
   "property": "C02",
   "status": "proved",
   "theorems": [
    "C02_encoding_follows_spec"
   ],
   "note": "Against an independent transcription of simple-serialize.md (SpecSer.v)."
  },
  {
   "property": "C03",
   "status": "proved",
   "theorems": [
    "C03_canonical"
   ],
   "note": ""
  },
  {
   "property": "C04",
   "status": "partial",
   "theorems": [
    "C04_refuted",
    "C04_partial"
   ],
   "note": "False: a List of variable-size elements decodes as empty from four zero bytes followed by anything. C04_partial is an exact description of what every type without transparent enums accepts, and a necessary one for all types; C10_partial is exact for all types."
  },
  {
   "property": "C05",
   "status": "proved",
   "theorems": [
    "C05_injective"
   ],
   "note": ""
  },
  {
   "property": "C06",
   "status": "partial",
   "theorems": [
    "C06_refuted",
    "C06_partial",
    "C06_exact_partial"
   ],
   "note": "Append-only holds always. The count is false for a Bitvector whose length was changed through DerefMut; C06_partial has it for all other values. C06_exact_partial gives bytes and report for every value a type can hold (write, SpecWrite.v)."
  },
  {
   "property": "C07",
   "status": "partial",
   "theorems": [
    "C07_refuted",
    "C07_partial",
    "C07_exact_partial"
   ],
   "note": "False for Option and unions: the selector byte is written before the payload fails. C07_partial covers all other types. C07_exact_partial: for all types exactly the selectors leading to the failing part are left in the buffer."
  },
  {
   "property": "C08",
   "status": "proved",
   "theorems": [
    "C08_fixed_size",
    "C08_no_overflow"
   ],
   "note": ""
  },
  {
   "property": "C09",
   "status": "proved",
   "theorems": [
    "C09_decoded_values_valid"
   ],
   "note": ""
  },
  {
   "property": "C10",
   "status": "partial",
   "theorems": [
    "C10_refuted",
    "C10_partial"
   ],
   "note": "False: a collection of variable-size elements slices its input with unchecked offsets. C10_partial describes the outcome on every byte string for every type: the value, an error, or a panic. C11 gives the types that never panic."
  },
  {
   "property": "C11",
   "status": "proved",
   "theorems": [
    "C11_no_panic",
    "C11_container_panics"
   ],
   "note": "C11_container_panics shows the restriction on containers is needed with overflow checks."
  },
  {
   "property": "C12",
   "status": "proved",
   "theorems": [
    "C12_when_serialize_fails"
   ],
   "note": ""
  },
  {
   "property": "C13",
   "status": "proved",
   "theorems": [
    "C13_uints",
    "C13_root"
   ],
   "note": ""
  },
  {
   "property": "C14",
   "status": "proved",
   "theorems": [
    "C14_bool"
   ],
   "note": ""
  },
  {
   "property": "C15",
   "status": "proved",
   "theorems": [
    "C15_bitvector_decode"
   ],
   "note": ""
  },
  {
   "property": "C16",
   "status": "proved",
   "theorems": [
    "C16_bitlist_decode"
   ],
   "note": ""
  },
  {
   "property": "C17",
   "status": "partial",
   "theorems": [
    "C17_refuted",
    "C17_partial",
    "C17_exact_partial",
    "C17_root_refuted",
    "C17_root_exact_partial"
   ],
   "note": "False after pop, truncate or clear: dead bits of the last byte are serialized and hashed. C17_partial covers lists that never shrink (they are equal as values, so roots agree too). C17_exact_partial: equal lists encode alike exactly if their left-over bits agree. C17_root_exact_partial: their roots agree exactly if all stored bits agree, up to collisions of the hash function; this includes the bit at the place of the end marker, which the encoding does not show."
  },
  {
   "property": "C18",
   "status": "proved",
   "theorems": [
    "C18_growing_bitlists"
   ],
   "note": ""
  },
  {
   "property": "C19",
   "status": "proved",
   "theorems": [
    "C19_container_decode",
    "C19_offsets"
   ],
   "note": ""
  },
  {
   "property": "C20",
   "status": "proved",
   "theorems": [
    "C20_union_decode"
   ],
   "note": ""
  },
  {
   "property": "C21",
   "status": "proved",
   "theorems": [
    "C21_transparent",
    "C21_root"
   ],
   "note": ""
  },
  {
   "property": "C22",
   "status": "partial",
   "theorems": [
    "C22_refuted",
    "C22_partial"
   ],
   "note": "False: a later variant may accept the bytes, and an empty encoding is rejected. C22_partial states when it holds; C10_partial gives the decoded value in all cases."
  },
  {
   "property": "C23",
   "status": "proved",
   "theorems": [
    "C23_merkleize"
   ],
   "note": "For every 32-byte hash function; limits and chunk counts up to 2^63."
  },
  {
   "property": "C24",
   "status": "proved",
   "theorems": [
    "C24_limit"
   ],
   "note": ""
  },
  {
   "property": "C25",
   "status": "proved",
   "theorems": [
    "C25_zero_hashes"
   ],
   "note": ""
  },
  {
   "property": "C26",
   "status": "proved",
   "theorems": [
    "C26_compute_merkle_tree"
   ],
   "note": "For leaf counts up to 2^57: the buffer of a larger tree cannot be addressed with 64-bit sizes."
  },
  {
   "property": "C27",
   "status": "proved",
   "theorems": [
    "C27_hash_tree_root"
   ],
   "note": "Against an independent transcription of the specification (SpecMerkle.v), for every 32-byte hash function; `regular` is the fragment of the statement plus bounds of 2^63 on chunk counts."
  },
  {
   "property": "C28",
   "status": "partial",
   "theorems": [
    "C28_arrays_refuted",
    "C28_newtypes_refuted",
    "C28_partial",
    "C28_exact_partial"
   ],
   "note": "False: Vector<[u8; 2], 2> and Vector<Wrapper(u8), 2> have other roots. C28_partial describes the root of every legal type (up to size bounds): the specification's, with another choice of packed element types. C27 is the fragment where both agree. C28_exact_partial describes the outcome for every value a Rust type can hold, also out of bounds."
  },
  {
   "property": "C29",
   "status": "partial",
   "theorems": [
    "C29_binding_partial",
    "C29_partial",
    "C29_transparent_refuted"
   ],
   "note": "C29_partial: every legal type without transparent enums, up to size bounds; C29_binding_partial: the same with the specification's tree on the fragment of C27. The collision is between byte strings hashed for the two roots. C29_transparent_refuted: different variants of a transparent enum can have the same root."
  },
  {
   "property": "C30",
   "status": "partial",
   "theorems": [
    "C30_refuted",
    "C30_partial",
    "C30_all_types_partial"
   ],
   "note": "False: List<u8, 1> with two elements has a root. C30_partial is an exact description of the root of a list of any length. C30_all_types_partial: for every element type, an over-long list has a root exactly when its elements are packed and their chunks fit."
  },
  {
   "property": "C31",
   "status": "partial",
   "theorems": [
    "C31_partial",
    "C31_newtypes_refuted",
    "C31_all_types_partial",
    "C31_checked_partial"
   ],
   "note": "Proved except for collections of newtypes of basic types, where it is false (C31_newtypes_refuted). C31_all_types_partial and C31_checked_partial give the index of every type; the latter is an equivalence."
  },
  {
   "property": "C32",
   "status": "proved",
   "theorems": [
    "C32_invalid_paths"
   ],
   "note": "Paths through transparent enums are those of the union with the same variants. The only panics are index overflows in builds with overflow checks."
  },
  {
   "property": "C33",
   "status": "proved",
   "theorems": [
    "C33_nesting",
    "C33_checked"
   ],
   "note": "For every type; with overflow checks without any condition (C33_checked)."
  },
  {
   "property": "C34",
   "status": "partial",
   "theorems": [
    "C34_partial",
    "C34_all_types_partial",
    "C34_variants_refuted",
    "C34_exact_partial",
    "C34_arrays_refuted",
    "C34_transparent_refuted"
   ],
   "note": "C34_partial: types of the fragment (trees of at most 2^57 leaves on the path), parts that the value has, index below 2^64. C34_all_types_partial is the same for every type (newtypes of basic types and nested arrays included), with the index and leaf that ssz-rs uses. C34_exact_partial gives leaf, branch and witness of every proof that prove returns, for every type, value and path, says when it verifies and when its witness is the root. False for paths through a variant that a union value does not have (C34_variants_refuted: the proof does not verify), for arrays of basic elements in a collection and for transparent enums (C34_arrays_refuted, C34_transparent_refuted: the witness is not the root)."
  },
  {
   "property": "C35",
   "status": "partial",
   "theorems": [
    "C35_variants_refuted",
    "C35_partial",
    "C35_all_types_partial"
   ],
   "note": "As C34, with C35_all_types_partial for every type; C34_exact_partial gives the leaf of every proof. prove also returns verifying proofs for parts that the value does not have (C35_variants_refuted)."
  },
  {
   "property": "C36",
   "status": "partial",
   "theorems": [
    "C36_refuted",
    "C36_partial",
    "C36_exact_partial"
   ],
   "note": "False: a path below an absent List element panics. C36_partial covers parts that the value has and all invalid paths. C36_exact_partial gives the outcome (proof, error or panic) for every value and path; missing are only types with more than 2^64 bytes in a collection."
  },
  {
   "property": "C37",
   "status": "proved",
   "theorems": [
    "C37_branches_bind"
   ],
   "note": ""
  },
  {
   "property": "C38",
   "status": "partial",
   "theorems": [
    "C38_refuted",
    "C38_partial"
   ],
   "note": "False: branches of more than 64 nodes panic. C38_partial is exact for all inputs."
  },
  {
   "property": "C39",
   "status": "proved",
   "theorems": [
    "C39_verifiers_agree"
   ],
   "note": ""
  },
  {
   "property": "C40",
   "status": "proved",
   "theorems": [
    "C40_honest_multiproofs"
   ],
   "note": ""
  },
  {
   "property": "C41",
   "status": "proved",
   "theorems": [
    "C41_multiproofs_sound"
   ],
   "note": ""
  },
  {
   "property": "C42",
   "status": "partial",
   "theorems": [
    "C42_refuted",
    "C42_partial"
   ],
   "note": "False: a leaf below another leaf is not checked. C42_partial covers every leaf that is not below another index."
  },
  {
   "property": "C43",
   "status": "proved",
   "theorems": [
    "C43_helper_indices"
   ],
   "note": ""
  },
  {
   "property": "C44",
   "status": "proved",
   "theorems": [
    "C44_single_index"
   ],
   "note": ""
  },
  {
   "property": "C45",
   "status": "partial",
   "theorems": [
    "C45_refuted",
    "C45_partial"
   ],
   "note": "False: the empty list of indices panics. C45_partial is exact for all inputs."
  },
  {
   "property": "C46",
   "status": "proved",
   "theorems": [
    "C46_map_order"
   ],
   "note": ""
  },
  {
   "property": "C47",
   "status": "proved",
   "theorems": [
    "C47_constructors",
    "C47_bitvector_zero"
   ],
   "note": "Bitvector<0>::try_from(&[]) panics instead of returning an error (C47_bitvector_zero)."
  },
  {
   "property": "C48",
   "status": "partial",
   "theorems": [
    "C48_refuted",
    "C48_partial",
    "C48_exact_partial"
   ],
   "note": "False: push through DerefMut makes the Vector longer and serialize does not notice. C48_partial covers assignments to elements. C48_exact_partial: in every case exactly the elements held are encoded."
  },
  {
   "property": "C49",
   "status": "proved",
   "theorems": [
    "C49_get_set"
   ],
   "note": ""
  },
  {
   "property": "C50",
   "status": "proved",
   "theorems": [
    "C50_validation",
    "C50_validation_transparent",
    "C50_validation_helpers",
    "C50_derive",
    "C50_derive_attrs",
    "C50_rejection"
   ],
   "note": "Attributes (#[ssz(...)]) and the transparent helper are included. Declarations are an abstract syntax of the parsed input; parsing, generics and hygiene of the emitted tokens are not modelled."
  },
  {
   "property": "C51",
   "status": "proved",
   "theorems": [
    "C51_truthful_errors",
    "C51_release_refuted"
   ],
   "note": "Also in builds without overflow checks when containers have at most one variable-size field; C51_release_refuted shows it fails there otherwise."
  },
  {
   "property": "C52",
   "status": "proved",
   "theorems": [
    "C52_defaults"
   ],
   "note": ""
  },
  {
   "property": "C53",
   "status": "proved",
   "theorems": [
    "C53_newtype_codec",
    "C53_newtype_merkle"
   ],
   "note": ""
  },
  {
   "property": "C54",
   "status": "partial",
   "theorems": [
    "C54_refuted",
    "C54_partial"
   ],
   "note": "False for N >= 2^64-8: N + 8 overflows. C54_partial has all smaller bounds."
  },
  {
   "property": "C55",
   "status": "proved",
   "theorems": [
    "C55_legal"
   ],
   "note": "legal is the hypothesis on types of the other properties."
  },
  {
   "property": "C56",
   "status": "proved",
   "theorems": [
    "C56_json_round_trip"
   ],
   "note": "Serde support of bool, integers, U256, Node, arrays and enums comes from other crates (or their derive) and is a parameter; that of structs, newtypes and Option is modelled after serde."
  },
  {
   "property": "C57",
   "status": "proved",
   "theorems": [
    "C57_json_reads_valid"
   ],
   "note": "As C56; the parameter is assumed to read only values in range."
  },
  {
   "property": "C58",
   "status": "proved",
   "theorems": [
    "C58_hex"
   ],
   "note": "Hexadecimal text is modelled after const-hex (optional prefix 0x, both cases, even length)."
  },
  {
   "property": "C59",
   "status": "partial",
   "theorems": [
    "C59_refuted",
    "C59_partial"
   ],
   "note": "False: a List pushed beyond its bound through DerefMut is written and rejected on reading. C59_partial is exact for List and Vector over valid elements."
  },
  {
   "property": "C60",
   "status": "partial",
   "theorems": [
    "C60_refuted",
    "C60_partial"
   ],
   "note": "False: the loop counter is an i32, so 2^31 bits panic with overflow checks. C60_partial gives the text in all other cases and shows it determines the bits."
  },
  {
   "property": "C61",
   "status": "partial",
   "theorems": [
    "C61_refuted",
    "C61_partial"
   ],
   "note": "False: nodes are parsed as hexadecimal text, so formatting any tree panics (C61_partial)."
  },
  {
   "property": "C62",
   "status": "proved",
   "theorems": [
    "C62_index_arithmetic"
   ],
   "note": "For arguments above 2^63 get_power_of_two_ceil panics with overflow checks and gives 0 without; get_bit panics for positions of 64 or more."
  },
  {
   "property": "C63",
   "status": "proved",
   "theorems": [
    "C63_no_amplification"
   ],
   "note": ""
  },
  {
   "property": "C64",
   "status": "proved",
   "theorems": [
    "C64_wider_types"
   ],
   "note": ""
  },
  {
   "property": "C65",
   "status": "proved",
   "theorems": [
    "C65_presentation_codec",
    "C65_presentation_merkle"
   ],
   "note": ""
  },
  {
   "property": "C66",
   "status": "proved",
   "theorems": [
    "C66_messages"
   ],
   "note": ""
  },
  {
   "property": "C67",
   "status": "proved",
   "theorems": [
    "C67_hashes"
   ],
   "note": ""
  },
  {
   "property": "C68",
   "status": "proved",
   "theorems": [
    "C68_hashes",
    "C68_padding"
   ],
   "note": ""
  },
  {
   "property": "C69",
   "status": "proved",
   "theorems": [
    "C69_all_types",
    "C69_proofs_sound",
    "C69_honest_proofs"
   ],
   "note": ""
  },
  {
   "property": "C70",
   "status": "proved",
   "theorems": [
    "C70_all_types",
    "C70_multiproofs"
   ],
   "note": ""
  },
  {
   "property": "C71",
   "status": "proved",
   "theorems": [
    "C71_size_bounds"
   ],
   "note": ""
  },
  {
   "property": "C72",
   "status": "proved",
   "theorems": [
    "C72_all_types",
    "C72_branches_last"
   ],
   "note": ""
  },
  {
   "property": "C73",
   "status": "proved",
   "theorems": [
    "C73_chained",
    "C73_all_types",
    "C73_parts_of_parts"
   ],
   "note": ""
  },
  {
   "property": "C74",
   "status": "proved",
   "theorems": [
    "C74_all_types",
    "C74_updates"
   ],
   "note": ""
  },
  {
   "property": "C75",
   "status": "proved",
   "theorems": [
    "C75_all_types",
    "C75_append"
   ],
   "note": ""
  },
  {
   "property": "C76",
   "status": "partial",
   "theorems": [
    "C76_refuted",
    "C76_same_value",
    "C76_partial",
    "C76_roots_partial",
    "C76_roots_refuted"
   ],
   "note": "False for bitlists and bitvectors that store bits beyond their length (after pop or truncate): == ignores them, encodings and roots do not. C76_same_value: == ignores nothing else. C76_partial and C76_roots_partial: true for all valid values."
  },
  {
   "property": "C77",
   "status": "proved",
   "theorems": [
    "C77_total_order"
   ],
   "note": "Structs and enums are taken to derive their comparisons; that code is generated by rustc, not by the crate."
  },
  {
   "property": "C78",
   "status": "proved",
   "theorems": [
    "C78_roots",
    "C78_indices",
    "C78_fields",
    "C78_proofs"
   ],
   "note": "Indices and proofs that are computed without overflow for the old type. The roots need equal heights of the trees that hash_tree_root builds, the indices of those that generalized indices count in."
  },
  {
   "property": "C79",
   "status": "proved",
   "theorems": [
    "C79_single",
    "C79_multi"
   ],
   "note": "Work is the number of calls of the hash function, in a copy of the verifiers with a counter that is shown to return the same results. Hash map operations are not counted."
  },
  {
   "property": "C80",
   "status": "proved",
   "theorems": [
    "C80_linear",
    "C80_transparent",
    "C80_exact",
    "C80_round_trip"
   ],
   "note": "Work is the number of bytes given to all calls of deserialize (at least 1 each), in a copy of the decoder with a counter that is shown to return the same results. The bookkeeping of offsets and spans, and reallocation of vectors, is not counted."
  },
  {
   "property": "C81",
   "status": "proved",
   "theorems": [
    "C81_access",
    "C81_replace"
   ],
   "note": "Locating and decoding need a type without transparent enums, as C01; replacing bytes does not."
  },
  {
   "property": "C82",
   "status": "proved",
   "theorems": [
    "C82_linear",
    "C82_depth",
    "C82_exact"
   ],
   "note": "Bytes written are counted, not the growth of vectors by reallocation. The count of the leaf types is the growth of their buffer."
  },
  {
   "property": "C83",
   "status": "proved",
   "theorems": [
    "C83_roots",
    "C83_indices",
    "C83_proofs"
   ],
   "note": "The type of the summary must be legal and sized as well: a Node may take more bytes than the part it replaces. Elements that share chunks are not replaced, and an array of other elements becomes a Vector (an array of Nodes would be packed, see C28). The proofs need that the value as a whole is not replaced."
  },
  {
   "property": "C84",
   "status": "partial",
   "theorems": [
    "C84_refuted",
    "C84_packed_refuted",
    "C84_merkleize_partial",
    "C84_partial",
    "C84_collision_partial"
   ],
   "note": "The partial theorems give the outcome for every bound for which the arithmetic overflows; C27, C28 and C30 cover the others. Element types nested inside are of ordinary size."
  },
  {
   "property": "C85",
   "status": "proved",
   "theorems": [
    "C85_codec",
    "C85_merkle",
    "C85_text"
   ],
   "note": "Assertions of both builds (assert!) are treated like debug assertions: nothing is said when the checked build stops at one. Functions of multiproofs.rs that do no checked arithmetic are not listed; they are the same function in both builds."
  },
  {
   "property": "C86",
   "status": "proved",
   "theorems": [
    "C86_faults",
    "C86_every_rejection"
   ],
   "note": "Which of several faults is reported is not specified."
  },
  {
   "property": "C87",
   "status": "proved",
   "theorems": [
    "C87_minimal"
   ],
   "note": "For indices below other indices helpers can be superfluous (see the example)."
  },
  {
   "property": "C88",
   "status": "proved",
   "theorems": [
    "C88_prefix_free",
    "C88_cut_off"
   ],
   "note": "Inputs of lists of variable-size elements are excluded in the decoding part because accepted inputs need not be canonical there (C04)."
  }
 ]
}