{
 "claims": [
  {
   "property": "C01",
   "status": "proved",
   "theorems": [
    "C01_unsigned_exact"
   ],
   "note": ""
  },
  {
   "property": "C02",
   "status": "proved",
   "theorems": [
    "C02_int64_exact"
   ],
   "note": ""
  },
  {
   "property": "C03",
   "status": "partial",
   "theorems": [
    "C03_signed_in_range_partial",
    "C03_signed_characterised",
    "C03_refuted",
    "C03_decode_characterised"
   ],
   "note": "REFUTED for the code (int8 300 stored as 44); in-range exactness and the exact set of wrong literals are proved; the same for Decode into a variable of every integer type"
  },
  {
   "property": "C04",
   "status": "proved",
   "theorems": [
    "C04_scanner_maximal_munch",
    "C04_scanner_whole",
    "C04_scanner_panics_iff_empty"
   ],
   "note": ""
  },
  {
   "property": "C05",
   "status": "partial",
   "theorems": [
    "C05_Number_characterised",
    "C05_Number_partial",
    "C05_string_option_int_partial",
    "C05_string_option_float_partial",
    "C05_map_key_partial",
    "C05_refuted_string_option",
    "C05_refuted_Number",
    "C05_refuted_map_key",
    "C05_refuted_empty",
    "C05_string_option_characterised",
    "C05_map_key_characterised"
   ],
   "note": "REFUTED: trailing bytes accepted, empty string panics; proved for every string that is neither empty nor a number followed by other bytes (Number, fields with the string option of a one-member document, integer map keys; nested: C15); for Number the exact behaviour on every string is proved; for integer fields with the string option and integer map keys, too: an integer followed by other bytes is read with every byte as a digit (any_digits, AtoiAny.v)"
  },
  {
   "property": "C06",
   "status": "proved",
   "theorems": [
    "C06_unescape_meaning",
    "C06_no_escape_identity"
   ],
   "note": ""
  },
  {
   "property": "C07",
   "status": "proved",
   "theorems": [
    "C07_unescape_in_bounds"
   ],
   "note": ""
  },
  {
   "property": "C08",
   "status": "partial",
   "theorems": [
    "C08_meaning_without_pairs_partial",
    "C08_output_valid_utf8",
    "C08_refuted",
    "C08_decode_characterised"
   ],
   "note": "REFUTED for surrogate pairs; proved for every body without an escaped surrogate pair; with pairs the exact result is proved (each escape on its own)"
  },
  {
   "property": "C09",
   "status": "proved",
   "theorems": [
    "C09_lookup"
   ],
   "note": ""
  },
  {
   "property": "C10",
   "status": "proved",
   "theorems": [
    "C10_nil_destination"
   ],
   "note": ""
  },
  {
   "property": "C11",
   "status": "proved",
   "theorems": [
    "C11_syntax_error_untouched"
   ],
   "note": ""
  },
  {
   "property": "C12",
   "status": "proved",
   "theorems": [
    "C12_error_index"
   ],
   "note": "every frame list, every document"
  },
  {
   "property": "C13",
   "status": "proved",
   "theorems": [
    "C13_terminates"
   ],
   "note": "every frame list, every document; bound (tokens+1)*(frames+1) iterations"
  },
  {
   "property": "C14",
   "status": "partial",
   "theorems": [
    "C14_scalars_partial",
    "C34_integer_to_float_partial",
    "C14_characterised"
   ],
   "note": "proved for every scalar document and scalar type except the literals on which C03, C05, C08, C34 are refuted; for those the exact behaviour is proved (C14_characterised: all scalar documents and types)"
  },
  {
   "property": "C15",
   "status": "partial",
   "theorems": [
    "C15_decode_is_ideal_partial",
    "C15_decode_is_recursive_partial",
    "C15_every_document_partial",
    "C15_characterised_partial",
    "C15_characterised_every_document_partial"
   ],
   "note": "every supported non-recursive type, every decoder history and previous value; documents outside ctl_root (defects: nested pointers, nested struct{}, unknown members containing objects) and, for the ideal decoder, outside sound (defects of the leaves) are excluded; every_document: no condition on the document for types without inner pointers and struct{} (DisallowUnknownFields if there are structs); characterised: without the condition sound, with every deviation of the leaves written out (actual, Actual.v)"
  },
  {
   "property": "C16",
   "status": "partial",
   "theorems": [
    "C16_writes_only_destination_partial",
    "C16_every_document_partial",
    "C16_mixed_partial",
    "C16_mixed_every_document_partial",
    "C16_refuted_out_of_bounds",
    "C16_refuted_other_variable",
    "C16_refuted_pointers",
    "C16_refuted_unknown_array",
    "C59_pointers_outside_lists",
    "C73_structs_and_arrays"
   ],
   "note": "REFUTED in general; also proved for pointers outside of lists (C59) and for structs and arrays with unknown members of any contents (C73); that the memory model detects every access outside of a block or inside a value: Memory.v (store_outside, load_outside, clear_outside, store_inside); proved for all documents within ctl_root, and (every_document) for every document whatsoever when the type has no pointer or struct{} below the root and unknown members are disallowed or there are no structs; _mixed_: types that contain recursive structs"
  },
  {
   "property": "C17",
   "status": "partial",
   "theorems": [
    "C17_no_panic_partial",
    "C17_every_document_partial",
    "C17_recursive_no_panic_partial",
    "C17_recursive_every_document_partial",
    "C17_mixed_no_panic_partial",
    "C17_mixed_every_document_partial",
    "C59_any_number_of_calls",
    "C17_refuted_unknown_member",
    "C17_refuted_recursive_array",
    "C17_refuted_map_key_type",
    "C05_refuted_empty"
   ],
   "note": "REFUTED in general; proved within ctl_root when no empty string stands for a number; every_document: for every document, on types without inner pointers, struct{} and quoted numbers (and with DisallowUnknownFields if there are structs)"
  },
  {
   "property": "C18",
   "status": "partial",
   "theorems": [
    "C18_unknown_members_partial",
    "C18_root_unknown_objects_partial",
    "C18_refuted_C20_refuted",
    "C18_unknown_members_any_leaf_partial",
    "C18_mixed_partial"
   ],
   "note": "REFUTED for unknown members of nested structs whose value contains an object, and for unknown arrays containing an object; proved for all others (the version _any_leaf_ also for numbers and strings that are decoded wrongly), including unknown members with an object of the object that is the document; _mixed_: types that contain recursive structs"
  },
  {
   "property": "C19",
   "status": "partial",
   "theorems": [
    "C19_unknown_field_partial",
    "C19_only_unknown_field_partial",
    "C19_first_unknown_anywhere",
    "C19_unknown_field_only_if",
    "C19_refuted_empty_struct",
    "C19_empty_struct_characterised",
    "C19_every_document_partial",
    "C19_success_all_known_partial",
    "C19_unknown_field_any_leaf_partial",
    "C19_only_unknown_field_any_leaf_partial",
    "C19_mixed_partial",
    "C19_mixed_every_document_partial",
    "C19_mixed_only_if",
    "C19_mixed_success"
   ],
   "note": "REFUTED for the empty struct; proved for other structs, on every document for types without pointers below the root; the empty struct accepts every object (proved); _mixed_: types that contain recursive structs"
  },
  {
   "property": "C20",
   "status": "partial",
   "theorems": [
    "C20_fields_partial",
    "C20_fields_anywhere",
    "C18_refuted_C20_refuted",
    "C20_refuted_empty_struct",
    "C20_fields_any_leaf_partial",
    "C20_fields_every_document_partial",
    "C20_mixed_partial",
    "C20_recursive_partial",
    "C20_recursive_every_document_partial"
   ],
   "note": "REFUTED in general; proved within ctl_root (numbers in strings not empty); with DisallowUnknownFields and without pointers below the root and numbers in strings, for every document; _mixed_: types that contain recursive structs"
  },
  {
   "property": "C21",
   "status": "partial",
   "theorems": [
    "C21_slice_partial",
    "C21_slice_anywhere",
    "C21_slice_any_leaf_partial",
    "C21_slice_every_document_partial"
   ],
   "note": "proved for element types other than struct{} within ctl_root, and for every document for types without pointers and with structs only under DisallowUnknownFields; null: C35"
  },
  {
   "property": "C22",
   "status": "partial",
   "theorems": [
    "C22_array_partial",
    "C22_refuted",
    "C22_characterised_partial"
   ],
   "note": "REFUTED: missing elements keep their old value; proved for documents with enough elements; for documents of every length the exact behaviour is proved"
  },
  {
   "property": "C23",
   "status": "partial",
   "theorems": [
    "C23_entries_partial",
    "C23_entries_anywhere",
    "C23_last_wins",
    "C23_refuted_existing_entries",
    "C23_refuted_duplicates",
    "C23_string_map_characterised",
    "C23_entries_any_leaf_partial",
    "C23_last_wins_any_leaf",
    "C23_entries_every_document_partial",
    "C23_mixed_partial",
    "C23_mixed_every_document_partial"
   ],
   "note": "REFUTED for map[string]string and for duplicate keys of some element types; proved for the other maps; map[string]string: proved that it is replaced by exactly the members of the document; _mixed_: types that contain recursive structs"
  },
  {
   "property": "C24",
   "status": "partial",
   "theorems": [
    "C24_any_partial",
    "C24_characterised"
   ],
   "note": "proved for every document without escaped surrogate pairs (C08); C24_characterised: every document"
  },
  {
   "property": "C25",
   "status": "partial",
   "theorems": [
    "C25_root_pointer_partial",
    "C25_struct_pointers_partial",
    "C25_slice_pointers_partial",
    "C25_map_pointers_partial",
    "C25_refuted_struct",
    "C25_refuted_slice",
    "C25_refuted_nested_lists",
    "C25_struct_pointers_any_leaf_partial",
    "C25_slice_pointers_any_leaf_partial",
    "C25_map_pointers_any_leaf_partial",
    "C59_pointers_outside_lists"
   ],
   "note": "REFUTED for non-null pointers followed by another member or element; proved for root pointers (any number of them) and for pointers in structs, slices and maps in the class ctl_root: null, or the last member/element"
  },
  {
   "property": "C26",
   "status": "partial",
   "theorems": [
    "C26_recursive_partial",
    "C26_characterised_partial",
    "C26_every_document_partial",
    "C26_mixed_partial",
    "C26_mixed_characterised_partial",
    "C26_mixed_every_document_partial",
    "C26_refuted_nested",
    "C26_refuted_list",
    "C26_refuted_list_in_struct",
    "C26_refuted_list_of_lists",
    "C26_refuted_mutual",
    "C26_refuted_double_pointer",
    "C26_refuted_inner_struct"
   ],
   "note": "proved for a named root struct whose recursion goes through *S fields: any depth, any member order, any previous tree in the destination, any earlier successful calls; the _characterised and _every_document theorems also cover the defective leaves of C03/C05/C08 (exact behaviour), the latter every document when unknown members are disallowed; the _mixed_ theorems say the same of pointers, slices, maps and structs built around recursive structs (map[string]Node, []Doc with Node fields) on the documents of wctl; missing: unknown members that contain objects, decoders that failed before (C28_refuted), nested recursion and lists of the recursive struct outside of it (refuted)"
  },
  {
   "property": "C27",
   "status": "partial",
   "theorems": [
    "C27_builds_tree_partial",
    "C27_builds_tree_any_leaf_partial",
    "C27_mixed_new_partial",
    "C26_recursive_partial",
    "C26_characterised_partial",
    "C27_refuted_slice",
    "C27_refuted_map",
    "C27_refuted_member_order",
    "C27_refuted_map_in_list",
    "C27_refuted_pointer_list",
    "C27_refuted_nested_list"
   ],
   "note": "REFUTED in general (null elements, empty maps, members after a list in an element after the first, maps in list elements: memory corruption); proved for a named root struct with any number of *S, []S and map[K]S fields, any depth and shape, any previous value, on the documents of rctl (with rsound: the ideal value; without: the exact value)"
  },
  {
   "property": "C28",
   "status": "partial",
   "theorems": [
    "C28_history_partial",
    "C28_history_trivial_calls_partial",
    "C28_history_without_arrays",
    "C28_recursive_partial",
    "C28_recursive_any_leaf_partial",
    "C28_recursive_every_document_partial",
    "C28_mixed_partial",
    "C28_refuted",
    "C28_refuted_nonrecursive",
    "C28_refuted_after_success"
   ],
   "note": "REFUTED for recursive types after an error or an empty map of the recursive struct, and for types with arrays; proved for every input for non-recursive types without arrays, and for every non-recursive type for documents within ctl_root; recursive types: after calls that succeeded or were refused"
  },
  {
   "property": "C29",
   "status": "partial",
   "theorems": [
    "C29_types_without_recursion",
    "C29_only_recursion_retains",
    "C29_recursive_partial",
    "C29_recursive_refused",
    "C29_mixed_partial",
    "C29_mixed_refused",
    "C29_no_pointers_retained_partial",
    "C29_refuted",
    "C29_refuted_after_success"
   ],
   "note": "REFUTED for recursive types after an error inside the document or an empty map of the recursive struct; proved for every call on types without recursion, for recursive types after successful or refused calls, and for every type: only recursion stacks can retain a pointer; _mixed_: types that contain recursive structs"
  },
  {
   "property": "C30",
   "status": "partial",
   "theorems": [
    "C30_layout",
    "C30_tree",
    "C30_map_value_frame",
    "C30_refuted"
   ],
   "note": "REFUTED for slices and maps of structs with unmarshalers that were met before; proved for every other accepted type, recursive or not"
  },
  {
   "property": "C31",
   "status": "partial",
   "theorems": [
    "C31_terminates",
    "C31_accepted_grounded",
    "C31_diverges",
    "C31_returns_iff",
    "C31_errors_justified",
    "C31_refuted"
   ],
   "note": "REFUTED: type T []T and type P *P; proved: the exact condition under which NewDecoder returns"
  },
  {
   "property": "C32",
   "status": "proved",
   "theorems": [
    "C32_allowed",
    "C32_error_justified",
    "C32_no_misquote_accepted",
    "C32_error_iff"
   ],
   "note": "every Go type"
  },
  {
   "property": "C33",
   "status": "proved",
   "theorems": [
    "C33_bytes_input_not_aliased"
   ],
   "note": "every frame list, every document"
  },
  {
   "property": "C34",
   "status": "partial",
   "theorems": [
    "C34_integer_to_float_partial",
    "C34_refuted",
    "C34_minus_zero_characterised"
   ],
   "note": "REFUTED for -0; proved for every other literal; -0 is stored as +0 (proved for both formats)"
  },
  {
   "property": "C35",
   "status": "partial",
   "theorems": [
    "C35_null_partial",
    "C35_null_anywhere",
    "C35_refuted",
    "C35_characterised",
    "C35_mixed"
   ],
   "note": "REFUTED for []struct{}; proved for all other types; C35_characterised: every type"
  },
  {
   "property": "C36",
   "status": "partial",
   "theorems": [
    "C36_json_partial",
    "C36_json_anywhere",
    "C36_text_partial",
    "C36_text_anywhere",
    "C36_refuted_pointer",
    "C36_refuted_slice",
    "C36_refuted_confusion"
   ],
   "note": "REFUTED for *T, for specialised slices and for structs with unmarshalers met twice; proved otherwise"
  },
  {
   "property": "C37",
   "status": "partial",
   "theorems": [
    "C37_unmarshal_partial",
    "C37_refuted"
   ],
   "note": "REFUTED for a non-nil interface destination; proved for all other types"
  },
  {
   "property": "C38",
   "status": "proved",
   "theorems": [
    "C38_whitespace_independent"
   ],
   "note": "every frame list, decoder state, memory and document"
  },
  {
   "property": "C39",
   "status": "proved",
   "theorems": [
    "C39_string_and_bytes_agree"
   ],
   "note": "every frame list, decoder state, memory and input"
  },
  {
   "property": "C40",
   "status": "proved",
   "theorems": [
    "C40_unknown_fields_only_rejects",
    "C40_unknown_field_justified",
    "C40_exact_names_need_no_folding",
    "C40_no_escapes_need_no_unescaping"
   ],
   "note": "every frame list, decoder state, memory and document"
  },
  {
   "property": "C41",
   "status": "proved",
   "theorems": [
    "C41_errors_deserved"
   ],
   "note": "every frame list, decoder state, memory and document"
  },
  {
   "property": "C42",
   "status": "partial",
   "theorems": [
    "C42_decode_inverts_encoding_partial",
    "C42_encodings_in_class_partial",
    "C42_recursive_in_class_partial",
    "C42_recursive_pointers_partial",
    "C42_mixed_in_class_partial",
    "C42_mixed_partial",
    "C42_refuted_pointers"
   ],
   "note": "REFUTED for pointers below the root; proved for all documents of the class ctl_root; hence all supported types without pointers or struct{} below the root, all values, all encodings without escaped surrogate pairs (C08); recursive struct types: all documents of the class rctl, hence all trees linked by pointers only, into a new variable; types that contain such trees in maps, in first fields of structs and behind pointers at the root (wtree)"
  },
  {
   "property": "C43",
   "status": "partial",
   "theorems": [
    "C43_every_value_has_a_text_partial",
    "C43_recursive_partial",
    "C43_mixed_partial"
   ],
   "note": "same types as C42, without UnmarshalJSON types; of the recursive types those linked by pointers only; types that contain them: wtree"
  },
  {
   "property": "C44",
   "status": "partial",
   "theorems": [
    "C44_member_order_partial",
    "C44_recursive_partial",
    "C44_recursive_any_leaf_partial",
    "C44_recursive_every_document_partial",
    "C44_mixed_partial",
    "C44_mixed_every_document_partial",
    "C44_refuted",
    "C44_member_order_any_leaf_partial",
    "C44_member_order_every_document_partial"
   ],
   "note": "false for documents outside ctl_root (C44_refuted); both documents in ctl_root (or any documents, for the types of C15_every_document without numbers in strings) (recursive struct types: rctl, or every document for recursion through pointers with unknown members disallowed; types that contain them: wlast, or every document of the types wany)"
  },
  {
   "property": "C45",
   "status": "partial",
   "theorems": [
    "C45_decoding_again_partial",
    "C45_recursive_partial",
    "C45_recursive_any_leaf_partial",
    "C45_recursive_every_document_partial",
    "C45_mixed_partial",
    "C45_mixed_every_document_partial",
    "C45_decoding_again_any_leaf_partial",
    "C45_decoding_again_every_document_partial",
    "C45_refuted_recursive",
    "C45_refuted_array"
   ],
   "note": "REFUTED outside of these classes: the second call is refused (recursive) or panics (array); proved for documents in ctl_root (or any documents, for the types of C15_every_document) (recursive struct types: rctl, or every document for recursion through pointers with unknown members disallowed; types that contain them: wlast, or every document of the types wany)"
  },
  {
   "property": "C46",
   "status": "proved",
   "theorems": [
    "C46_same_outcome",
    "C46_unreachable_memory_not_read",
    "C46_unreachable_memory_not_written",
    "C46_same_value"
   ],
   "note": "every frame list, input, options and memory; reachability is per memory block (Go allocation)"
  },
  {
   "property": "C47",
   "status": "proved",
   "theorems": [
    "C47_schedules"
   ],
   "note": "C47_schedules is the claim, relative to the calls run alone, for every frame list and input; C47_values_partial adds what value that is (limits of C15). One loop iteration is one atomic step"
  },
  {
   "property": "C48",
   "status": "proved",
   "theorems": [
    "C48_strings_from_input"
   ],
   "note": "every frame list, token list and memory"
  },
  {
   "property": "C49",
   "status": "proved",
   "theorems": [
    "C49_allocation_linear"
   ],
   "note": "every frame list and document; strings and trees of type any are values of the model, not blocks"
  },
  {
   "property": "C50",
   "status": "proved",
   "theorems": [
    "C50_number",
    "C50_Int64_integer",
    "C50_Int64_other",
    "C50_Float64",
    "C50_agrees_with_int64",
    "C50_agrees_with_float64"
   ],
   "note": "root documents (nested: C15); -0 into float64 is excluded from the last (C34)"
  },
  {
   "property": "C51",
   "status": "partial",
   "theorems": [
    "C51_same_structure_partial",
    "C51_mixed_partial",
    "C51_refuted_slices",
    "C51_refuted_overwrites",
    "C51_refuted_array"
   ],
   "note": "REFUTED where a struct type met before is the element type of a pointer, slice or map (taken for recursion: values lost, overwritten, panic); proved for all types accepted by `resolves` on the control class of C15; _mixed_: types that contain recursive structs"
  },
  {
   "property": "C52",
   "status": "partial",
   "theorems": [
    "C52_members_partial",
    "C52_member_partial",
    "C52_refuted_unexported",
    "C52_refuted_dash",
    "C52_refuted_options",
    "C52_refuted_characters",
    "C52_refuted_embedded",
    "C52_refuted_folding",
    "C52_refuted_folding_always"
   ],
   "note": "REFUTED: a key that differs in length from the name it folds to (K and the Kelvin sign) is unknown, fields that are not exported are set from the document, the tag \"-,\" hides the field, string after another option is ignored, invalid names are used, embedded structs are not promoted; proved for structs whose fields are all ordinary in this sense (fields with equal names: the first one is taken)"
  },
  {
   "property": "C53",
   "status": "proved",
   "theorems": [
    "C53_plain_types_are_safe",
    "C53_exact_is_ideal",
    "C53_sequences_of_calls"
   ],
   "note": "every document and history; the classes are any_document and no_quoted_numbers"
  },
  {
   "property": "C54",
   "status": "proved",
   "theorems": [
    "C54_linked_structs_are_safe"
   ],
   "note": "every document; the classes are rany_document and rno_quoted_numbers"
  },
  {
   "property": "C55",
   "status": "proved",
   "theorems": [
    "C14_characterised",
    "C03_decode_characterised",
    "C08_decode_characterised",
    "C34_minus_zero_characterised",
    "C05_Number_characterised",
    "C05_string_option_characterised"
   ],
   "note": "the exact function is act_sc (Actual.v); the other theorems spell out its exceptions"
  },
  {
   "property": "C56",
   "status": "proved",
   "theorems": [
    "C24_characterised"
   ],
   "note": ""
  },
  {
   "property": "C57",
   "status": "proved",
   "theorems": [
    "C23_string_map_characterised"
   ],
   "note": ""
  },
  {
   "property": "C58",
   "status": "proved",
   "theorems": [
    "C35_characterised",
    "C35_mixed"
   ],
   "note": ""
  },
  {
   "property": "C59",
   "status": "proved",
   "theorems": [
    "C59_pointers_outside_lists",
    "C59_any_number_of_calls"
   ],
   "note": "beyond the property: C59_recursive_partial, the same with recursive structs, for the histories of C26_mixed"
  },
  {
   "property": "C60",
   "status": "proved",
   "theorems": [
    "C60_plain_types",
    "C60_contents_do_not_matter",
    "C60_linked_structs",
    "C60_around_linked_structs"
   ],
   "note": "beyond the property: C60_verdict_partial, C60_recursive_verdict_partial, C60_mixed_verdict_partial say the same for all other types, within the classes of documents of C15 and C26; outside of them it is false (C60_refuted_unknown_members)"
  },
  {
   "property": "C61",
   "status": "partial",
   "theorems": [
    "C61_accepted_iff_conforms_partial",
    "C61_recursive_partial",
    "C61_mixed_partial",
    "C61_refuted_overflow"
   ],
   "note": "REFUTED in general by the leaves of C03 and C05 and the control-flow defects of C15; proved within ctl_root/rctl/wlast on sound leaves"
  },
  {
   "property": "C62",
   "status": "proved",
   "theorems": [
    "C62_types_around_linked_structs_are_safe",
    "C62_exact_is_ideal"
   ],
   "note": ""
  },
  {
   "property": "C63",
   "status": "proved",
   "theorems": [
    "C28_history_without_arrays"
   ],
   "note": "types without recursion: decoder_for; without arrays: arrays d = false"
  },
  {
   "property": "C64",
   "status": "proved",
   "theorems": [
    "C31_returns_iff",
    "C31_terminates",
    "C31_accepted_grounded",
    "C31_diverges",
    "C31_errors_justified"
   ],
   "note": "grounded is the finiteness condition (well-foundedness of direct steps)"
  },
  {
   "property": "C65",
   "status": "proved",
   "theorems": [
    "C65_unmarshal"
   ],
   "note": ""
  },
  {
   "property": "C66",
   "status": "proved",
   "theorems": [
    "C29_types_without_recursion"
   ],
   "note": "beyond the property: C29_only_recursion_retains says what a decoder of a recursive type can hold"
  },
  {
   "property": "C67",
   "status": "proved",
   "theorems": [
    "C67_members",
    "C67_types"
   ],
   "note": "C67_types adds the decoded types, C67_member what Decode does with a one-member document (within the class of C15)"
  },
  {
   "property": "C68",
   "status": "proved",
   "theorems": [
    "C68_error_is_local"
   ],
   "note": "for every frame list, decoder state and memory; case C68_case; the number of elements of an array is part of its opening token and determines the size of the memory allocated, hence the condition on array lengths"
  },
  {
   "property": "C69",
   "status": "proved",
   "theorems": [
    "C69_failed_call"
   ],
   "note": "for the types of C53; C69_failed_call_other_types: every non-recursive type on the documents of ctl_root; C69_left_anywhere: at every depth; cases C69_case, C69_case_slices; spec struct_left, map_left, elems_left, slice_left"
  },
  {
   "property": "C70",
   "status": "proved",
   "theorems": [
    "C70_struct",
    "C70_map",
    "C70_slice",
    "C70_array"
   ],
   "note": "C19-C23 without exceptions on the types of C53; `actual` (Actual.v) describes the defective leaves as they are, on sound leaves it is `ideal` (C53_exact_is_ideal); cases C70_struct_case, C70_map_case, C70_slice_case, C70_array_case"
  },
  {
   "property": "C71",
   "status": "proved",
   "theorems": [
    "C71_decode_inverts_encoding",
    "C71_every_value_has_a_text"
   ],
   "note": "C42, C43 for the types on which they hold without exception; cases C42_case, C43_case"
  },
  {
   "property": "C72",
   "status": "proved",
   "theorems": [
    "C72_member_order",
    "C72_decoding_again"
   ],
   "note": "C44, C45 for the types of C53; cases C44_any_leaf_case, C45_any_leaf_case"
  },
  {
   "property": "C73",
   "status": "proved",
   "theorems": [
    "C73_with_pointers",
    "C73_pointers_any_number_of_calls",
    "C73_structs_and_arrays",
    "C73_any_number_of_calls",
    "variable_cut"
   ],
   "note": "every document, all options; the classes are `boxed` (with pointers; the destination is described up to what its pointers refer to, `cut`) and `simple` (PropsFlat.v); cases C73_case, C73_pointers_case (documents on which the loop loses the frame and goes on, is refused, panics); C16_refuted_unknown_array: with [][]int it is false"
  },
  {
   "property": "C74",
   "status": "proved",
   "theorems": [
    "C74_successful_call",
    "C74_failed_call",
    "C74_other_types",
    "C74_stored_anywhere",
    "C74_stopped_anywhere",
    "C74_struct_stored",
    "C74_struct_stopped",
    "C74_field_stored",
    "C74_field_stopped"
   ],
   "note": "types of C62 (`wany`, no numbers in strings), every document; C74_other_types: every type around recursive structs, documents of `wlast`; the _anywhere, _struct_ and _field_ theorems say the same at every depth; cases C74_case, C74_case_slices"
  },
  {
   "property": "C75",
   "status": "proved",
   "theorems": [
    "C75_decode_inverts_encoding",
    "C75_overwrites",
    "C75_in_class",
    "C75_every_value_has_a_text",
    "C75_member_order",
    "C75_decoding_again"
   ],
   "note": "`wtree` types (recursion through pointers; behind pointers, as map values, as first fields), previous values without map entries (`no_entries`) or, without maps in the type, any previous value; C75_in_class: every type around recursive structs, documents of `wlast`; member order and repetition for the types of C62; cases C75_case (a tree overwritten by another), C75_case_map"
  },
  {
   "property": "C76",
   "status": "proved",
   "theorems": [
    "C76_program_is_values",
    "C76_every_document",
    "C76_each_variable_alone",
    "C76_any_decoder",
    "C76_start"
   ],
   "note": "every call: a type around recursive structs on a document of the class of C26 (`wlast`), or a type without recursion on one of the class of C15 (`ctl_root`), no empty strings for numbers (outside of these classes it is false: C15, C26); C76_every_document: all documents for the types of C53 and C62; programs that replace a decoder of a recursive type after it refused a well-formed document (needed: C28_refuted); variables in blocks of their own; `values` runs the program on a list of values with the decoder on values of C62 in place of memory and decoders; C76_start: new zeroed variables and new decoders meet the hypotheses; case C76_case: four variables, four decoders, ten calls of which four fail"
  }
 ]
}