{
 "claims": [
  {
   "property": "C01",
   "status": "partial",
   "theorems": [
    "C01_layout_debug",
    "C01_layout_partial",
    "C01_layout_release_refuted",
    "C01_layout_exact"
   ],
   "note": "The universal claim is refuted for a compiler built without overflow checks (C01_layout_release_refuted). Unconditional with overflow checks (C01_layout_debug). Exact in both builds: every position and size is the declared one modulo 2^64, and with overflow checks the total is below 2^64 (C01_layout_exact)."
  },
  {
   "property": "C02",
   "status": "partial",
   "theorems": [
    "C02_windows_in_bounds",
    "C02_raw_accessors_total",
    "C02_view_getter_total",
    "C02_view_setter_total",
    "C02_panics_exact",
    "C02_release_refuted"
   ],
   "note": "Refuted for structures of 2^64 bits or more compiled without overflow checks (C02_release_refuted); proved for all others, raw and view accessors of 1..64 bit scalars. Exact for both byte orders: an accessor panics iff the structure is big-endian, overflow checks are on and o mod 8 + w mod 8 > 8 (C02_panics_exact); the compiler itself only produces little-endian structures (C14)."
  },
  {
   "property": "C03",
   "status": "partial",
   "theorems": [
    "C03_get_raw_exact_partial",
    "C03_get_raw_exact_iff",
    "C03_get_raw_refuted"
   ],
   "note": "False in general (refuted): a field straddling its codec window or with an unaligned byte codec is misread. Proved exactly for addressable positions, and the guard is shown necessary."
  },
  {
   "property": "C04",
   "status": "partial",
   "theorems": [
    "C04_set_raw_exact_partial",
    "C04_set_raw_exact_iff",
    "C04_set_raw_refuted"
   ],
   "note": "As C03: refuted in general, proved for addressable positions, guard necessary."
  },
  {
   "property": "C05",
   "status": "partial",
   "theorems": [
    "C05_history_partial",
    "C05_history_exact",
    "C05_history_refuted"
   ],
   "note": "Refuted in general; proved for histories over addressable fields. Exact: in a structure of scalars, the fields are independent variables iff every field is addressable."
  },
  {
   "property": "C06",
   "status": "partial",
   "theorems": [
    "C06_signed_view_partial",
    "C06_signed_exact",
    "C06_signed_refuted"
   ],
   "note": "Proved for addressable signed fields without a view; C06_signed_exact shows the guard necessary for each field, C06_signed_refuted that the universal claim is false."
  },
  {
   "property": "C07",
   "status": "partial",
   "theorems": [
    "C07_unsigned_view_partial",
    "C07_bool_view_partial",
    "C07_float_bits_view_partial",
    "C07_unsigned_exact",
    "C07_bool_exact",
    "C07_float_bits_exact",
    "C07_views_refuted"
   ],
   "note": "Proved for addressable fields; C07_unsigned_exact, C07_bool_exact and C07_float_bits_exact show the guard necessary for each field, C07_views_refuted that the universal claim is false."
  },
  {
   "property": "C08",
   "status": "partial",
   "theorems": [
    "C08_enum_view_partial",
    "C08_enum_exact",
    "C08_enum_hole_refuted",
    "C08_enum_narrow_refuted"
   ],
   "note": "Refuted for enums with holes and for enums wider than their field; proved for hole-free enums and values that fit. C08_enum_exact: among the fields that are read at all, the addressable ones and no others give their value back."
  },
  {
   "property": "C09",
   "status": "partial",
   "theorems": [
    "C09_scaled_view_partial",
    "C09_power_of_two_partial",
    "C09_outside_partial",
    "C09_range_partial",
    "C09_range_ends",
    "C09_above_refuted",
    "C09_wide_refuted",
    "C09_float_range_refuted"
   ],
   "note": "Proved for multipliers and for ranges starting at zero, steps between 2^-100 and 2^100 and widths up to 50 bits other than 32, up to rounding errors bounded in the statement; exact for powers of two up to the precision of the view type. NaN, negative values and infinity saturate. C09_range_partial and C09_range_ends say what every range with another minimum does: a stored value is read back shifted by min*(1-step), and the largest raw value reads as min+max; so the property is refuted for these ranges, for values above the range (they wrap) and for 32-bit fields (f32 view)."
  },
  {
   "property": "C10",
   "status": "partial",
   "theorems": [
    "C10_array_field_partial",
    "C10_unaligned_array_refuted",
    "C10_array_exact",
    "C10_array_reach",
    "C10_release_index_refuted"
   ],
   "note": "Proved for byte-aligned arrays and in-range indices; unaligned arrays and release-mode huge indices refuted. C10_array_exact shows both alignment guards necessary; C10_array_reach says what every other accepted array does instead."
  },
  {
   "property": "C11",
   "status": "partial",
   "theorems": [
    "C11_total_width_partial",
    "C11_accepted_exact",
    "C11_length_exact",
    "C11_subbyte_array_refuted",
    "C11_oddbit_array_refuted"
   ],
   "note": "Refuted: only the total width is checked. Exact: which arrays are accepted; the length of an accepted array panics iff items are below a byte, and is the declared one iff the bits lost to rounding make up less than one item (items themselves: C10_array_exact)."
  },
  {
   "property": "C12",
   "status": "partial",
   "theorems": [
    "C12_nested_paths_partial",
    "C12_unaligned_nested_refuted",
    "C12_nested_exact"
   ],
   "note": "Proved for chains of byte-aligned structures; refuted otherwise. C12_nested_exact shows both guards necessary."
  },
  {
   "property": "C13",
   "status": "partial",
   "theorems": [
    "C13_be_bytes_partial",
    "C13_be_bits_partial",
    "C13_be_bits_zeroed_partial",
    "C13_be_field_partial",
    "C13_be_bytes_exact",
    "C13_be_bits_exact",
    "C13_be_bits_panic",
    "C13_be_bits_release",
    "C13_be_refuted"
   ],
   "note": "The universal claim is refuted (C13_be_refuted). Exact: the byte codec is right iff the window has the type's size (C13_be_bytes_exact); the bit codec is right iff additionally the field fits and 2*offset + size mod 8 = 8, or a whole byte through u8 in release (C13_be_bits_exact); it panics exactly when the shift overflows with checks on (C13_be_bits_panic)."
  },
  {
   "property": "C14",
   "status": "partial",
   "theorems": [
    "C14_little_partial",
    "C14_endianness_refuted"
   ],
   "note": "Refuted: a declared big endianness is ignored. Proved: everything compiled is little-endian, so the claim holds for protocols declaring little."
  },
  {
   "property": "C15",
   "status": "partial",
   "theorems": [
    "C15_scalar_widths_partial",
    "C15_bad_width_error_partial",
    "C15_scalar_exact",
    "C15_bool_width_refuted"
   ],
   "note": "Proved for all scalars but booleans (width bounds, smallest storage, error in release builds and in debug builds without arithmetic overflow); booleans of width 0 and 100 are accepted (refuted). Exact: the widths accepted for a plain scalar of each kind."
  },
  {
   "property": "C16",
   "status": "partial",
   "theorems": [
    "C16_no_panic_partial",
    "C16_structure_release",
    "C16_enum_and_message",
    "C16_panic_refuted",
    "C16_structure_exact",
    "C16_union_exact",
    "C16_protocol_exact"
   ],
   "note": "Refuted by five witnesses; proved under the guard that excludes exactly those causes. Exact: C16_structure_exact, C16_union_exact and C16_protocol_exact state when compiling panics, in both directions."
  },
  {
   "property": "C17",
   "status": "partial",
   "theorems": [
    "C17_enum_sorted",
    "C17_enum_empty",
    "C17_enum_deterministic_partial",
    "C17_enum_deterministic_exact",
    "C17_enum_lookup",
    "C17_duplicates_refuted"
   ],
   "note": "Sorting, largest value, empty enum and lookup proved for all enums; order-independence proved for distinct numbers and refuted for duplicates. C17_enum_deterministic_exact: which lists of variants give the same enum, for all enums."
  },
  {
   "property": "C18",
   "status": "proved",
   "theorems": [
    "C18_length_prefix"
   ],
   "note": "For every max_len below 2^64 (usize)."
  },
  {
   "property": "C19",
   "status": "proved",
   "theorems": [
    "C19_open_field_last",
    "C19_reported"
   ],
   "note": "For every compiled protocol."
  },
  {
   "property": "C20",
   "status": "proved",
   "theorems": [
    "C20_struct_references",
    "C20_union_references",
    "C20_message_references",
    "C20_undefined_reference",
    "C20_struct_shadows_message"
   ],
   "note": "Structures, unions and messages; undefined names give UndefinedReference."
  },
  {
   "property": "C21",
   "status": "partial",
   "theorems": [
    "C21_import_resolves_partial",
    "C21_solver_lookup",
    "C21_import_unknown",
    "C21_names",
    "C21_names_prefixed",
    "C21_shadow_refuted",
    "C21_exact"
   ],
   "note": "The name every type is printed under is determined for all accepted protocols (C21_names), and so is what every name refers to (C21_exact: the last own definition, or else the last import, structures before enums before unions before messages). A local type of the same name keeps the import's path (refuted). Its printed names are the bare ones with the import path and the separator in front (C21_names_prefixed)."
  },
  {
   "property": "C22",
   "status": "proved",
   "theorems": [
    "C22_write",
    "C22_deterministic"
   ],
   "note": "For every message type and every value that has an encoding in the specified wire format (the well-formed values); the encoding is unique."
  },
  {
   "property": "C23",
   "status": "partial",
   "theorems": [
    "C23_suffix_exact_partial",
    "C23_suffix_exact",
    "C23_whole_partial",
    "C23_suffix",
    "C23_written_is_lax",
    "C23_after_payload_refuted"
   ],
   "note": "Proved for self-delimiting messages with any suffix, and for whole inputs of readable messages. Refuted for a message with a scalar after a payload, which the compiler accepts. Exact: when the items of walked lists are self-delimiting, a value in front of other bytes is read back if and only if it contains no payload and no unwalked list (C23_suffix_exact_partial). C23_suffix_exact: exactly which values, for every message, without that condition."
  },
  {
   "property": "C24",
   "status": "partial",
   "theorems": [
    "C24_encoding_exact",
    "C24_sound_partial",
    "C24_rewrite_partial",
    "C24_presence_refuted",
    "C24_list_refuted"
   ],
   "note": "Refuted: presence bytes 2-255 and lists in messages that are not list items are accepted without being encodings. Proved for messages whose lists are walked and whose array lengths cannot overflow unnoticed, up to the presence byte, and exactly for messages without optional fields. C78_decode_exact says for every input, with no condition on the message, which value and size are returned. C80_again: what was read is always written again in as many bytes that read as the same value. C24_encoding_exact: for every message, what was accepted is an encoding if and only if the lists and arrays of the value are genuine (data of the items they count)."
  },
  {
   "property": "C25",
   "status": "proved",
   "theorems": [
    "C25_size"
   ],
   "note": "For inputs below 2^64 bytes (every Rust slice)."
  },
  {
   "property": "C26",
   "status": "partial",
   "theorems": [
    "C26_string_exact_partial",
    "C26_array_exact_partial",
    "C26_no_panic_partial",
    "C26_string_refuted",
    "C26_array_refuted"
   ],
   "note": "Refuted: length-prefixed strings (both modes) and arrays with a 64-bit prefix (overflow checks). Proved for compiled messages without these fields whose unions refer to mandatory fields and a scalar of 1 to 64 bits. The guard is needed: every length-prefixed string that the reader reaches panics on cut input in both modes (C26_string_exact_partial), and with overflow checks every reached array whose byte length does not fit 64 bits panics (C26_array_exact_partial). C78_decode_exact says for every input exactly when decoding panics. Holds whatever run generated the code of each message."
  },
  {
   "property": "C27",
   "status": "partial",
   "theorems": [
    "C27_error_is_reported_partial",
    "C27_truncated_partial",
    "C27_string_refuted"
   ],
   "note": "Refuted for length-prefixed strings (panic). Proved for all self-delimiting messages without them. Errors and panics of a member that the reader reaches, at any depth, are those of the whole message (C27_error_is_reported_partial). C78_decode_exact says for every input exactly when Truncated is returned."
  },
  {
   "property": "C28",
   "status": "proved",
   "theorems": [
    "C28_unique"
   ],
   "note": "For encodings below 2^64 bytes."
  },
  {
   "property": "C29",
   "status": "proved",
   "theorems": [
    "C29_offsets"
   ],
   "note": "describes (SpecOffsets) spells out contiguity, coverage, per-field decoding and nested offsets."
  },
  {
   "property": "C30",
   "status": "proved",
   "theorems": [
    "C30_size_of"
   ],
   "note": "Also for failing writes; total below 2^64 bytes as in the statement."
  },
  {
   "property": "C31",
   "status": "proved",
   "theorems": [
    "C31_prefix",
    "C31_limited"
   ],
   "note": "For every writer that receives a prefix when it fails; exact byte count for a writer of limited capacity."
  },
  {
   "property": "C32",
   "status": "partial",
   "theorems": [
    "C32_read",
    "C32_message_read",
    "C32_write_mismatch_partial",
    "C32_set_discriminant_partial",
    "C32_set_exact",
    "C32_set_refuted",
    "C32_empty_case_refuted"
   ],
   "note": "Refuted: a case without content is written whatever the discriminant is, and the number of a case may not fit the discriminant (C32_set_refuted). Proved: reading, mismatch error for cases with content, set_discriminant then write and read for discriminants that are byte-addressable scalars large enough for the case number. C32_set_exact: for these scalars, the case set is the case read afterwards if and only if its number fits and no earlier case has it. C79_encode_exact says for every value what is written for a union."
  },
  {
   "property": "C33",
   "status": "partial",
   "theorems": [
    "C33_iterate_exact",
    "C33_build",
    "C33_to_ref",
    "C33_iterate_partial",
    "C33_payload_items_refuted"
   ],
   "note": "Building proved for all item types; iteration proved for self-delimiting items and refuted for items with a payload. C33_iterate_exact: for any items, exactly when iterating gives the items that were written. C33_to_ref: a list converted to a borrowed one has the same items."
  },
  {
   "property": "C34",
   "status": "partial",
   "theorems": [
    "C34_iterate_exact",
    "C34_at_most_len_partial",
    "C34_walked_partial",
    "C34_stuck_refuted"
   ],
   "note": "Refuted: after a malformed item the iterator returns the error for ever. Proved: at most len successful results; lists the reader has walked iterate to their end. C34_iterate_exact gives the results of any number of calls for every list, walked or not."
  },
  {
   "property": "C35",
   "status": "partial",
   "theorems": [
    "C35_item_exact",
    "C35_unchanged_exact",
    "C35_length_kept_partial",
    "C35_earlier_items_partial",
    "C35_stops",
    "C35_partial_bytes_refuted"
   ],
   "note": "Refuted: partially written bytes stay in the list. Proved: the length is kept and earlier items still decode. C35_item_exact gives the list after every item that fails; C35_unchanged_exact says exactly when it is left unchanged."
  },
  {
   "property": "C36",
   "status": "partial",
   "theorems": [
    "C36_from_parts",
    "C36_get",
    "C36_get_mut",
    "C36_iterate_partial",
    "C36_iterate_mut_partial",
    "C36_wire_partial",
    "C36_shape_refuted",
    "C36_empty_items_refuted",
    "C36_iterate_exact"
   ],
   "note": "Refuted: wrapped lengths in release builds; iteration over empty structures panics. Proved otherwise. C36_iterate_exact: what iterating the items gives for every buffer."
  },
  {
   "property": "C37",
   "status": "partial",
   "theorems": [
    "C37_prefix_partial",
    "C37_string_exact",
    "C37_array_exact",
    "C37_list_count",
    "C37_string_refuted",
    "C37_list_refuted"
   ],
   "note": "Refuted: lengths are truncated. Proved: the written prefix is the length modulo the prefix range. Exact: strings and arrays survive iff the length fits the prefix; the count of a list is read modulo the prefix range. C79_encode_exact covers every length."
  },
  {
   "property": "C38",
   "status": "partial",
   "theorems": [
    "C38_whole_exact_partial",
    "C38_whole_exact",
    "C38_tidy_partial",
    "C38_after_payload_refuted",
    "C38_nested_list_refuted"
   ],
   "note": "Refuted by three shapes of message. Proved for messages in which open-ended fields are last and list items contain none. Exact: when the items of walked lists are self-delimiting, a value is read back if and only if no payload or unwalked list in it has bytes behind it (C38_whole_exact_partial). C38_whole_exact: exactly which values, for every message, without that condition."
  },
  {
   "property": "C39",
   "status": "partial",
   "theorems": [
    "C39_item_size_partial",
    "C39_item_size_exact",
    "C39_flattened_refuted"
   ],
   "note": "Refuted for a 24-bit structure. Proved unless the structure is a single scalar whose width differs from its storage type. Exact: the item has the declared size iff the description is not a misfit (single scalar without view, whole bytes but not a storage width)."
  },
  {
   "property": "C40",
   "status": "partial",
   "theorems": [
    "C40_roundtrip_partial",
    "C40_nul_refuted"
   ],
   "note": "Refuted by a string containing NUL; proved exactly for strings without NUL."
  },
  {
   "property": "C41",
   "status": "proved",
   "theorems": [
    "C41_utf8",
    "C41_terminated",
    "C41_prefixed"
   ],
   "note": "UTF-8 is specified as the encoding of sequences of scalar values; both string formats."
  },
  {
   "property": "C42",
   "status": "partial",
   "theorems": [
    "C42_literal_partial",
    "C42_line_exact",
    "C42_empty_refuted"
   ],
   "note": "Refuted for the empty line, which renders to nothing; proved for every other line that is not a directive and does not end in a carriage return. C42_line_exact: what every line that is no directive renders to."
  },
  {
   "property": "C43",
   "status": "partial",
   "theorems": [
    "C43_meaning_partial",
    "C43_unknown_function_partial",
    "C43_compile_no_panic",
    "C43_render_no_panic",
    "C43_functions",
    "C43_capitalize",
    "C43_close_after_variable_refuted",
    "C43_capitalize_panics",
    "C43_exact",
    "C43_exact_total"
   ],
   "note": "Exact for every text: C43_exact gives, for any bytes as lines, the fragments closed, what they render to for all variables, or the error; C43_exact_total shows every text is covered. Rendering equals the meaning of the template tree, unknown functions, variables and fragments are reported, no panic on ASCII values for any bytes that compile. Refuted where a variable is directly followed by a doubled closing brace."
  },
  {
   "property": "C44",
   "status": "proved",
   "theorems": [
    "C44_template",
    "C44_scope",
    "C44_new_scope",
    "C44_history"
   ],
   "note": "For every history of operations; the state of template and scopes is refined to one variable map per object."
  },
  {
   "property": "C45",
   "status": "partial",
   "theorems": [
    "C45_paths_partial",
    "C45_unmatched_pop",
    "C45_line_outside",
    "C45_unclosed_refuted",
    "C45_crlf_refuted"
   ],
   "note": "Paths, own lines and both errors for every tree of fragments. Refuted for unclosed fragments, which are dropped, and for blank lines in CRLF templates."
  },
  {
   "property": "C46",
   "status": "partial",
   "theorems": [
    "C46_generation_partial",
    "C46_no_items_refuted",
    "C46_wide_bool_refuted",
    "C46_accented_refuted"
   ],
   "note": "Exact characterisation: generation succeeds for precisely the declarations without empty arrays, without scalars outside 1..64 bits and with list names that can be capitalised, and then yields the seven specified files; otherwise it panics. The universal claim is refuted by three accepted protocols."
  },
  {
   "property": "C47",
   "status": "partial",
   "theorems": [
    "C47_steps",
    "C47_folder",
    "C47_contents_partial",
    "C47_contents_exact",
    "C47_umbrella",
    "C47_same_name_refuted",
    "C47_folder_refuted"
   ],
   "note": "The steps on the file system are characterised exactly for every file system, generator, flags and protocol list; contents proved for file systems that store what is written. Refuted for two protocols with one name and for files in folders. C47_contents_exact: what every path holds after every run, successful or not."
  },
  {
   "property": "C48",
   "status": "proved",
   "theorems": [
    "C48_order",
    "C48_first_error",
    "C48_session"
   ],
   "note": "Success and first failure characterised for every sequence of calls. C48_session: what a loader returns was compiled in one session, so the theorems about sessions apply to it."
  },
  {
   "property": "C49",
   "status": "proved",
   "theorems": [
    "C49_structures",
    "C49_enums",
    "C49_accessors",
    "C49_numbers",
    "C49_type_names"
   ],
   "note": "Text of structures and enumerations, accessor parameters from the declared position, decimal numbers. That rustc gives this text the meaning of the codec model is trusted."
  },
  {
   "property": "C50",
   "status": "proved",
   "theorems": [
    "C50_files",
    "C50_reading",
    "C50_writing",
    "C50_offsets"
   ],
   "note": "Text of the statements, and their meaning run by names equals the message model, for messages without two members of one name (rustc rejects the others). With Rust's scoping, where a member can hide another variable: C73."
  },
  {
   "property": "C51",
   "status": "proved",
   "theorems": [
    "C51_unions",
    "C51_lower_names",
    "C51_discriminants"
   ],
   "note": "Text of unions, and discriminant paths run by method names equal the model, for structures without two methods of one name."
  },
  {
   "property": "C52",
   "status": "proved",
   "theorems": [
    "C52_new_on_stack"
   ],
   "note": "Scalars of 1..64 bits through any chain of nested structures, both build modes."
  },
  {
   "property": "C53",
   "status": "partial",
   "theorems": [
    "C53_cases",
    "C53_accepted",
    "C53_negative_dead",
    "C53_negative_refuted"
   ],
   "note": "Labels, names and types proved for every accepted union, and acceptance of every meaningful union; the last sentence is refuted for negative labels of discriminants narrower than 64 bits (never selected, for all data). (The generated Rust has such a label as a literal that does not fit its type.)"
  },
  {
   "property": "C54",
   "status": "partial",
   "theorems": [
    "C54_found",
    "C54_sound_partial",
    "C54_structure_refuted",
    "C54_trailing_refuted",
    "C54_accepted_exact"
   ],
   "note": "Every path to a scalar is accepted with its position; the converse is refuted (paths to a structure, trailing components) and proved up to those two defects. C54_accepted_exact: the paths that are accepted, for all structures."
  },
  {
   "property": "C55",
   "status": "proved",
   "theorems": [
    "C55_items",
    "C55_names"
   ],
   "note": "Items, order, scopes and lookup, for both build modes."
  },
  {
   "property": "C56",
   "status": "partial",
   "theorems": [
    "C56_settings",
    "C56_success_partial",
    "C56_files_exact",
    "C56_succeeds",
    "C56_failure",
    "C56_same_variable_refuted"
   ],
   "note": "Success, failure and settings are characterised for all runs; the files are determined for distinct protocol names that are names of folders. That every protocol has its own variable is refuted for names that differ only in case. C56_files_exact: what every path holds, for any names."
  },
  {
   "property": "C57",
   "status": "proved",
   "theorems": [
    "C57_single"
   ],
   "note": "Utility of the runtime."
  },
  {
   "property": "C58",
   "status": "partial",
   "theorems": [
    "C58_write_back_partial",
    "C58_range_partial",
    "C58_write_back_refuted"
   ],
   "note": "Refuted: with the multiplier 0.01 in 8 bits, raw 5 becomes 4. Proved: exact for powers of two (C09_power_of_two_partial), at most one step down for the other views scaled from zero. C58_range_partial: for ranges with another minimum the raw value moves by min*(1-step)/step wherever the value can be stored."
  },
  {
   "property": "C59",
   "status": "proved",
   "theorems": [
    "C59_integers",
    "C59_means",
    "C59_accepts",
    "C59_determined",
    "C59_expressible",
    "C59_name_once",
    "C59_unknown_keys"
   ],
   "note": "About JSON values; the JSON5 text parser is not modelled. The meaning of the serde attributes is trusted."
  },
  {
   "property": "C60",
   "status": "partial",
   "theorems": [
    "C60_writes",
    "C60_rust_agrees",
    "C60_wrote_partial",
    "C60_writes_exact",
    "C60_refuted",
    "C60_too_long",
    "C60_too_many"
   ],
   "note": "Proved for every value that has an encoding. C60_writes_exact: a write traps exactly if something is too long for a length of 8, 32 or 64 bits, and otherwise writes the encoding exactly if the value has one; refuted for lengths above 65535 behind a 16 bit length, which are truncated."
  },
  {
   "property": "C61",
   "status": "partial",
   "theorems": [
    "C61_reads_partial",
    "C61_reads_exact",
    "C61_nts_partial",
    "C61_nts_refuted",
    "C61_optional_refuted",
    "C61_empty_string_refuted",
    "C61_empty_nts_refuted",
    "C61_empty_list_refuted",
    "C61_utf8_refuted",
    "C61_truncated",
    "C61_nts_truncated",
    "C61_optional_truncated",
    "C61_prefix_truncated",
    "C61_short_string_refuted",
    "C61_beyond_refuted",
    "C61_huge_length_refuted",
    "C61_array_cut_exact",
    "C61_list_cut_partial",
    "C61_sound_partial"
   ],
   "note": "Proved for numbers, non-empty strings with a length, absent optional values and non-empty lists of these anywhere, and for strings ended by 0 at the start of the storage. C61_reads_exact: no other encoding is read back with its size (arrays of numbers; the string decoder never shrinks its input). Refuted for present optional values (size), empty strings and lists (trap), strings ended by 0 elsewhere, invalid UTF-8 and short strings. Arrays and lists of numbers that are cut short are reported; a length of 2^63 or more, and an array whose size in bytes is no Int, traps in every build."
  },
  {
   "property": "C62",
   "status": "partial",
   "theorems": [
    "C62_byte_read",
    "C62_bit_read",
    "C62_byte_write",
    "C62_bit_write_partial",
    "C62_bit_write_refuted",
    "C62_unaligned_read_partial",
    "C62_unaligned_read_refuted",
    "C62_unaligned_bytes_refuted",
    "C62_lost_bytes_refuted",
    "C62_lost_bits_refuted",
    "C62_clobbered_refuted",
    "C62_unaligned_bytes_exact",
    "C62_unaligned_bits_exact",
    "C62_unaligned_write_refuted",
    "C62_second_write_refuted",
    "C62_array_count",
    "C62_array_get",
    "C62_array_set_partial",
    "C62_array_outside_debug",
    "C62_array_outside_refuted",
    "C62_array_set_outside_debug",
    "C62_array_set_outside_refuted",
    "C62_array_set_refuted",
    "C62_const_refuted"
   ],
   "note": "Proved for windows of the size of the type except bit writes to 8 and 32 bit types, which trap, and for unaligned bit reads inside the storage. Refuted for unaligned writes, unaligned byte reads, repeated writes through one buffer, array items set in constant data. C62_unaligned_bytes_exact, C62_unaligned_bits_exact: exactly what unaligned writes store. C62_const_refuted: items set in any buffer of constant data are lost. An index outside of an array traps in debug builds; other builds read what lies there in the storage."
  },
  {
   "property": "C63",
   "status": "partial",
   "theorems": [
    "C63_roundtrip_partial",
    "C63_clear",
    "C63_reuse_partial",
    "C63_reuse_longer_partial",
    "C63_reuse_refuted"
   ],
   "note": "Proved for fresh buffers (plain values), for cleared buffers with types without single bytes, and for cleared buffers with every type when the storage is longer than the encoding or has no byte left; refuted for cleared buffers in general."
  },
  {
   "property": "C64",
   "status": "partial",
   "theorems": [
    "C64_file",
    "C64_file_panic",
    "C64_accessors",
    "C64_type_names",
    "C64_setters_refuted",
    "C64_getter_partial",
    "C64_getter_bits_partial",
    "C64_getter_refuted",
    "C64_getter_trap_refuted",
    "C64_part",
    "C64_from_partial",
    "C64_from_truncated",
    "C64_from_empty_refuted",
    "C64_write_partial"
   ],
   "note": "The text is proved for every structure, with the parameters of the Rust accessors; getters agree for scalars of 1, 2, 4 or 8 bytes, and for bits in 3, 5, 6 or 7 bytes when the storage goes on. Refuted: numbers of 3, 5, 6 or 7 bytes are read with the byte behind them, all of these trap at the end of the storage, the setters are lines of Rust, and empty structures trap in debug builds. Views: C101."
  },
  {
   "property": "C65",
   "status": "proved",
   "theorems": [
    "C65_get",
    "C65_set",
    "C65_array",
    "C65_nested",
    "C65_codec",
    "C65_read",
    "C65_read_offsets",
    "C65_write",
    "C65_size",
    "C65_discriminant",
    "C65_build_list",
    "C65_iterate",
    "C65_array_items",
    "C65_compile",
    "C65_load"
   ],
   "note": "Every modelled function that depends on the profile is covered, for all inputs. The examples show both cases: equal results, and a panic in one profile only (an array index whose offset overflows; a signed field of 65 bits)."
  },
  {
   "property": "C66",
   "status": "proved",
   "theorems": [
    "C66_layout",
    "C66_accessors",
    "C66_read"
   ],
   "note": "For all descriptions whose total width does not overflow."
  },
  {
   "property": "C67",
   "status": "partial",
   "theorems": [
    "C67_compile",
    "C67_old_reader_partial",
    "C67_new_reader",
    "C67_new_reader_payload",
    "C67_old_reader_refuted",
    "C67_extended_exact"
   ],
   "note": "Refuted for old messages that are not self-delimiting: a message that ends with a list takes the added bytes for items. Proved for self-delimiting ones, in both directions. The new-reader theorems cover every added first field that needs input, and a lone payload. C67_extended_exact: for every message and input, the reader with more fields does what the reader without them does and continues with the new fields."
  },
  {
   "property": "C68",
   "status": "partial",
   "theorems": [
    "C68_prefix",
    "C68_final_partial",
    "C68_consumed_partial",
    "C68_pieces_partial",
    "C68_error_final",
    "C68_left",
    "C68_success_partial",
    "C68_open",
    "C68_success_exact_partial",
    "C68_swallows",
    "C68_success_exact",
    "C68_payload_refuted"
   ],
   "note": "Refuted: a payload or a list at the end takes the bytes that arrive later. Proved for every message: errors other than truncation are final (C68_error_final), a message with bytes behind it is final (C68_left), one that ends with the input stays or takes all that follows (C68_success_partial); everything is final for self-delimiting messages. C68_open and C68_success_exact_partial: exactly the values with a payload or a list that is not walked are not final (unless the items of a walked list hold such values). C68_success_exact: exactly which values are final, for every message. C68_pieces_partial holds whatever run generated the code of each message."
  },
  {
   "property": "C69",
   "status": "partial",
   "theorems": [
    "C69_compile",
    "C69_layout",
    "C69_accessors",
    "C69_unknown_refuted",
    "C69_unknown_exact"
   ],
   "note": "Refuted: a new variant that fills a hole is not reported as unknown by an old program. Everything else is proved for all enums. C69_unknown_exact: exactly which new numbers an old program reports."
  },
  {
   "property": "C70",
   "status": "partial",
   "theorems": [
    "C70_compile",
    "C70_unlisted_partial",
    "C70_read_partial",
    "C70_read_refuted",
    "C70_accepted_exact"
   ],
   "note": "Refuted: a new message that contains a list of an existing one changes how this one is decoded, and valid input is rejected. Proved for self-delimiting messages, and for all messages of which no part that has a list itself is an item of a list of an added message. C70_accepted_exact says for every input the old program accepts exactly when the new one reads it alike: when the new reader finds in each list it walks the items the list counts (always, if bytes follow the message)."
  },
  {
   "property": "C71",
   "status": "partial",
   "theorems": [
    "C71_write",
    "C71_read_partial",
    "C71_cut_partial",
    "C71_read_exact_partial",
    "C71_read_exact"
   ],
   "note": "Writing: proved for all messages. Reading: for self-delimiting messages, as messages with a payload or an unmarked list take the whole input (C68_payload_refuted). Cut input: also without length-prefixed strings, which panic (C27_string_refuted). C71_read_exact_partial: exactly which sequences can be read back. C71_read_exact: the same for all messages without a condition on their lists."
  },
  {
   "property": "C72",
   "status": "partial",
   "theorems": [
    "C72_replace_partial",
    "C72_replace_whole_partial",
    "C72_replace_exact_partial",
    "C72_replace_any_partial",
    "C72_replace_exact",
    "C72_replace_refuted"
   ],
   "note": "False of accepted messages: C72_replace_refuted, where an optional payload that was absent is put in before another member and takes that member too. C72_replace_exact says exactly when the replacement is read as expected, for every message, input, member and new value: unless an earlier value takes all the bytes, or the new value takes what stands behind it, or the new encoding cannot be read even by itself. C72_replace_partial and C72_replace_whole_partial: self-delimiting messages, and readable ones that are the whole input, with no further condition. C72_replace_exact_partial and C72_replace_any_partial: any bytes, also such as are no encoding."
  },
  {
   "property": "C73",
   "status": "partial",
   "theorems": [
    "C73_structures_partial",
    "C73_structures_refuted",
    "C73_unions_partial",
    "C73_unions_refuted",
    "C73_types",
    "C73_types_refuted",
    "C73_constants_partial",
    "C73_members_partial",
    "C73_keywords_refuted",
    "C73_text",
    "C73_reading_partial",
    "C73_offsets_partial",
    "C73_reading_refuted",
    "C73_temporary_refuted",
    "C73_offsets_refuted"
   ],
   "note": "False in general: C73_structures_refuted, C73_unions_refuted, C73_types_refuted, C73_reading_refuted, C73_temporary_refuted and C73_offsets_refuted give accepted and generated protocols with each kind of clash. For plain names the exact condition is proved for structures (no_clash), unions (cases_differ), types and constants; reading functions are proved correct with one scope of local variables under no_hiding. C73_keywords_refuted: a member can be named by a reserved word. Not modelled: names that are no identifiers."
  },
  {
   "property": "C74",
   "status": "partial",
   "theorems": [
    "C74_messages_partial",
    "C74_messages_refuted",
    "C74_unions_partial",
    "C74_unions_refuted"
   ],
   "note": "False in general: a message of scalars, or a union without items, is declared without a lifetime and used with one (C74_messages_refuted, C74_unions_refuted). The conditions of the declarations and all uses in members and unions are proved."
  },
  {
   "property": "C75",
   "status": "proved",
   "theorems": [
    "C75_enums",
    "C75_structures",
    "C75_unions",
    "C75_messages",
    "C75_imports",
    "C75_protocols"
   ],
   "note": "Both directions for enums, structures, unions, messages, imports and whole protocols, in both build profiles. The condition on unions includes the accidental acceptance of a path to a structure (C54)."
  },
  {
   "property": "C76",
   "status": "proved",
   "theorems": [
    "C76_enums",
    "C76_structures",
    "C76_unions",
    "C76_messages",
    "C76_imports",
    "C76_protocols",
    "C76_never"
   ],
   "note": "Both directions for every kind of definition and for whole protocols. C76_never: three of the declared error kinds are never reported."
  },
  {
   "property": "C77",
   "status": "proved",
   "theorems": [
    "C77_compile",
    "C77_wire"
   ],
   "note": "C77_compile covers every outcome of the compiler, including errors and panics; C77_wire reading, offsets, writing, sizes and accessors."
  },
  {
   "property": "C78",
   "status": "proved",
   "theorems": [
    "C78_decode_exact",
    "C78_deterministic"
   ],
   "note": "read_msg returns a value, an error or panics if and only if the specification of SpecDecode says so, for every message, byte string below 2^64 bytes and build profile; the specification gives one result for every input."
  },
  {
   "property": "C79",
   "status": "proved",
   "theorems": [
    "C79_encode_exact",
    "C79_total",
    "C79_anywhere",
    "C79_size",
    "C79_encodings",
    "C79_decoded"
   ],
   "note": "The result of writing is characterised in both directions for every value of the generated types; every such value has one; other destinations and size_of agree; encodable and decoded values are values of the type."
  },
  {
   "property": "C80",
   "status": "proved",
   "theorems": [
    "C80_again"
   ],
   "note": "For every message and accepted input, with no guard."
  },
  {
   "property": "C81",
   "status": "proved",
   "theorems": [
    "C81_encoding_exact"
   ],
   "note": "An equivalence for every message type, value, encoding and suffix. The recursion through the items of walked lists is in SpecSwallow, which refers to SpecDecode for how the reader splits the data of a list."
  },
  {
   "property": "C82",
   "status": "proved",
   "theorems": [
    "C82_builds",
    "C82_round_trip",
    "C82_stream",
    "C82_dataset_refuted",
    "C82_truncated",
    "C82_no_panic",
    "C82_string_refuted",
    "C82_sound",
    "C82_structs"
   ],
   "note": "General theorems (C12, C23, C24, C26, C27) instantiated: their guards are decided by checkers proved sound. The two exceptions are real and shown by C82_dataset_refuted and C82_string_refuted. Array members of structures are not included (C10). Imported messages may be generated by any other run (the build script runs the compiler once per group of descriptions)."
  },
  {
   "property": "C83",
   "status": "partial",
   "theorems": [
    "C83_same",
    "C83_program",
    "C83_marks",
    "C83_read_partial",
    "C83_read_refuted",
    "C83_accepted_exact"
   ],
   "note": "C83_same, C83_program, C83_marks proved for all chains of runs. Reading is refuted: if a later protocol has a list of an imported message that has a list itself, the imported message's reader was generated without walking its list and valid input is rejected (C83_read_refuted). Proved when no protocol has such a list (C83_read_partial). C83_accepted_exact says for every input the program accepts exactly when a program generated in one run reads it alike; which encodings the program reads back at all is C38_whole_exact, which holds for any marks."
  },
  {
   "property": "C84",
   "status": "proved",
   "theorems": [
    "C84_offsets"
   ],
   "note": "From C29, by induction on the number of calls; data below 2^64 bytes."
  },
  {
   "property": "C85",
   "status": "proved",
   "theorems": [
    "C85_structure",
    "C85_field"
   ],
   "note": "By induction on the place of the structure, from the exact reader (C78), C72 and, for fields, C03 and C04; inputs below 2^64 bytes."
  },
  {
   "property": "C86",
   "status": "proved",
   "theorems": [
    "C86_compile",
    "C86_names",
    "C86_new_reader",
    "C86_old_reader",
    "C86_written"
   ],
   "note": "The two compilations are related step by step (GrowComp), up to the numbers of structures and messages; the readers by induction on the message, and what the old reader rejects from the exact reader (C78). Inputs below 2^64 bytes in C86_old_reader. Structures may be added with the cases, but no messages: a list in a new message can change how an existing message is read (C70)."
  },
  {
   "property": "C87",
   "status": "proved",
   "theorems": [
    "C87_messages",
    "C87_alike",
    "C87_structures",
    "C87_enums",
    "C87_unions",
    "C87_twice_refuted",
    "C87_accepted_refuted"
   ],
   "note": "The two compilations are compared name by name (OrderFacts.compiled_facts), then the readers and writers by induction on the message. Names have to be given once (C87_twice_refuted); whether a version is accepted depends on the order (C87_accepted_refuted). Messages may be reordered but not added, as a list in a new message can change how an existing one is read (C70)."
  },
  {
   "property": "C88",
   "status": "proved",
   "theorems": [
    "C88_kept",
    "C88_accepted",
    "C88_wire",
    "C88_exchange_refuted",
    "C88_enforced_refuted"
   ],
   "note": "Compilation is compared step by step for any relation between limits (LimitComp.resized_run); encodings by induction on the message. C88_exchange_refuted and C88_enforced_refuted are the boundaries: data from before a change of the length's size is misread, and the limit itself is checked nowhere. That values still have encodings is for messages without lists of messages, as a list value holds its items in encoded form."
  },
  {
   "property": "C89",
   "status": "partial",
   "theorems": [
    "C89_reader",
    "C89_bounded_partial",
    "C89_items",
    "C89_empty_items",
    "C89_bounded_refuted"
   ],
   "note": "False as stated: a list of messages without members has the reader try as many items as the number in front of the list says, whatever the length of the input (C89_empty_items; C89_bounded_refuted: four bytes, 2^32 - 1 items). Proved for all messages in which the items of walked lists take up bytes."
  },
  {
   "property": "C90",
   "status": "partial",
   "theorems": [
    "C90_messages",
    "C90_alike",
    "C90_structures",
    "C90_enums",
    "C90_apart_partial",
    "C90_apart_refuted"
   ],
   "note": "Writing, sizes, layouts and, for code generated in one state, reading are as before for every way to divide a protocol (C90_alike). With separate runs, reading is as before provided that no message has a list of an imported message that has a list (C90_apart_partial); otherwise valid input is rejected (C90_apart_refuted), the defect of C83."
  },
  {
   "property": "C91",
   "status": "partial",
   "theorems": [
    "C91_write",
    "C91_read",
    "C91_followed_partial",
    "C91_listed_refuted"
   ],
   "note": "Writing and the format are unchanged for every group and in every state (C91_write); reading is unchanged in the state after the protocol (C91_read). With other messages behind, writing and the format are still unchanged, and reading is in any two states that mark the same messages as items of lists if the group is marked whenever the message with it is, or has no list of messages (C91_followed_partial). A list of the message marks the message only, and then valid input is rejected if the group has a list (C91_listed_refuted)."
  },
  {
   "property": "C92",
   "status": "partial",
   "theorems": [
    "C92_accepted",
    "C92_layout",
    "C92_accessors_partial",
    "C92_members_partial",
    "C92_exact",
    "C92_unaligned_refuted"
   ],
   "note": "Acceptance, sizes and bits are the same for every group (C92_accepted, C92_layout). The accessors agree if the group starts on a byte boundary, and outside of the group always (C92_accessors_partial, C92_members_partial for views and arrays); C92_exact shows the boundary necessary for every accessor that is right without the group, C92_unaligned_refuted is a group inside a byte."
  },
  {
   "property": "C93",
   "status": "partial",
   "theorems": [
    "C93_accepted",
    "C93_layout",
    "C93_items_partial",
    "C93_exact",
    "C93_odd_items_refuted"
   ],
   "note": "Sizes and other fields are the same always (C93_layout); the array is accepted exactly if the fields are and make up whole bytes (C93_accepted). Items and fields are accessed alike if items are whole bytes on a byte boundary (C93_items_partial), which is necessary wherever the accessors of the fields are right (C93_exact); C93_odd_items_refuted has items of 12 bits."
  },
  {
   "property": "C94",
   "status": "partial",
   "theorems": [
    "C94_compiler",
    "C94_tool",
    "C94_runtime",
    "C94_names_exact",
    "C94_names_partial",
    "C94_values",
    "C94_names_refuted"
   ],
   "note": "Texts are told apart for all reported errors (C94_compiler), all errors of the tool (C94_tool) and of the runtime (C94_runtime). The reported name is written in the description exactly outside the far components of a discriminant path (C94_names_exact, C94_names_partial, C94_values); the universal claim is refuted by a path of three components (C94_names_refuted). The texts of system and JSON5 errors are arbitrary strings."
  },
  {
   "property": "C95",
   "status": "partial",
   "theorems": [
    "C95_read_partial",
    "C95_write_partial",
    "C95_full_partial",
    "C95_range_partial",
    "C95_falling_read_partial",
    "C95_falling_partial",
    "C95_above_refuted",
    "C95_huge_refuted"
   ],
   "note": "C95_read_partial: every width, every step from 0 to 2^100 (missing: bigger parameters, refuted by C95_huge_refuted). C95_falling_read_partial and C95_falling_partial: the same for negative steps, with the raw values in reverse. C95_write_partial and C95_range_partial: any two floats of which the greater is within the scale, widths up to the digits of the view type less three or four; C95_full_partial: all floats for 8, 16, 32 and 64 bits (missing: other widths and steps; beyond the scale it is refuted by C95_above_refuted)."
  },
  {
   "property": "C96",
   "status": "partial",
   "theorems": [
    "C96_layout",
    "C96_wire_partial",
    "C96_single_refuted"
   ],
   "note": "C96_layout: every structure, without conditions. C96_wire_partial: messages, if the cases of unions keep their numbers and no changed structure is a misfit (missing: misfits, refuted by C96_single_refuted)."
  },
  {
   "property": "C97",
   "status": "partial",
   "theorems": [
    "C97_accepted",
    "C97_format_partial",
    "C97_read_partial",
    "C97_behind_refuted",
    "C97_single_refuted"
   ],
   "note": "C97_accepted and C97_format_partial: acceptance, encodings and writing, for structures that are no misfits (missing: misfits, refuted by C97_single_refuted). C97_read_partial: reading whole inputs of tidy messages (missing: bytes behind the message, refuted by C97_behind_refuted; which encodings are read back otherwise is C81)."
  },
  {
   "property": "C98",
   "status": "partial",
   "theorems": [
    "C98_history_partial",
    "C98_new",
    "C98_from_parts",
    "C98_sent",
    "C98_index_refuted",
    "C98_index_exact",
    "C98_empty_refuted"
   ],
   "note": "Refinement for all histories of calls. Refuted: C98_index_refuted (release builds, far indices), C98_empty_refuted (empty structures)."
  },
  {
   "property": "C99",
   "status": "partial",
   "theorems": [
    "C99_apart",
    "C99_record_partial",
    "C99_order_partial",
    "C99_outside_partial",
    "C99_exact",
    "C99_usual",
    "C99_message_partial",
    "C99_shared_refuted"
   ],
   "note": "Induction over the history for places that the accessors reach. C99_exact: a structure is a record of all its places exactly if all are reachable. C99_message_partial: the same inside of a received message. Refuted: C99_shared_refuted (a structure that starts inside of a byte)."
  },
  {
   "property": "C100",
   "status": "partial",
   "theorems": [
    "C100_independent_partial",
    "C100_values_partial",
    "C100_exact",
    "C100_shared_refuted"
   ],
   "note": "Reduction of each view call to a raw write, then C99; representable values by the round trip of each view; C100_exact: a view keeps exactly the representable values. Missing: fields in or behind structures that start inside of a byte (places that are not reachable). Refuted for those: C100_shared_refuted."
  },
  {
   "property": "C101",
   "status": "partial",
   "theorems": [
    "C101_view_exact",
    "C101_bits_exact",
    "C101_behind_refuted",
    "C101_trap_refuted",
    "C101_array_same",
    "C101_array_behind_refuted",
    "C101_array_assign_same",
    "C101_array_assign_refuted",
    "C101_chain_same",
    "C101_chain_part_same"
   ],
   "note": "Exact for fields in 1, 2, 4 or 8 bytes, and for bits in 3, 5, 6 or 7 bytes when the storage goes on: same value if and only if the number is not in a gap of an enumeration. Refuted for whole numbers of 3, 5, 6 or 7 bytes with a byte behind them that is not zero (a signed number that is not negative is shown as negative), and at the end of the storage, where Swift traps. Arrays of unsigned numbers: C101_array_same and C101_array_assign_same (reading and writing) for items of 1, 2, 4 or 8 bytes; C101_array_behind_refuted (reading) and C101_array_assign_refuted (the written value is lost) for items of 3, 5, 6 or 7 bytes. Chains of structure fields: C101_chain_part_same (both languages end at the same bytes) and C101_chain_same for scalars in 1, 2, 4 or 8 bytes."
  }
 ]
}