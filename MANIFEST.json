{
 "claims": [
  {
   "property": "C01",
   "status": "proved",
   "theorems": [
    "C01_bit_field_roundtrip",
    "C01_uint_roundtrip",
    "C01_too_wide"
   ],
   "note": ""
  },
  {
   "property": "C02",
   "status": "proved",
   "theorems": [
    "C02_too_wide",
    "C02_int_field_roundtrip",
    "C02_int_roundtrip"
   ],
   "note": ""
  },
  {
   "property": "C03",
   "status": "proved",
   "theorems": [
    "C03_varuint_roundtrip",
    "C03_varuint_writes_format"
   ],
   "note": ""
  },
  {
   "property": "C04",
   "status": "proved",
   "theorems": [
    "C04_varint_roundtrip",
    "C04_varint_writes_format"
   ],
   "note": ""
  },
  {
   "property": "C05",
   "status": "proved",
   "theorems": [
    "C05_varuint_size",
    "C05_varint_size",
    "C05_varuint_monotone",
    "C05_varint_monotone"
   ],
   "note": ""
  },
  {
   "property": "C06",
   "status": "proved",
   "theorems": [
    "C06_varuint_out_of_range",
    "C06_varint_out_of_range",
    "C06_varuint_bitsize_error"
   ],
   "note": ""
  },
  {
   "property": "C07",
   "status": "proved",
   "theorems": [
    "C07_varint_all_but_min",
    "C07_varint_min_debug",
    "C07_varint_min_release"
   ],
   "note": "Exact characterisation: all values but i64::MIN round-trip; the two builds' behaviour on i64::MIN."
  },
  {
   "property": "C08",
   "status": "proved",
   "theorems": [
    "C08_varsize_accepts",
    "C08_varsize_ambiguous"
   ],
   "note": "Exact set of accepted inputs; ambiguity shown for every value."
  },
  {
   "property": "C09",
   "status": "proved",
   "theorems": [
    "C09_scalar_readers_total"
   ],
   "note": ""
  },
  {
   "property": "C10",
   "status": "proved",
   "theorems": [
    "C10_varuint_decode",
    "C10_varint_decode"
   ],
   "note": ""
  },
  {
   "property": "C11",
   "status": "proved",
   "theorems": [
    "C11_bit_length",
    "C11_numbits",
    "C11_numbits_0_1",
    "C11_bit_length_negative",
    "C11_numbits_negative"
   ],
   "note": ""
  },
  {
   "property": "C12",
   "status": "proved",
   "theorems": [
    "C12_alignment",
    "C12_zero"
   ],
   "note": ""
  },
  {
   "property": "C13",
   "status": "proved",
   "theorems": [
    "C13_align_to",
    "C13_no_alignment",
    "C13_align_to_zero"
   ],
   "note": ""
  },
  {
   "property": "C14",
   "status": "proved",
   "theorems": [
    "C14_string_roundtrip",
    "C14_too_long",
    "C14_string_read_only_utf8",
    "C14_string_read_arbitrary"
   ],
   "note": ""
  },
  {
   "property": "C15",
   "status": "proved",
   "theorems": [
    "C15_bytes_roundtrip",
    "C15_bytes_inconsistent"
   ],
   "note": ""
  },
  {
   "property": "C16",
   "status": "proved",
   "theorems": [
    "C16_extern_roundtrip",
    "C16_extern_written"
   ],
   "note": ""
  },
  {
   "property": "C17",
   "status": "proved",
   "theorems": [
    "C17_float_roundtrip",
    "C17_float16_roundtrip",
    "C17_float16_roundtrip_special",
    "C17_float16_value"
   ],
   "note": ""
  },
  {
   "property": "C18",
   "status": "proved",
   "theorems": [
    "C18_read_bytes_alloc",
    "C18_read_string_alloc"
   ],
   "note": "Allocation size is modelled as the length passed to the buffer constructor."
  },
  {
   "property": "C19",
   "status": "proved",
   "theorems": [
    "C19_unpacked_array_returns",
    "C19_packed_array_aborts",
    "C19_elements_in_type",
    "C19_width_refuted",
    "C19_union_selector_aborts",
    "C19_string_aborts",
    "C19_extern_aborts",
    "C19_bytes_never_aborts"
   ],
   "note": "Strings, bytes, extern, scalars, integer arrays (packed and not), union selectors."
  },
  {
   "property": "C20",
   "status": "proved",
   "theorems": [
    "C20_array_roundtrip",
    "C20_int_array",
    "C20_string_array",
    "C20_bytes_array",
    "C20_extern_array",
    "C20_bool_array",
    "C20_float_array",
    "C20_wrong_length",
    "C20_too_long"
   ],
   "note": ""
  },
  {
   "property": "C21",
   "status": "proved",
   "theorems": [
    "C21_packed_roundtrip",
    "C21_packed_roundtrip_release",
    "C21_packed_format"
   ],
   "note": "Every kind in a release build; every kind narrower than 64 bits in both builds; 64-bit kinds in debug builds: see C25."
  },
  {
   "property": "C22",
   "status": "proved",
   "theorems": [
    "C22_deltas_fit",
    "C22_max_attained"
   ],
   "note": ""
  },
  {
   "property": "C23",
   "status": "proved",
   "theorems": [
    "C23_packing_cost",
    "C23_descriptor_bit"
   ],
   "note": "Without per-element alignment (padding depends on positions)."
  },
  {
   "property": "C24",
   "status": "proved",
   "theorems": [
    "C24_array_size"
   ],
   "note": ""
  },
  {
   "property": "C25",
   "status": "proved",
   "theorems": [
    "C25_crossing_debug_write",
    "C25_crossing_debug_read",
    "C25_builds_agree",
    "C25_otherwise_reads"
   ],
   "note": ""
  },
  {
   "property": "C26",
   "status": "proved",
   "theorems": [
    "C26_mixed_sign"
   ],
   "note": ""
  },
  {
   "property": "C27",
   "status": "proved",
   "theorems": [
    "C27_bool",
    "C27_float",
    "C27_float16",
    "C27_string",
    "C27_buffers_abort"
   ],
   "note": "Exact result of the round trip for bool, float16/32/64 and strings; bytes and extern arrays abort."
  },
  {
   "property": "C28",
   "status": "proved",
   "theorems": [
    "C28_capacity",
    "C28_capacity_by_input",
    "C28_packed_unbounded"
   ],
   "note": "The chunk size is not an input of the decoding function, only of its memory use, as in the code; the growth rule of Vec is modelled. Packed arrays of equal elements: C28_packed_unbounded."
  },
  {
   "property": "C29",
   "status": "proved",
   "theorems": [
    "C29_string_array_size",
    "C29_equal_iff_empty"
   ],
   "note": "Unpacked, without per-element alignment."
  },
  {
   "property": "C30",
   "status": "proved",
   "theorems": [
    "C30_to_bytes"
   ],
   "note": ""
  },
  {
   "property": "C31",
   "status": "proved",
   "theorems": [
    "C31_roundtrip",
    "C31_roundtrip_bits",
    "C31_depth_irrelevant",
    "C31_roundtrip_any_depth"
   ],
   "note": "Schemas, expressions and values as in S_Gen.v: expressions are any functions of parameters and earlier fields. Packed arrays inside the value: structs (and choices whose announced widths suffice); packed bool/float/string arrays only where C27 loses nothing. Offsets are not values (never written)."
  },
  {
   "property": "C32",
   "status": "proved",
   "theorems": [
    "C32_prefix_free"
   ],
   "note": ""
  },
  {
   "property": "C33",
   "status": "proved",
   "theorems": [
    "C33_size_written",
    "C33_bytes_short",
    "C33_extern_short",
    "C33_dynamic_zero",
    "C33_packed_bits_refuted",
    "C33_packed_union_refuted"
   ],
   "note": "For every successful write of a type whose parts are in the list of S_Size.v (strings below 4 GiB, bit writer that appends the requested number of bits). Each kind left out is shown to be reported wrongly: bytes, extern, dynamic width (all values), bit:n and unions inside packed elements (counterexample), string arrays (C29)."
  },
  {
   "property": "C34",
   "status": "proved",
   "theorems": [
    "C34_conditional_no_bits",
    "C34_absent_one_bit",
    "C34_conditional_default"
   ],
   "note": "The fields before and after are written with the model's own field loop; from_bytes for every input."
  },
  {
   "property": "C35",
   "status": "proved",
   "theorems": [
    "C35_skipped_keeps",
    "C35_from_bytes",
    "C35_other_structs",
    "C35_stale_refuted"
   ],
   "note": "Stale contents: general theorem plus a concrete refutation of history independence."
  },
  {
   "property": "C36",
   "status": "proved",
   "theorems": [
    "C36_enum_wire",
    "C36_enum_declared",
    "C36_bitmask_any",
    "C36_union_bad_selector",
    "C36_union_selector"
   ],
   "note": "Enum/bitmask over any static integer type; union for every selector."
  },
  {
   "property": "C37",
   "status": "proved",
   "theorems": [
    "C37_values",
    "C37_debug",
    "C37_try_from",
    "C37_named_constant_refuted",
    "C37_largest_refuted"
   ],
   "note": "Values of items with constant integer expressions, both builds; conversion from integers. Refuted parts: items that ask for a named constant get 0; the largest i32 aborts a debug-built compiler."
  },
  {
   "property": "C38",
   "status": "proved",
   "theorems": [
    "C38_values",
    "C38_implicit",
    "C38_single_bits",
    "C38_shared_bits_refuted",
    "C38_65th_refuted",
    "C38_negative_refuted"
   ],
   "note": "Exact values for non-negative requests; refuted parts: shared bits after a value that is no power of two, 65th constant, negative values."
  },
  {
   "property": "C39",
   "status": "proved",
   "theorems": [
    "C39_packed_structs"
   ],
   "note": "Types without choices and unions inside (those are C40, C41). Nested arrays, optional and conditional fields, enums and bitmasks included; no overflow-mode restriction."
  },
  {
   "property": "C40",
   "status": "proved",
   "theorems": [
    "C40_announced",
    "C40_zero_defaults",
    "C40_refuted"
   ],
   "note": "Refuted by a witness that has only default values in unselected fields; positive parts: announced widths sufficient, and choices between zero-default builtin fields."
  },
  {
   "property": "C41",
   "status": "proved",
   "theorems": [
    "C41_selector_lost",
    "C41_write_fails",
    "C41_refuted"
   ],
   "note": "Refutation for every list with a nonzero selector and for every first element holding an integer or object; witness for selector 0."
  },
  {
   "property": "C42",
   "status": "proved",
   "theorems": [
    "C42_doubles",
    "C42_doubles_compared",
    "C42_debug",
    "C42_abort",
    "C42_computed",
    "C42_release_refuted",
    "C42_shift_refuted",
    "C42_bool_equality_refuted",
    "C42_unselected_refuted",
    "C42_dummy_operand_refuted"
   ],
   "note": "Exact for debug-built compilers and for both builds when every subexpression fits 32 bits; refuted parts: release wraps, left shift drops bits, equality of booleans is taken as false, unselected operands and dummy operands can abort."
  },
  {
   "property": "C43",
   "status": "proved",
   "theorems": [
    "C43_resolved",
    "C43_refuted"
   ],
   "note": "Proved when the conditions of conditionals are themselves resolved; refuted otherwise."
  },
  {
   "property": "C44",
   "status": "proved",
   "theorems": [
    "C44_mix",
    "C44_symmetric",
    "C44_values_kept",
    "C44_abort",
    "C44_floats",
    "C44_float_int",
    "C44_typed",
    "C44_signs_refuted"
   ],
   "note": "All 16 x 16 mixable names; every other type aborts."
  },
  {
   "property": "C45",
   "status": "proved",
   "theorems": [
    "C45_own_first",
    "C45_nearest",
    "C45_layers",
    "C45_missing",
    "C45_cyclic_refuted",
    "C45_single_import_ignored",
    "C45_types"
   ],
   "note": "Exact: own package first, then nearest package; missing names reported for acyclic imports; non-termination for cyclic ones (refuted part)."
  },
  {
   "property": "C46",
   "status": "proved",
   "theorems": [
    "C46_chain",
    "C46_end",
    "C46_same",
    "C46_arguments",
    "C46_idempotent",
    "C46_total",
    "C46_rejected",
    "C46_cyclic_refuted"
   ],
   "note": "Chains of any length; cyclic subtypes never terminate (refuted part)."
  },
  {
   "property": "C47",
   "status": "proved",
   "theorems": [
    "C47_distinct",
    "C47_shared",
    "C47_refuted"
   ],
   "note": "Distinctness for prefix-free names, sharing in general, and witnesses for the collisions."
  },
  {
   "property": "C48",
   "status": "proved",
   "theorems": [
    "C48_substituted",
    "C48_kept",
    "C48_declared",
    "C48_rejected",
    "C48_no_templates_left",
    "C48_fields",
    "C48_recursive_refuted",
    "C48_choice_refuted",
    "C48_nested_refuted",
    "C48_parameter_refuted"
   ],
   "note": "Substitution for fields, functions and struct/union parameters; the exceptions are stated by *_refuted theorems. Template arguments inside the declaration must use the parameters directly (C48_nested_refuted shows why)."
  },
  {
   "property": "C49",
   "status": "proved",
   "theorems": [
    "C49_declared",
    "C49_order_irrelevant",
    "C49_release_total",
    "C49_debug_depth",
    "C49_package_file",
    "C49_package_order",
    "C49_no_overwrite",
    "C49_enclosing_refuted",
    "C49_default_package_refuted"
   ],
   "note": "Module names are any function of the schema names (the snake-case conversion is a dependency)."
  },
  {
   "property": "C50",
   "status": "proved",
   "theorems": [
    "C50_read_local",
    "C50_read_truncated",
    "C50_from_bytes_more",
    "C50_bytes_truncated"
   ],
   "note": "No hypotheses on the schema except for the to_bytes corollary."
  },
  {
   "property": "C51",
   "status": "proved",
   "theorems": [
    "C51_wire_format",
    "C51_to_bytes",
    "C51_portable",
    "C51_unique",
    "C51_read"
   ],
   "note": "The format is the separate specification S_Wire.v (inductive, no writers or contexts). Left out of it: unions and bytes/extern inside packed elements (C41), values out of range. Decoding it is C31."
  },
  {
   "property": "C52",
   "status": "proved",
   "theorems": [
    "C52_write",
    "C52_read",
    "C52_size",
    "C52_contexts",
    "C52_to_bytes",
    "C52_from_bytes",
    "C52_to_bytes_builds",
    "C52_from_bytes_builds",
    "C52_size_builds",
    "C52_release_refuted",
    "C52_out_of_range_refuted"
   ],
   "note": "For every schema, value, input and depth: what a debug build with a rejecting bit writer achieves, every environment achieves with the same result (write, read, size, contexts, to_bytes, from_bytes); and with the same bit writer the release build answers exactly as the debug build wherever the latter does not panic, errors included. C52_release_refuted and C52_out_of_range_refuted show that neither hypothesis can be dropped."
  },
  {
   "property": "C53",
   "status": "proved",
   "theorems": [
    "C53_reads",
    "C53_condition",
    "C53_unique",
    "C53_misread_refuted",
    "C53_unreadable_refuted"
   ],
   "note": "The reader of Rust expressions is a specification (S_Print) of precedence and grouping for the operators generated; exceptions by *_refuted theorems."
  },
  {
   "property": "C54",
   "status": "proved",
   "theorems": [
    "C54_value",
    "C54_rejected",
    "C54_emitted",
    "C54_unique",
    "C54_range_refuted",
    "C54_binary_refuted"
   ],
   "note": "For texts the lexer accepts as integer literals; range and notations that abort are stated by C54_rejected and *_refuted."
  },
  {
   "property": "C55",
   "status": "proved",
   "theorems": [
    "C55_double_value",
    "C55_string",
    "C55_emitted",
    "C55_feed_refuted",
    "C55_unicode_refuted",
    "C55_octal_refuted",
    "C55_double",
    "C55_float_refuted"
   ],
   "note": "Strings of bytes; the unicode escape beyond ASCII is left out of the specification of meanings (it is never valid Rust, C55_unicode_refuted). C55_double_value uses the axioms of the real numbers of the standard library (listed in DESIGN.md)."
  },
  {
   "property": "C56",
   "status": "proved",
   "theorems": [
    "C56_width",
    "C56_qualified",
    "C56_alignment",
    "C56_import",
    "C56_width_refuted"
   ],
   "note": "The parser's tree (ANTLR) is the input; the texts of its tokens are modelled."
  },
  {
   "property": "C57",
   "status": "proved",
   "theorems": [
    "C57_found",
    "C57_only",
    "C57_missing",
    "C57_order",
    "C57_generated",
    "C57_same_kind_refuted",
    "C57_other_kind_refuted"
   ],
   "note": "For every list of declarations and every order of iteration of the hash maps."
  },
  {
   "property": "C58",
   "status": "proved",
   "theorems": [
    "C58_lost_refuted",
    "C58_prefix",
    "C58_enum",
    "C58_selector_refuted",
    "C58_constant_refuted",
    "C58_default_refuted"
   ],
   "note": "The value of a label is the item's name (the evaluator gives every item the placeholder 0, the generated code prints the path)."
  },
  {
   "property": "C59",
   "status": "proved",
   "theorems": [
    "C59_same",
    "C59_succeeds",
    "C59_collision_refuted"
   ],
   "note": "One package; templates of imported packages are found by an arbitrary function. The exception is C59_collision_refuted."
  },
  {
   "property": "C60",
   "status": "proved",
   "theorems": [
    "C60_number",
    "C60_truth",
    "C60_condition",
    "C60_condition_number",
    "C60_function",
    "C60_function_truth",
    "C60_constant",
    "C60_value",
    "C60_debug",
    "C60_accepted_refuted",
    "C60_function_refuted",
    "C60_release_refuted"
   ],
   "note": "Doubles are in C94, float16 and float32 are not covered; strings are in C92. The Rust type checker's rules for integer expressions are a specification in S_Rust (a typing of the literals, that of M_Infer, is shown to exist). The exceptions are C60_accepted_refuted, C60_function_refuted and C60_release_refuted."
  },
  {
   "property": "C61",
   "status": "proved",
   "theorems": [
    "C61_written",
    "C61_read",
    "C61_size",
    "C61_holds",
    "C61_packable",
    "C61_grammar_refuted"
   ],
   "note": "C61_size leaves out dynamic lengths, bytes and extern, whose sizes are wrong (C33). A length expression whose type the compiler does not know is assumed to fit a u8, as no cast is printed. Exceptions in C61_grammar_refuted."
  },
  {
   "property": "C62",
   "status": "proved",
   "theorems": [
    "C62_written",
    "C62_read",
    "C62_wf",
    "C62_index_found",
    "C62_length",
    "C62_width",
    "C62_argument",
    "C62_argument_truth",
    "C62_valueof_refuted",
    "C62_sum_refuted",
    "C62_index_refuted",
    "C62_and_refuted"
   ],
   "note": "What called functions return is part of the package (C76 runs their methods); selectors are plain parameters, and the name resolution of the compiler is a hypothesis (checked) that the example meets; items of enums and bitmasks have different names. Exceptions in C62_valueof_refuted, C62_sum_refuted, C62_index_refuted, C62_and_refuted."
  },
  {
   "property": "C63",
   "status": "proved",
   "theorems": [
    "C63_from_object",
    "C63_embedded",
    "C63_large_refuted",
    "C63_bytes_refuted"
   ],
   "note": "For types whose reported size is right (sized, see C33). Exceptions in C63_large_refuted and C63_bytes_refuted."
  },
  {
   "property": "C64",
   "status": "proved",
   "theorems": [
    "C64_path",
    "C64_item",
    "C64_union_refuted",
    "C64_capture_refuted",
    "C64_resolved",
    "C64_resolves"
   ],
   "note": "Expressions other than names, access paths and enum items are in C42-C44. Templates are instantiated before (C47, C48, C59) and are ordinary declarations here. Exceptions in C64_union_refuted and C64_capture_refuted."
  },
  {
   "property": "C65",
   "status": "proved",
   "theorems": [
    "C65_names",
    "C65_loaded",
    "C65_abort",
    "C65_last",
    "C65_all_refuted"
   ],
   "note": "Walking directories and parsing are not modelled. The exception is C65_all_refuted; C65_last says what happens."
  },
  {
   "property": "C66",
   "status": "proved",
   "theorems": [
    "C66_written",
    "C66_read",
    "C66_agree",
    "C66_lawful"
   ],
   "note": "Joins C51, C53, C60, C62 and C64. What called functions return is part of the package (C76 runs their methods); the expressions mention no member of a union, and are of the forms for which C53 proves printing and C62 the arguments; the exceptions are those of C53, C60, C62 and C64."
  },
  {
   "property": "C67",
   "status": "proved",
   "theorems": [
    "C67_same",
    "C67_written",
    "C67_read",
    "C67_balanced",
    "C67_default_refuted"
   ],
   "note": "Types have different member names, as many arguments as parameters (or none), unions at least one field, and choices no field in the default case (C67_default_refuted). Where the function of M_Gen aborts nothing is said about the printed one. Offsets of indexed arrays are in the lines; what they call is in M_Array."
  },
  {
   "property": "C68",
   "status": "proved",
   "theorems": [
    "C68_text",
    "C68_kept",
    "C68_accepted",
    "C68_expression",
    "C68_literal",
    "C68_file",
    "C68_file_accepted",
    "C68_nameless_refuted",
    "C68_ignored_refuted"
   ],
   "note": "The parse tree is what ANTLR makes of the text; literals, names and builtin types are those of the lexer (formed). Literals by their value: correct rounding of double literals is f64_of_dec, as in C55."
  },
  {
   "property": "C69",
   "status": "proved",
   "theorems": [
    "C69_accepted",
    "C69_loaded",
    "C69_linked",
    "C69_written",
    "C69_read",
    "C69_constant"
   ],
   "note": "From parse trees; from texts it is C74. Without templates, SQL, default cases, extend, implicit arrays, explicit arguments and removed items (S_Tree.simple); expressions as in C66. Offsets are paths to fields (C79)."
  },
  {
   "property": "C70",
   "status": "proved",
   "theorems": [
    "C70_again",
    "C70_build",
    "C70_modest",
    "C70_varsize_refuted",
    "C70_packed_refuted",
    "C70_nan_refuted"
   ],
   "note": "Schemas whose packed arrays have builtin types (S_Again.able); values within the limits of the writer (S_Again.within, in simple schemas S_Again.modest). The exceptions are witnesses."
  },
  {
   "property": "C71",
   "status": "proved",
   "theorems": [
    "C71_declared",
    "C71_printed",
    "C71_printed_constant",
    "C71_unambiguous",
    "C71_wellformed",
    "C71_model_wellformed",
    "C71_trait",
    "C71_names",
    "C71_templates",
    "C71_visited",
    "C71_keyword_refuted",
    "C71_result_refuted",
    "C71_union_selector_refuted",
    "C71_lib_refuted"
   ],
   "note": "Models whose files do not get in each other's way (S_Item.apart); names are converted by any two functions. Whether the printed types implement what is derived for them is not modelled."
  },
  {
   "property": "C72",
   "status": "proved",
   "theorems": [
    "C72_read",
    "C72_tokens",
    "C72_exact",
    "C72_total",
    "C72_unambiguous",
    "C72_rejected",
    "C72_expression",
    "C72_constraint_refuted",
    "C72_length_refuted"
   ],
   "note": "From tokens to parse trees; from characters to tokens is C73. adaptive_predict of the ANTLR runtime is a contract: the first alternative with which the rest of the file parses. What the parser does after a syntax error is not modelled."
  },
  {
   "property": "C73",
   "status": "proved",
   "theorems": [
    "C73_tokens",
    "C73_spaced",
    "C73_consists",
    "C73_normal",
    "C73_file",
    "C73_file_back",
    "C73_total",
    "C73_comment_refuted"
   ],
   "note": "The longest match, the first rule on ties and the shortest match of rules with .*? are the contract of the ANTLR runtime. After an error the program reports it and goes on; the model stops."
  },
  {
   "property": "C74",
   "status": "proved",
   "theorems": [
    "C74_formed",
    "C74_layout",
    "C74_directory",
    "C74_accepted",
    "C74_total",
    "C74_linked",
    "C74_written",
    "C74_read",
    "C74_constant"
   ],
   "note": "Texts whose syntax is correct; what the program does after a syntax error is not modelled. Schemas without templates and what the compiler ignores, as in C69. Offsets are paths to fields (C79)."
  },
  {
   "property": "C75",
   "status": "proved",
   "theorems": [
    "C75_returns",
    "C75_too_large",
    "C75_unique",
    "C75_text"
   ],
   "note": "Functions that return builtin numbers or booleans; strings are in C92, enums and compound results in C93; left out are calls of functions of unions and of elements of arrays. Rust's typing of literals that meet only literals is left open (as_return). A function that calls itself without end is outside (returns has finite depth)."
  },
  {
   "property": "C76",
   "status": "proved",
   "theorems": [
    "C76_written",
    "C76_read",
    "C76_results"
   ],
   "note": "Functions as in C75. The nesting of calls has a bound for the whole schema (K), as it has when functions do not call themselves in a circle. Called functions are those of the object itself or of members that are not unions; selectors and labels of choices call none."
  },
  {
   "property": "C77",
   "status": "proved",
   "theorems": [
    "C77_nearest",
    "C77_special",
    "C77_read"
   ],
   "note": "The conversion itself is in the external crate half; the model has its portable implementation (f16_of_f32, f32_of_f16)."
  },
  {
   "property": "C78",
   "status": "proved",
   "theorems": [
    "C78_written",
    "C78_read"
   ],
   "note": "C74 for schemas whose expressions call functions: the functions of the texts are those of C75 and C76."
  },
  {
   "property": "C79",
   "status": "proved",
   "theorems": [
    "C79_marked",
    "C79_accepted",
    "C79_indexed",
    "C79_refused",
    "C79_refused_parentheses",
    "C79_refused_own"
   ],
   "note": "Structures without templates. The wire format says where fields with offsets start; that the values of offset fields are these positions is neither checked nor set by the code (DESIGN.md). Acceptance is stated for sufficiently many evaluation steps, as in C64."
  },
  {
   "property": "C80",
   "status": "proved",
   "theorems": [
    "C80_returns",
    "C80_printed",
    "C80_any_schema_refuted",
    "C80_recursive_refuted",
    "C80_trees",
    "C80_trees_printed",
    "C80_depth_refuted"
   ],
   "note": "Types without string, extern, union and packed array; recursion only through arrays whose lengths are in the data. Witnesses show that each exception aborts or runs for ever."
  },
  {
   "property": "C81",
   "status": "proved",
   "theorems": [
    "C81_linear",
    "C81_printed",
    "C81_trees_printed",
    "C81_empty_elements_refuted",
    "C81_copied_arguments_refuted"
   ],
   "note": "False without the conditions: C81_empty_elements_refuted, C81_copied_arguments_refuted, C28_packed_unbounded."
  },
  {
   "property": "C82",
   "status": "proved",
   "theorems": [
    "C82_old_reader",
    "C82_old_reader_messages",
    "C82_new_reader_fails",
    "C82_small_field_refuted",
    "C82_refused_refuted",
    "C82_grown",
    "C82_added_alternative",
    "C82_added_item"
   ],
   "note": "Messages of the shorter structure for the longer one: C82_new_reader_fails, and false for small fields and not always an error (C82_small_field_refuted, C82_refused_refuted). Choices are not extended: a selector without a case is accepted by the reader."
  },
  {
   "property": "C83",
   "status": "proved",
   "theorems": [
    "C83_equality",
    "C83_reflexive",
    "C83_symmetric",
    "C83_transitive",
    "C83_decoded",
    "C83_bytes_of_equal",
    "C83_equal_of_bytes",
    "C83_zeros_refuted",
    "C83_nan_refuted",
    "C83_unwritten_refuted"
   ],
   "note": "Floating point comparison is specified by Flocq (Bcompare), independently of the bit test of the model. Exceptions: C83_zeros_refuted, C83_nan_refuted, C83_unwritten_refuted."
  },
  {
   "property": "C84",
   "status": "proved",
   "theorems": [
    "C84_written",
    "C84_size",
    "C84_decoded",
    "C84_same",
    "C84_printed",
    "C84_expression_refuted",
    "C84_packed_refuted"
   ],
   "note": "Exceptions: C84_expression_refuted, C84_packed_refuted."
  },
  {
   "property": "C85",
   "status": "proved",
   "theorems": [
    "C85_only",
    "C85_exactly",
    "C85_agree",
    "C85_lenient_refuted",
    "C85_buffer_refuted",
    "C85_packed_refuted"
   ],
   "note": "Exceptions: C85_lenient_refuted, C85_buffer_refuted, C85_packed_refuted. Packed arrays of objects, strings of 2^32 bytes and the least i64 in varint members are outside (C07, C14, C41)."
  },
  {
   "property": "C86",
   "status": "proved",
   "theorems": [
    "C86_message",
    "C86_written",
    "C86_accepted",
    "C86_features_refuted"
   ],
   "note": "Exceptions: C86_features_refuted."
  },
  {
   "property": "C87",
   "status": "proved",
   "theorems": [
    "C87_limits",
    "C87_read",
    "C87_varint_refuted"
   ],
   "note": "Exception: C87_varint_refuted."
  },
  {
   "property": "C88",
   "status": "proved",
   "theorems": [
    "C88_taken",
    "C88_read",
    "C88_printed",
    "C88_trees_printed",
    "C88_written",
    "C88_limits_met",
    "C88_recursive_refuted"
   ],
   "note": "The limits are rules (S_Range) and need not be the best ones. Exception: C88_recursive_refuted."
  },
  {
   "property": "C89",
   "status": "proved",
   "theorems": [
    "C89_sized",
    "C89_recursive_refuted",
    "C89_traits",
    "C89_enum_traits",
    "C89_derived",
    "C89_empty_refuted",
    "C89_interface"
   ],
   "note": "The traits of bitmasks are those its documentation lists. Exceptions: C89_recursive_refuted, C89_empty_refuted."
  },
  {
   "property": "C90",
   "status": "proved",
   "theorems": [
    "C90_same",
    "C90_local",
    "C90_package",
    "C90_overwritten_refuted"
   ],
   "note": "Contents are the declarations with the signatures of functions; their bodies are printed for each declaration by itself (C67). Exception: C90_overwritten_refuted."
  },
  {
   "property": "C91",
   "status": "proved",
   "theorems": [
    "C91_prefix",
    "C91_done",
    "C91_failed",
    "C91_torn",
    "C91_read",
    "C91_read_done",
    "C91_pipe",
    "C91_overwritten",
    "C91_torn_over_refuted"
   ],
   "note": "The loops of write_all and read_to_end are those that the standard library documents. Exception: C91_torn_over_refuted (a file with an older message that is not truncated first)."
  },
  {
   "property": "C92",
   "status": "proved",
   "theorems": [
    "C92_function",
    "C92_constant",
    "C92_comparison",
    "C92_refuted",
    "C92_conditional_refuted"
   ],
   "note": "Exceptions shown: C92_refuted (a literal returned by a function, a sum as a constant), C92_conditional_refuted (all functions that return conditional strings which are not constant); conditional strings elsewhere are not covered."
  },
  {
   "property": "C93",
   "status": "proved",
   "theorems": [
    "C93_function",
    "C93_copied",
    "C93_refuted"
   ],
   "note": "Exception shown: C93_refuted (a member of a structure type). Which types are Copy is a parameter of C93_function and settled by C93_copied; that bitmasks are is taken from the documentation of bitmask-enum."
  },
  {
   "property": "C94",
   "status": "proved",
   "theorems": [
    "C94_function",
    "C94_generated",
    "C94_constant",
    "C94_comparison",
    "C94_refuted",
    "C94_mixed_refuted"
   ],
   "note": "Exceptions shown: C94_refuted (an integer literal beside a double), C94_mixed_refuted (an integer field beside float literals only). Not covered: float16 and float32, conditional expressions. The integer operands' own code is assumed to have the right value (same_names); that is C60."
  }
 ]
}