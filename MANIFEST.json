{
 "claims": [
  {
   "property": "C01",
   "status": "proved",
   "theorems": [
    "C01_varint_roundtrip"
   ],
   "note": ""
  },
  {
   "property": "C02",
   "status": "proved",
   "theorems": [
    "C02_varint_size_minimal"
   ],
   "note": ""
  },
  {
   "property": "C03",
   "status": "proved",
   "theorems": [
    "C03_scalar_roundtrip"
   ],
   "note": ""
  },
  {
   "property": "C04",
   "status": "proved",
   "theorems": [
    "C04_sizeof_agrees"
   ],
   "note": ""
  },
  {
   "property": "C05",
   "status": "proved",
   "theorems": [
    "C05_varint_total"
   ],
   "note": ""
  },
  {
   "property": "C06",
   "status": "proved",
   "theorems": [
    "C06_bytes_string_roundtrip"
   ],
   "note": ""
  },
  {
   "property": "C07",
   "status": "proved",
   "theorems": [
    "C07_long_bytes_refuted"
   ],
   "note": "False of the code; a witness of length 2^32 is exhibited."
  },
  {
   "property": "C08",
   "status": "proved",
   "theorems": [
    "C08_read_string_utf8"
   ],
   "note": ""
  },
  {
   "property": "C09",
   "status": "proved",
   "theorems": [
    "C09_packed_roundtrip",
    "C09_packed_empty"
   ],
   "note": ""
  },
  {
   "property": "C10",
   "status": "proved",
   "theorems": [
    "C10_read_packed_exact",
    "C10_delimited_exact",
    "C10_readers_advance"
   ],
   "note": ""
  },
  {
   "property": "C100",
   "status": "partial",
   "theorems": [
    "C100_same_program",
    "C100_bounded_partial",
    "C100_exact",
    "C100_deep_inputs",
    "C100_recursive",
    "C100_input_length",
    "C100_depth",
    "C100_unbounded_refuted"
   ],
   "note": "on_stack is from_reader with the number of nested activations bounded apart from the rounds of loops. Bounded by the rank of the message when references go down (nested, repeated, map and oneof fields all counted), by the length of the input + 1 with overflow checks. False for recursive messages: for every number of frames up to 2^28 an input of at most 6 bytes a level needs more, and there is no recursion limit. C100_exact: N frames are too few for some input iff N references follow each other from the message (N up to 2^26); C100_deep_inputs: such an input has at most 16 bytes a reference and is accepted with one frame more; C100_recursive: a message reached from itself has chains of every length. Missing: the bytes of a frame and the (fixed number of) frames of the reader between two activations."
  },
  {
   "property": "C101",
   "status": "proved",
   "theorems": [
    "C101_same_program",
    "C101_exact",
    "C101_bound",
    "C101_linear_without_recursion",
    "C101_linear_refuted"
   ],
   "note": "Cost.v is the size and write functions of GenSem.v with a count of the activations of get_size (C101_same_program: the same results). Exact count for every typed value of every well-formed schema; between 2 and 2d times the messages, d the nesting; linear with the rank as factor when references go down; linear in messages or output bytes is false for a recursive message (a list of n nodes takes (n+1)(n+4)/2 activations). Counted is a run to the end; comparisons with defaults and the reading side are not counted."
  },
  {
   "property": "C11",
   "status": "proved",
   "theorems": [
    "C11_packed_fixed_roundtrip",
    "C11_packed_fixed_with_tag"
   ],
   "note": ""
  },
  {
   "property": "C12",
   "status": "partial",
   "theorems": [
    "C12_packed_fixed_access_partial",
    "C12_packed_fixed_access_refuted",
    "C12_packed_fixed_index_refuted"
   ],
   "note": "Accessors agree for every well-formed PackedFixed and every index whose byte offset does not wrap; false outside."
  },
  {
   "property": "C13",
   "status": "proved",
   "theorems": [
    "C13_map_roundtrip",
    "C13_map_any_order"
   ],
   "note": ""
  },
  {
   "property": "C14",
   "status": "partial",
   "theorems": [
    "C14_unknown_skipped_exactly",
    "C14_unknown_rejected",
    "C14_skipped_is_payload",
    "C14_truncated_rejected",
    "C14_window_refuted"
   ],
   "note": "Both directions; without overflow checks the converse needs a window that ends with the buffer (refuted otherwise: the skip leaves the buffer)."
  },
  {
   "property": "C15",
   "status": "partial",
   "theorems": [
    "C15_readers_partial",
    "C15_generated_partial",
    "C15_no_undefined_behaviour",
    "C15_checked_refuted",
    "C15_packed_fixed_refuted"
   ],
   "note": "False of the code: panics with overflow checks on, and on packed fixed-size fields in every build. Proved: without overflow checks and packed fixed-size fields nothing panics; undefined behaviour never."
  },
  {
   "property": "C16",
   "status": "partial",
   "theorems": [
    "C16_terminates_checked_partial",
    "C16_terminates_refuted"
   ],
   "note": "Proved with overflow checks; without them it is false: a witness input on which every amount of fuel is exhausted."
  },
  {
   "property": "C17",
   "status": "partial",
   "theorems": [
    "C17_truncated_partial",
    "C17_rejected_with_error_refuted",
    "C17_foreign_truncation_refuted"
   ],
   "note": "No truncation of an own encoding is ever accepted, but with packed fixed-size fields it can panic instead of returning Err. Truncated messages of other writers can be accepted."
  },
  {
   "property": "C18",
   "status": "partial",
   "theorems": [
    "C18_reader_after_error_refuted",
    "C18_reader_after_error_partial"
   ],
   "note": "False of the code for failing length-delimited reads; the partial theorem covers all other reads."
  },
  {
   "property": "C19",
   "status": "proved",
   "theorems": [
    "C19_runtime_overflow_checks",
    "C19_generated_overflow_checks",
    "C19_generated_deserialize"
   ],
   "note": "Every runtime read function; generated code is built from these."
  },
  {
   "property": "C20",
   "status": "proved",
   "theorems": [
    "C20_slice_writer_step",
    "C20_slice_writer_bounds"
   ],
   "note": ""
  },
  {
   "property": "C21",
   "status": "proved",
   "theorems": [
    "C21_backends_agree"
   ],
   "note": ""
  },
  {
   "property": "C22",
   "status": "proved",
   "theorems": [
    "C22_serialize_into_slice",
    "C22_generated_into_slice"
   ],
   "note": "For every message whose get_size is exact."
  },
  {
   "property": "C23",
   "status": "proved",
   "theorems": [
    "C23_failing_sink_prefix"
   ],
   "note": ""
  },
  {
   "property": "C24",
   "status": "partial",
   "theorems": [
    "C24_write_file_complete_refuted",
    "C24_write_file_complete_partial"
   ],
   "note": "False of the code: the error of the final flush is dropped."
  },
  {
   "property": "C25",
   "status": "proved",
   "theorems": [
    "C25_get_size_exact",
    "C25_encoding"
   ],
   "note": ""
  },
  {
   "property": "C26",
   "status": "partial",
   "theorems": [
    "C26_roundtrip_partial"
   ],
   "note": "Excludes proto3 fields with a default option and -0.0 in fields without presence (false there, C33) and encodings of 2^32 bytes or more (C07). C93 says exactly what comes back without the first two exclusions."
  },
  {
   "property": "C27",
   "status": "proved",
   "theorems": [
    "C27_unknown_fields",
    "C27_forward_compatible"
   ],
   "note": "First theorem: arbitrary sequences of fields, builds with overflow checks; second: all encodings, every build."
  },
  {
   "property": "C28",
   "status": "proved",
   "theorems": [
    "C28_concatenation",
    "C28_encodings"
   ],
   "note": ""
  },
  {
   "property": "C29",
   "status": "proved",
   "theorems": [
    "C29_embedded_message_refuted",
    "C29_packed_chunks_refuted"
   ],
   "note": "False of the code; witnesses."
  },
  {
   "property": "C30",
   "status": "proved",
   "theorems": [
    "C30_other_wire_type_dropped",
    "C30_interchangeable_refuted"
   ],
   "note": "False of the code; witness, and a proof of what happens instead for every schema."
  },
  {
   "property": "C31",
   "status": "proved",
   "theorems": [
    "C31_field_order",
    "C31_encoding_order"
   ],
   "note": ""
  },
  {
   "property": "C32",
   "status": "proved",
   "theorems": [
    "C32_enum_decoding"
   ],
   "note": ""
  },
  {
   "property": "C33",
   "status": "partial",
   "theorems": [
    "C33_elision_partial",
    "C33_custom_default_refuted",
    "C33_negative_zero_refuted"
   ],
   "note": "False for proto3 fields with a default option and for -0.0; proved for the rest."
  },
  {
   "property": "C34",
   "status": "proved",
   "theorems": [
    "C34_oneof_last"
   ],
   "note": ""
  },
  {
   "property": "C35",
   "status": "partial",
   "theorems": [
    "C35_tags_partial",
    "C35_refuted",
    "C35_large_refuted"
   ],
   "note": "For distinct numbers below 2^29 tags are distinct and decompose. The passes check neither: duplicate numbers are accepted (C35_refuted) and numbers that differ by 2^29 share a tag (C35_large_refuted)."
  },
  {
   "property": "C36",
   "status": "proved",
   "theorems": [
    "C36_finite",
    "C36_total",
    "C36_conservative",
    "C36_acyclic_untouched"
   ],
   "note": "After break_cycles the by-value containment relation between messages is well founded (no message contains itself by value), break_cycles without error_cycle never fails on an indexed descriptor, it only boxes non-repeated message fields inside a component (making required ones optional), and it leaves acyclic descriptors untouched."
  },
  {
   "property": "C37",
   "status": "proved",
   "theorems": [
    "C37_each_message_once",
    "C37_order",
    "C37_mutual"
   ],
   "note": "The components partition the messages; a field held by value leads to the same or an earlier component; two messages share a component iff each reaches the other along fields held by value. Field edges are the ones sccs() follows: unboxed fields of message type in m_fields and oneofs, see Cycles.v msg_succs."
  },
  {
   "property": "C38",
   "status": "partial",
   "theorems": [
    "C38_complete",
    "C38_error_partial",
    "C38_success",
    "C38_refuted",
    "C38_optional_refuted"
   ],
   "note": "The claim as stated is refuted: a repeated self reference (C38_refuted) and a required/optional pair (C38_optional_refuted) are rejected. Proved: an error is only reported for a component that contains a cycle of message fields; every by-value cycle through required fields is rejected; on success nothing but optional fields was boxed. C94 has the exact condition."
  },
  {
   "property": "C39",
   "status": "proved",
   "theorems": [
    "C39_resolution",
    "C39_error",
    "C39_unknown_rejected",
    "C39_unique",
    "C39_names_after_reading"
   ],
   "note": "Scopes, declarations and what a name denotes are specified independently (scopes, declared, denotes). named_well holds after packages are set (C39_names_after_reading). Names inside a map inside a map stay unresolved (means1)."
  },
  {
   "property": "C40",
   "status": "partial",
   "theorems": [
    "C40_never_keyword_partial",
    "C40_never_keyword_refuted",
    "C40_idempotent",
    "C40_segments",
    "C40_identity",
    "C40_distinct_partial",
    "C40_distinct_refuted"
   ],
   "note": "Holds for the generator's own keyword list; the list omits reserved words such as macro, and type/type_pb collide (both refuted with witnesses)."
  },
  {
   "property": "C41",
   "status": "partial",
   "theorems": [
    "C41_top_level_partial",
    "C41_nested_refuted"
   ],
   "note": "Holds for top-level messages through the whole pipeline; refuted for nested messages, which are never checked."
  },
  {
   "property": "C42",
   "status": "partial",
   "theorems": [
    "C42_top_level_partial",
    "C42_nested_as_written",
    "C42_nested_refuted",
    "C42_nested_string_refuted"
   ],
   "note": "Holds for top-level messages; nested messages keep what the schema says, so repeated scalars are not packed (C42_nested_refuted) and a packed string stays packed (C42_nested_string_refuted)."
  },
  {
   "property": "C43",
   "status": "partial",
   "theorems": [
    "C43_syntax_governs_refuted",
    "C43_late_declaration",
    "C43_syntax_governs_partial"
   ],
   "note": "False: a proto3 declaration after white space or a comment is not seen by scan_syntax, and the fields get proto2 presence (any gap has this effect: C43_late_declaration). Proved for every text that begins with its declaration."
  },
  {
   "property": "C44",
   "status": "partial",
   "theorems": [
    "C44_no_cow_partial",
    "C44_only_borrowed",
    "C44_map_of_map_refuted"
   ],
   "note": "Holds at every depth for schemas without maps in maps (which protobuf forbids but the parser accepts); refuted for a map whose value is a map."
  },
  {
   "property": "C45",
   "status": "partial",
   "theorems": [
    "C45_split_partial",
    "C45_directories",
    "C45_split_refuted",
    "C45_modules",
    "C45_path_injective",
    "C45_imports_depth"
   ],
   "note": "Holds for packages without empty segments; a leading dot breaks it (refuted)."
  },
  {
   "property": "C46",
   "status": "partial",
   "theorems": [
    "C46_sequence",
    "C46_fresh",
    "C46_idempotent_partial",
    "C46_conservative",
    "C46_foreign_partial",
    "C46_idempotent_refuted",
    "C46_empty_refuted",
    "C46_panic_refuted"
   ],
   "note": "Idempotent when the last line of mod.rs is terminated; a missing final newline, an existing empty file and a short line break it (refuted)."
  },
  {
   "property": "C47",
   "status": "partial",
   "theorems": [
    "C47_bool_value_partial",
    "C47_bool_value_refuted"
   ],
   "note": "False of the code when the low 32 bits of the varint are zero."
  },
  {
   "property": "C48",
   "status": "proved",
   "theorems": [
    "C48_reader_api",
    "C48_deserialize"
   ],
   "note": ""
  },
  {
   "property": "C49",
   "status": "partial",
   "theorems": [
    "C49_from_file_errors_refuted",
    "C49_from_file_errors_partial"
   ],
   "note": "False of the code: a missing file panics."
  },
  {
   "property": "C50",
   "status": "partial",
   "theorems": [
    "C50_wire_format_partial",
    "C50_wire_format_refuted"
   ],
   "note": "False of the code for sint32 outside [-2^30,2^30)."
  },
  {
   "property": "C51",
   "status": "proved",
   "theorems": [
    "C51_decoded_well_typed"
   ],
   "note": ""
  },
  {
   "property": "C52",
   "status": "partial",
   "theorems": [
    "C52_transcode_partial",
    "C52_exact_partial"
   ],
   "note": "C52_exact_partial says what comes back for every decoded message, negative zeros and proto3 defaults included (C93). Same exclusions as C26: proto3 default options and negative zero (both false), encodings of 2^32 bytes and more."
  },
  {
   "property": "C53",
   "status": "partial",
   "theorems": [
    "C53_accepted_well_formed",
    "C53_enums",
    "C53_roundtrip_partial",
    "C53_exact_partial"
   ],
   "note": "C53_exact_partial says what comes back for every message of an accepted schema of one syntax (C93). C53_accepted_well_formed is complete for schemas following the listed protobuf rules (which the passes do not check). C53_roundtrip_partial excludes, like C26, proto3 default options, -0.0 without presence and encodings of 2^32 bytes and more."
  },
  {
   "property": "C54",
   "status": "proved",
   "theorems": [
    "C54_parser_terminates"
   ],
   "note": "Fuel is the length of the text; shown never to run out. Recursion depth is not limited in the code (stack overflow on deep nesting is outside the model)."
  },
  {
   "property": "C55",
   "status": "proved",
   "theorems": [
    "C55_parsed_well_formed"
   ],
   "note": ""
  },
  {
   "property": "C56",
   "status": "partial",
   "theorems": [
    "C56_grammar_read_partial"
   ],
   "note": "The grammar of ProtoText.v leaves out constructs the parser does not accept (listed there)."
  },
  {
   "property": "C57",
   "status": "partial",
   "theorems": [
    "C57_integer_literals_refuted",
    "C57_hex_field_number_refuted",
    "C57_negative_enum_refuted",
    "C57_integer_literals_partial"
   ],
   "note": "False for octal literals (read as decimal), hexadecimal field numbers and negative enum values (rejected). Proved for decimal literals and lower case hexadecimal enum values."
  },
  {
   "property": "C58",
   "status": "partial",
   "theorems": [
    "C58_no_panic_refuted",
    "C58_extensions_refuted",
    "C58_bare_declaration_refuted",
    "C58_no_panic_partial"
   ],
   "note": "False: two options on a field with packed or deprecated panic; so do bad extension bounds. Proved for texts without the three words that guard the unwraps."
  },
  {
   "property": "C59",
   "status": "partial",
   "theorems": [
    "C59_options_ignored_refuted",
    "C59_options_ignored_partial"
   ],
   "note": "False: a message option with a number as value becomes a field of type option."
  },
  {
   "property": "C60",
   "status": "partial",
   "theorems": [
    "C60_reserved_kept_refuted",
    "C60_reserved_kept_partial"
   ],
   "note": "False: of several reserved statements of a kind in a message only the last is kept."
  },
  {
   "property": "C61",
   "status": "partial",
   "theorems": [
    "C61_reading_terminates_refuted",
    "C61_cycle_never_read",
    "C61_reading_terminates_partial"
   ],
   "note": "False: files that import each other are read for ever (stack overflow). Proved for files without import cycles; files on a cycle are never read successfully."
  },
  {
   "property": "C62",
   "status": "partial",
   "theorems": [
    "C62_imports_gathered_partial",
    "C62_imports_gathered_refuted"
   ],
   "note": "False for files without a package imported indirectly: their declarations are moved into the package and module of the importing file. Proved when indirectly imported files have packages."
  },
  {
   "property": "C63",
   "status": "proved",
   "theorems": [
    "C63_all_imports_read"
   ],
   "note": "The file system is a function and does not change during reading."
  },
  {
   "property": "C64",
   "status": "partial",
   "theorems": [
    "C64_read_well_formed",
    "C64_text_to_bytes_partial",
    "C64_exact_partial"
   ],
   "note": "C64_exact_partial, from any file that is read (imports included), says what comes back for every message (C93). Joins parser, imports, passes and generated code. Missing: as for C26 and C56; the rules of the language that pb-rs does not check are assumed."
  },
  {
   "property": "C65",
   "status": "partial",
   "theorems": [
    "C65_lifetimes_partial",
    "C65_dont_use_cow_refuted",
    "C65_packed_singular_refuted"
   ],
   "note": "For schemas that follow the protobuf rules, have no packed strings and pass the generator: each struct and oneof enum declares the lifetime iff some field type mentions it iff the message borrows data, and every use passes as many lifetimes as declared. The names of the lifetimes in the rest of the file (impls, owned structs, constants, From) are C95. Missing: that a use of an owned struct passes no lifetime; two configurations/options where it is false are refuted with witnesses."
  },
  {
   "property": "C66",
   "status": "partial",
   "theorems": [
    "C66_paths_partial",
    "C66_enum_values_partial",
    "C66_keyword_refuted",
    "C66_single_module_refuted",
    "C66_package_refuted",
    "C66_shadowing_refuted",
    "C66_distinct_refuted",
    "C66_enum_values_refuted",
    "C66_own_items"
   ],
   "note": "For files read and accepted, every path of a message, enum or oneof resolves, by the modelled Rust name lookup, to its item from every module where code is written. Missing: names of fixed use lines; the excluded cases (keyword names with nested types, keyword packages, single module with dotted package, shadowing, duplicate names, enum defaults of moved files) are refuted with witnesses that go from proto text to the failed lookup."
  },
  {
   "property": "C67",
   "status": "partial",
   "theorems": [
    "C67_well_typed_partial",
    "C67_packed_string_refuted",
    "C67_owned_packed_refuted",
    "C67_float_key_refuted",
    "C67_empty_enum_refuted",
    "C67_btree_map_refuted"
   ],
   "note": "For schemas that follow the protobuf rules (only scalars packed, enums non-empty, no defaults on message fields) and whose generated names stay distinct, every expression of from_reader, get_size, write_message, default, the constants and getters of every message has the type its place demands under a separately specified fragment of Rust's type system. Missing: borrow checking and lifetimes of expressions, owned structs, use lines. Five accepted schemas or configurations for which the code is ill-typed are given as refutations."
  },
  {
   "property": "C68",
   "status": "partial",
   "theorems": [
    "C68_default_keeps_value_partial",
    "C68_enum_default_exists_partial",
    "C68_silent_refuted",
    "C68_no_literal_refuted",
    "C68_nested_enum_refuted"
   ],
   "note": "For portable literals (decimal or 0x integers, floats with digits on both sides of the point, inf, -inf, nan, booleans, one string with the escapes both languages share) the literal in the generated code has, in Rust, the value the option has in protobuf. False in general: octal numbers, octal escapes and adjacent strings silently change the value; .5, 5., 0XFF, -nan, \\a and others are no Rust literals. The default of an enum field is checked in top-level messages only. Rounding of decimal fractions to f32 and f64 is in C70."
  },
  {
   "property": "C69",
   "status": "partial",
   "theorems": [
    "C69_names_found_partial",
    "C69_nostd_string_refuted",
    "C69_nostd_map_refuted",
    "C69_nostd_bytes_refuted",
    "C69_message_name_refuted"
   ],
   "note": "For a file that is read and accepted and follows the rules of the language, and whose items do not have one of 14 names missing from the table of keywords. With --nostd: without owned strings, maps to owned bytes, and (unless --hashbrown) maps in messages with custom defaults; each exception has a refutation. Left out: custom includes, functions of sizeofs.rs, rpc services, generateImplFromForEnums."
  },
  {
   "property": "C70",
   "status": "partial",
   "theorems": [
    "C70_default_value",
    "C70_literals",
    "C70_transcode_partial",
    "C70_absent_fields",
    "C70_getters",
    "C70_required_refuted",
    "C70_enum_default_refuted"
   ],
   "note": "For portable literals that are finite when rounded, and enum values none of whose names is a keyword, without --single-mod in a package: the default in the generated code is the value the schema declares (floats rounded to nearest, ties to even); a field without records keeps that default, None, or zero; getters return it. The hypotheses about literals of C51-C53 and C64 hold. False: keyword names in enum defaults and --single-mod in a package give paths without a value; a missing required field is not an error. Missing: negative zero in the transcoding (C52)."
  },
  {
   "property": "C71",
   "status": "partial",
   "theorems": [
    "C71_enums_partial",
    "C71_numbers",
    "C71_compiles_refuted",
    "C71_from_str_refuted",
    "C71_arms"
   ],
   "note": "For an enum with values, distinct names and numbers, none renamed into another, whose own name and first value are no keywords and with no value named default, async, await, dyn, macro or try: the item compiles, From<i32> and `as i32` are inverse, unknown numbers and names give the first value, From<&str> finds the names as generated, and this agrees with the meaning of enums used in C51-C53. False: aliases, a renamed enum or first value, a value called default, async etc., two values renamed into one give code that does not compile; From<&str> does not find a renamed value by its protobuf name."
  },
  {
   "property": "C72",
   "status": "partial",
   "theorems": [
    "C72_paths",
    "C72_unique",
    "C72_full_name_partial",
    "C72_full_name_refuted",
    "C72_across_files_refuted"
   ],
   "note": "With --gen-info, PATH is the module of the file, mod_X for each message X around, and the Rust name; it is unique in a file whose scopes have no two names that are equal after renaming keywords. It is the full protobuf name for messages at the top of a file with a package whose name is no keyword; false for nested messages, keywords and files without package. False: unique over files."
  },
  {
   "property": "C73",
   "status": "partial",
   "theorems": [
    "C73_memory_partial",
    "C73_unchecked_refuted"
   ],
   "note": "For builds with overflow checks: what is decoded weighs less than a constant of the schema times (input length + 1), so no length or count in the input makes the reader allocate. False without overflow checks: 14 bytes make the reader go round and push an element every time."
  },
  {
   "property": "C74",
   "status": "proved",
   "theorems": [
    "C74_zero_copy"
   ],
   "note": "All targets, with and without overflow checks; default options are the only other source of strings."
  },
  {
   "property": "C75",
   "status": "partial",
   "theorems": [
    "C75_safe_partial",
    "C75_generated_partial",
    "C75_roundtrip_partial",
    "C75_proto_mut_refuted",
    "C75_swap_refuted"
   ],
   "note": "A client language with the generated functions of the owned structs, a memory semantics, a semantics without memory and a borrow checker: accepted programs whose stores through proto_mut borrow nothing are memory safe, free everything and print what the semantics without memory prints. False without that restriction: proto_mut lets safe code store a shorter borrow, or swap two messages, and then read freed memory. C88 has the same for the functions as they are in the text."
  },
  {
   "property": "C76",
   "status": "partial",
   "theorems": [
    "C76_new",
    "C76_configure",
    "C76_output_directory_partial",
    "C76_same_name_refuted",
    "C76_output_name_refuted"
   ],
   "note": "ConfigBuilder::new accepts exactly the right arguments and names what is wrong with others; the command line makes one configuration per input with every option in its place. With an empty output directory a successful run makes the code of each input reachable from the mod.rs of that directory and changes nothing elsewhere. False: inputs of the same name in different directories overwrite each other; the name given with --output is ignored for inputs with a package."
  },
  {
   "property": "C77",
   "status": "partial",
   "theorems": [
    "C77_reachable_partial",
    "C77_frame_partial",
    "C77_content_partial",
    "C77_idempotent_partial",
    "C77_unambiguous_partial",
    "C77_dry_run_partial",
    "C77_overwritten_refuted",
    "C77_unambiguous_refuted",
    "C77_reachable_refuted",
    "C77_keyword_refuted",
    "C77_dry_run_refuted"
   ],
   "note": "For runs of any list of configurations on any disk where directories of packages that exist already were made by an earlier run. The text of the generated code is a parameter; C85 puts the text of C78 there. False: two inputs of one package, a package inside another generated one, existing directories, keywords as directories, --no-output with a package that has directories."
  },
  {
   "property": "C78",
   "status": "partial",
   "theorems": [
    "C78_generated_files_are_rust",
    "C78_messages_in_file",
    "C78_keyword_refuted",
    "C78_enum_value_refuted",
    "C78_enum_name_refuted",
    "C78_package_refuted",
    "C78_default_refuted",
    "C78_quote_refuted",
    "C78_empty_enum_refuted"
   ],
   "note": "The text is modelled character by character and read by a lexer and parser of Rust that are independent of the generator. Proved for every configuration and every schema with names that are identifiers, except those keywords of Rust that pb-rs does not know, and default values that Rust reads. False for other schemas: ten keywords, enum names and values and packages that are keywords, numbers that begin with a point, quotes in strings; an enum without values stops the generator in the middle of the file."
  },
  {
   "property": "C79",
   "status": "partial",
   "theorems": [
    "C79_derives_partial",
    "C79_derives_refuted",
    "C79_derives_glued"
   ],
   "note": "Missing: messages for which no impl of Default is written, when -C is used; there it is false, because the last trait and Default are glued together. C79_derives_glued: with -C and identifiers this happens in every file, for every message without a default value."
  },
  {
   "property": "C80",
   "status": "partial",
   "theorems": [
    "C80_program_in_file",
    "C80_functions_partial",
    "C80_derive_refuted",
    "C80_no_default"
   ],
   "note": "The trees that the parser of C78 reads from the text are run by an evaluator of Rust that does not mention the generator (RustSem.v). Proved for files without imports, whose names keep their meaning in Rust (C66, C78) and whose default values are constants (C70). References are not modelled (C67 is about them); + on usize does not wrap. Constants, getters and PATH are in C84. Imports are C90. Missing: -C in general (the text does not compile unless Default is among the traits, C79). The Owned structs are in C88. -C is covered where Default is written for each message of the file (C80_derive_case, and likewise in C81, C82, C84, C85, C88, C90, C99); C80_derive_refuted: elsewhere the message has no Default. C80_no_default: this is so in every file, for every message without a default value, unless -C has Default before its last trait."
  },
  {
   "property": "C81",
   "status": "partial",
   "theorems": [
    "C81_from_reader_partial"
   ],
   "note": "For every input and every state of the reader, the same result, the same error and the same position. Hypotheses as for C80; messages of other files are C90."
  },
  {
   "property": "C82",
   "status": "partial",
   "theorems": [
    "C82_roundtrip_partial",
    "C82_exact_partial"
   ],
   "note": "The theorem that joins the text of a proto file, the text of the generated file, and bytes. C82_exact_partial says what comes back for every message, with negative zeros (C93). Missing: messages of 2^32 bytes and more, -C where Default is not written for each message (C80); imports are in C90."
  },
  {
   "property": "C83",
   "status": "partial",
   "theorems": [
    "C83_names_of_file",
    "C83_owned_refuted"
   ],
   "note": "The modules of C66 and the tree of C78 declare the same names in the same order, apart from the two Owned structs for a message. False without that exception: an Owned struct may have the name of another message, and then the file declares it twice. Names of use lines, values and functions are left out."
  },
  {
   "property": "C84",
   "status": "partial",
   "theorems": [
    "C84_getters_partial",
    "C84_path",
    "C84_crate_getters_partial",
    "C84_crate_path"
   ],
   "note": "Run by the evaluator of C80 on the trees of C78. C84_getters_partial and C84_path are for a file without imports; C84_crate_getters_partial and C84_crate_path are for a file that imports others (hypotheses of C90; the getters of imported messages included, whose items C90_program_in_texts_partial finds in the text of their own file). With -C only if Default is written for each message (C80). The value of PATH holds for every message that the file itself declares. References and the static lifetime of the constants are not modelled here."
  },
  {
   "property": "C85",
   "status": "partial",
   "theorems": [
    "C85_run_partial",
    "C85_exact_partial"
   ],
   "note": "C85_exact_partial says what comes back for every message, with negative zeros (C93). Joins C76/C77 (the disk) with C66 (names), C78 (the text) and C80-C82 (what the text does): the renderer that C77 leaves open is the text of C78. Hypotheses as for C77 (a disk that is ready, no later input with the same output) and C82 (no imports: C90 is about those; with -C only if Default is written for each message, no negative zero, less than 2^32 bytes)."
  },
  {
   "property": "C86",
   "status": "proved",
   "theorems": [
    "C86_written",
    "C86_rules",
    "C86_map_in_map_refuted",
    "C86_map_in_oneof_refuted",
    "C86_empty_enum_refuted",
    "C86_empty_default_refuted"
   ],
   "note": "All schemas that the parser can read, with imports, all configurations. Errors of the output stream itself are not part of this model of the text; the disk is in C77 and C85. The four refutations are schemas that protoc refuses, that pb-rs reads, and on which it panics while writing the file."
  },
  {
   "property": "C87",
   "status": "partial",
   "theorems": [
    "C87_run_partial",
    "C87_pb_rs_partial",
    "C87_rules_partial",
    "C87_room_refuted"
   ],
   "note": "Missing: disks that are not `ready` (as for C77: mod.rs files or package directories that an earlier run did not make, inputs named .rs), permissions. Faults while the output is written (a full disk) are C96. `room` says that no file has the place of a directory that is needed and no directory that of an output; C87_room_refuted shows that it is needed."
  },
  {
   "property": "C88",
   "status": "partial",
   "theorems": [
    "C88_owned_text_partial",
    "C88_slice_text_partial",
    "C88_hidden_names_refuted"
   ],
   "note": "The functions of the owned structs, as the parser of C78 reads them from the text, are run by an evaluator of Rust with memory, moves, references to places and drops (OwnedSem.v), which does not mention the generator. from_reader and write_message are any functions whose strings are pieces of the input (C74, C75, C81 for the generated ones). Missing: as in C75 (stores of borrowing messages through proto_mut); messages named Box, Vec, BytesReader, Writer or core, for which the text means nothing (refuted). Box and Pin are the value inside them; Debug of the owned structs is left out."
  },
  {
   "property": "C89",
   "status": "proved",
   "theorems": [
    "C89_reading_errors",
    "C89_deserialize_errors",
    "C89_conversions",
    "C89_texts_distinct"
   ],
   "note": "std::io::Error and Utf8Error are modelled by their text and kind. An io error made by the caller's Read or Write cannot come from reading, which works on a slice."
  },
  {
   "property": "C90",
   "status": "partial",
   "theorems": [
    "C90_functions_partial",
    "C90_imported_code_partial",
    "C90_program_in_texts_partial",
    "C90_roundtrip_partial",
    "C90_exact_partial",
    "C90_mixed_syntax_refuted",
    "C90_copies_partial",
    "C90_parts_partial",
    "C90_crate_roundtrip_partial",
    "C90_captured_refuted"
   ],
   "note": "C90_exact_partial says what comes back for every message, with negative zeros (C93). The run of pb-rs over the files of a crate is in C99. C90_copies_partial, C90_parts_partial and C90_crate_roundtrip_partial derive from reading and the passes that the importing file has a copy of each imported message and that every message is of the file itself or a copy; they ask for full names that are declared once (so no file imported along two ways), for types of imported files that the other files do not capture (C90_captured_refuted: otherwise the crate may be refused by Rust), for the same syntax (C90_mixed_syntax_refuted: a proto3 file that imports a proto2 message with a repeated fixed32 field gives a crate that Rust refuses), and for cycles of messages that are direct (in longer ones the box may be elsewhere for another file, see C92). Missing: files that are imported along two ways, files without a package, and -C where Default is not written for each message."
  },
  {
   "property": "C91",
   "status": "proved",
   "theorems": [
    "C91_exact"
   ],
   "note": "Exactly which fields break_cycles boxes, in terms of the order in which the messages of a component are found. C92 is about whether that order matters."
  },
  {
   "property": "C92",
   "status": "partial",
   "theorems": [
    "C92_direct_partial",
    "C92_order_refuted",
    "C92_required_refuted"
   ],
   "note": "False as the comment at types.rs:2821-2823 claims it, for components of three and more messages. C92_order_refuted: the generated struct depends on the order of the messages. C92_required_refuted: so does whether --error-cycle refuses the file, and whether a required field becomes optional. Proved: fields between messages that contain each other directly are always boxed (C92_direct_partial)."
  },
  {
   "property": "C93",
   "status": "proved",
   "theorems": [
    "C93_roundtrip_exact",
    "C93_negative_zero",
    "C93_second_roundtrip"
   ],
   "note": "What comes back from a round trip, for every value of less than 2^32 bytes, without the exclusions of C26: the relation `back` is stated on the schema; the value is the same iff it is `kept`. In schemas without default options on proto3 fields `kept` means that no field without presence holds -0.0."
  },
  {
   "property": "C94",
   "status": "proved",
   "theorems": [
    "C94_error",
    "C94_field"
   ],
   "note": "In terms of the spans of C91. That the condition is not the intended one (a cycle of required fields) is C38; that it depends on the order of the messages is C92."
  },
  {
   "property": "C95",
   "status": "proved",
   "theorems": [
    "C95_lifetime_names",
    "C95_dont_use_cow_refuted",
    "C95_packed_singular_refuted"
   ],
   "note": "About the tree that the parser of C78 reads from the text. The hypotheses are those of C65 and C78; without two of them the statement is false (refuted with witnesses). That a path passes as many lifetimes as the type declares is C65; borrowing itself is C67."
  },
  {
   "property": "C96",
   "status": "partial",
   "theorems": [
    "C96_no_faults",
    "C96_missing_partial",
    "C96_error",
    "C96_silent_partial",
    "C96_full_disk_refuted"
   ],
   "note": "False of the code: the BufWriter in write_proto is dropped without a flush, and the error of the last write is lost. C96_full_disk_refuted: the system takes no byte, and pb-rs prints nothing, exits with 0 and leaves an empty file. Proved for every behaviour of write: after a run without errors each output is a beginning of the text that lacks at most 8192 bytes; for texts shorter than 8192 bytes no error is ever reported; a reported error means that something is missing; without faults the runs are those of C76-C87. Assumed: the source of std's BufWriter (not in the repository), and that the lines of mod.rs are written. Interrupted calls are left out."
  },
  {
   "property": "C97",
   "status": "proved",
   "theorems": [
    "C97_texts",
    "C97_main",
    "C97_printed"
   ],
   "note": "Errors of the standard library and of nom are their texts. Debug of strings keeps bytes above 127, where Rust escapes characters that cannot be printed."
  },
  {
   "property": "C98",
   "status": "partial",
   "theorems": [
    "C98_from_impls",
    "C98_plain_partial",
    "C98_lifetime_refuted",
    "C98_boxed_refuted"
   ],
   "note": "False of the code in two ways: for a type that borrows (string, bytes, a message with them) the impl names the lifetime 'a without declaring it (the TODO in types.rs:2343; C98_lifetime_refuted), and for a boxed variant the value is passed without its Box (C98_boxed_refuted). Proved: the text parses; there is exactly one impl for each type of a variant, for the first variant with that type; and when no variant borrows or is boxed the impls are accepted. Types are compared as syntax. The theorem is about the code written for one oneof of a processed file; the rest of the file does not depend on the feature."
  },
  {
   "property": "C99",
   "status": "partial",
   "theorems": [
    "C99_crate_run_partial",
    "C99_whole_run_partial"
   ],
   "note": "Joins C77 (the disk), C90 (crates with imports) and C93 (what comes back, for every value). Hypotheses as for C77 (a disk that is ready, no output written twice) and C90 (each file has a package, here without keywords of Rust; no file imported along two ways; one syntax; copies; -C only if Default is written for each message), and less than 2^32 bytes. The tree of names of the crate is the one of C90 (in_crates); that its modules are those of the disk is proved for each item: mod.rs files lead to the file that has its code along the module path of the item. C99_whole_run_partial needs no list of imported files and no hypothesis about copies: these come from reading the files and from the passes (conditions as for C90_crate_roundtrip_partial), and that imported files are accepted comes from the run."
  }
 ]
}
