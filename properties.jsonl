{"id": "C01", "title": "Varint round trip", "statement": "Writing any u64 with Writer::write_varint and reading it back with BytesReader::read_varint64 at that position returns the same value and advances the reader by exactly the bytes written, whatever bytes precede or follow.", "quantifier": "every u64 value, every prefix and suffix of the buffer, every reader window", "why_tests_cant": "2^64 values times all surrounding buffers", "anchors": ["quick-protobuf/src/writer.rs:write_varint", "quick-protobuf/src/reader.rs:read_varint64"]}
{"id": "C02", "title": "Varint size and minimality", "statement": "sizeof_varint(v) equals the number of bytes write_varint(v) emits, is between 1 and 10, and no shorter varint encodes v.", "quantifier": "every u64 value and every alternative encoding of it", "why_tests_cant": "2^64 values and all competing encodings", "anchors": ["quick-protobuf/src/sizeofs.rs:sizeof_varint", "quick-protobuf/src/writer.rs:write_varint"]}
{"id": "C03", "title": "Scalar round trip", "statement": "For each of int32, int64, uint32, uint64, sint32, sint64, bool, fixed32, fixed64, sfixed32, sfixed64, float, double, enum: reading what the matching write_* produced returns the same value (floats bit for bit) and consumes exactly the written bytes.", "quantifier": "every value of every scalar type, every surrounding buffer", "why_tests_cant": "value spaces up to 2^64 per type", "anchors": ["quick-protobuf/src/reader.rs:read_int32..read_enum", "quick-protobuf/src/writer.rs:write_int32..write_enum"]}
{"id": "C04", "title": "sizeof_* agrees with the writer", "statement": "For every scalar type the sizeof_* helper (or the constant 4/8) returns exactly the number of bytes the matching write_* emits; sizeof_len(n) is the size of the length prefix plus n.", "quantifier": "every value of every scalar type", "why_tests_cant": "value spaces up to 2^64; a single off-by-one corrupts every enclosing length prefix", "anchors": ["quick-protobuf/src/sizeofs.rs:sizeof_*", "quick-protobuf/src/writer.rs:write_*"]}
{"id": "C05", "title": "Varint decoding is total and exact", "statement": "read_varint64/read_varint32 on any buffer: if a terminating byte occurs within ten bytes the result is the little-endian base-128 value modulo 2^64 (resp. 2^32) and the reader advances just past it; if ten bytes pass without terminator the result is Error::Varint; if the buffer ends first the result is UnexpectedEndOfBuffer.", "quantifier": "every byte buffer and start position", "why_tests_cant": "all byte strings", "anchors": ["quick-protobuf/src/reader.rs:read_varint32", "quick-protobuf/src/reader.rs:read_varint64"]}
{"id": "C06", "title": "Bytes and string round trip", "statement": "write_bytes/write_string followed by read_bytes/read_string returns the same payload, consumes exactly the written bytes and restores the reader's end, for every payload shorter than 2^32 bytes.", "quantifier": "every payload and surrounding buffer", "why_tests_cant": "all byte strings, all lengths around varint size changes", "anchors": ["quick-protobuf/src/reader.rs:read_bytes", "quick-protobuf/src/reader.rs:read_string", "quick-protobuf/src/reader.rs:read_len", "quick-protobuf/src/writer.rs:write_bytes", "quick-protobuf/src/writer.rs:write_string"]}
{"id": "C07", "title": "Payloads of 2^32 bytes and more survive", "statement": "The bytes round trip holds with no bound on the payload length representable in memory (64-bit targets).", "quantifier": "every payload length", "why_tests_cant": "needs > 4 GiB buffers", "anchors": ["quick-protobuf/src/reader.rs:read_len_varint", "quick-protobuf/src/writer.rs:write_bytes"]}
{"id": "C08", "title": "read_string yields exactly valid UTF-8", "statement": "read_string succeeds exactly when the delimited bytes are a valid UTF-8 sequence (no overlong forms, surrogates, or code points above 10FFFF), and fails with Error::Utf8 otherwise.", "quantifier": "every byte string as payload", "why_tests_cant": "all byte strings", "anchors": ["quick-protobuf/src/reader.rs:read_string"]}
{"id": "C09", "title": "Packed repeated round trip", "statement": "write_packed followed by read_packed with inverse element codecs returns the same elements in order and consumes exactly the written bytes; an empty sequence is written as nothing by write_packed_with_tag.", "quantifier": "every element codec with a round trip and non-empty encodings, every list of elements", "why_tests_cant": "all lists, all element codecs (caller-supplied closures)", "anchors": ["quick-protobuf/src/reader.rs:read_packed", "quick-protobuf/src/writer.rs:write_packed", "quick-protobuf/src/writer.rs:write_packed_with_tag"]}
{"id": "C10", "title": "read_packed stays inside its length", "statement": "If read_packed (or any length-delimited read) returns Ok then the reader has advanced exactly by the length prefix plus the declared length, and the elements were decoded only from those bytes.", "quantifier": "every buffer, every advancing element reader", "why_tests_cant": "all byte strings and all closures", "anchors": ["quick-protobuf/src/reader.rs:read_packed", "quick-protobuf/src/reader.rs:read_len"]}
{"id": "C100", "title": "How deep decoding recurses", "statement": "If the messages of a schema can be ranked so that every field only has messages of smaller rank in it, decoding a message never has more than rank + 1 activations of from_reader at a time, on any input; with overflow checks never more than the length of the input + 1, on any schema. A number of frames is too small for some input exactly if that many references to messages can follow each other. For recursive messages no fixed stack is enough: for every number of frames there is a short valid input that needs more.", "quantifier": "all schemas, options, targets, inputs, reader states, numbers of frames and of loop rounds", "why_tests_cant": "a bound over all inputs cannot be tested; an overflow of the stack aborts the process and only shows on inputs nested deeper than any sample", "anchors": ["pb-rs/src/types.rs:write_impl_message_read", "quick-protobuf/src/reader.rs:read_message", "quick-protobuf/src/reader.rs:read_len", "quick-protobuf/src/reader.rs:read_map"]}
{"id": "C101", "title": "How often sizes are computed when a message is written", "statement": "get_size of a message runs get_size once for every message in it. Writer::write_message runs get_size for every message in the value once, once more for every message around it and once more for every map entry or packed array around it; serialize_into_vec and serialize_into_slice do so once more for every message. So the number of activations is at most twice the nesting times the number of messages, linear if no message can contain itself, and not linear (in messages or in bytes) otherwise.", "quantifier": "all well-formed schemas, options and well-typed values", "why_tests_cant": "tests look at the bytes, not at the work; the quadratic case only shows on deep values", "anchors": ["quick-protobuf/src/writer.rs:write_message", "quick-protobuf/src/writer.rs:write_map", "quick-protobuf/src/writer.rs:write_packed_with_tag", "quick-protobuf/src/writer.rs:serialize_into_vec", "pb-rs/src/types.rs:write_get_size", "pb-rs/src/types.rs:write_write_message"]}
{"id": "C11", "title": "Packed fixed-width round trip", "statement": "write_packed_fixed of a PackedFixed followed by read_packed_fixed returns a PackedFixed with the same elements, in both the Borrowed and Owned representation.", "quantifier": "every list of 4- or 8-byte elements, every surrounding buffer", "why_tests_cant": "all lists", "anchors": ["quick-protobuf/src/reader.rs:read_packed_fixed", "quick-protobuf/src/writer.rs:write_packed_fixed"]}
{"id": "C12", "title": "PackedFixed representation independence", "statement": "len, is_empty, at, iteration, into_vec/own and equality give the same answers for a Borrowed PackedFixed as for the Owned one holding the decoded elements, and never touch memory outside the data.", "quantifier": "every byte slice and every index", "why_tests_cant": "all slices, including lengths that are not a multiple of the element size", "anchors": ["quick-protobuf/src/reader.rs:PackedFixed"]}
{"id": "C13", "title": "Map entry round trip", "statement": "write_map followed by read_map returns the same key and value whatever the order of the two entry fields and even if one is absent (default), and consumes exactly the entry.", "quantifier": "every key/value codec with a round trip", "why_tests_cant": "all keys and values and codecs", "anchors": ["quick-protobuf/src/reader.rs:read_map", "quick-protobuf/src/writer.rs:write_map"]}
{"id": "C14", "title": "Unknown fields are skipped exactly", "statement": "read_unknown called after a tag advances over exactly one field payload of that wire type; groups and unknown wire types are errors and consume nothing.", "quantifier": "every tag and every payload of each wire type", "why_tests_cant": "all byte strings", "anchors": ["quick-protobuf/src/reader.rs:read_unknown"]}
{"id": "C15", "title": "Decoding never reads outside the buffer and never panics", "statement": "No read function and no generated from_reader panics (slice out of range, arithmetic overflow) on any input bytes; malformed input is reported as an Err.", "quantifier": "every byte buffer, every schema, both overflow-check settings and pointer widths", "why_tests_cant": "all byte strings; attacker-controlled input", "anchors": ["quick-protobuf/src/reader.rs:BytesReader", "pb-rs/src/types.rs:write_impl_message_read"]}
{"id": "C16", "title": "Decoding always terminates", "statement": "from_reader and deserialize_from_slice return after a number of steps bounded by the input length, on every input.", "quantifier": "every byte buffer and schema, both overflow-check settings", "why_tests_cant": "non-termination on one of all byte strings", "anchors": ["quick-protobuf/src/reader.rs:read_message", "quick-protobuf/src/reader.rs:read_unknown", "quick-protobuf/src/reader.rs:is_eof"]}
{"id": "C17", "title": "Truncated input is rejected", "statement": "Every strict prefix of a serialize_into_vec output (length-delimited) is rejected by deserialize_from_slice with an Err: a message whose declared length exceeds the available bytes is never accepted.", "quantifier": "every schema, message, and truncation point", "why_tests_cant": "all messages times all crash/truncation points", "anchors": ["quick-protobuf/src/reader.rs:read_len", "quick-protobuf/src/reader.rs:deserialize_from_slice", "quick-protobuf/src/writer.rs:serialize_into_vec"]}
{"id": "C18", "title": "Reader is usable after an error", "statement": "When a read fails, the reader's window (end) is what it was before the call, so that a caller can recover.", "quantifier": "every buffer and failing read", "why_tests_cant": "all failing inputs", "anchors": ["quick-protobuf/src/reader.rs:read_len"]}
{"id": "C19", "title": "Overflow checks do not change results", "statement": "If decoding with overflow checks enabled does not panic then decoding without them gives the same result and reader position.", "quantifier": "every buffer, every schema", "why_tests_cant": "all byte strings under two build profiles", "anchors": ["quick-protobuf/src/reader.rs:BytesReader"]}
{"id": "C20", "title": "Slice writer never writes out of bounds and is atomic per primitive", "statement": "A BytesWriter write either stores all its bytes at the cursor and advances, or fails with UnexpectedEndOfBuffer leaving the buffer and cursor unchanged; bytes after the cursor are never touched.", "quantifier": "every buffer, cursor and sequence of writes", "why_tests_cant": "all buffers and histories of writes", "anchors": ["quick-protobuf/src/writer.rs:BytesWriter"]}
{"id": "C21", "title": "Backends agree", "statement": "For every sequence of writer calls, the bytes produced in a BytesWriter are exactly those produced in a Vec when they fit, and otherwise the buffer holds a prefix (cut at a primitive boundary) of them.", "quantifier": "every sequence of writer calls, every buffer size", "why_tests_cant": "all write histories and buffer sizes", "anchors": ["quick-protobuf/src/writer.rs:WriterBackend", "quick-protobuf/src/writer.rs:BytesWriter"]}
{"id": "C22", "title": "serialize_into_slice succeeds exactly when the message fits", "statement": "serialize_into_slice returns Ok iff out.len() >= sizeof_len(get_size()); on Ok out starts with exactly the serialize_into_vec output and the remaining bytes are unchanged; on OutputBufferTooSmall nothing was written.", "quantifier": "every schema, message, output buffer", "why_tests_cant": "all messages times all buffer sizes", "anchors": ["quick-protobuf/src/writer.rs:serialize_into_slice", "quick-protobuf/src/writer.rs:serialize_into_vec"]}
{"id": "C23", "title": "Prefix property under failing sinks", "statement": "If the underlying io::Write fails after accepting any number of bytes, what it received is a prefix of the full encoding and the error is reported to the caller.", "quantifier": "every write history and every crash point of the sink", "why_tests_cant": "all crash points", "anchors": ["quick-protobuf/src/writer.rs:WriterBackend for W: Write"]}
{"id": "C24", "title": "write_file Ok means the file is complete", "statement": "When MessageWrite::write_file returns Ok the file contains the complete encoding.", "quantifier": "every message and every failure point of the file system", "why_tests_cant": "all crash points, including during the implicit flush on drop", "anchors": ["quick-protobuf/src/message.rs:write_file"]}
{"id": "C25", "title": "Generated get_size is exact", "statement": "For every message type pb-rs can generate and every value of it, get_size() equals the number of bytes write_message emits.", "quantifier": "every schema (proto2/proto3, nested, recursive, oneof, map, packed, optional, required, boxed) and every value", "why_tests_cant": "all schemas times all values", "anchors": ["pb-rs/src/types.rs:write_get_size", "pb-rs/src/types.rs:write_write", "pb-rs/src/types.rs:get_size", "pb-rs/src/types.rs:get_write"]}
{"id": "C26", "title": "Generated code round trips", "statement": "For every valid schema and every value, deserializing (from_reader / deserialize_from_slice) what write_message / serialize_into_vec produced yields the same value.", "quantifier": "every schema with distinct field numbers and every well-typed value", "why_tests_cant": "all schemas times all values", "anchors": ["pb-rs/src/types.rs:write_match_tag", "pb-rs/src/types.rs:write_write", "pb-rs/src/types.rs:write_impl_message_read"]}
{"id": "C27", "title": "Forward compatibility", "statement": "Inserting any well-formed unknown field (a field number the schema does not know, any wire type 0,1,2,5) at any field boundary of an encoding does not change the decoded value.", "quantifier": "every schema, value, insertion point, unknown field", "why_tests_cant": "all insertions", "anchors": ["quick-protobuf/src/reader.rs:read_unknown", "pb-rs/src/types.rs:write_unknown_match"]}
{"id": "C28", "title": "Concatenation is last-wins / append", "statement": "Decoding the concatenation of two encodings gives, per field: the later value for singular fields (if present), appended elements for unpacked repeated fields, later entries overriding in maps, and the later variant of a oneof.", "quantifier": "every schema and pair of encodings", "why_tests_cant": "all pairs of messages", "anchors": ["pb-rs/src/types.rs:write_match_tag"]}
{"id": "C29", "title": "Concatenation merges as protobuf prescribes", "statement": "Decoding a concatenation merges embedded messages field by field and appends packed repeated chunks, as the protobuf encoding specification requires.", "quantifier": "every schema and pair of encodings", "why_tests_cant": "all pairs of messages", "anchors": ["pb-rs/src/types.rs:write_match_tag", "quick-protobuf/src/reader.rs:read_packed"]}
{"id": "C30", "title": "Packed and unpacked encodings are interchangeable", "statement": "A repeated scalar field decodes the same elements whether the sender used packed or unpacked encoding.", "quantifier": "every schema, list of elements, encoding choice", "why_tests_cant": "all lists and mixes", "anchors": ["pb-rs/src/types.rs:write_match_tag", "pb-rs/src/types.rs:packed"]}
{"id": "C31", "title": "Field order independence", "statement": "Reordering the fields in an encoding (keeping the relative order of occurrences of one field) does not change the decoded value.", "quantifier": "every schema, encoding, permutation", "why_tests_cant": "all permutations", "anchors": ["pb-rs/src/types.rs:write_impl_message_read"]}
{"id": "C32", "title": "Unknown enum values become the default", "statement": "Decoding an enum field with an undeclared number yields the enum's first declared variant, declared numbers decode to their variant.", "quantifier": "every enum and every i32 on the wire", "why_tests_cant": "2^32 values per enum", "anchors": ["pb-rs/src/types.rs:Enumerator::write_from_i32", "quick-protobuf/src/reader.rs:read_enum"]}
{"id": "C33", "title": "proto3 default elision is lossless", "statement": "Not writing a proto3 singular field equal to its default never changes the decoded message.", "quantifier": "every proto3 schema (incl. custom defaults) and value (incl. -0.0)", "why_tests_cant": "all schemas and values", "anchors": ["pb-rs/src/types.rs:write_write", "pb-rs/src/types.rs:has_presence", "pb-rs/src/types.rs:singular_field_defaults"]}
{"id": "C34", "title": "Oneof holds at most one member, the last one", "statement": "Decoding any sequence of oneof members leaves exactly the last one set.", "quantifier": "every sequence of members", "why_tests_cant": "all sequences", "anchors": ["pb-rs/src/types.rs:OneOf"]}
{"id": "C35", "title": "Distinct fields have distinct tags", "statement": "For accepted schemas, no two fields of a message share a generated tag, and tags decompose back into field number and wire type.", "quantifier": "every schema", "why_tests_cant": "all schemas / field numbers", "anchors": ["pb-rs/src/types.rs:tag", "pb-rs/src/types.rs:sanity_checks"]}
{"id": "C36", "title": "Generated types are finite", "statement": "After break_cycles, no generated struct contains itself by value: the by-value containment graph of all messages is acyclic.", "quantifier": "every message graph", "why_tests_cant": "all (cyclic) type graphs", "anchors": ["pb-rs/src/types.rs:break_cycles", "pb-rs/src/scc.rs"]}
{"id": "C37", "title": "Strongly connected components are correct", "statement": "sccs() returns every message exactly once, and any field holding a message by value (unboxed and not repeated) leads to the same or an earlier component; two messages share a component iff each reaches the other through such fields.", "quantifier": "every message graph", "why_tests_cant": "all graphs", "anchors": ["pb-rs/src/scc.rs:Tarjan"]}
{"id": "C38", "title": "--error-cycle only rejects genuinely infinite types", "statement": "With error_cycle, break_cycles reports an error only if some message contains itself by value through required fields only.", "quantifier": "every message graph", "why_tests_cant": "all graphs", "anchors": ["pb-rs/src/types.rs:break_cycles", "pb-rs/src/types.rs:is_cycle"]}
{"id": "C39", "title": "Type names resolve to the innermost enclosing scope", "statement": "resolve_types binds a field's type name to the declaration in the innermost enclosing scope that declares it, to the absolute one for names starting with a dot, and reports an error if none exists.", "quantifier": "every package structure and name", "why_tests_cant": "all scopes and names", "anchors": ["pb-rs/src/types.rs:resolve_types", "pb-rs/src/types.rs:get_full_names"]}
{"id": "C40", "title": "Escaped identifiers are valid Rust identifiers and stay distinct", "statement": "sanitize_keyword never yields a Rust keyword, is idempotent, leaves non-keywords unchanged and maps distinct names to distinct names.", "quantifier": "every identifier", "why_tests_cant": "all identifiers, keyword list completeness", "anchors": ["pb-rs/src/keywords.rs:sanitize_keyword"]}
{"id": "C41", "title": "Reserved numbers and names are enforced", "statement": "A schema in which a message (at any nesting level) uses one of its reserved field numbers or names is rejected.", "quantifier": "every schema", "why_tests_cant": "all schemas and nesting depths", "anchors": ["pb-rs/src/types.rs:sanity_checks", "pb-rs/src/parser.rs:message"]}
{"id": "C42", "title": "proto3 repeated scalars are packed by default", "statement": "In a proto3 file every repeated field of packable type, in every message at any nesting level, is packed unless it says packed=false; non-packable fields are never packed.", "quantifier": "every proto3 schema", "why_tests_cant": "all schemas and nesting depths", "anchors": ["pb-rs/src/types.rs:set_defaults", "pb-rs/src/types.rs:set_repeated_as_packed"]}
{"id": "C43", "title": "The declared syntax governs the fields", "statement": "If a file declares syntax proto3, its fields get proto3 presence rules regardless of comments or blank lines before the declaration.", "quantifier": "every file text", "why_tests_cant": "all texts", "anchors": ["pb-rs/src/parser.rs:scan_syntax", "pb-rs/src/parser.rs:file_descriptor"]}
{"id": "C44", "title": "--dont-use-cow removes every borrowed type", "statement": "After conversion no field at any depth (nested messages, oneofs, map values) has a Cow type.", "quantifier": "every schema", "why_tests_cant": "all schemas and depths", "anchors": ["pb-rs/src/types.rs:convert_field_types"]}
{"id": "C45", "title": "Module path splitting loses nothing", "statement": "split_package and get_modules split a dotted package into its components; rejoining gives the original path.", "quantifier": "every package name", "why_tests_cant": "all strings", "anchors": ["pb-rs/src/types.rs:split_package", "pb-rs/src/types.rs:get_modules"]}
{"id": "C46", "title": "update_mod_file is idempotent and conservative", "statement": "Updating a generated mod.rs adds the module exactly once however often it is run, keeps all earlier entries and never modifies a hand-written file.", "quantifier": "every file content and every sequence of updates", "why_tests_cant": "all histories of runs", "anchors": ["pb-rs/src/types.rs:update_mod_file"]}
{"id": "C47", "title": "Bool decoding follows the wire value", "statement": "read_bool returns true iff the varint on the wire is non-zero.", "quantifier": "every varint", "why_tests_cant": "2^64 values", "anchors": ["quick-protobuf/src/reader.rs:read_bool"]}
{"id": "C48", "title": "Reader/Reader API equivalence", "statement": "Reader::from_bytes / Reader::read and deserialize_from_slice agree with BytesReader on the same bytes.", "quantifier": "every byte buffer and read function", "why_tests_cant": "all byte strings", "anchors": ["quick-protobuf/src/reader.rs:Reader", "quick-protobuf/src/reader.rs:deserialize_from_slice"]}
{"id": "C49", "title": "Reader::from_file reports I/O errors as Err", "statement": "For every path, if the file cannot be inspected, opened or completely read, Reader::from_file returns Err (and does not panic); if it can, the Reader holds the file's bytes. False of the code: the call metadata().unwrap() panics when the file is missing.", "quantifier": "all results of the metadata and open calls, all file contents", "why_tests_cant": "tests only open files that exist; the failing operating-system outcomes are never exercised", "anchors": ["quick-protobuf/src/reader.rs:644-662"]}
{"id": "C50", "title": "Scalars are written as the protobuf wire format prescribes", "statement": "For every value of every scalar type the bytes written are the encoding the protobuf specification prescribes: the minimal varint of the value (sign-extended to 64 bits for int32/int64/enum), of its zigzag image in 32 or 64 bits for sint32/sint64, little-endian bytes for fixed types. False of the code for sint32 outside [-2^30, 2^30): write_sint32 sign-extends the 32-bit zigzag image and writes 10 bytes.", "quantifier": "all values of all scalar types", "why_tests_cant": "the value still round-trips through quick-protobuf, so a round-trip test cannot see it, and the bad values are half of a 2^32 range never hit by sample data", "anchors": ["quick-protobuf/src/writer.rs:84-175"]}
{"id": "C51", "title": "Decoded values are well typed", "statement": "Every value returned by a generated from_reader inhabits its generated Rust type with all its invariants: integers in range, strings valid UTF-8, enums equal to a declared variant, PackedFixed contents a whole number of elements, map keys distinct, nested messages recursively.", "quantifier": "every input buffer, schema and target", "why_tests_cant": "all byte strings", "anchors": ["pb-rs/src/types.rs:write_impl_message_read", "quick-protobuf/src/reader.rs:BytesReader"]}
{"id": "C52", "title": "Transcoding is stable", "statement": "Re-encoding a message decoded from arbitrary bytes and decoding the result gives an equal message.", "quantifier": "every input buffer, schema and target", "why_tests_cant": "all byte strings, including non-canonical ones no writer of this crate produces", "anchors": ["pb-rs/src/types.rs:write_impl_message_read", "pb-rs/src/types.rs:write_impl_message_write"]}
{"id": "C53", "title": "Accepted schemas yield working code", "statement": "If a parsed schema follows the protobuf language rules (distinct field numbers in 1..2^29-1, scalar map keys, no repeated oneof members, packed only on repeated fields) and all passes of write_proto succeed on it, the resulting descriptor satisfies every assumption of the theorems about generated code (resolved types, only optional fields boxed, distinct tags, a finite Default), and values of the generated types survive serialization and deserialization.", "quantifier": "every schema and value", "why_tests_cant": "the end-to-end tests cover a handful of .proto files and values; the claim ranges over all schemas, scopes, cycles and values", "anchors": ["pb-rs/src/types.rs:write_proto", "pb-rs/src/types.rs:resolve_types", "pb-rs/src/types.rs:break_cycles", "pb-rs/src/types.rs:set_defaults"]}
{"id": "C54", "title": "The parser terminates", "statement": "For every text the proto parser terminates, with loops and recursion bounded by the length of the text, and what it leaves unread is an end of the text.", "quantifier": "every text", "why_tests_cant": "all texts; a looping combinator is only seen on the text that makes it loop", "anchors": ["pb-rs/src/parser.rs:file_descriptor"]}
{"id": "C55", "title": "What the parser returns is well formed", "statement": "Whatever the text, names the parser returns are identifiers or dotted paths, numbers are non-negative 32 bit integers, no field is boxed, fields have type map exactly when their frequency is map, oneofs are not empty, and all fields have the presence of one and the same syntax.", "quantifier": "every text", "why_tests_cant": "all texts", "anchors": ["pb-rs/src/parser.rs:file_descriptor", "pb-rs/src/parser.rs:message", "pb-rs/src/parser.rs:field_generic"]}
{"id": "C56", "title": "Every proto text is read as what it stands for", "statement": "Every text of the protocol buffer grammar, with any white space and comments, is read to the end and gives exactly the packages, imports, messages, enums, services, fields, options, reserved ranges it declares, in order.", "quantifier": "every text of a grammar of the language", "why_tests_cant": "the grammar has infinitely many texts, with arbitrary nesting, white space and comments", "anchors": ["pb-rs/src/parser.rs:file_descriptor"]}
{"id": "C57", "title": "Integer literals have their value", "statement": "Decimal, octal and hexadecimal literals are read with the value the language gives them, as field numbers and as enum values.", "quantifier": "every literal", "why_tests_cant": "all literals", "anchors": ["pb-rs/src/parser.rs:integer", "pb-rs/src/parser.rs:hex_integer"]}
{"id": "C58", "title": "The parser does not panic", "statement": "No text makes the parser panic.", "quantifier": "every text", "why_tests_cant": "all texts", "anchors": ["pb-rs/src/parser.rs:field_generic", "pb-rs/src/parser.rs:extensions", "pb-rs/src/parser.rs:file_descriptor"]}
{"id": "C59", "title": "Option statements declare nothing", "statement": "An option statement in a message leaves the fields of the message as they are.", "quantifier": "every option statement and every message", "why_tests_cant": "all option statements", "anchors": ["pb-rs/src/parser.rs:option_ignore", "pb-rs/src/parser.rs:message_event"]}
{"id": "C60", "title": "Everything reserved is kept", "statement": "All reserved numbers and names of a message are recorded.", "quantifier": "every message", "why_tests_cant": "all messages", "anchors": ["pb-rs/src/parser.rs:message", "pb-rs/src/parser.rs:reserved_nums"]}
{"id": "C61", "title": "Reading a file and its imports terminates", "statement": "For every set of files, reading a file with its imports terminates.", "quantifier": "every file system, search path and file", "why_tests_cant": "all import graphs", "anchors": ["pb-rs/src/types.rs:read_proto", "pb-rs/src/types.rs:fetch_imports"]}
{"id": "C62", "title": "Imports are gathered completely and keep their place", "statement": "The descriptor contains exactly the messages and enums of the file and of all files it imports directly or indirectly, each in the package and module of the file that declares it.", "quantifier": "every file system, search path and file", "why_tests_cant": "all import graphs", "anchors": ["pb-rs/src/types.rs:fetch_imports", "pb-rs/src/types.rs:set_package", "pb-rs/src/types.rs:set_imported"]}
{"id": "C63", "title": "Nothing is generated from files that were not read completely", "statement": "If reading succeeds, every file that is imported directly or indirectly exists, has been parsed to its end and all its imports have been found in the order of the search path.", "quantifier": "every file system, search path and file", "why_tests_cant": "all import graphs", "anchors": ["pb-rs/src/types.rs:read_proto", "pb-rs/src/types.rs:fetch_imports"]}
{"id": "C64", "title": "From proto text to bytes", "statement": "For every proto file that follows the rules of the language and is accepted by the generator, the generated code reads back every message it writes.", "quantifier": "every proto text of the grammar, every configuration, every message value", "why_tests_cant": "all schemas times all values", "anchors": ["pb-rs/src/types.rs:write_proto", "pb-rs/src/parser.rs:file_descriptor", "quick-protobuf/src/writer.rs:serialize_into_vec", "quick-protobuf/src/reader.rs:deserialize_from_slice"]}
{"id": "C65", "title": "Lifetime parameters of generated types", "statement": "Every generated struct and oneof enum declares the lifetime 'a exactly when some of its field types mention it, which is exactly when the message can hold borrowed data; every reference to a generated type passes exactly the lifetime it declares.", "quantifier": "every accepted schema, every configuration", "why_tests_cant": "recursion through arbitrary (also cyclic) message graphs", "anchors": ["pb-rs/src/types.rs:has_lifetime", "pb-rs/src/types.rs:rust_type", "pb-rs/src/types.rs:write_struct"]}
{"id": "C66", "title": "Paths in generated code resolve", "statement": "Every Rust path by which the generated code refers to a generated struct, enum or oneof enum leads, from the module where it is written, to the item that stands for that message, enum or oneof.", "quantifier": "every set of proto files, every configuration, every place in the generated modules", "why_tests_cant": "arbitrary nesting, packages, imports and names", "anchors": ["pb-rs/src/types.rs:get_modules", "pb-rs/src/types.rs:set_package", "pb-rs/src/types.rs:write_imports", "pb-rs/src/types.rs:rust_type"]}
{"id": "C67", "title": "Generated function bodies are well-typed", "statement": "For every message of an accepted schema, the struct's field types support the derived traits, and every expression and assignment that the generator writes into default, from_reader, get_size, write_message, the default constants and the getters has, by Rust's typing rules (auto-deref, coercion, moves out of references), the type its place demands; every constant a getter mentions exists.", "quantifier": "every accepted schema, every configuration, every message and field", "why_tests_cant": "each combination of frequency, type, packing, boxing, default and configuration yields different references, dereferences and conversions", "anchors": ["pb-rs/src/types.rs:Field::write_match_tag", "pb-rs/src/types.rs:Field::write_get_size", "pb-rs/src/types.rs:Field::write_write", "pb-rs/src/types.rs:get_field_default", "pb-rs/src/types.rs:write_getter", "pb-rs/src/types.rs:OneOf::write_write"]}
{"id": "C68", "title": "Custom defaults keep their value", "statement": "The text the generator writes for the default option of a field is a Rust literal of the type of the constant, and denotes in Rust the value that the option denotes in protobuf; the default of an enum field is a value of the enum.", "quantifier": "every accepted schema, every configuration, every field of scalar or enum type, every option text", "why_tests_cant": "literals are unboundedly many, and the two languages agree on most of them but read some silently differently", "anchors": ["pb-rs/src/types.rs:sanitize_default", "pb-rs/src/types.rs:Message::sanity_checks", "pb-rs/src/parser.rs:field_generic", "pb-rs/src/types.rs:rust_type_incl_non_cow"]}
{"id": "C69", "title": "The use lines cover the names in the generated code", "statement": "Every type, trait and primitive that generated code mentions by a short name is found where it is mentioned - in nested modules too - and means what it should; the traits of the methods called are in scope.", "quantifier": "every accepted schema, all combinations of --nostd, --hashbrown, --owned, --dont_use_cow, --gen_info, --add_deprecated_fields and getters", "why_tests_cant": "which line is written depends on a conjunction of field types, nesting and options; tests compile a few combinations", "anchors": ["pb-rs/src/types.rs:write_common_uses", "pb-rs/src/types.rs:write_uses", "pb-rs/src/types.rs:write_imports", "pb-rs/src/types.rs:Message::write", "pb-rs/src/keywords.rs:sanitize_keyword"]}
{"id": "C70", "title": "Absent fields have the default that the schema declares", "statement": "A field that is absent from the input is None, empty, or the default value that the schema declares for it (zero or the first enum value if it declares none); getters of optional fields return that default; float defaults are the nearest representable numbers.", "quantifier": "every accepted schema with portable defaults, every buffer of records without the field", "why_tests_cant": "the default passes through the parser, a sanitizer, the literal syntax of Rust, rounding, and two ways of building Default; tests use a handful of literals", "anchors": ["pb-rs/src/types.rs:get_field_default", "pb-rs/src/types.rs:write_custom_default", "pb-rs/src/types.rs:write_getter", "pb-rs/src/types.rs:write_impl_default", "pb-rs/src/types.rs:sanitize_default", "pb-rs/src/types.rs:set_defaults"]}
{"id": "C71", "title": "Generated enums convert to and from numbers and names", "statement": "The Rust enum generated for an enum compiles; its discriminants are the numbers of the schema; From<i32> is the inverse of the cast, and sends unknown numbers to the default, which is the first value; From<&str> finds values by name.", "quantifier": "every enum of every accepted schema that meets the stated conditions on names and numbers", "why_tests_cant": "tests convert a few values of a few enums; the failures are for keywords, aliases and particular names", "anchors": ["pb-rs/src/types.rs:write_definition", "pb-rs/src/types.rs:write_impl_default", "pb-rs/src/types.rs:write_from_i32", "pb-rs/src/types.rs:write_from_str", "pb-rs/src/types.rs:set_map"]}
{"id": "C72", "title": "MessageInfo::PATH identifies the message", "statement": "The PATH constant of a generated message is its module path and name: it differs for different messages of a file, and for a top-level message of a package it is the full protobuf name.", "quantifier": "every file system and schema that is read and accepted, every message of the file at any depth", "why_tests_cant": "tests look at a few messages; the claim is about any nesting and naming", "anchors": ["pb-rs/src/types.rs:write_impl_message_info", "pb-rs/src/types.rs:write_impl_owned", "pb-rs/src/types.rs:set_package"]}
{"id": "C73", "title": "Decoded messages are not larger than the input allows", "statement": "The total number of values, bytes and elements in a decoded message is at most a constant of the schema times the length of the input plus one.", "quantifier": "every schema, message, input and build with overflow checks", "why_tests_cant": "tests do not look for the input that makes the decoder allocate most", "anchors": ["quick-protobuf/src/reader.rs:read_len", "quick-protobuf/src/reader.rs:read_packed", "quick-protobuf/src/reader.rs:read_map", "pb-rs/src/types.rs:write_impl_message_read"]}
{"id": "C74", "title": "Strings and bytes of a decoded message are pieces of the input", "statement": "Every string, bytes value and undecoded packed vector in a decoded message is a contiguous piece of the input, or a string of a default option.", "quantifier": "every schema, message, input and target", "why_tests_cant": "tests compare contents of a few inputs", "anchors": ["quick-protobuf/src/reader.rs:read_bytes", "quick-protobuf/src/reader.rs:read_string", "quick-protobuf/src/reader.rs:read_packed_fixed"]}
{"id": "C75", "title": "Owned structs are memory safe", "statement": "A program that the borrow checker accepts and that uses the owned structs only through their generated functions never reads or frees memory that is not allocated, and reads the message that was decoded from the buffer.", "quantifier": "every client program of the modelled language, every schema, message and buffer", "why_tests_cant": "a few programs are tested; use after free may go unnoticed when it happens", "anchors": ["pb-rs/src/types.rs:write_impl_owned", "pb-rs/src/types.rs:write_impl_try_from"]}
{"id": "C76", "title": "Command line and ConfigBuilder make the configurations that were asked for", "statement": "Arguments are rejected exactly when there is no input, an input does not exist, both outputs are given, a file is given as output of several inputs, or the output directory is none; otherwise there is one configuration per input, in order, with each option where the generator looks for it and the documented output path; with an empty output directory, a successful run puts the code of every input below that directory, reachable through mod.rs files, and changes nothing elsewhere.", "quantifier": "all command lines, all disks, all inputs", "why_tests_cant": "tests run a handful of command lines; options can be swapped or lost for others", "anchors": ["pb-rs/src/lib.rs:ConfigBuilder::new", "pb-rs/src/lib.rs:ConfigBuilder::build", "pb-rs/src/main.rs:run"]}
{"id": "C77", "title": "Output files are complete, reachable and nothing else is touched", "statement": "After a successful run the output of every configuration holds its generated code and is reachable through the module path of its package; only outputs and mod.rs files in package directories change; running again changes nothing; no module gets two files; --no-output changes nothing.", "quantifier": "all lists of configurations, all disks, all inputs", "why_tests_cant": "tests use one fixed tree of packages, starting from one state of the disk", "anchors": ["pb-rs/src/types.rs:write_proto", "pb-rs/src/types.rs:update_mod_file", "pb-rs/src/types.rs:get_file_stem", "pb-rs/src/types.rs:split_package"]}
{"id": "C78", "title": "Generated files are Rust and contain what the schema asks for", "statement": "Whatever the schema and the configuration, if pb-rs writes a file without an error then the lexer and the parser of Rust accept the text, and the tree they yield contains, for each message of the file at any depth of nesting, in the modules of the outer messages, a public struct of that name with exactly one field for each field and oneof, an implementation of MessageRead with from_reader and one of MessageWrite with get_size and write_message.", "quantifier": "all schemas, all configurations, all file names", "why_tests_cant": "tests compile a few dozen generated files; the text depends on every combination of types, frequencies, defaults, nesting, packages and options", "anchors": ["pb-rs/src/types.rs:FileDescriptor::write", "pb-rs/src/types.rs:Message::write", "pb-rs/src/types.rs:write_definition", "pb-rs/src/types.rs:write_impl_message_read", "pb-rs/src/types.rs:write_impl_message_write", "pb-rs/src/keywords.rs:sanitize_keyword"]}
{"id": "C79", "title": "Structs derive the standard traits and those asked for", "statement": "In each generated file every struct of a message derives Debug, PartialEq, Clone and each trait given with -C, and Default is derived or implemented for it.", "quantifier": "all schemas, all lists of traits", "why_tests_cant": "the derive line depends on the traits and on whether the message needs its own Default", "anchors": ["pb-rs/src/types.rs:write_definition", "pb-rs/src/types.rs:write_impl_default"]}
{"id": "C80", "title": "The generated text computes sizes, bytes and defaults as the model says", "statement": "Parse the text that pb-rs writes for a proto file with the grammar of Rust and run it: Default::default of each message and oneof, the default and the conversion from i32 of each enum, get_size and write_message of each message return, for every value of the message, exactly what the model of the generated code in the other properties says; every item that takes part is in the parsed file, in the modules where Rust looks for it.", "quantifier": "all proto files without imports that follow the rules, all configurations (with -C, those in which Default is written for each message), all values of all messages", "why_tests_cant": "a test sees the sizes and bytes of some values of some messages; the code of a field depends on the combination of type, frequency, packing, default, boxing and options, and messages contain each other without a bound", "anchors": ["pb-rs/src/types.rs:write_get_size", "pb-rs/src/types.rs:write_write", "pb-rs/src/types.rs:write_impl_default", "pb-rs/src/types.rs:write_from_i32", "pb-rs/src/types.rs:write_impl_message_write"]}
{"id": "C81", "title": "The generated text reads bytes as the model says", "statement": "from_reader of each message, parsed from the generated text and run on any bytes from any state of the reader, returns the message, or the error, that the model of the generated code says, and leaves the reader at the same place.", "quantifier": "all proto files as for C80, all messages, all inputs, all positions of the reader", "why_tests_cant": "inputs are unbounded and adversarial; arms of the match on the tag differ by type, frequency, packing, map, oneof and boxing", "anchors": ["pb-rs/src/types.rs:write_match_tag", "pb-rs/src/types.rs:write_impl_message_read", "quick-protobuf/src/reader.rs:BytesReader"]}
{"id": "C82", "title": "From the text of the schema to the text of the code to bytes and back", "statement": "For every proto file that is accepted, the text of the generated file parses as Rust, and for every value of a message whose code is in it, running the parsed get_size and write_message gives bytes that the parsed from_reader turns into the same value.", "quantifier": "all proto files as for C80, all values of all messages", "why_tests_cant": "it spans parser, passes, code generator, Rust and runtime; a test covers one schema and one value", "anchors": ["pb-rs/src/types.rs:write_proto", "pb-rs/src/types.rs:FileDescriptor::write", "quick-protobuf/src/writer.rs:serialize_into_vec", "quick-protobuf/src/reader.rs:deserialize_from_slice"]}
{"id": "C83", "title": "The file declares the names by which the generated code refers to items", "statement": "The structs, enums and modules that the generated file declares, in each module, and whether the module imports those of the module around it, are those by which the paths in the generated code are resolved; no other item takes such a name.", "quantifier": "all descriptors, all configurations", "why_tests_cant": "depends on how messages, enums and oneofs are nested and named", "anchors": ["pb-rs/src/types.rs:Message::write", "pb-rs/src/types.rs:write_impl_owned", "pb-rs/src/types.rs:FileDescriptor::write_messages"]}
{"id": "C84", "title": "Constants, getters and message paths in the generated text are those of the schema", "statement": "In the text of the generated file, DEFAULT_x of an optional field x with a default is the constant that the schema declares; get_x, which is there exactly with --generate-getters, returns the value of the field for every value of the message, and that constant if the field is absent; PATH of MessageInfo, which is there exactly with --gen-info, is the package, the modules of the outer messages and the name of the message.", "quantifier": "all proto files as for C80, all messages, all fields with defaults, all values", "why_tests_cant": "the getter of a field depends on its type, its default and the options for Cow; a test runs some of them on some values", "anchors": ["pb-rs/src/types.rs:write_default_consts", "pb-rs/src/types.rs:write_getters", "pb-rs/src/types.rs:write_impl_message_info"]}
{"id": "C85", "title": "A successful run leaves code on the disk that turns messages into bytes and back", "statement": "When a run of pb-rs on a list of inputs succeeds, the output of each input can be found from the output directory through the mod.rs files, along the same module path by which the code in it refers to its own items; the file parses as Rust; and running the parsed get_size, write_message and from_reader on any value of any message of the input gives bytes that are read back as that value.", "quantifier": "all disks and lists of configurations as for C77, all proto files as for C82, all values of all messages", "why_tests_cant": "it quantifies over disks, schemas and values at once; a test runs the tool on some files", "anchors": ["pb-rs/src/types.rs:FileDescriptor::run", "pb-rs/src/types.rs:write_proto", "pb-rs/src/types.rs:update_mod_file", "pb-rs/src/types.rs:FileDescriptor::write", "quick-protobuf/src/writer.rs:serialize_into_vec", "quick-protobuf/src/reader.rs:deserialize_from_slice"]}
{"id": "C86", "title": "Writing a file fails in exactly three cases", "statement": "A proto file that can be read and that all passes accept is written to the end, without an error and without a panic, if and only if: every enum at the top level has a value; every enum in the place of a field that needs its first value as a default has a value; no map has maps as keys or values; and no map is in a oneof (fields that are deprecated and left out do not count). In particular every file that follows the rules of the protobuf language and passes the passes is written.", "quantifier": "all files and import trees, all configurations, all schemas", "why_tests_cant": "absence of panics in the writer for every schema (each index, expect and unreachable of the writer is ruled out), and an exact list of the exceptions", "anchors": ["pb-rs/src/types.rs:FileDescriptor::write", "pb-rs/src/types.rs:Message::write", "pb-rs/src/types.rs:Enumerator::write", "pb-rs/src/types.rs:OneOf::write", "pb-rs/src/types.rs:FieldType::rust_type", "pb-rs/src/types.rs:FieldType::regular_default", "pb-rs/src/types.rs:FieldType::get_size", "pb-rs/src/types.rs:FieldType::get_write"]}
{"id": "C87", "title": "A run of pb-rs ends well exactly when each input can be read, accepted and written", "statement": "On a disk where nothing has the place of an output or of a directory that is needed, running pb-rs on a list of inputs ends without an error and without a panic if and only if each input, as it is before the run, can be read, is accepted by the passes, and is writable in the sense of C86 (or nothing is to be written). No input can spoil the run of a later one. Inputs that follow the rules of the protobuf language are always writable.", "quantifier": "all disks and lists of configurations as for C77, all schemas", "why_tests_cant": "absence of errors and panics over all disks, lists of inputs and schemas, and independence of the inputs from each other", "anchors": ["pb-rs/src/types.rs:FileDescriptor::run", "pb-rs/src/types.rs:FileDescriptor::write_proto", "pb-rs/src/types.rs:update_mod_file", "pb-rs/src/types.rs:FileDescriptor::write"]}
{"id": "C88", "title": "The printed functions of the owned structs are memory safe", "statement": "The file written with --owned contains, in the module of each message that borrows, a struct with its buffer and functions new, try_from, from, try_into, buf, proto and proto_mut. Every client program that Rust's borrow checker accepts and that stores only non-borrowing messages through proto_mut, running these functions as they are in the text, never uses memory that is not allocated, frees everything exactly once (also when try_from or try_into return an error), does not panic, and prints what a semantics without memory prints. For a message that does not borrow, TryFrom<&[u8]> returns what from_reader returns on the slice.", "quantifier": "all schemas, configurations and messages at any depth, all client programs, all decoders whose strings are pieces of their input, all encoders", "why_tests_cant": "absence of undefined behaviour and of leaks for all client programs, and for every message name, cannot be seen by running some of them", "anchors": ["pb-rs/src/types.rs:Message::write_impl_owned", "pb-rs/src/types.rs:Message::write_impl_try_from"]}
{"id": "C89", "title": "Reading fails only with errors that say what is wrong with the input", "statement": "Every error that a generated from_reader (or deserialize_from_slice) returns is Utf8, Deprecated, Varint, UnexpectedEndOfBuffer, UnknownWireType(6 or 7) or Map(t) for a tag t below 32 other than 1 and 2; never Io, Message or OutputBufferTooSmall. Error to io::Error and back: From<io::Error> then Into<io::Error> is the identity, Into<io::Error> keeps the text, and the kind is that of the io error, InvalidData for Utf8 and Other otherwise; source() is Some exactly for Io and Utf8. Errors of the library other than Io and Utf8 with the same text are equal.", "quantifier": "all schemas, messages, configurations, targets, byte strings and reader states; all errors", "why_tests_cant": "tests reach the errors that their inputs provoke; that no input gives another one needs all inputs", "anchors": ["quick-protobuf/src/errors.rs:Error", "quick-protobuf/src/errors.rs:From<std::io::Error>", "quick-protobuf/src/errors.rs:Into<std::io::Error>", "quick-protobuf/src/errors.rs:Display", "quick-protobuf/src/reader.rs:BytesReader::read_unknown", "quick-protobuf/src/reader.rs:BytesReader::read_map"]}
{"id": "C90", "title": "Generated code of a crate of several proto files does what the schema says", "statement": "For a proto file that imports others, each with a package, generated with one configuration: the names in the generated files, searched as Rust searches them through the modules and glob imports of the whole output directory, lead to the right structs and enums; default, From<i32>, get_size, write_message and from_reader of every message, imported or not, do what the model of the generated code says; the code of an imported message is, item by item, in the text of the generated file of the proto file it comes from, in the same module; so a message with imported messages in it is written and read back the same; every message of the descriptor is declared by the file itself or is the copy of one that an imported file declares, and the passes treat the copy as that file treats the original.", "quantifier": "all sets of proto files, crates, configurations (with -C, those in which Default is written for each message), messages, values, byte strings and targets that meet good_crate, and either imported_part and all_parts or plain_crate and crate_texts", "why_tests_cant": "tests of imports compile a few fixed crates; that paths across files resolve and that both runs of the generator agree on the imported types is about all schemas", "anchors": ["pb-rs/src/types.rs:FileDescriptor::fetch_imports", "pb-rs/src/types.rs:FileDescriptor::write_imports", "pb-rs/src/types.rs:Message::write", "pb-rs/src/types.rs:get_modules", "quick-protobuf/src/reader.rs:deserialize_from_slice"]}
{"id": "C91", "title": "Which fields are boxed", "statement": "break_cycles boxes a field exactly if it was boxed before, or it is not repeated and its message and the message it is in both stand, in one of the components that sccs returns, between the two ends of some field: a field of a message of the component whose type is at the same place or later in the component.", "quantifier": "all descriptors that resolve_types accepts, both settings of error_cycle, all messages and fields", "why_tests_cant": "a test fixes one graph of messages; the loop works on slices of an order that the search finds", "anchors": ["pb-rs/src/types.rs:FileDescriptor::break_cycles", "pb-rs/src/scc.rs:FileDescriptor::sccs"]}
{"id": "C92", "title": "Boxes do not depend on the order of the messages", "statement": "break_cycles boxes all fields that are not repeated and whose message lies in the same strongly connected component, so the generated code does not depend on the order of the messages in the proto file. (False: see the witnesses.)", "quantifier": "all descriptors that resolve_types accepts, both settings of error_cycle", "why_tests_cant": "a test fixes one order of the messages of one file", "anchors": ["pb-rs/src/types.rs:FileDescriptor::break_cycles", "pb-rs/src/scc.rs:FileDescriptor::sccs", "pb-rs/src/scc.rs:scc"]}
{"id": "C93", "title": "What comes back from a round trip, for every value", "statement": "A message of a generated type whose encoding has less than 2^32 bytes is written and read again, on every machine and in every build, as one message: the same in everything, except that a field without presence that compares equal to its default and is therefore left out holds the zero of its type (the first value, for enums). The message is unchanged iff all the fields so left out, at any depth, held zero; without default options on proto3 fields, iff none held -0.0. What was read once is unchanged by further round trips.", "quantifier": "all well-formed schemas, all configurations, all well-typed values of any depth whose encoding has less than 2^32 bytes, all targets", "why_tests_cant": "tests compare a few messages, none with -0.0 or with a default option on a proto3 field", "anchors": ["pb-rs/src/types.rs:Field::write_write", "pb-rs/src/types.rs:Message::write_from_reader", "quick-protobuf/src/reader.rs:deserialize_from_slice", "quick-protobuf/src/writer.rs:serialize_into_vec"]}
{"id": "C94", "title": "When --error-cycle refuses a file, and what becomes of each field", "statement": "With --error-cycle break_cycles fails exactly if some component has, inside a span (the places between the two ends of a field that goes to the same place or later in the component), a field that is neither boxed nor optional, repeated fields included; otherwise it succeeds. Whenever it succeeds, a field that was not boxed is changed exactly if it is not repeated and inside a span: then it is boxed and made optional, and nothing else about it changes.", "quantifier": "all descriptors that resolve_types accepts, both settings of error_cycle, all messages and fields", "why_tests_cant": "a test fixes one graph of messages; the loop works on slices of an order that the search finds, and changes the graph while it runs", "anchors": ["pb-rs/src/types.rs:FileDescriptor::break_cycles", "pb-rs/src/scc.rs:FileDescriptor::sccs"]}
{"id": "C95", "title": "Names of lifetimes in the whole generated file", "statement": "The generated text parses as Rust, and in its tree every lifetime that is named is declared by the surrounding function, impl, struct or enum or is 'static; no declared name is repeated, reserved or already in scope; every lifetime parameter of a struct, an enum or an impl is used; and no lifetime is elided in a field, an alias, or a result of a function without &self. This covers the structs, the enums of oneofs, all impls, the getters, the constants, the default values, and the owned structs with their unsafe casts (Rust errors E0106, E0207, E0261, E0262, E0392, E0403, E0496).", "quantifier": "all schemas that follow the protobuf rules and have names and literals that Rust accepts, without packed strings; all configurations whose derives and enum representation can stand in an attribute; with --dont-use-cow only if no repeated field has fixed size", "why_tests_cant": "whether a struct borrows depends on all messages reachable from it, and the text is written by dozens of format strings, each with its own test for the lifetime", "anchors": ["pb-rs/src/types.rs:Message::write_definition", "pb-rs/src/types.rs:Message::write_impl_message_read", "pb-rs/src/types.rs:Message::write_impl_owned", "pb-rs/src/types.rs:Message::has_lifetime", "pb-rs/src/types.rs:OneOf::write_definition"]}
{"id": "C96", "title": "An exit code of 0 means that the output files are complete", "statement": "If pb-rs exits with 0, every output file holds the whole generated text, whatever the system does when the file is written (short writes, errors at any call).", "quantifier": "all behaviours of write(2), all ways in which the text is cut into calls of write_all, all lists of inputs, all disks that are ready", "why_tests_cant": "a test would need a device that fails at a chosen call; all tests run on disks with room", "anchors": ["pb-rs/src/types.rs:FileDescriptor::write_proto", "pb-rs/src/main.rs:main"]}
{"id": "C97", "title": "The errors of pb-rs can be told apart by what is printed", "statement": "Two errors that pb-rs makes itself with the same text are the same error with the same payload. main prints one line for such an error and two for an io error or a syntax error (the same text twice), with exit code 1; after a success it prints nothing and exits with 0.", "quantifier": "all errors with all payloads, including quotes, line ends and control characters in the payload", "why_tests_cant": "the payloads are unbounded texts; a collision would need a special payload", "anchors": ["pb-rs/src/errors.rs:Error", "pb-rs/src/main.rs:main"]}
{"id": "C98", "title": "With generateImplFromForEnums each type in a oneof converts into its enum", "statement": "With the feature generateImplFromForEnums, the enum of a oneof is followed by exactly one implementation of From for each type that occurs in its variants; it makes the first variant with that type, no two implementations are for the same type, and rustc accepts them.", "quantifier": "all schemas, all oneofs of all their messages, all configurations", "why_tests_cant": "the feature is off in every test of the repository; which fields share a type of Rust depends on the schema", "anchors": ["pb-rs/src/types.rs:generate_impl_from_for_enums", "pb-rs/src/types.rs:write_definition"]}
{"id": "C99", "title": "A successful run over a crate of several proto files leaves working code on the disk", "statement": "When a run of pb-rs over a proto file and all the files that it imports succeeds, with the same options and output directory for all, the code of every message and enum that the file declares or imports is in a file on the disk, mod.rs files lead to that file along the module path by which the other files refer to it, and running that code on any value of any of these messages gives bytes that are read back as the message that C93 says: the same, but for negative zeros in fields without presence.", "quantifier": "all disks, lists of configurations and crates that meet the hypotheses of C77 and C90, all values of all messages, all targets", "why_tests_cant": "it quantifies over disks, schemas of several files and values at once; a test runs the tool on some files", "anchors": ["pb-rs/src/types.rs:FileDescriptor::run", "pb-rs/src/types.rs:FileDescriptor::fetch_imports", "pb-rs/src/types.rs:write_proto", "pb-rs/src/types.rs:update_mod_file", "pb-rs/src/types.rs:get_modules", "quick-protobuf/src/writer.rs:serialize_into_vec", "quick-protobuf/src/reader.rs:deserialize_from_slice"]}
