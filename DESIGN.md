# Formal model of quick-protobuf in Rocq (Coq 8.16.1)

Source: `/repo` (runtime crate `quick-protobuf` and code generator `pb-rs`), read as text.
Properties: `properties.jsonl`. Status per property: `MANIFEST.json`. Wrong programs tried: `seeded/LOG.jsonl`.

Build: in `rocq/`, `coq_makefile -f _CoqProject -o Makefile && make -j4` (about 9 minutes on 4 cores).

## Method

* One Coq definition per Rust function, with a comment that cites file and lines. Where something is
  simplified, the comment or the header of the file says so.
* Machine integers are `Z`; each cast, wrap and overflow check of the Rust code is explicit. A *target* says
  how wide `usize` is (32 or 64 bits) and whether overflow checks are on; theorems hold for all targets unless
  they say otherwise.
* Outcomes are explicit: `Ok`, `Err`, `Panic`, `UB` (undefined behaviour) and `NoFuel` (only for loops
  whose termination is a property of its own). For functions that always terminate there are theorems that the
  fuel never runs out.
* Read functions return the state of the reader also on error. Writer functions denote the list of backend
  calls they make; backends interpret such lists.
* The generator is modelled in two halves. `Gen.v` is what the `write_*` functions emit, as a small syntax of
  Rust statements with the case analysis of the original; `GenSem.v` gives these statements their meaning on
  top of the model of the runtime. Theorems about generated code hold for every schema and every value.
* Specifications (`Spec.v`, `GenSpec.v`, `ProtoText.v`, and the definitions at the top of each `Props_*.v`) do
  not use helpers of the model.
* A property that is false of the code has a theorem `…_refuted` with a witness. A theorem that leaves out part
  of its property is called `…_partial`; the comment above it says what is missing.
* Beside the theorems there are `Example`s `C.._case`: concrete, non-trivial instances that meet the hypotheses.
* Every `Props_*.v` ends each property theorem with `Print Assumptions`.

## Layout of `rocq/theories`

Runtime crate

| file | contents |
|------|----------|
| `Base.v`, `Utf8.v` | bytes, machine integers, outcomes, targets; `str::from_utf8` |
| `Sizeofs.v`, `Reader.v`, `PackedFixed.v`, `Writer.v`, `FileIo.v` | sizeofs.rs, reader.rs, writer.rs, message.rs |
| `Spec.v` | the wire format, and what "emits" and "reads" mean |
| `BaseFacts` `VarintFacts` `WriterFacts` `ScalarFacts` `DelimFacts` `BackendFacts` `Utf8Facts` `PackedFixedFacts` `ExactFacts` `SimFacts` | proofs |
| `Props_Scalars` `Props_Containers` `Props_Backends` | C01–C14, C18–C24, C47–C50 |

Generated code

| file | contents |
|------|----------|
| `Schema.v` | descriptors of types.rs |
| `Gen.v`, `GenSem.v` | emitted code and its meaning |
| `GenSpec.v`, `GenCheck.v`, `Examples.v` | well-formed schemas and values, the specified encoding; deciding well-formedness |
| `GenEmit` `GenRead` `GenSame` `GenSim` `GenExact` `GenRecords` `GenLaws` `GenEnc` `GenType` `GenCut` | proofs |
| `Props_Generated` `Props_Wire` `Props_Safety` | C15–C17, C22, C25–C35, C51, C52 |

Generator

| file | contents |
|------|----------|
| `Keywords.v`, `Modules.v` | keywords.rs; packages, module paths, mod.rs |
| `Passes.v`, `Scc.v`, `Cycles.v`, `Pipeline.v` | the passes of `write_proto` in order, scc.rs |
| `Parser.v`, `ProtoText.v` | parser.rs on a model of the nom combinators it uses; a grammar of proto text |
| `Import.v` | `read_proto`, `fetch_imports` |
| `Lifetime.v`, `Paths.v`, `Emit.v` | `has_lifetime`, `rust_type`, emitted items and paths, emitted expressions |
| `RustTypes.v` | specification: the fragment of Rust's type system used for C67 |
| `Literals.v` | specification: the values of literals in protobuf and in Rust, used for C68 |
| `Floats.v` `RustLit.v` | specification: the nearest f32 or f64 of a decimal fraction; the value of a literal in the generated code (C70) |
| `Owned.v` `OwnedFacts.v` `OwnedGen.v` | programs that use owned structs: memory, values, borrow checker; lemmas; generated messages as their decoder (C75) |
| `Errors.v` | errors.rs of the runtime library: errors with payloads, texts, conversions from and to io errors (C89) |
| `OwnedSem.v` `OwnedSemFacts.v` | an evaluator of the part of Rust that the owned structs are written in, with memory, moves, places and drops; the printed functions under it (C88) |
| `Output.v` `OutputFacts.v` | lib.rs, main.rs, `FileDescriptor::run` and `write_proto` on a disk of directories and files; lemmas (C76, C77) |
| `GenText.v` | the text of a generated file, character by character: every `write!`, `writeln!` and `format!` of types.rs (C78) |
| `RustLex.v` `RustAst.v` `RustParse.v` `RustParseFacts.v` | a lexer and a parser of the part of Rust that occurs in generated files, syntax trees, printing; reading back what is printed |
| `GenAst.v` `LexFacts.v` `GenAstFacts.v` `GenAstOk.v` `GenGood.v` | the syntax tree of a generated file; its tokens are those of the text; it obeys the grammar; schemas for which that holds |
| `RustSem.v` | specification: what the trees of `RustAst.v` do when they run, on the runtime library of `Reader.v`, `Writer.v`, `Sizeofs.v` and `PackedFixed.v` (C80–C82, C84) |
| `Meaning.v` `MeanFacts.v` `MeanSize.v` `MeanWrite.v` `MeanRead.v` `MeanConst.v` `MeanNames.v` `MeanGet.v` | values of the model as values of Rust; the trees of `GenAst.v` run as `Gen.v` says; literals; names |
| `MeanImports.v` `MeanCopy.v` `Copies.v` | names in a crate of several files; an imported message has the same code in its own file; where the copies come from (C90) |
| `SuccessFacts.v` | each function of the writer (GenText) ends without an error exactly when its message can be written (C86) |
| `GenBack.v` | specification: what comes back from a round trip, for every value (C93) |
| `RustLife.v` `LifeTree.v` | specification: Rust's rules for the names of lifetimes, on syntax trees; the trees of `GenAst.v` obey them (C95) |
| `BufOut.v` | std's BufWriter around a File whose calls of `write` may fail, as write_proto uses it (C96) |
| `PbErrors.v` | errors.rs of pb-rs and what main prints (C97) |
| `ImplFrom.v` | the implementations of From that the feature generateImplFromForEnums adds to oneofs (C98); the other files model the default build |
| `Conform.v` | tests, not proofs: the model run on the proto files, generated files and hex tests of the repository |
| `EnumCode.v` | the Rust items generated for enums, and the meaning of their paths, casts and matches (C71) |
| `Uses.v` | the `use` lines, the names the emitted code mentions, and how Rust finds them (C69) |
| `KeywordFacts` `ModuleFacts` `SccFacts` `CycleFacts` `BreakFacts` `IndexFacts` `PassFacts` `ResolveFacts` `AcceptFacts` `ParserFacts` `TextFacts` `FieldText` `MessageText` `FileText` `ParserOut` `ParserPanic` `LifetimeFacts` `PathFacts` `PlaceFacts` `EmitFacts` `LiteralFacts` `UseFacts` | proofs |
| `Props_Names` `Props_Cycles` `Props_Passes` `Props_Resolve` `Props_Accepted` `Props_Parser` `Props_Import` `Props_EndToEnd` `Props_Lifetime` `Props_Paths` `Props_TypeCheck` `Props_Literals` `Props_Uses` `Props_Defaults` `Props_Enums` `Props_Info` `Props_Memory` `Props_Owned` `Props_Config` `Props_Output` `Props_Text` `Props_Meaning` `Props_Getters` `Props_Run` `Props_Success` `Props_Total` `Props_OwnedText` `Props_Errors` `Props_Imports` `Props_Boxes` `Props_Exact` `Props_Lives` `Props_Faults` `Props_PbErrors` `Props_Froms` `Props_CrateRun` `Props_Stack` `Props_ExactRuns` `Props_Cost` `Props_CrateGet` `Props_Copies` `Props_WholeRun` `Props_Derive` | C35–C46, C53–C101 |

## How each group is proved

* **C01–C08, C47, C50 scalars.** The unrolled varint readers and the writer loop are compared with a base-128
  specification, byte by byte; zigzag and two's complement by arithmetic on `Z`. The UTF-8 validator is compared
  with the encoding of scalar values. C07 (lengths of 2^32 and more), C47 (bool varints above 32 bits) and C50
  (sint32 outside [-2^30, 2^30)) are false; witnesses.
* **C09–C14 containers.** Generic in the element codec (a closure is a Coq function); induction on the list.
  Raw memory accesses of `PackedFixed` are `UB` outside the data.
* **C15–C19 arbitrary input.** Simulation between builds with and without overflow checks; with checks a
  successful read has moved forward over exactly the bytes it decoded, so decoding terminates. Without them a
  wrapped length can move the reader backwards: witness of an input that is read for ever.
* **C20–C24, C48, C49 backends and files.** Induction on the list of backend calls, on three backends.
* **C25–C34, C51, C52 generated code.** Encoding: induction over values. Decoding: record by record; the struct
  after decoding is a fold of the records, and each slot depends only on its own records.
* **C35–C46 passes.** C36–C38 prove Tarjan's algorithm in scc.rs correct on arbitrary graphs, and that
  break_cycles leaves no message containing itself by value. C39 compares name resolution with scopes.
* **C53, C64 joining.** An accepted schema that follows the rules of the language meets the hypotheses of the
  theorems about generated code; so does what the parser reads from any text.
* **C54–C60 parser.** Each parser function consumes a suffix and the fuel never runs out; every text of the
  grammar in ProtoText.v is read as the declarations it stands for; what is returned is well formed.
* **C61–C63 imports.** Reading ends exactly when imports have no cycle; every import is read.
* **C65 lifetimes.** `has_lifetime` decides reachability of borrowed data through the graph of messages.
* **C66 paths.** Rust's lookup of a path through nested modules and glob imports is modelled; modules are traced
  from `set_package` through all passes to the emitted items.
* **C67 types.** The emitted expressions are rebuilt with every `&`, `*`, `ref` and conversion and checked by a
  specification of Rust's typing rules; each combination of frequency, type, boxing and packing is shown to fit.
* **C68 defaults.** Literals of both languages have values by two separate definitions; the text after the parser
  and `sanitize_default` is shown to have the same value, by lexing a literal followed by its suffix.
* **C69 names.** Every piece of emitted code only mentions names that the type or frequency of one field calls for; the
  conditions of the use lines are shown to cover these, module by module, and the table of keywords to keep generated
  items from shadowing them.
* **C70 absent fields.** Literals get their values (decimal fractions rounded to the nearest, ties to even), which
  instantiates the parameter `lit` of the earlier theorems; records that do not have the number of a field are shown
  not to touch its slot, so that it holds what `default()` put there.
* **C71 enums.** The items are lists of texts as the program prints them; a small evaluator resolves the paths
  `Name::Variant` in them, so that a wrong path, a duplicate discriminant or a missing variant is seen.
* **C73/C74 memory.** The weight of a message counts its values, bytes and elements. A cost invariant says that a
  reader that moves forward by `k` bytes of the input returns at most `k` times the largest default message; it is
  stated with positions cut off at the end of the input, since a length may point beyond it. C74 carries a
  postcondition through the reader: every slice is `before ++ piece ++ after`.
* **C76, C77 configurations and output files.** A disk is a set of directories and a map from paths to texts. The
  specification of C77 is how rustc finds modules: `leads_to` follows `pub mod` lines of mod.rs files. The invariant of a
  run is `tidy`: the mod.rs files of package directories are generated ones, and package directories that exist are
  declared. `grows` says that a step deletes nothing. C76 shows that a command line with an empty output directory meets
  the hypotheses of C77.
* **C78, C79 the text of generated files.** `GenText.v` follows types.rs line by line and yields the text with the error
  that stops it, if any. `RustParse.v` is written against the grammar of Rust, knows nothing of the generator, and has a
  proof that it reads back every tree that obeys the grammar (`parse_print`), so it accepts nothing by accident.
  `GenAstFacts.v` shows that the lexer turns the text into the tokens of `file_ast`, `GenAstOk.v` that `file_ast` obeys the
  grammar, `GenGood.v` that the hypotheses follow from decidable conditions on the schema as it is read.
* **C80–C84 what the text does.** `RustSem.v` is an evaluator for the trees that the parser yields; it knows the methods of
  the runtime library and nothing of the generator. Each function of a generated tree is shown to evaluate to what `Gen.v`
  and `GenSem.v` say, by induction on the depth of the value (`get_size`, `write_message`, `default`) or on the fuel
  (`from_reader`). The hypotheses of these lemmas, that names mean what they should and literals have the values of `RustLit.v`,
  are derived from C66, C70 and C78 in `MeanNames.v` and `MeanConst.v`, so that `C82_roundtrip_partial` starts from the text
  of a proto file and speaks of the text of the generated one.
* **C85 a run.** `text_of` puts the text of C78 in the place of the renderer that C77 leaves open; the crate that C66 asks for is the
  one that the mod.rs files describe, since the place of the file on the disk is the module path of C66.
* **C86 success.** Each function of `GenText.v` is shown to end without an error from facts about the schema after the passes
  (indices that exist, types of fields that are resolved, boxes only around messages, maps only where the parser makes them),
  and to fail where one of the four conditions of `writable` fails; the facts come from the lemmas behind C38, C64 and C65.
* **C87 no errors.** The invariant of C77 with two more parts: no path is a directory and a file, and no directory that is needed is a file.
  It lets each step succeed; with C86 the only remaining causes of an error are in the inputs.
* **C88 owned structs from the text.** Rules of the evaluator applied to the trees; then each step of a client program
  that runs the text is a step of the model of C75, up to numbers of allocations that are free again.
* **C91, C92, C94 boxes.** The invariant of C36 with the exact set of slices that `break_cycles` works on, in both directions; slices are then turned into places
  in the component. The witnesses are three messages in two orders, taken through parser, passes, writer and the parser of Rust.
* **C93 exact round trip.** `GenBack.v`: the relation `back` between a value and what comes back, and `kept`; induction over values shows that the reader's result is `back`, that it is the same iff `kept`, and that it is `kept`.
* **C95 names of lifetimes.** The tokens of each generated expression have no lifetime; headers, types and owned structs have those that C65 says; default values are read back from their text, whose tokens are known.
* **C96 faults.** An invariant of the buffer (what is in the file and what waits is the beginning of the text); the theorems of C77 and C87 hold for any renderer, so also for one that is cut short.
* **C97 errors of pb-rs.** Escaped characters are read back; then texts are compared case by case.
* **C98 From for oneofs.** The text of a type and its tree determine each other, so that the list of handled texts is a list of handled types.
* **C101 cost of writing.** `Cost.v` repeats the size and write functions with a counter; `size_same`/`write_same` tie them to GenSem.v; `all_counts` proves the exact counts, the step from k to k+1 and the bound in one induction over typed values; `ranked_depth` bounds the nesting of typed values by the rank.
* **C100 recursion.** `Stack.on_stack` separates the nesting of calls from the rounds of loops; `ranked` by induction on the frames with congruence lemmas for every loop, `depth_on_stack` by a Hoare-style induction (what is decoded is at most as deep as the frames), the refutation from both and C26; `StackDeep.deep_input` builds, for any chain of references, an input that exhausts exactly that many frames.
* **C99 runs with imports.** The text does not depend on the names of input and output (`generated_same`, by computation), so one configuration stands for all files of the run.
* **C90 imports.** `names_in_crates`: a path from any module of any of the files reaches the output directory through the glob imports, and from there the item. `program_same`: each function of `GenAst.v` gives the same tree for a message and its copy. The rest is as C80–C82. `Copies.v`: `fetch` puts the declarations of an imported file at consecutive positions (`part_of`), and each pass keeps the relation `copies` (`before_keeps`), so it need not be a hypothesis (`C90_crate_roundtrip_partial`). Not covered: diamonds of imports, files without a package, mixed syntax; and for the derived copies, captured names and indirect cycles.
* **C89 errors.** A predicate on readers, closed under sequence, for every function of reader.rs and of generated code.
* **C75 owned structs.** A client is a list of statements that call the generated functions. The specification is its
  run on plain values. The model runs it on a heap of numbered allocations, where reading or freeing what is not
  allocated is `Undefined`. The borrow checker keeps the variables each message borrows from and forgets messages when
  one of those variables moves, is changed or dropped. The invariant: every allocation has one owner, messages point
  into buffers of variables they borrow from, owned structs into their own buffer.

## Trusted base

* Coq's kernel, and its virtual machine (`vm_compute` in the concrete cases). No axioms: `Print Assumptions` says
  "Closed under the global context" for every theorem in the list at the end of this file. The whole library also contains the 7 declarations of
  `Coq.ssr.ssrunder` (standard library, loaded with `lia`/`ring`), on which no theorem depends.
* That the definitions say what the Rust text says. The code was not run. `Conform.v` tests this: the model of pb-rs, run on the commands of
  `generate_modules.sh`, makes the files of `quick-protobuf/examples` that are in the repository, character by character (two `mod.rs` files have
  the lines in another order, that of rustfmt); of the 61 files of `tests/rust_protobuf` exactly those fail that `generate.sh` expects to fail;
  the generated text, run by `RustSem.v`, agrees with the hex tests of `test_basic.rs` and `test_map.rs`. Left out: mesos.proto (126 KB, too slow).
* The meaning of Rust outside /repo, as modelled:
  * integer casts, wrapping and overflow checks; slices and panics on bad bounds;
  * `core::str::from_utf8` (byte-range table), `std::io::BufWriter`, `Write::write_all`, `std::path` on Unix,
    `str::split`, `find`, `rfind`, `trim` (only ASCII white space is trimmed);
  * nom 7 combinators (`Parser.v`, top); `check` is whether nom's `separated_list0` treats a separator that consumes nothing as an error (versions differ);
  * hash maps as association lists without duplicate keys; the order of iteration is arbitrary;
  * for C65 and C66 the rules of the compiler for lifetimes (E0106, E0107, E0261, E0392) and for the lookup of
    names in modules with glob imports;
  * for C67 the typing rules of `RustTypes.v`: auto-deref of receivers, deref coercion of arguments, moves out of
    places and patterns, traits of the types that occur;
  * for C68 and C70 the literals of protobuf and Rust as in `Literals.v`, and that Rust rounds decimal fractions to the nearest, ties to even;
  * for C69 the lookup of a name through the scopes of nested modules and the preludes of std and core.

## Simplified or left out

* Allocation failure and stack depth; time. The size of decoded messages is C73.
* `PackedFixed` on big-endian machines.
* Floating point numbers are bit patterns; the only operations are comparison with zero and equality.
* In the meaning of generated code the value of a `default` option is a parameter `lit`, a function of its text;
  what the texts denote is treated separately (C68); C70 instantiates `lit` with the values that Rust gives to the texts.
* The syntax (proto2 or proto3) of an imported message is taken to be that of the importing file; in `must_generate_impl_default` this matters
  if a proto3 file embeds a proto2 message with defaults (C70 asks for proto2 wherever there are defaults).
* The file system: a function from paths to contents that does not change while files are read; files written
  can fail at any point.
* Errors: `Base.error` is an enumeration; texts, payloads and conversions of the runtime library's errors are in `Errors.v` (C89). Of
  pb-rs's errors the texts are left out.
* The meaning of generated code (`Gen.v`) is derived from its text for `default`, the conversions of enums, `get_size`, `write_message` and `from_reader`
  (C80–C82), with `-C` only where `Default` is written for each message (`C80_derive_refuted`; with imports: C90); constants, getters and `PATH` are in C84, owned structs in C88. In `RustSem.v` references are dropped
  (C67 is about them), sums of sizes are not bounded, and code outside the fragment has no meaning. Custom includes and custom RPC generators are left out of the text; comments are in the text. The `no_std`
  and `hashbrown` variants are modelled as far as the names they need (C69). In the meaning of generated code (`Gen.v`) `&`, `*`, `ref`, `Cow::Borrowed`, `to_owned`
  are dropped and boxes are kept; `Emit.v` has them all, for C67.
* Owned structs are modelled by what their functions do (C75), and the printed text is shown to do that (C88); the box
  they are in is left out. The borrow checker of C75 is a model of Rust's for straight-line programs without references as variables.
* `From` implementations of oneofs and rpc services; extensions are parsed and dropped, as in the code.
* The disk of C76 and C77 has no links and no permissions, `..` is a name like any other, and the text of the generated
  code is a parameter. Reading of the command line by clap is taken as given, the log output is left out.

## Results and Print Assumptions

"closed" is "Closed under the global context".

| property | status | theorem | file | Print Assumptions |
|---|---|---|---|---|
| C01 | proved | `C01_varint_roundtrip` | `Props_Scalars.v` | closed |
| C02 | proved | `C02_varint_size_minimal` | `Props_Scalars.v` | closed |
| C03 | proved | `C03_scalar_roundtrip` | `Props_Scalars.v` | closed |
| C04 | proved | `C04_sizeof_agrees` | `Props_Scalars.v` | closed |
| C05 | proved | `C05_varint_total` | `Props_Scalars.v` | closed |
| C06 | proved | `C06_bytes_string_roundtrip` | `Props_Scalars.v` | closed |
| C07 | proved | `C07_long_bytes_refuted` | `Props_Scalars.v` | closed |
| C08 | proved | `C08_read_string_utf8` | `Props_Scalars.v` | closed |
| C09 | proved | `C09_packed_roundtrip` | `Props_Containers.v` | closed |
| C09 | proved | `C09_packed_empty` | `Props_Containers.v` | closed |
| C10 | proved | `C10_read_packed_exact` | `Props_Containers.v` | closed |
| C10 | proved | `C10_delimited_exact` | `Props_Containers.v` | closed |
| C10 | proved | `C10_readers_advance` | `Props_Containers.v` | closed |
| C100 | partial | `C100_same_program` | `Props_Stack.v` | closed |
| C100 | partial | `C100_bounded_partial` | `Props_Stack.v` | closed |
| C100 | partial | `C100_exact` | `Props_Stack.v` | closed |
| C100 | partial | `C100_deep_inputs` | `Props_Stack.v` | closed |
| C100 | partial | `C100_recursive` | `Props_Stack.v` | closed |
| C100 | partial | `C100_input_length` | `Props_Stack.v` | closed |
| C100 | partial | `C100_depth` | `Props_Stack.v` | closed |
| C100 | partial | `C100_unbounded_refuted` | `Props_Stack.v` | closed |
| C101 | proved | `C101_same_program` | `Props_Cost.v` | closed |
| C101 | proved | `C101_exact` | `Props_Cost.v` | closed |
| C101 | proved | `C101_bound` | `Props_Cost.v` | closed |
| C101 | proved | `C101_linear_without_recursion` | `Props_Cost.v` | closed |
| C101 | proved | `C101_linear_refuted` | `Props_Cost.v` | closed |
| C11 | proved | `C11_packed_fixed_roundtrip` | `Props_Containers.v` | closed |
| C11 | proved | `C11_packed_fixed_with_tag` | `Props_Containers.v` | closed |
| C12 | partial | `C12_packed_fixed_access_partial` | `Props_Containers.v` | closed |
| C12 | partial | `C12_packed_fixed_access_refuted` | `Props_Containers.v` | closed |
| C12 | partial | `C12_packed_fixed_index_refuted` | `Props_Containers.v` | closed |
| C13 | proved | `C13_map_roundtrip` | `Props_Containers.v` | closed |
| C13 | proved | `C13_map_any_order` | `Props_Containers.v` | closed |
| C14 | partial | `C14_unknown_skipped_exactly` | `Props_Containers.v` | closed |
| C14 | partial | `C14_unknown_rejected` | `Props_Containers.v` | closed |
| C14 | partial | `C14_skipped_is_payload` | `Props_Containers.v` | closed |
| C14 | partial | `C14_truncated_rejected` | `Props_Containers.v` | closed |
| C14 | partial | `C14_window_refuted` | `Props_Containers.v` | closed |
| C15 | partial | `C15_readers_partial` | `Props_Safety.v` | closed |
| C15 | partial | `C15_generated_partial` | `Props_Safety.v` | closed |
| C15 | partial | `C15_no_undefined_behaviour` | `Props_Safety.v` | closed |
| C15 | partial | `C15_checked_refuted` | `Props_Safety.v` | closed |
| C15 | partial | `C15_packed_fixed_refuted` | `Props_Safety.v` | closed |
| C16 | partial | `C16_terminates_checked_partial` | `Props_Generated.v` | closed |
| C16 | partial | `C16_terminates_refuted` | `Props_Generated.v` | closed |
| C17 | partial | `C17_truncated_partial` | `Props_Safety.v` | closed |
| C17 | partial | `C17_rejected_with_error_refuted` | `Props_Safety.v` | closed |
| C17 | partial | `C17_foreign_truncation_refuted` | `Props_Safety.v` | closed |
| C18 | partial | `C18_reader_after_error_refuted` | `Props_Backends.v` | closed |
| C18 | partial | `C18_reader_after_error_partial` | `Props_Backends.v` | closed |
| C19 | proved | `C19_runtime_overflow_checks` | `Props_Backends.v` | closed |
| C19 | proved | `C19_generated_overflow_checks` | `Props_Generated.v` | closed |
| C19 | proved | `C19_generated_deserialize` | `Props_Generated.v` | closed |
| C20 | proved | `C20_slice_writer_step` | `Props_Backends.v` | closed |
| C20 | proved | `C20_slice_writer_bounds` | `Props_Backends.v` | closed |
| C21 | proved | `C21_backends_agree` | `Props_Backends.v` | closed |
| C22 | proved | `C22_serialize_into_slice` | `Props_Backends.v` | closed |
| C22 | proved | `C22_generated_into_slice` | `Props_Generated.v` | closed |
| C23 | proved | `C23_failing_sink_prefix` | `Props_Backends.v` | closed |
| C24 | partial | `C24_write_file_complete_refuted` | `Props_Backends.v` | closed |
| C24 | partial | `C24_write_file_complete_partial` | `Props_Backends.v` | closed |
| C25 | proved | `C25_get_size_exact` | `Props_Generated.v` | closed |
| C25 | proved | `C25_encoding` | `Props_Generated.v` | closed |
| C26 | partial | `C26_roundtrip_partial` | `Props_Generated.v` | closed |
| C27 | proved | `C27_unknown_fields` | `Props_Wire.v` | closed |
| C27 | proved | `C27_forward_compatible` | `Props_Wire.v` | closed |
| C28 | proved | `C28_concatenation` | `Props_Wire.v` | closed |
| C28 | proved | `C28_encodings` | `Props_Wire.v` | closed |
| C29 | proved | `C29_embedded_message_refuted` | `Props_Wire.v` | closed |
| C29 | proved | `C29_packed_chunks_refuted` | `Props_Wire.v` | closed |
| C30 | proved | `C30_other_wire_type_dropped` | `Props_Wire.v` | closed |
| C30 | proved | `C30_interchangeable_refuted` | `Props_Wire.v` | closed |
| C31 | proved | `C31_field_order` | `Props_Wire.v` | closed |
| C31 | proved | `C31_encoding_order` | `Props_Wire.v` | closed |
| C32 | proved | `C32_enum_decoding` | `Props_Wire.v` | closed |
| C33 | partial | `C33_elision_partial` | `Props_Wire.v` | closed |
| C33 | partial | `C33_custom_default_refuted` | `Props_Wire.v` | closed |
| C33 | partial | `C33_negative_zero_refuted` | `Props_Wire.v` | closed |
| C34 | proved | `C34_oneof_last` | `Props_Wire.v` | closed |
| C35 | partial | `C35_tags_partial` | `Props_Wire.v` | closed |
| C35 | partial | `C35_refuted` | `Props_Passes.v` | closed |
| C35 | partial | `C35_large_refuted` | `Props_Passes.v` | closed |
| C36 | proved | `C36_finite` | `Props_Cycles.v` | closed |
| C36 | proved | `C36_total` | `Props_Cycles.v` | closed |
| C36 | proved | `C36_conservative` | `Props_Cycles.v` | closed |
| C36 | proved | `C36_acyclic_untouched` | `Props_Cycles.v` | closed |
| C37 | proved | `C37_each_message_once` | `Props_Cycles.v` | closed |
| C37 | proved | `C37_order` | `Props_Cycles.v` | closed |
| C37 | proved | `C37_mutual` | `Props_Cycles.v` | closed |
| C38 | partial | `C38_complete` | `Props_Cycles.v` | closed |
| C38 | partial | `C38_error_partial` | `Props_Cycles.v` | closed |
| C38 | partial | `C38_success` | `Props_Cycles.v` | closed |
| C38 | partial | `C38_refuted` | `Props_Cycles.v` | closed |
| C38 | partial | `C38_optional_refuted` | `Props_Cycles.v` | closed |
| C39 | proved | `C39_resolution` | `Props_Resolve.v` | closed |
| C39 | proved | `C39_error` | `Props_Resolve.v` | closed |
| C39 | proved | `C39_unknown_rejected` | `Props_Resolve.v` | closed |
| C39 | proved | `C39_unique` | `Props_Resolve.v` | closed |
| C39 | proved | `C39_names_after_reading` | `Props_Resolve.v` | closed |
| C40 | partial | `C40_never_keyword_partial` | `Props_Names.v` | closed |
| C40 | partial | `C40_never_keyword_refuted` | `Props_Names.v` | closed |
| C40 | partial | `C40_idempotent` | `Props_Names.v` | closed |
| C40 | partial | `C40_segments` | `Props_Names.v` | closed |
| C40 | partial | `C40_identity` | `Props_Names.v` | closed |
| C40 | partial | `C40_distinct_partial` | `Props_Names.v` | closed |
| C40 | partial | `C40_distinct_refuted` | `Props_Names.v` | closed |
| C41 | partial | `C41_top_level_partial` | `Props_Passes.v` | closed |
| C41 | partial | `C41_nested_refuted` | `Props_Passes.v` | closed |
| C42 | partial | `C42_top_level_partial` | `Props_Passes.v` | closed |
| C42 | partial | `C42_nested_as_written` | `Props_Passes.v` | closed |
| C42 | partial | `C42_nested_refuted` | `Props_Passes.v` | closed |
| C42 | partial | `C42_nested_string_refuted` | `Props_Passes.v` | closed |
| C43 | partial | `C43_syntax_governs_refuted` | `Props_Parser.v` | closed |
| C43 | partial | `C43_late_declaration` | `Props_Parser.v` | closed |
| C43 | partial | `C43_syntax_governs_partial` | `Props_Parser.v` | closed |
| C44 | partial | `C44_no_cow_partial` | `Props_Passes.v` | closed |
| C44 | partial | `C44_only_borrowed` | `Props_Passes.v` | closed |
| C44 | partial | `C44_map_of_map_refuted` | `Props_Passes.v` | closed |
| C45 | partial | `C45_split_partial` | `Props_Names.v` | closed |
| C45 | partial | `C45_directories` | `Props_Names.v` | closed |
| C45 | partial | `C45_split_refuted` | `Props_Names.v` | closed |
| C45 | partial | `C45_modules` | `Props_Names.v` | closed |
| C45 | partial | `C45_path_injective` | `Props_Names.v` | closed |
| C45 | partial | `C45_imports_depth` | `Props_Names.v` | closed |
| C46 | partial | `C46_sequence` | `Props_Names.v` | closed |
| C46 | partial | `C46_fresh` | `Props_Names.v` | closed |
| C46 | partial | `C46_idempotent_partial` | `Props_Names.v` | closed |
| C46 | partial | `C46_conservative` | `Props_Names.v` | closed |
| C46 | partial | `C46_foreign_partial` | `Props_Names.v` | closed |
| C46 | partial | `C46_idempotent_refuted` | `Props_Names.v` | closed |
| C46 | partial | `C46_empty_refuted` | `Props_Names.v` | closed |
| C46 | partial | `C46_panic_refuted` | `Props_Names.v` | closed |
| C47 | partial | `C47_bool_value_partial` | `Props_Scalars.v` | closed |
| C47 | partial | `C47_bool_value_refuted` | `Props_Scalars.v` | closed |
| C48 | proved | `C48_reader_api` | `Props_Backends.v` | closed |
| C48 | proved | `C48_deserialize` | `Props_Backends.v` | closed |
| C49 | partial | `C49_from_file_errors_refuted` | `Props_Backends.v` | closed |
| C49 | partial | `C49_from_file_errors_partial` | `Props_Backends.v` | closed |
| C50 | partial | `C50_wire_format_partial` | `Props_Scalars.v` | closed |
| C50 | partial | `C50_wire_format_refuted` | `Props_Scalars.v` | closed |
| C51 | proved | `C51_decoded_well_typed` | `Props_Safety.v` | closed |
| C52 | partial | `C52_transcode_partial` | `Props_Safety.v` | closed |
| C52 | partial | `C52_exact_partial` | `Props_ExactRuns.v` | closed |
| C53 | partial | `C53_accepted_well_formed` | `Props_Accepted.v` | closed |
| C53 | partial | `C53_enums` | `Props_Accepted.v` | closed |
| C53 | partial | `C53_roundtrip_partial` | `Props_Accepted.v` | closed |
| C53 | partial | `C53_exact_partial` | `Props_ExactRuns.v` | closed |
| C54 | proved | `C54_parser_terminates` | `Props_Parser.v` | closed |
| C55 | proved | `C55_parsed_well_formed` | `Props_Parser.v` | closed |
| C56 | partial | `C56_grammar_read_partial` | `Props_Parser.v` | closed |
| C57 | partial | `C57_integer_literals_refuted` | `Props_Parser.v` | closed |
| C57 | partial | `C57_hex_field_number_refuted` | `Props_Parser.v` | closed |
| C57 | partial | `C57_negative_enum_refuted` | `Props_Parser.v` | closed |
| C57 | partial | `C57_integer_literals_partial` | `Props_Parser.v` | closed |
| C58 | partial | `C58_no_panic_refuted` | `Props_Parser.v` | closed |
| C58 | partial | `C58_extensions_refuted` | `Props_Parser.v` | closed |
| C58 | partial | `C58_bare_declaration_refuted` | `Props_Parser.v` | closed |
| C58 | partial | `C58_no_panic_partial` | `Props_Parser.v` | closed |
| C59 | partial | `C59_options_ignored_refuted` | `Props_Parser.v` | closed |
| C59 | partial | `C59_options_ignored_partial` | `Props_Parser.v` | closed |
| C60 | partial | `C60_reserved_kept_refuted` | `Props_Parser.v` | closed |
| C60 | partial | `C60_reserved_kept_partial` | `Props_Parser.v` | closed |
| C61 | partial | `C61_reading_terminates_refuted` | `Props_Import.v` | closed |
| C61 | partial | `C61_cycle_never_read` | `Props_Import.v` | closed |
| C61 | partial | `C61_reading_terminates_partial` | `Props_Import.v` | closed |
| C62 | partial | `C62_imports_gathered_partial` | `Props_Import.v` | closed |
| C62 | partial | `C62_imports_gathered_refuted` | `Props_Import.v` | closed |
| C63 | proved | `C63_all_imports_read` | `Props_Import.v` | closed |
| C64 | partial | `C64_read_well_formed` | `Props_EndToEnd.v` | closed |
| C64 | partial | `C64_text_to_bytes_partial` | `Props_EndToEnd.v` | closed |
| C64 | partial | `C64_exact_partial` | `Props_ExactRuns.v` | closed |
| C65 | partial | `C65_lifetimes_partial` | `Props_Lifetime.v` | closed |
| C65 | partial | `C65_dont_use_cow_refuted` | `Props_Lifetime.v` | closed |
| C65 | partial | `C65_packed_singular_refuted` | `Props_Lifetime.v` | closed |
| C66 | partial | `C66_paths_partial` | `Props_Paths.v` | closed |
| C66 | partial | `C66_enum_values_partial` | `Props_Paths.v` | closed |
| C66 | partial | `C66_keyword_refuted` | `Props_Paths.v` | closed |
| C66 | partial | `C66_single_module_refuted` | `Props_Paths.v` | closed |
| C66 | partial | `C66_package_refuted` | `Props_Paths.v` | closed |
| C66 | partial | `C66_shadowing_refuted` | `Props_Paths.v` | closed |
| C66 | partial | `C66_distinct_refuted` | `Props_Paths.v` | closed |
| C66 | partial | `C66_enum_values_refuted` | `Props_Paths.v` | closed |
| C66 | partial | `C66_own_items` | `Props_Paths.v` | closed |
| C67 | partial | `C67_well_typed_partial` | `Props_TypeCheck.v` | closed |
| C67 | partial | `C67_packed_string_refuted` | `Props_TypeCheck.v` | closed |
| C67 | partial | `C67_owned_packed_refuted` | `Props_TypeCheck.v` | closed |
| C67 | partial | `C67_float_key_refuted` | `Props_TypeCheck.v` | closed |
| C67 | partial | `C67_empty_enum_refuted` | `Props_TypeCheck.v` | closed |
| C67 | partial | `C67_btree_map_refuted` | `Props_TypeCheck.v` | closed |
| C68 | partial | `C68_default_keeps_value_partial` | `Props_Literals.v` | closed |
| C68 | partial | `C68_enum_default_exists_partial` | `Props_Literals.v` | closed |
| C68 | partial | `C68_silent_refuted` | `Props_Literals.v` | closed |
| C68 | partial | `C68_no_literal_refuted` | `Props_Literals.v` | closed |
| C68 | partial | `C68_nested_enum_refuted` | `Props_Literals.v` | closed |
| C69 | partial | `C69_names_found_partial` | `Props_Uses.v` | closed |
| C69 | partial | `C69_nostd_string_refuted` | `Props_Uses.v` | closed |
| C69 | partial | `C69_nostd_map_refuted` | `Props_Uses.v` | closed |
| C69 | partial | `C69_nostd_bytes_refuted` | `Props_Uses.v` | closed |
| C69 | partial | `C69_message_name_refuted` | `Props_Uses.v` | closed |
| C70 | partial | `C70_default_value` | `Props_Defaults.v` | closed |
| C70 | partial | `C70_literals` | `Props_Defaults.v` | closed |
| C70 | partial | `C70_transcode_partial` | `Props_Defaults.v` | closed |
| C70 | partial | `C70_absent_fields` | `Props_Defaults.v` | closed |
| C70 | partial | `C70_getters` | `Props_Defaults.v` | closed |
| C70 | partial | `C70_required_refuted` | `Props_Defaults.v` | closed |
| C70 | partial | `C70_enum_default_refuted` | `Props_Defaults.v` | closed |
| C71 | partial | `C71_enums_partial` | `Props_Enums.v` | closed |
| C71 | partial | `C71_numbers` | `Props_Enums.v` | closed |
| C71 | partial | `C71_compiles_refuted` | `Props_Enums.v` | closed |
| C71 | partial | `C71_from_str_refuted` | `Props_Enums.v` | closed |
| C71 | partial | `C71_arms` | `Props_Enums.v` | closed |
| C72 | partial | `C72_paths` | `Props_Info.v` | closed |
| C72 | partial | `C72_unique` | `Props_Info.v` | closed |
| C72 | partial | `C72_full_name_partial` | `Props_Info.v` | closed |
| C72 | partial | `C72_full_name_refuted` | `Props_Info.v` | closed |
| C72 | partial | `C72_across_files_refuted` | `Props_Info.v` | closed |
| C73 | partial | `C73_memory_partial` | `Props_Memory.v` | closed |
| C73 | partial | `C73_unchecked_refuted` | `Props_Memory.v` | closed |
| C74 | proved | `C74_zero_copy` | `Props_Memory.v` | closed |
| C75 | partial | `C75_safe_partial` | `Props_Owned.v` | closed |
| C75 | partial | `C75_generated_partial` | `Props_Owned.v` | closed |
| C75 | partial | `C75_roundtrip_partial` | `Props_Owned.v` | closed |
| C75 | partial | `C75_proto_mut_refuted` | `Props_Owned.v` | closed |
| C75 | partial | `C75_swap_refuted` | `Props_Owned.v` | closed |
| C76 | partial | `C76_new` | `Props_Config.v` | closed |
| C76 | partial | `C76_configure` | `Props_Config.v` | closed |
| C76 | partial | `C76_output_directory_partial` | `Props_Config.v` | closed |
| C76 | partial | `C76_same_name_refuted` | `Props_Config.v` | closed |
| C76 | partial | `C76_output_name_refuted` | `Props_Config.v` | closed |
| C77 | partial | `C77_reachable_partial` | `Props_Output.v` | closed |
| C77 | partial | `C77_frame_partial` | `Props_Output.v` | closed |
| C77 | partial | `C77_content_partial` | `Props_Output.v` | closed |
| C77 | partial | `C77_idempotent_partial` | `Props_Output.v` | closed |
| C77 | partial | `C77_unambiguous_partial` | `Props_Output.v` | closed |
| C77 | partial | `C77_dry_run_partial` | `Props_Output.v` | closed |
| C77 | partial | `C77_overwritten_refuted` | `Props_Output.v` | closed |
| C77 | partial | `C77_unambiguous_refuted` | `Props_Output.v` | closed |
| C77 | partial | `C77_reachable_refuted` | `Props_Output.v` | closed |
| C77 | partial | `C77_keyword_refuted` | `Props_Output.v` | closed |
| C77 | partial | `C77_dry_run_refuted` | `Props_Output.v` | closed |
| C78 | partial | `C78_generated_files_are_rust` | `Props_Text.v` | closed |
| C78 | partial | `C78_messages_in_file` | `Props_Text.v` | closed |
| C78 | partial | `C78_keyword_refuted` | `Props_Text.v` | closed |
| C78 | partial | `C78_enum_value_refuted` | `Props_Text.v` | closed |
| C78 | partial | `C78_enum_name_refuted` | `Props_Text.v` | closed |
| C78 | partial | `C78_package_refuted` | `Props_Text.v` | closed |
| C78 | partial | `C78_default_refuted` | `Props_Text.v` | closed |
| C78 | partial | `C78_quote_refuted` | `Props_Text.v` | closed |
| C78 | partial | `C78_empty_enum_refuted` | `Props_Text.v` | closed |
| C79 | partial | `C79_derives_partial` | `Props_Text.v` | closed |
| C79 | partial | `C79_derives_refuted` | `Props_Text.v` | closed |
| C79 | partial | `C79_derives_glued` | `Props_Derive.v` | closed |
| C80 | partial | `C80_program_in_file` | `Props_Meaning.v` | closed |
| C80 | partial | `C80_functions_partial` | `Props_Meaning.v` | closed |
| C80 | partial | `C80_derive_refuted` | `Props_Derive.v` | closed |
| C80 | partial | `C80_no_default` | `Props_Derive.v` | closed |
| C81 | partial | `C81_from_reader_partial` | `Props_Meaning.v` | closed |
| C82 | partial | `C82_roundtrip_partial` | `Props_Meaning.v` | closed |
| C82 | partial | `C82_exact_partial` | `Props_Exact.v` | closed |
| C83 | partial | `C83_names_of_file` | `Props_Meaning.v` | closed |
| C83 | partial | `C83_owned_refuted` | `Props_Meaning.v` | closed |
| C84 | partial | `C84_getters_partial` | `Props_Getters.v` | closed |
| C84 | partial | `C84_path` | `Props_Getters.v` | closed |
| C84 | partial | `C84_crate_getters_partial` | `Props_CrateGet.v` | closed |
| C84 | partial | `C84_crate_path` | `Props_CrateGet.v` | closed |
| C85 | partial | `C85_run_partial` | `Props_Run.v` | closed |
| C85 | partial | `C85_exact_partial` | `Props_ExactRuns.v` | closed |
| C86 | proved | `C86_written` | `Props_Success.v` | closed |
| C86 | proved | `C86_rules` | `Props_Success.v` | closed |
| C86 | proved | `C86_map_in_map_refuted` | `Props_Success.v` | closed |
| C86 | proved | `C86_map_in_oneof_refuted` | `Props_Success.v` | closed |
| C86 | proved | `C86_empty_enum_refuted` | `Props_Success.v` | closed |
| C86 | proved | `C86_empty_default_refuted` | `Props_Success.v` | closed |
| C87 | partial | `C87_run_partial` | `Props_Total.v` | closed |
| C87 | partial | `C87_pb_rs_partial` | `Props_Total.v` | closed |
| C87 | partial | `C87_rules_partial` | `Props_Total.v` | closed |
| C87 | partial | `C87_room_refuted` | `Props_Total.v` | closed |
| C88 | partial | `C88_owned_text_partial` | `Props_OwnedText.v` | closed |
| C88 | partial | `C88_slice_text_partial` | `Props_OwnedText.v` | closed |
| C88 | partial | `C88_hidden_names_refuted` | `Props_OwnedText.v` | closed |
| C89 | proved | `C89_reading_errors` | `Props_Errors.v` | closed |
| C89 | proved | `C89_deserialize_errors` | `Props_Errors.v` | closed |
| C89 | proved | `C89_conversions` | `Props_Errors.v` | closed |
| C89 | proved | `C89_texts_distinct` | `Props_Errors.v` | closed |
| C90 | partial | `C90_functions_partial` | `Props_Imports.v` | closed |
| C90 | partial | `C90_imported_code_partial` | `Props_Imports.v` | closed |
| C90 | partial | `C90_program_in_texts_partial` | `Props_Imports.v` | closed |
| C90 | partial | `C90_roundtrip_partial` | `Props_Imports.v` | closed |
| C90 | partial | `C90_exact_partial` | `Props_CrateRun.v` | closed |
| C90 | partial | `C90_mixed_syntax_refuted` | `Props_Imports.v` | closed |
| C90 | partial | `C90_copies_partial` | `Props_Copies.v` | closed |
| C90 | partial | `C90_parts_partial` | `Props_Copies.v` | closed |
| C90 | partial | `C90_crate_roundtrip_partial` | `Props_Copies.v` | closed |
| C90 | partial | `C90_captured_refuted` | `Props_Copies.v` | closed |
| C91 | proved | `C91_exact` | `Props_Boxes.v` | closed |
| C92 | partial | `C92_direct_partial` | `Props_Boxes.v` | closed |
| C92 | partial | `C92_order_refuted` | `Props_Boxes.v` | closed |
| C92 | partial | `C92_required_refuted` | `Props_Boxes.v` | closed |
| C93 | proved | `C93_roundtrip_exact` | `Props_Exact.v` | closed |
| C93 | proved | `C93_negative_zero` | `Props_Exact.v` | closed |
| C93 | proved | `C93_second_roundtrip` | `Props_Exact.v` | closed |
| C94 | proved | `C94_error` | `Props_Boxes.v` | closed |
| C94 | proved | `C94_field` | `Props_Boxes.v` | closed |
| C95 | proved | `C95_lifetime_names` | `Props_Lives.v` | closed |
| C95 | proved | `C95_dont_use_cow_refuted` | `Props_Lives.v` | closed |
| C95 | proved | `C95_packed_singular_refuted` | `Props_Lives.v` | closed |
| C96 | partial | `C96_no_faults` | `Props_Faults.v` | closed |
| C96 | partial | `C96_missing_partial` | `Props_Faults.v` | closed |
| C96 | partial | `C96_error` | `Props_Faults.v` | closed |
| C96 | partial | `C96_silent_partial` | `Props_Faults.v` | closed |
| C96 | partial | `C96_full_disk_refuted` | `Props_Faults.v` | closed |
| C97 | proved | `C97_texts` | `Props_PbErrors.v` | closed |
| C97 | proved | `C97_main` | `Props_PbErrors.v` | closed |
| C97 | proved | `C97_printed` | `Props_PbErrors.v` | closed |
| C98 | partial | `C98_from_impls` | `Props_Froms.v` | closed |
| C98 | partial | `C98_plain_partial` | `Props_Froms.v` | closed |
| C98 | partial | `C98_lifetime_refuted` | `Props_Froms.v` | closed |
| C98 | partial | `C98_boxed_refuted` | `Props_Froms.v` | closed |
| C99 | partial | `C99_crate_run_partial` | `Props_CrateRun.v` | closed |
| C99 | partial | `C99_whole_run_partial` | `Props_WholeRun.v` | closed |
