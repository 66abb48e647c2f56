# Formal model of BlockProject3D/tools.proto in Rocq

## 1. What is modelled

All files are in `rocq/theories`. A model file holds definitions only, each citing the
lines of /repo it transcribes; proofs are in the `*Facts`/`*Thms` files, concrete
witnesses in `Samples*` and `*Refute`, and the property theorems, each closed by
`exact`, in `Props_*`.

| model | code in /repo | contents |
|---|---|---|
| `Base.v` | Rust core semantics | `outcome` = `Ok`/`Err`/`Panic`, overflow mode (debug/release), byte strings, slices that panic out of range |
| `Codec.v` | `runtime/src/codec/*.rs`, `runtime/src/util/scalar.rs` | integer (de)serialisation, byte, bit and array codecs |
| `Utf8.v` | `str::from_utf8` | the validator of the standard library |
| `Runtime.v` | `runtime/src/message/**` | `Optional`, `ValueLE/BE`, `Buffer`, strings, `List`, `Unsized`, `Array`, iterators, `Counter`, writers |
| `ArrayWrapper.v` | `runtime/src/message/macros.rs` | `generate_array_wrapper!`, the type declared for a list of structures |
| `Place.v` | `structure.field.template`, `runtime/src/codec/arrays.rs` | chains of accessors that end at a scalar or an array item |
| `SwiftView.v` | `gen/swift/structure.field.template` | what the view getters of the Swift code compute |
| `Calls.v` | `structure.field.template` | histories of raw and view setter calls at every depth |
| `Schema.v` | `compiler/src/model/*.rs` | the description after deserialisation |
| `Json.v` | the serde attributes of `compiler/src/model/*.rs` | a protocol description from a JSON value |
| `Compiler.v` | `compiler/src/compiler/*.rs`, `compiler/src/util.rs` | enums, structures, unions, messages, protocols, imports |
| `Access.v` | `gen/base/structure.rs`, `gen/rust/structure*.template`, `gen/rust/util.rs` | meaning of the generated structure accessors |
| `Gen.v` | `gen/base/message*.rs`, `gen/rust/union.rs`, `gen/rust/message*.template`, `union.template` | meaning of the generated readers, writers and offsets |
| `Loader.v` | `interface.rs:38-75` | `Loader` |
| `Template.v` | `gen/template.rs` | the template engine |
| `Templates.v` | `gen/rust/*.template`, `gen/swift/*.template` | the templates, byte for byte |
| `GenText.v` | `gen/base/*.rs`, `gen/rust/*.rs`, `gen/swift/*.rs` | the text generators, run on the templates by the engine |
| `Driver.v` | `gen/mod.rs`, `interface.rs:77-179`, `gen/rust/mod.rs` | `Protoc::generate` and the files it writes |
| `BuildScript.v` | `build_script.rs` | `generate_rust` |
| `ErrorText.v` | `error.rs`, `compiler/error.rs`, `gen/template.rs:34-43`, runtime `message/interface.rs:31-38` | the texts of the errors |
| `Swift.v` | `Swift/BP3DProto/**` | the Swift runtime: buffers, scalars, message codecs, byte, bit and array codecs |

| specification | contents |
|---|---|
| `Bits.v`, `SpecStruct.v` | a buffer as a sequence of bits, where a declared field is |
| `SpecFloats.v` | floats as real numbers |
| `SpecFloatOrder.v` | order of floats |
| `SpecKind.v` | descriptions that differ in kinds and views, same layout, same wire format |
| `SpecWrap.v` | lists of messages that hold one structure |
| `SpecTable.v` | tables of rows, calls on them |
| `SpecPlace.v` | scalars and array items at every depth, the last value written |
| `SpecSwiftView.v` | two views show the same value, gaps of an enumeration |
| `SpecCalls.v` | the last call for a place, representable values |
| `SpecComp.v`, `SpecCase.v`, `SpecItems.v` | descriptions: references, open-ended fields, numbers in text, contents of a protocol |
| `SpecUtf8.v` | the encoding of Unicode scalar values |
| `SpecWire.v`, `SpecOffsets.v`, `SpecUnion.v`, `SpecReadable.v`, `SpecRun.v` | the wire format as a relation, offsets, unions, conditions on message types, runs of the compiler |
| `SpecApart.v` | protocols that import each other, each generated by a run of its own |
| `SpecTemplate.v` | the template language as trees, with its meaning |
| `SpecTemplateAny.v` | what any text means as a template, line by line |
| `SpecGen.v`, `SpecCode.v` | the text of the generated code, and its meaning statement by statement |
| `SpecJson.v` | which JSON value describes which protocol |
| `SpecSwiftGen.v` | the text of the Swift generator, and what its raw getters and `from`/`write` do with the Swift runtime |
| `SpecSwift.v` | what a Swift buffer holds, the wire format of the Swift types, agreement with Rust |
| `SpecMode.v` | agreement of two build profiles |
| `SpecEvolve.v` | extended descriptions, accessors on extended buffers, final results |
| `SpecStream.v` | messages in turn, a member replaced |
| `SpecPanic.v`, `SpecAccept.v`, `SpecError.v` | the causes of panics of the compiler, the descriptions it accepts, the defects its errors name |
| `SpecErrorText.v` | the references written in a description |
| `SpecRename.v` | descriptions and compiled protocols in which names are replaced |
| `SpecGenuine.v` | values that have an encoding: lists and arrays whose data are the items they count |
| `SpecSwallow.v` | values that take all remaining input, through the items of walked lists, and encodings that cannot be read back |
| `SpecWalk.v` | values whose lists a reader with given marks can walk |
| `SpecDecode.v` | the result of decoding any byte string: value, error or panic |
| `SpecEncode.v`, `SpecReencode.v` | the values of the generated types and what writing them gives; bytes that are written again |
| `SpecIterate.v` | what iterating a list of any data and length gives |
| `SpecExact.v` | values whose end the reader cannot see; what the reader has read when it reaches a member |
| `SpecNames.v` | names declared by generated lines, reading functions with local variables in scope |
| `SpecDriver.v`, `SpecLoader.v`, `SpecBuild.v` | scripts of file operations, loading, the build script |

The generated code is modelled twice. `Access.v` and `Gen.v` give its meaning by
interpreting the compiled type tree. `GenText.v` gives its text. C49 to C51 connect
them: the text is the one of `SpecGen`/`SpecCode`, and running the statements of that
text by variable names is running the interpreter.

### Conventions
* A Rust panic is the value `Panic`; a returned error is `Err e`. Arithmetic that can
  overflow takes a mode: in debug it yields `Panic`, in release it wraps modulo 2^64.
* `usize` is 64 bits. Bytes are numbers below 256. `&mut self` methods return the new value.
* `Rc` identity (`Rc::ptr_eq`) is modelled by fresh numeric identifiers, and the one
  interior-mutable cell (`Message::embedded`) by a set of identifiers.
* A run only generates the protocols it loads, and these see the imported ones only, so an
  imported message's code comes from another run. Theorems about a session that speak of
  `marked w` for every message describe code generated in one go; C26, C68_pieces and C82
  hold for any `emb` (which messages walk their lists), and C83 says when it makes no difference.
* Hash maps whose iteration order is observable are modelled by a list in arbitrary
  order; maps only used for lookup are association lists where the newest entry wins.
* Unbounded loops (iterators over lists) take the number of steps from the data they
  run over; theorems do not depend on a bound.

## 2. What is not modelled, and what is assumed
* JSON5 text: `Json.v` starts from a JSON value. What serde's derived code does with the
  attributes is assumed (stated at the head of `Json.v`); how json5 reads a number into a
  `usize` outside tagged members, and the order of a hash map, are parameters. An object in
  place of the string of `endianness` is rejected in the model.
* The macro `simple_error!` (crate bp3d_util) is assumed to print a variant with the given format; the
  texts of `std::io::Error` and `json5::Error` are arbitrary strings (head of `ErrorText.v`).
* `cli/src/main.rs` (it prints a greeting).
* The `embedded` marks that a failing compilation leaves on messages of imported protocols:
  visible only to a solver that keeps protocols from a failed run for another run.
* The file system is a parameter of the driver: any function from operations to
  results. A path printed in a `cargo:` line is the path itself
  (Unix paths that are valid UTF-8).
* rustc: that the generated text type-checks, and the meaning of its statements
  (`SpecCode.v` states it). Memory layout and `transmute` are the bit-level
  reinterpretation they are meant to be; for an enum, `transmute` of an undeclared
  number is shown as an undeclared value (in Rust this is undefined behaviour). The number of
  a case of a union is printed as a literal; rustc rejects it by default if it does not fit
  the storage type of the discriminant (negative labels, C53), the model compares and stores it.
* The crate `bytesutil` is not in /repo. Assumed: `read_bytes_le/be` read the first
  `size_of::<T>()` bytes and panic if there are fewer; `write_bytes_le/be` overwrite
  the same bytes.
* `str::to_uppercase`, `to_lowercase` and `char::to_uppercase` on non-ASCII text, and the
  text of an `f64`, are parameters of the engine or left abstract where a theorem needs them.
* Float views: `SpecFloat` (IEEE binary32/binary64, nearest-even). The decimal text of a
  parameter in the generated code is not modelled: the f64 is rounded to the view type.
* Swift: the generator is modelled as text (`GenText.v`); the raw getters, windows, `from`
  and `write` of the text have a meaning (`SpecSwiftGen.v`), and so have the view getters,
  the accessors of arrays and chains of structure fields (`SwiftView.v`; conversions written `as` are taken as Swift's trapping conversions, and the
  enumerations, which the generator does not write, as those of the description). In the Swift
  runtime, Foundation's `NSData` and `NSMutableData` are byte strings whose subscripts trap
  out of range, `String(decoding:)` is a parameter, and two variables that write to the
  same storage in turn are not modelled (head of `Swift.v`).

## 3. Properties and proofs

`properties.jsonl` lists the properties, `MANIFEST.json` their status and theorems.

| id | theorems in | method |
|---|---|---|
| C01–C08, C10–C13 | `Props_Struct` | induction over the field list, bitwise extensionality, arithmetic modulo 2^n; witnesses where the property is false |
| C09, C58 | `Props_Float` | `SpecFloat` operations as rounded real operations (Flocq), error analysis |
| C14–C21 | `Props_Comp` | invariants of the folds of the compiler |
| C06–C08, C10, C12 (exact) | `Props_Struct` | which bits any accepted field, array or chain of accessors reaches, a one-bit buffer as witness of every other case |
| C16 (exact) | `Props_Panic` | the first declaration that is not accepted, in both directions |
| C75, C76 | `Props_Accept`, `Props_Error` | each step of the compiler succeeds, or fails with an error, if and only if its condition holds, by induction over fields, path components, members and definitions |
| C77 | `Props_Rename` | every step of the compiler commutes with the renaming; the generated code does not look at names, by induction over messages |
| C78 | `Props_Decode` | the reader against the cases of `SpecDecode`, in both directions, by induction over the type tree |
| C79, C80 | `Props_Encode` | the writer against the cases of `SpecEncode`; results of `SpecDecode` sent again, by induction over the type tree |
| C34, C35 | `Props_Iterate` | iteration and failed items for every list, from C78 and C79 |
| C22–C41 | `Props_Msg` | the reader and the writer against the wire relation, by induction over the type tree |
| C42–C45 | `Props_Template` | the engine against the tree semantics, by induction over the template |
| C46, C49–C51 | `Props_Gen` | the generators against the text of `SpecGen`/`SpecCode`; simulation for the meaning |
| C47, C48 | `Props_Driver` | the driver against a script of steps |
| C52–C55 | `Props_Items` | contents of a compiled protocol, unions, zeroed structures |
| C56, C57 | `Props_Build` | the build script as settings, loading and a script of steps |
| C59 | `Props_Json` | the reader of descriptions against a relation, in both directions |
| C60–C63 | `Props_Swift` | the Swift runtime against the wire format and the Rust codecs, by induction over the type |
| C64 | `Props_SwiftGen` | the text of the Swift generator line by line; its raw getters run by the Swift runtime against the Rust getters |
| C65 | `Props_Mode` | overflow checks only add panics: each function that takes the build profile, run in both |
| C66, C67, C69, C70 | `Props_Evolve` | a description and its extension compiled side by side; old and new accessors and readers on the same bytes; readers that walk different lists (`SpecWalk`, `WalkThms`, `WalkApart`) |
| C68, C67 (exact), C71 (exact) | `Props_Evolve`, `Props_Stream` | results of reading are final, or use all the input, by induction on the message type; extended messages from C78 |
| C71, C72 | `Props_Stream` | induction over the sequence of messages; the windows of the offsets as a chain of independent reads; exactness from the values that take all the bytes behind them (`SpecSwallow`, `SpecReplace`) |
| C73, C74 | `Props_Names` | names computed from the lines; simulation of a run with scoped variables by the message model |
| C81, and C23, C33, C38, C68, C71 for every message | `Props_Exact`, `Props_Evolve`, `Props_Stream`, `Props_Iterate` | `SwallowThms`: an encoding is found by `SpecDecode` iff no swallowing member is in front of other bytes and walked lists split into their data, by induction on the message type; sizes depend on the value only |
| C82 | `Props_Test` | `CheckThms`: sound checkers for the guards of C12, C23, C24, C26 and C27; `TestThms` runs them on what the build script compiles |
| C83 | `Props_Apart` | `ApartThms`: a run is a prefix of the next one; the marks it adds are the lists of its own messages. `ApartRefute`: the witness; `WalkApart`: inputs read alike by both |
| C84 | `Props_Iterate` | from C29 (offsets of one message), by induction on the number of calls |
| C85 | `Props_Patch` | by induction on the place of the structure (`SpecPatch.structure_at`), from the exact reader (C78), C72, C03, C04 |
| C86 | `Props_Grow` | compilations of the two versions are related up to numbering (`SpecGrow.grown_protocol`); readers by induction on the message; rejection from the exact reader (C78) |
| C87 | `Props_Order` | what a protocol compiles to is described name by name (`OrderFacts.facts`), so that two orders give related messages (`SpecOrder.moved`); readers and writers by induction on the message |
| C88 | `Props_Limit` | compilation related step by step for any relation between limits (`SpecLimit.resized`); encodings compared by induction on the message |
| C89 | `Props_Steps` | a reader that counts the list items it tries (`SpecSteps`), shown to be the reader; induction on the message with a bound on the items by the bytes taken, or by the whole input after an error |
| C90 | `Props_Split` | each of the two protocols compared with the whole one, name by name (`SplitRun.part_known`), with the numbers of messages related by name; separate runs by C83 |
| C91 | `Props_Group` | the compiler run side by side over the members before, in and behind the group (`GroupComp`); reading, writing and the format compared member by member with the positions of discriminants shifted (`GroupThms`); fresh numbers are unmarked (`GroupRun.session_told`) |
| C92 | `Props_Nest` | the compiler run over the fields of the group at offset 0 and at the offset of the group, all locations moved by it (`NestThms`); an accessor inside a window is the moved accessor outside (`NestRun`); exactness from `NestedExact` (`NestMain`) |
| C93 | `Props_Unroll` | both branches of the compiler computed for any offset (`UnrollThms`); the accessors compared through the declared bits, from C03, C04 and C10 (`UnrollMain`) |
| C94 | `Props_ErrorText` | texts compared letter by letter, a common tail taken off, decimals parsed back (`ErrorTextThms`); the names from the exact defects of C76 |
| C95 | `Props_FloatOrder` | every operation is a rounded real operation or an infinity of its sign (`FloatOrder`, from Flocq's correctness theorems), rounding is monotone; the compiled parameters are bounded by powers of two (`FloatOrderView`); negative steps by changing signs (`FloatFalling`) |
| C96 | `Props_Kind` | two runs of the compiler stage by stage (`KindComp`, `KindMsg`, `KindRun`) give structures, unions and messages that correspond; decoders and encodings of corresponding messages agree by mutual induction (`KindThms`) |
| C97 | `Props_Wrap` | what the compiler accepts with lists it accepts with arrays (`WrapRun`); encodings, writing and tidiness of corresponding messages by mutual induction (`WrapThms`) |
| C98 | `Props_Table` | refinement: each call on the generated type against the table, then induction over the history (`TableThms`) |
| C99 | `Props_Place` | single accesses by induction over the path, disjointness of places, then induction over the history (`PlaceThms`, `PlacePatch`); for exactness, induction over the offset (`PlaceExact`) |
| C100 | `Props_Calls` | each view call is a raw write of a converted value, then C99; round trip of each view for representable values (`CallsThms`) |
| C101 | `Props_SwiftView` | raw getters agree (C64), then each view of a number in both languages, two's complement modulo 2^n (`SwiftViewThms`); items of arrays through the two windows (`SwiftArray`); chains of structure fields by induction on the chain (`SwiftChain`) |
| C24 (exact) | `Props_Exact` | `GenuineThms`: what `SpecDecode` finds is an encoding iff the value is genuine, both ways by induction on the message type |
| C23, C26, C27, C38 (exact) | `Props_Exact` | induction over message types; the first open member in front of other bytes swallows them; failures of a reached member are those of the message |

A property that is false of the code has a theorem `…_refuted` with a concrete witness
and, where there is one, a theorem `…_partial` under the weakest guard found. A
comment above says what is missing.

## 4. Trusted base
* Coq 8.16.1's kernel, including `vm_compute`.
* `Print Assumptions` stands under every property theorem. The answer is "Closed under
  the global context" for all of them except the float theorems of `Props_Float.v`
  and `Props_FloatOrder.v` that speak about real numbers. These depend on axioms of the standard library only:
  `ClassicalDedekindReals.sig_forall_dec`, `ClassicalDedekindReals.sig_not_dec`,
  `FunctionalExtensionality.functional_extensionality_dep` and `Classical_Prop.classic`
  (C09_scaled_view_partial, C09_power_of_two_partial, C09_outside_partial,
  C09_range_partial, C09_range_ends, C59_integers,
  C58_write_back_partial, C95_read_partial, C95_write_partial, C95_full_partial,
  C95_range_partial, C95_falling_read_partial, C95_falling_partial); the first and third
  only (C09_above_refuted, C09_wide_refuted, C95_above_refuted, C95_huge_refuted);
  none (C58_write_back_refuted). Flocq's proofs are used for them; Flocq adds no axiom.
* That the definitions transcribe the cited Rust lines, and the assumptions of section 2.

* `TestJson.v` and `TestReplay.v` transcribe `testprog/` and replay every test of the
  repository in the model, and `TestSwift.v` those of the Swift runtime, as a check of the transcription. The replays are used in no proof; `TestProgram.v` (the build script and its descriptions) is what C82 is about.

## 5. Wrong programs
`seeded/LOG.jsonl` records edits of the model that imitate realistic bugs, the claim
each breaks, the theorems that no longer prove and what was tightened when none failed.
