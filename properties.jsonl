{"id": "C01", "title": "Struct fields are laid out contiguously in declaration order", "statement": "When a structure compiles, the first field starts at bit 0, each field starts at the bit where the previous one ends, a scalar field of declared width w and array_len k occupies w*k bits, a nested structure occupies its own bit size, the structure's bit size is the sum of its fields' sizes and its byte size is that sum divided by 8 rounded up.", "quantifier": "every structure description the compiler accepts (any number of fields, widths, arrays, nestings)", "why_tests_cant": "The layout is a fold over an unbounded field list; tests pin a handful of structures.", "anchors": ["compiler/src/compiler/structure.rs: Location::from_model, Field::from_model, Structure::from_model"]}
{"id": "C02", "title": "Generated accessors stay inside the structure's bytes", "statement": "For every field of a compiled structure the byte window its generated getter and setter slices lies inside SIZE bytes, so on a buffer of at least SIZE bytes no generated scalar accessor (of a field of 1 to 64 bits) panics, in debug or release builds.", "quantifier": "every compiled structure, every scalar field of it, every buffer of at least SIZE bytes, every value, both overflow modes", "why_tests_cant": "Absence of a panic for all layouts and buffers is a universal statement.", "anchors": ["compiler/src/gen/rust/structure.field.template", "compiler/src/gen/base/structure.rs", "runtime/src/codec/bits.rs", "runtime/src/codec/bytes.rs"]}
{"id": "C03", "title": "A raw getter returns exactly the declared bits", "statement": "get_raw_x on a little-endian structure returns the unsigned number formed by the field's declared bits (bit j of the value is bit offset+j of the buffer, least significant bit of byte 0 first).", "quantifier": "every compiled structure, field and buffer", "why_tests_cant": "Needs all offsets, widths and buffer contents; a straddling layout never appears in the tests.", "anchors": ["runtime/src/codec/bits.rs: BitCodecLE", "runtime/src/codec/bytes.rs: ByteCodecLE", "compiler/src/gen/rust/structure.field.template"]}
{"id": "C04", "title": "A raw setter changes exactly the declared bits", "statement": "set_raw_x(v) on a little-endian structure makes the field's declared bits equal to the low bits of v, keeps the buffer's length and leaves every other bit of the buffer unchanged.", "quantifier": "every compiled structure, field, buffer and value", "why_tests_cant": "Frame conditions quantify over all other bits of all buffers.", "anchors": ["runtime/src/codec/bits.rs: write_aligned/write_unaligned", "runtime/src/codec/bytes.rs", "compiler/src/gen/rust/structure.field.template"]}
{"id": "C05", "title": "Struct fields behave as independent variables", "statement": "After any sequence of raw setter calls on the fields of one structure, each raw getter returns the last value set on that field reduced to its width, or the original value if the field was never set: setting one field never changes another.", "quantifier": "every compiled structure, every finite history of set_raw calls, every initial buffer", "why_tests_cant": "Histories are unbounded and all pairs of fields matter.", "anchors": ["compiler/src/gen/rust/structure.field.template", "runtime/src/codec/bits.rs"]}
{"id": "C06", "title": "Signed view round-trips", "statement": "For a signed field of n bits, set_x(v) followed by get_x returns v for every v in -2^(n-1) .. 2^(n-1)-1, and get_x decodes the raw bits as two's complement.", "quantifier": "every signed field with 1<=n<=64 and every representable value", "why_tests_cant": "Needs all widths and all values up to 2^64.", "anchors": ["compiler/src/gen/rust/structure.field.template: view_signed, view_transmute", "compiler/src/compiler/structure.rs: FieldView::from_model"]}
{"id": "C07", "title": "Unsigned, boolean and bit-cast float views round-trip", "statement": "set_x then get_x returns the value for unsigned fields (values that fit), booleans and 32/64-bit floats (bit patterns).", "quantifier": "every such field and value", "why_tests_cant": "All widths and values.", "anchors": ["compiler/src/gen/rust/structure.field.template: view_none, view_transmute"]}
{"id": "C08", "title": "Enum view only produces declared variants and round-trips", "statement": "get_x of an enum field returns Some(variant) only when the raw value is a declared variant's number, None otherwise, and set_x(variant) followed by get_x returns that variant.", "quantifier": "every enum declaration, field width, raw value", "why_tests_cant": "Holes in the enum and narrow fields are value-dependent.", "anchors": ["compiler/src/gen/rust/structure.field.template: view_enum", "compiler/src/compiler/enum.rs", "compiler/src/gen/base/structure.rs"]}
{"id": "C09", "title": "Float views are inverse up to one quantisation step", "statement": "For a float-range (min,max) or float-multiplier field, set_x(v) followed by get_x returns a value within one step of v for every v in the representable range, and the range maps raw 0 to min and the largest raw value to max.", "quantifier": "every min, max, multiplier, width and value", "why_tests_cant": "Continuous parameters.", "anchors": ["compiler/src/compiler/structure.rs: FieldView::from_model", "compiler/src/gen/rust/structure.field.template: view_float"]}
{"id": "C10", "title": "Array fields address disjoint items", "statement": "For an array field whose item width is a whole number of bytes, item i set through the array codec reads back as that value, other items and all bytes outside the array are unchanged, len() is the declared length and iteration yields the items in order.", "quantifier": "every item width, length, index and buffer", "why_tests_cant": "All indices and contents.", "anchors": ["runtime/src/codec/arrays.rs", "compiler/src/compiler/structure.rs: FixedArrayField"]}
{"id": "C11", "title": "Array fields with sub-byte or odd-bit items are rejected", "statement": "The compiler rejects an array field whose items are not a whole number of bytes, so that an accepted array field really has array_len addressable items.", "quantifier": "every array field description", "why_tests_cant": "Universal over widths and lengths.", "anchors": ["compiler/src/compiler/structure.rs: Field::from_model (UnalignedArrayCodec)", "runtime/src/codec/arrays.rs"]}
{"id": "C12", "title": "Nested structure accessors compose", "statement": "Reading or writing a scalar through any chain of nested structure accessors reads or writes exactly the bits at the sum of the offsets along the chain, and nothing else.", "quantifier": "every nesting depth, path and buffer", "why_tests_cant": "Depth is unbounded.", "anchors": ["compiler/src/gen/rust/structure.field.template: struct", "compiler/src/compiler/structure.rs: StructField"]}
{"id": "C13", "title": "Big-endian codecs round-trip and do not clobber neighbours", "statement": "With the big-endian byte and bit codecs, writing a value that fits and reading it back returns it and other bits are unchanged.", "quantifier": "every width, offset, buffer and value for which the codec can be instantiated", "why_tests_cant": "Only a 12-bit case at offset 0 is tested.", "anchors": ["runtime/src/codec/bits.rs: BitCodecBE", "runtime/src/codec/bytes.rs: ByteCodecBE"]}
{"id": "C14", "title": "The declared endianness of a protocol is honoured", "statement": "Fields compiled from a protocol that declares endianness big use big-endian codecs, and little otherwise.", "quantifier": "every protocol description", "why_tests_cant": "It is a claim about all descriptions; the existing big-endian test passes with either codec.", "anchors": ["compiler/src/compiler/protocol.rs: Protocol::from_model"]}
{"id": "C15", "title": "Accepted scalar widths", "statement": "A scalar field is accepted only if its width is between 1 and 64 bits, the storage type chosen is the smallest of 8/16/32/64 bits that holds it, and other widths give an error rather than a panic.", "quantifier": "every field type, width and view", "why_tests_cant": "Unbounded widths.", "anchors": ["compiler/src/compiler/structure.rs: FixedFieldType::from_model, FieldView::from_model"]}
{"id": "C16", "title": "Compilation never panics", "statement": "Compiling any protocol description returns either a protocol or an error; it never panics.", "quantifier": "every protocol description and import solver", "why_tests_cant": "Malformed descriptions are unbounded.", "anchors": ["compiler/src/compiler/protocol.rs", "compiler/src/compiler/union.rs: DiscriminantField::from_model, get_leaf", "compiler/src/compiler/structure.rs"]}
{"id": "C17", "title": "Enum compilation is deterministic and finds the largest value", "statement": "Enum compilation returns the variants sorted by value with the maximum as largest, whatever order the hash map yields its entries, and rejects an enum without variants.", "quantifier": "every enum and every iteration order of the map", "why_tests_cant": "Hash iteration order is not controllable from a test.", "anchors": ["compiler/src/compiler/enum.rs: Enum::from_model"]}
{"id": "C18", "title": "Length prefixes are wide enough and minimal", "statement": "The length prefix chosen for max_len can represent max_len and no narrower prefix of 8/16/32/64 bits can.", "quantifier": "every max_len below 2^64", "why_tests_cant": "All values.", "anchors": ["compiler/src/compiler/structure.rs: FixedFieldType::from_max_value"]}
{"id": "C19", "title": "Only one open-ended field per message and nothing variable after it", "statement": "A message that compiles has at most one field whose extent is only delimited by the end of the input, and no variable-size field follows it; a violation is reported as an error.", "quantifier": "every message description", "why_tests_cant": "Unbounded field lists.", "anchors": ["compiler/src/compiler/message.rs: Message::from_model"]}
{"id": "C20", "title": "References resolve to earlier definitions only", "statement": "Every structure, message, union and enum referenced by a compiled item was imported or defined earlier in the same protocol; otherwise compilation fails with UndefinedReference. Compiled types are therefore never recursive. A structure shadows a message of the same name.", "quantifier": "every protocol description", "why_tests_cant": "Unbounded definition sequences.", "anchors": ["compiler/src/compiler/message.rs: Referenced::lookup, Field::from_model", "compiler/src/compiler/protocol.rs"]}
{"id": "C21", "title": "Imports resolve to the registered path", "statement": "An imported type is the type compiled under that name in the named protocol, with structs before enums before unions before messages, and code refers to it as base path, separator, type name; importing from an unknown protocol or an unknown type is an error.", "quantifier": "every import list and registry", "why_tests_cant": "Unbounded registries.", "anchors": ["compiler/src/compiler/protocol.rs", "compiler/src/util.rs: SimpleImportSolver", "compiler/src/compiler/util.rs: TypePathMap"]}
{"id": "C22", "title": "Writing a message emits exactly the wire format", "statement": "write_to of a well-formed message value to a writer that accepts everything succeeds and emits the concatenation of the fields' encodings in declaration order: little-endian scalars, NUL-terminated or length-prefixed strings, a presence byte before optional fields, a length prefix before arrays and lists, raw payload bytes, union bodies.", "quantifier": "every compiled message type and every well-formed value of it", "why_tests_cant": "Types and values are unbounded trees.", "anchors": ["compiler/src/gen/rust/message.write.template", "runtime/src/message/util/*.rs"]}
{"id": "C23", "title": "Decoding inverts encoding", "statement": "from_slice of the bytes written for a well-formed value returns that value and a size equal to the number of bytes written; if the message is self-delimiting the same holds with any bytes appended.", "quantifier": "every compiled message type, well-formed value and suffix", "why_tests_cant": "Types, values and suffixes are unbounded.", "anchors": ["compiler/src/gen/rust/message.from_slice.template", "runtime/src/message/util/*.rs"]}
{"id": "C24", "title": "Decoding accepts only encodings", "statement": "If from_slice succeeds with size n, the first n bytes are the encoding of the returned value according to the wire format, and writing the value again yields those bytes.", "quantifier": "every compiled message type and byte string", "why_tests_cant": "All byte strings.", "anchors": ["compiler/src/gen/rust/message.from_slice.template", "runtime/src/message/util/common.rs: Optional"]}
{"id": "C25", "title": "Decoded size never exceeds the input", "statement": "Whenever from_slice succeeds the reported size is at most the length of the slice.", "quantifier": "every compiled message type and byte string", "why_tests_cant": "All byte strings; slicing safety of enclosing messages depends on it.", "anchors": ["runtime/src/message/util/*.rs", "compiler/src/gen/rust/message.from_slice.template"]}
{"id": "C26", "title": "Decoding never panics", "statement": "from_slice on any byte string returns Ok or an Error; it never panics, in debug or release builds.", "quantifier": "every compiled message type, byte string and overflow mode", "why_tests_cant": "Adversarial inputs are unbounded.", "anchors": ["runtime/src/message/util/string.rs: VarcharString", "runtime/src/message/util/array.rs: Array::from_slice", "runtime/src/message/util/list.rs"]}
{"id": "C27", "title": "Truncated input is reported as Truncated", "statement": "Decoding a strict prefix of the encoding of a well-formed value of a self-delimiting message returns Error::Truncated.", "quantifier": "every self-delimiting message type, value and cut point", "why_tests_cant": "Every cut point of every value.", "anchors": ["runtime/src/message/util/*.rs"]}
{"id": "C28", "title": "Self-delimiting messages are uniquely decodable", "statement": "If two well-formed values' encodings, followed by arbitrary bytes, give the same byte string then the values and the rests are equal.", "quantifier": "every pair of values and suffixes", "why_tests_cant": "Pairs of unbounded values.", "anchors": ["runtime/src/message/util/*.rs"]}
{"id": "C29", "title": "Offsets describe the decoding", "statement": "from_slice_with_offsets succeeds exactly when from_slice does, with the same value and size; the field offsets start at 0, are contiguous, end at the message size, and each field's slice decodes to that field; nested message offsets are relative to the nested message.", "quantifier": "every message type and byte string", "why_tests_cant": "All inputs.", "anchors": ["compiler/src/gen/rust/message.offsets.template", "compiler/src/gen/rust/message_offsets.rs"]}
{"id": "C30", "title": "size_of equals the number of bytes written", "statement": "size_of(msg) succeeds exactly when writing msg to a Vec does, and returns the number of bytes appended.", "quantifier": "every message type and value (total below 2^64 bytes)", "why_tests_cant": "All values.", "anchors": ["runtime/src/message/util/size.rs"]}
{"id": "C31", "title": "A failing writer has received a prefix", "statement": "If the underlying writer fails after accepting k bytes, write_to returns the io error and the bytes accepted are exactly the first k bytes of the full encoding; earlier success is unaffected.", "quantifier": "every message type, value and failure point", "why_tests_cant": "Every crash point.", "anchors": ["runtime/src/message/interface.rs: WriteTo", "compiler/src/gen/rust/message.write.template"]}
{"id": "C32", "title": "Unions follow their discriminant", "statement": "Decoding a union field decodes the case whose number equals the discriminant in the referenced structure and fails with InvalidUnionDiscriminant if there is none; writing a case fails unless the discriminant equals the case's number; after set_discriminant writing succeeds and decoding returns the same case.", "quantifier": "every union, discriminant path, value", "why_tests_cant": "All unions and discriminant values.", "anchors": ["compiler/src/gen/rust/union.template", "compiler/src/gen/rust/union.rs", "compiler/src/compiler/union.rs"]}
{"id": "C33", "title": "Lists built item by item decode to the same items", "statement": "A list filled with write_item/write_items of n items has length n, its data is the concatenation of the items' encodings, and iterating it yields exactly those n items in order.", "quantifier": "every item type and every sequence of items", "why_tests_cant": "Unbounded sequences.", "anchors": ["runtime/src/message/util/list_base.rs", "runtime/src/message/util/list.rs: Iter"]}
{"id": "C34", "title": "List iteration terminates", "statement": "Iterating a list obtained from the wire yields at most len() results and then ends; a malformed item ends the iteration.", "quantifier": "every list value, including lists that were not validated", "why_tests_cant": "Non-termination is not observable by a finite test.", "anchors": ["runtime/src/message/util/list.rs: Iter::next, IterOffsets::next, Unsized"]}
{"id": "C35", "title": "A failed write_item leaves the list usable", "statement": "If write_item returns an error the list is unchanged, so later items still decode.", "quantifier": "every list, item and failure", "why_tests_cant": "All failure points.", "anchors": ["runtime/src/message/util/list_base.rs: write_item"]}
{"id": "C36", "title": "Arrays give disjoint typed windows over their data", "statement": "from_parts accepts exactly data of len*SIZE bytes; get(i) for i<len returns item i's bytes, get_mut(i) modifies only those, iteration yields len items in order, and an array read from the wire has this shape.", "quantifier": "every item size, length, index and data", "why_tests_cant": "All indices and contents.", "anchors": ["runtime/src/message/util/array.rs", "runtime/src/message/macros.rs"]}
{"id": "C37", "title": "Lengths that do not fit their prefix are not silently truncated", "statement": "Writing a string, array or list whose length exceeds what its length prefix can represent fails instead of emitting a wrong length.", "quantifier": "every length and prefix width", "why_tests_cant": "Needs lengths beyond 2^8, 2^16, 2^32.", "anchors": ["runtime/src/util/scalar.rs: from_usize", "runtime/src/message/util/string.rs", "runtime/src/message/util/list_base.rs"]}
{"id": "C38", "title": "Every accepted message type can be decoded after being encoded", "statement": "For every message description the compiler accepts, every well-formed value that can be written can be read back (including messages with a fixed-size field after a payload or list, lists of messages that contain lists or payloads, and messages imported from another protocol).", "quantifier": "every accepted message description", "why_tests_cant": "Only specific shapes are tested.", "anchors": ["compiler/src/compiler/message.rs", "compiler/src/gen/base/message_from_slice.rs: gen_field_from_slice_impl", "compiler/src/gen/rust/message.from_slice.template: Unsized, List"]}
{"id": "C39", "title": "A structure item occupies its structure's bytes", "statement": "A message field that is an item of structure type S occupies SIZE_S bytes on the wire, whether or not the compiler flattens it to a scalar.", "quantifier": "every structure type usable as an item", "why_tests_cant": "All structures.", "anchors": ["compiler/src/compiler/message.rs: Field::from_model (Item)"]}
{"id": "C40", "title": "NUL-terminated strings round-trip for every Rust string", "statement": "Every string written as a NUL-terminated string is read back unchanged.", "quantifier": "every UTF-8 string", "why_tests_cant": "All strings.", "anchors": ["runtime/src/message/util/string.rs: NullTerminatedString"]}
{"id": "C41", "title": "String decoding accepts exactly UTF-8", "statement": "Decoding a string field succeeds only if its bytes are the UTF-8 encoding of a sequence of Unicode scalar values, and reports InvalidUtf8 otherwise.", "quantifier": "every byte string", "why_tests_cant": "All byte strings.", "anchors": ["runtime/src/message/util/string.rs"]}
{"id": "C42", "title": "Template literals render verbatim", "statement": "A template line in which braces are doubled renders to the original line followed by a newline, for any text.", "quantifier": "every line of text without line breaks", "why_tests_cant": "All texts.", "anchors": ["compiler/src/gen/template.rs: compile_with_function_map, Token"]}
{"id": "C43", "title": "Template variables are substituted and reported when missing", "statement": "Rendering replaces each {name} by the variable's current value, applies the named function, and fails with VariableNotFound, FragmentNotFound or FunctionNotFound when the name is unknown; it never panics for ASCII values.", "quantifier": "every template and variable map", "why_tests_cant": "All templates and values.", "anchors": ["compiler/src/gen/template.rs: render_internal, parse_variable, capitalize"]}
{"id": "C44", "title": "Template scopes are isolated", "statement": "Setting variables on a scope never changes what the template or another scope renders; a scope initially renders like its template.", "quantifier": "every sequence of operations", "why_tests_cant": "Histories of operations.", "anchors": ["compiler/src/gen/template.rs: Scope"]}
{"id": "C45", "title": "Fragments nest by path", "statement": "A fragment pushed while others are open is addressable by the dot-joined path of open fragments and contains exactly its own lines, not those of nested fragments; an unmatched pop or a line outside any fragment is an error.", "quantifier": "every nesting of fragments", "why_tests_cant": "Unbounded nesting.", "anchors": ["compiler/src/gen/template.rs: compile_with_function_map"]}
{"id": "C46", "title": "Code generation never fails on an accepted protocol", "statement": "For every protocol the compiler accepts, generating Rust code succeeds: every fragment and variable the generator uses is defined in the templates and no accessor asks for an unsupported width.", "quantifier": "every accepted protocol", "why_tests_cant": "All protocols.", "anchors": ["compiler/src/gen/rust/*.rs", "compiler/src/gen/base/*.rs", "compiler/src/gen/rust/*.template"]}
{"id": "C47", "title": "Generated files are exactly the selected non-empty ones", "statement": "Protoc::generate writes, for each protocol, exactly the files whose kind is enabled and whose content is longer than one byte, in generator order, plus an umbrella that includes exactly those files in that order, and reports one path per protocol in order.", "quantifier": "every flag combination, protocol list and generator output", "why_tests_cant": "All combinations and lists.", "anchors": ["compiler/src/interface.rs: Protoc::generate", "compiler/src/gen/mod.rs: File::write", "compiler/src/gen/rust/mod.rs: generate_umbrella"]}
{"id": "C48", "title": "Loading compiles imports first and in order", "statement": "Loader::compile compiles imported models in registration order, each seeing the ones before, then the loaded models, stopping at the first error; protocols are returned in load order.", "quantifier": "every sequence of load and import calls", "why_tests_cant": "Unbounded sequences.", "anchors": ["compiler/src/interface.rs: Loader"]}
{"id": "C49", "title": "Generated structure code addresses the declared bits", "statement": "The generated Rust file holds, for every structure and enumeration of the protocol in order, accessors whose byte window, codec, bit position, width and conversion are those of the declared position of each field (in structures below 2^64 bits), with all numbers in decimal.", "quantifier": "every compiled protocol, every field position and width", "why_tests_cant": "The text depends on every layout; tests compare a few outputs.", "anchors": ["compiler/src/gen/rust/structure.rs", "compiler/src/gen/base/structure.rs", "compiler/src/gen/rust/structure.template", "compiler/src/gen/rust/structure.field.template", "compiler/src/gen/rust/enum.template"]}
{"id": "C50", "title": "Generated message code reads and writes its fields in order", "statement": "The generated from_slice, write_to and from_slice_with_offsets of every message hold one statement per field, in order; run with variables and members by their names they read, write and locate exactly the fields of the message, each union using the member that its declaration names.", "quantifier": "every compiled message, input, value and sink", "why_tests_cant": "All messages and inputs.", "anchors": ["compiler/src/gen/base/message_from_slice.rs", "compiler/src/gen/base/message_write.rs", "compiler/src/gen/rust/message.from_slice.template", "compiler/src/gen/rust/message.write.template", "compiler/src/gen/rust/message.offsets.template"]}
{"id": "C51", "title": "Generated union code selects by the declared discriminant", "statement": "The generated file holds, for every union in order, variants and match arms for its cases in order with their decimal numbers, and reads and writes the discriminant through the chain of accessors its declaration names.", "quantifier": "every compiled union", "why_tests_cant": "All unions and nestings.", "anchors": ["compiler/src/gen/rust/union.rs", "compiler/src/gen/rust/union.template"]}
{"id": "C52", "title": "A structure created on the stack is zero", "statement": "new_on_stack of a structure (below 2^64 bits) has exactly its byte size, and every scalar reached through it by accessors of nested structures reads zero.", "quantifier": "every compiled structure, every chain of accessors, widths 1 to 64", "why_tests_cant": "All layouts and nestings.", "anchors": ["compiler/src/gen/rust/structure.template: new_on_stack"]}
{"id": "C53", "title": "Case labels stand for the discriminant values they spell", "statement": "The cases of a compiled union are the declared ones in order; a label is a variant of the discriminant's enum or a decimal integer, signed ones as stored in the discriminant, and the item type is the structure of that name, or else the message; a union whose labels and types all have such a meaning is accepted. A structure that holds the labelled value selects that case.", "quantifier": "every accepted union and every label string", "why_tests_cant": "Labels are arbitrary strings; all discriminant widths.", "anchors": ["compiler/src/compiler/union.rs: UnionField::from_model", "compiler/src/compiler/message.rs: Referenced::lookup"]}
{"id": "C54", "title": "A discriminant path names a scalar field", "statement": "A union is accepted only if its discriminant path leads, component by component, from a structure to a scalar field, which is then the discriminant; every such path is accepted.", "quantifier": "every path and structure nesting", "why_tests_cant": "Unbounded nesting.", "anchors": ["compiler/src/compiler/union.rs: DiscriminantField::from_model"]}
{"id": "C55", "title": "A compiled protocol holds its declared items in order", "statement": "A compiled protocol has its declared name and, in declaration order, exactly the declared enums, structures, unions and messages, each compiled with the imports and the items before it in scope; a name refers to the last local item of that name, or else to the import.", "quantifier": "every accepted protocol description", "why_tests_cant": "Unbounded lists of items.", "anchors": ["compiler/src/compiler/protocol.rs: Protocol::from_model"]}
{"id": "C56", "title": "The build script generates what was loaded and announces it", "statement": "generate_rust panics exactly if loading, compiling, finding OUT_DIR, generating or writing fails, leaving the files untouched before generation; otherwise it leaves in OUT_DIR exactly the files of the kinds configured (the last setting of a kind counts, else its default) and prints for each loaded protocol, in order, one line that sets BP3D_PROTOC_ followed by its upper-case name to the path of its umbrella file, so that each protocol is reachable by its own variable.", "quantifier": "every sequence of load, import and configuration calls, every file system", "why_tests_cant": "Unbounded sequences of calls and all file system states.", "anchors": ["compiler/src/build_script.rs: generate_rust", "compiler/src/interface.rs: Protoc"]}
{"id": "C57", "title": "Two options combine only if both are present", "statement": "to_single of a pair of options is Some of the pair of values exactly if both are Some.", "quantifier": "all types and values", "why_tests_cant": "Generic in both types.", "anchors": ["runtime/src/util/mod.rs: MultiOptionExt"]}
{"id": "C58", "title": "Writing back a float that was read keeps the raw value", "statement": "Reading a float-multiplier or float-range field and writing the value read back into the same buffer leaves the buffer as it was.", "quantifier": "every float field, multiplier, range, width and buffer", "why_tests_cant": "Depends on the rounding of every raw value for every multiplier.", "anchors": ["compiler/src/compiler/structure.rs: FieldView::from_model", "compiler/src/gen/rust/structure.field.template: view_float"]}
{"id": "C59", "title": "A protocol description means one protocol", "statement": "A parsed description is accepted exactly if it describes a protocol: mandatory members once, optional ones at most once or null, unknown members ignored, variants selected by their type member, numbers in range; the protocol obtained is the one described, each description describes one protocol (up to the order of enumeration variants, of which the last of a name counts), and every protocol has a description.", "quantifier": "every JSON value and protocol, every iteration order of a hash map", "why_tests_cant": "Descriptions are unbounded trees.", "anchors": ["compiler/src/model/protocol.rs", "compiler/src/model/structure.rs", "compiler/src/model/message.rs", "compiler/src/model/union.rs"]}
{"id": "C60", "title": "Swift writes the wire format, as Rust does", "statement": "A value written with the Swift runtime is appended as its encoding in the wire format, byte for byte what the Rust runtime writes for the same type and value; a value that has no encoding is not written silently.", "quantifier": "every type built from numbers, strings, optional values, lists and arrays, every value and buffer", "why_tests_cant": "Types and values are unbounded trees; a peer in the other language decodes the bytes.", "anchors": ["Swift/BP3DProto/message/common.swift", "Swift/BP3DProto/message/string.swift", "Swift/BP3DProto/message/list.swift", "Swift/BP3DProto/util/buffer.swift: write", "runtime/src/message"]}
{"id": "C61", "title": "Swift reads the wire format", "statement": "Reading a buffer that starts with an encoding of a value returns this value and the size of the encoding, wherever the buffer lies in its storage; what is read is there; input that is cut short or not UTF-8 is reported as an error and never traps.", "quantifier": "every type, value, remaining input, position in the storage and build profile", "why_tests_cant": "All inputs and positions; tests read from the start of a fresh buffer.", "anchors": ["Swift/BP3DProto/message/common.swift", "Swift/BP3DProto/message/string.swift", "Swift/BP3DProto/message/list.swift", "Swift/BP3DProto/util/buffer.swift"]}
{"id": "C62", "title": "Swift structure codecs agree with the Rust ones", "statement": "The byte, bit and array codecs of the Swift runtime read and write the same numbers at the same bits as those of the Rust runtime, and change no byte outside of the window.", "quantifier": "every integer type, byte order, bit offset, width, window and value", "why_tests_cant": "All widths, offsets and contents; interoperability of both languages.", "anchors": ["Swift/BP3DProto/codec/byte.swift", "Swift/BP3DProto/codec/bit.swift", "Swift/BP3DProto/codec/array.swift", "runtime/src/codec"]}
{"id": "C63", "title": "A value written in Swift is read back, also from a buffer used again", "statement": "Writing a value to an empty or cleared Swift buffer and reading the buffer returns the value, and the bytes of the buffer are its encoding.", "quantifier": "every type and value, every previous content of the buffer", "why_tests_cant": "Depends on all previous contents.", "anchors": ["Swift/BP3DProto/util/buffer.swift: clear, write"]}
{"id": "C64", "title": "The Swift generator emits the accessors of every structure, and they agree with the Rust ones", "statement": "Generating Swift code for a protocol yields one file with the specified lines for every structure in order. The raw getter of a field, run by the Swift runtime on a buffer that holds the structure, returns what the Rust getter returns on the same bytes, and reading or writing the structure as a whole takes or appends exactly its bytes.", "quantifier": "every compiled protocol, every structure, field position and width, every content of the buffer and of the storage behind it", "why_tests_cant": "Depends on all layouts and on bytes outside the structure.", "anchors": ["compiler/src/gen/swift/mod.rs: GeneratorSwift::generate", "compiler/src/gen/swift/structure.rs: gen_structure_decl", "compiler/src/gen/swift/structure.template", "compiler/src/gen/swift/structure.field.template", "compiler/src/gen/swift/util.rs: SwiftUtils"]}
{"id": "C65", "title": "The build profile changes nothing but panics", "statement": "Whatever a program built with overflow checks does without panicking - compiling a protocol, loading, reading and writing messages to any destination, computing sizes, building and iterating lists and arrays, getting and setting fields and discriminants - the same program built without overflow checks does too, with the same results, errors and bytes.", "quantifier": "every protocol, message, value, buffer, destination, field and codec parameter", "why_tests_cant": "Unit tests run in one profile, on inputs that overflow in neither.", "anchors": ["runtime/src", "compiler/src/compiler", "compiler/src/gen/rust"]}
{"id": "C66", "title": "Fields added at the end of a structure do not disturb existing ones", "statement": "If a structure is extended by fields at the end (to less than 2^64 bits), the old description compiles whenever the new one does, the existing fields keep their positions, and its size does not shrink. An accessor of an existing field does on a buffer of the new structure what it does on the old part of it, and leaves the rest as it is. Where the new structure is read, the old one is read as its beginning.", "quantifier": "every description and extension, every field, nesting path, value, buffer and byte order", "why_tests_cant": "Ranges over pairs of descriptions and all contents.", "anchors": ["compiler/src/compiler/structure.rs: Structure::from_model", "runtime/src/codec", "compiler/src/gen/base/structure.rs"]}
{"id": "C67", "title": "Old and new programs and a message extended at the end", "statement": "If a message is extended by fields at the end, a program built from the old description reads the old members of an encoding of the new message and ignores the rest. A program built from the new description reports an encoding of the old message as truncated if the first addition takes input; an added payload it reads as empty.", "quantifier": "every message description and extension, every value and encoding", "why_tests_cant": "Ranges over pairs of descriptions and all their values.", "anchors": ["compiler/src/compiler/message.rs: Message::from_model", "compiler/src/gen/rust/message_from_slice.rs", "runtime/src/message"]}
{"id": "C68", "title": "Input that arrives in pieces", "statement": "Reading only depends on the bytes that it reports as consumed, so a longer input with the same beginning gives the same message. A result other than that the input is truncated is final: it does not change when more input arrives.", "quantifier": "every message, input and further input", "why_tests_cant": "Ranges over all ways to cut all inputs.", "anchors": ["runtime/src/message", "compiler/src/gen/rust/message_from_slice.rs"]}
{"id": "C69", "title": "Variants added to an enum do not disturb existing data", "statement": "If variants are added to an enum, structures with fields of this enum still compile, with the same layout. Numbers are read and written as before, and what an old program recognises as a variant a new program recognises as the same variant. An old program reports the new variants as unknown.", "quantifier": "every set of enums and additions, every structure, field, buffer and value", "why_tests_cant": "Ranges over pairs of descriptions and all contents.", "anchors": ["compiler/src/compiler/enum.rs: Enum::from_model", "compiler/src/compiler/structure.rs: FieldView", "compiler/src/gen/base/structure.rs"]}
{"id": "C70", "title": "Messages added to a protocol do not disturb existing ones", "statement": "If messages are added at the end of a protocol, everything else of the compiled protocol is the same, and programs built before and after the change read the existing messages alike.", "quantifier": "every protocol, additional messages and input", "why_tests_cant": "Ranges over pairs of descriptions and all inputs.", "anchors": ["compiler/src/compiler/protocol.rs: Protocol::from_model", "compiler/src/compiler/message.rs: Message::is_embedded", "compiler/src/gen/rust/message_from_slice.rs"]}
{"id": "C71", "title": "Messages written one after another are read one after another", "statement": "Writing messages in turn to one destination and reading them in turn, each where the one before ended, returns the same values and what followed them. If the input ends early, the messages that are complete are read and the next one is reported as truncated.", "quantifier": "every sequence of messages and values, every end of the input", "why_tests_cant": "Ranges over all sequences and cuts.", "anchors": ["runtime/src/message", "compiler/src/gen/rust/message_from_slice.rs", "compiler/src/gen/rust/message_write.rs"]}
{"id": "C72", "title": "A member can be replaced in place with the help of the offsets", "statement": "Replacing the bytes between the offsets of a member by the encoding of another value of this member, of any length, gives input that reads as the same message with this one member changed, as long as unions that depend on the member get the same discriminant.", "quantifier": "every message, input, member and new value", "why_tests_cant": "Ranges over all messages, members and values.", "anchors": ["runtime/src/message/interface.rs: FromSliceWithOffsets", "compiler/src/gen/rust/message_offsets.rs", "compiler/src/gen/rust/message_from_slice.rs"]}
{"id": "C73", "title": "Names in the generated Rust code do not clash and are not hidden", "statement": "In the Rust code generated for an accepted protocol, no structure or union has two methods of one name, no two types or size constants of the module have one name, no generated structure has two members of one name, and every variable that a reading function uses is the one it means: no member of a message hides the input, the offset or another temporary. Otherwise the code does not compile although generation succeeded.", "quantifier": "every accepted protocol, structure, union and message, and every input of the reading functions", "why_tests_cant": "Clashes come from combinations of names (`x` and `raw_x`, `On` and `ON`, `A` and `AOffsets`, a member `byte_offset`); tests use a handful of names.", "anchors": ["compiler/src/gen/rust/structure.rs", "compiler/src/gen/rust/union.rs", "compiler/src/gen/rust/message.rs", "compiler/src/gen/rust/message_from_slice.rs", "compiler/src/gen/rust/message_offsets.rs"]}
{"id": "C74", "title": "Generated types are used with the parameters they are declared with", "statement": "A generated message or union that is mentioned in another generated type gets a lifetime parameter there if and only if it is declared with one.", "quantifier": "every message and union and every place that mentions them", "why_tests_cant": "Whether a type has a lifetime depends on the types of all its members; the test schemas have no message of scalars inside another message.", "anchors": ["compiler/src/gen/rust/message.rs", "compiler/src/gen/rust/union.rs", "compiler/src/gen/rust/util.rs"]}
{"id": "C75", "title": "The compiler accepts exactly the well-formed descriptions", "statement": "A description is accepted if and only if its imports resolve, its enums have variants, every field of a structure has a type, a width and a view that go together and refers to something defined before, every union has a discriminant path that leads to a scalar and labels and types that mean something, every union in a message comes after the member that tells its cases apart, and behind a member whose size is open all members have a fixed size. With overflow checks, structures must also be below 2^64 bits.", "quantifier": "every description, resolver and build profile", "why_tests_cant": "An equivalence over all descriptions: tests can show that some are accepted and some rejected, not that no other reason exists.", "anchors": ["compiler/src/compiler/protocol.rs: Protocol::from_model", "compiler/src/compiler/structure.rs: Field::from_model", "compiler/src/compiler/union.rs: Union::from_model", "compiler/src/compiler/message.rs: Message::from_model", "compiler/src/compiler/enum.rs: Enum::from_model"]}
{"id": "C76", "title": "A rejected description is reported with the error of its first defect", "statement": "Compiling a description that has a defect returns the error that describes the first one, in the order imports, enums, structures, unions, messages, and names what is missing: the unknown reference, the unsupported width, the type that cannot have the view, the label. No error is reported without its defect. A second payload is reported as a variable sized field behind the payload.", "quantifier": "every rejected description, resolver and build profile", "why_tests_cant": "An equivalence over all descriptions and errors; tests see single defects, not their order and combinations.", "anchors": ["compiler/src/compiler/error.rs: Error", "compiler/src/compiler/protocol.rs: Protocol::from_model", "compiler/src/compiler/structure.rs: Field::from_model", "compiler/src/compiler/union.rs: Union::from_model", "compiler/src/compiler/message.rs: Message::from_model"]}
{"id": "C77", "title": "Names do not matter on the wire", "statement": "If the protocols, definitions, fields, members, variants and union cases of a description get other names, different names staying different, path components without dots and numeric labels unchanged, then the new description compiles exactly if the old one did, to the same protocol with the new names; otherwise both are rejected for the same reason. Programs built from the two descriptions write the same bytes for the same values, read the same values from the same bytes, and access fields alike.", "quantifier": "every description and renaming, imports included, every message, value, buffer and field", "why_tests_cant": "Ranges over pairs of descriptions and all their values.", "anchors": ["compiler/src/compiler/protocol.rs: Protocol::from_model", "compiler/src/compiler/union.rs", "compiler/src/compiler/message.rs", "compiler/src/gen/rust", "runtime/src/message"]}
{"id": "C78", "title": "What decoding gives for every input", "statement": "from_slice on any byte string gives exactly one of three results, and which one is determined member by member. It returns a value and a size if and only if the members are there one after another, each with its content; it returns an error if and only if the first member that fails is cut short (Truncated), is not UTF-8, or is a union whose discriminant names no case; it panics if and only if that member is a string shorter than its length prefix, an array whose byte length does not fit a machine word, or a union whose discriminant cannot be read. Without overflow checks the byte length of an array counts modulo 2^64, and a list in a message that is not embedded takes all remaining bytes as it is.", "quantifier": "every message type, byte string and build profile", "why_tests_cant": "All byte strings, valid, cut and adversarial, for all message types: an equivalence cannot be tested.", "anchors": ["compiler/src/gen/rust/message_from_slice.rs", "runtime/src/message/util/common.rs", "runtime/src/message/util/string.rs", "runtime/src/message/util/array.rs", "runtime/src/message/util/list.rs"]}
{"id": "C79", "title": "What writing gives for every value", "statement": "write_to sends the members one after another and ends at the first that fails, for every value that the generated types admit, also one that has no encoding. Numbers, strings, lists, arrays and payloads are sent as they are, lengths modulo the range of their prefix, strings with their NUL bytes; a structure sends its size from a buffer that may be longer and panics if it is shorter; a case of a union is sent if the discriminant is its number, or it has no content, and otherwise InvalidUnionDiscriminant is returned; it panics if the discriminant cannot be read. Every destination gets the same bytes and result unless it fails itself, and size_of counts the bytes or fails alike.", "quantifier": "every message type, value of the generated types, destination and build profile", "why_tests_cant": "All values, well-formed or not.", "anchors": ["compiler/src/gen/rust/message.write.template", "compiler/src/gen/rust/union.template", "runtime/src/message/util/common.rs", "runtime/src/message/util/string.rs", "runtime/src/message/util/list_base.rs", "runtime/src/message/util/size.rs"]}
{"id": "C80", "title": "What was read can be written again", "statement": "Whatever from_slice returned can be written without error, in exactly as many bytes as were read, as size_of says; with these bytes in place of the ones that were read, the input reads as the same value. The bytes are the same except that presence bytes above 1 become 1, and identical if no member is optional.", "quantifier": "every message type, byte string and build profile, without any condition", "why_tests_cant": "All byte strings that are accepted, in particular those that are not encodings.", "anchors": ["compiler/src/gen/rust/message.from_slice.template", "compiler/src/gen/rust/message.write.template", "runtime/src/message/util/common.rs: Optional"]}
{"id": "C81", "title": "Which encodings can be read back", "statement": "The bytes of a value with any bytes behind them read as that value, and as its size, if and only if three things hold. No member that takes all remaining input (a payload, a list in a message that is not embedded, or a message or walked list that holds one) has bytes of the same message behind it. No list that is walked item by item has data that the reader would split otherwise. And if there are bytes behind the value, it contains no such member at all. In every other case reading never gives this value, with any size.", "quantifier": "every message type, value, encoding, bytes behind it, marking of embedded messages and build profile, without any condition on the type", "why_tests_cant": "All values of all message types in front of all byte strings; an equivalence.", "anchors": ["compiler/src/gen/rust/message_from_slice.rs", "runtime/src/message/util/list.rs", "runtime/src/message/util/common.rs"]}
{"id": "C82", "title": "The project's own protocols behave", "statement": "Every description that the test program's build script compiles is accepted in both build profiles. Every value of every message in them decodes from its encoding to itself; with other bytes behind it too, unless the message is Dataset (a list of messages that themselves hold lists, which takes all remaining input). A truncated encoding is reported as truncated, and no input at all makes a reader panic, unless the message is Test, whose length-prefixed string does panic on cut input. Whatever a reader accepts is an encoding of what it returns (Dataset excepted). Every scalar of every structure, however deeply nested, is read from and written to exactly its declared bits.", "quantifier": "every message, structure and nested scalar of the twelve descriptions, every value, byte string, buffer and build profile", "why_tests_cant": "The tests of the test program try one or two values per message; this is every value and every input.", "anchors": ["testprog/build.rs: main", "testprog/src/*.json5", "compiler/src/gen/rust/message_from_slice.rs", "runtime/src/codec/mod.rs"]}
{"id": "C83", "title": "Protocols generated by separate runs fit together", "statement": "Protocols that import each other are generated one per run. A run that imports a protocol sees exactly the protocol that its own run generated, so the generated names, layouts and codecs fit together. A message with parts from imported protocols is read as if all its code had been generated by one run.", "quantifier": "every chain of protocols generated one per run with everything before it imported, every message, every input and both build profiles", "why_tests_cant": "The test program has a handful of imports; whether two separate runs agree about a third protocol depends on state (which messages are items of lists) that no single run shows.", "anchors": ["compiler/src/interface.rs: Loader::compile, load, import", "compiler/src/compiler/message.rs: embedded, is_embedded", "compiler/src/gen/base/message_from_slice.rs", "testprog/build.rs: main"]}
{"id": "C84", "title": "Iterating a list with offsets", "statement": "Iterating a list with offsets gives, call by call, the values and errors that iterating it without offsets gives (or panics at the same call) and leaves the iterator at the same place; the offsets returned with a value describe the bytes of that item, relative to its first byte.", "quantifier": "every list of messages whether walked or not, every data and length, every number of calls, both build profiles", "why_tests_cant": "The two iterators are separate code; tests iterate over a few well-formed lists with one of them.", "anchors": ["runtime/src/message/util/list.rs: Iter, IterOffsets, List::iter, List::iter_offsets", "compiler/src/gen/rust/message.offsets.template"]}
{"id": "C85", "title": "A structure inside a received message can be read and changed in place", "statement": "After decoding a message with offsets, the bytes at the place that the offsets give for a structure (a member, the case of a union, an item of an array, or one of these in a nested message or in a message of a list) are that structure. Writing other bytes of its size there and decoding again gives the same value with this structure replaced and nothing else changed, provided unions that take their discriminant from it find the same one. For a field of it whose accessors are exact (C03, C04) the getter on these bytes returns the declared bits of the message, and the setter changes these bits of the message only.", "quantifier": "every message type, every input that decodes, every structure of non-zero size in it at any depth, every new content, every field and value, both build profiles", "why_tests_cant": "It combines offsets, nesting, presence bytes, arrays, lists and bit layouts at any depth; tests do not write into received messages at all.", "anchors": ["compiler/src/gen/rust/message.offsets.template", "compiler/src/gen/rust/structure.template", "compiler/src/gen/rust/structure.field.template", "runtime/src/message/util/list.rs", "runtime/src/message/util/array.rs"]}
{"id": "C86", "title": "Cases added to a union do not disturb existing data", "statement": "Add cases at the end of unions, and structures for them under names not in use, in any of the protocols that are compiled together. If both versions compile, then the new one has the same messages and members. The new program reads everything that the old program reads, with the same value, size and offsets, and reports the same errors, except where the old one finds a discriminant that stands for no case. The old program reads what the new one reads exactly as long as no union read has one of the new cases; otherwise it reports an invalid discriminant. Whatever is an encoding of a value stays one, and both programs write it alike.", "quantifier": "all protocols and chains of imported protocols, all such additions, all messages, values and inputs, all build profiles", "why_tests_cant": "It relates two programs for all schemas, all extensions of them and all inputs, while adding a case changes the sizes and the numbering that the compiler uses internally.", "anchors": ["compiler/src/compiler/union.rs: Union::from_model, UnionField", "compiler/src/compiler/protocol.rs: Protocol::from_model", "compiler/src/gen/rust/union.template", "compiler/src/gen/rust/message.from_slice.template"]}
{"id": "C87", "title": "The order of definitions, and definitions that nothing refers to, do not change the wire format", "statement": "Take protocols in which every name is given once, and put their definitions in another order (imports, enums, structures, unions and messages), or add enums, structures, unions and imports that nothing refers to; the same may be done in the protocols they import. If both versions compile, then they have the same messages by name, and messages of the same name read every input alike (value, size, offsets and errors), write every value alike and report the same size. Structures keep their size and their fields, enums are the same, and unions keep their cases and discriminants. A version can be rejected, since a message has to come after those it refers to.", "quantifier": "all protocols and chains of imported protocols, all orders and additions, all messages, values, sinks and inputs, all build profiles", "why_tests_cant": "It relates the programs generated from two descriptions, for all descriptions and all rearrangements, while the order decides how types are numbered, in which order maps are filled and which definition a name finds.", "anchors": ["compiler/src/compiler/protocol.rs: Protocol::from_model", "compiler/src/compiler/structure.rs: Structure::from_model", "compiler/src/compiler/message.rs: Message::from_model", "compiler/src/compiler/union.rs: Union::from_model", "compiler/src/compiler/util.rs: TypePathMap, ImportResolver"]}
{"id": "C88", "title": "Limits act through the number of bytes of the length only", "statement": "The limit that a description gives for a string or a list decides how many bytes its length takes up, and nothing else. If limits are changed so that these numbers stay the same, everything that is compiled and generated stays the same. However limits are changed, descriptions are accepted or rejected alike, with the same error. If limits are raised, a value keeps its encoding exactly when no length in it takes up more bytes than before; otherwise its encoding gets longer, and programs from before and after the change do not understand each other. Values of messages without lists of messages that could be encoded still can be.", "quantifier": "all sets of protocols, all changes of limits, all values and encodings, all build profiles", "why_tests_cant": "It compares the programs of two descriptions, for all descriptions, limits and values; the numbers of bytes change only at 2^8, 2^16 and 2^32, and the change may be in an imported message, a union case or an optional member.", "anchors": ["compiler/src/compiler/structure.rs: FixedFieldType::from_max_value", "compiler/src/compiler/message.rs: Field::from_model", "compiler/src/model/message.rs: MessageFieldType", "runtime/src/message/util/*.rs"]}
{"id": "C89", "title": "Reading takes no more work than there is input", "statement": "Reading a message tries no more list items than the input has bytes, whatever the input says and however reading ends.", "quantifier": "all messages with any nesting of lists, references and unions, all inputs, valid or not, all build profiles", "why_tests_cant": "The input is chosen by an attacker; the counts in it are unrelated to its length, lists are nested to any depth, and reading may end with an error at any point.", "anchors": ["runtime/src/message/util/list.rs: List::from_slice", "runtime/src/message/interface.rs: FromSlice", "compiler/src/gen/rust/message.from_slice.template"]}
{"id": "C90", "title": "Definitions can be moved to a protocol of their own", "statement": "If definitions of a protocol are moved to another protocol from which they are imported, every message, moved or not, reads and writes the same bytes as before, and structures and enums keep their layout and values. This holds also if the two protocols are generated by separate runs.", "quantifier": "all protocols, all ways to divide their definitions, all protocols compiled before, all values and inputs, all build profiles", "why_tests_cant": "It compares two sets of descriptions, for all of them and for all values; the message numbers and the marks that decide how lists are read are assigned in another order, and references go through imports.", "anchors": ["compiler/src/compiler/protocol.rs: Protocol::from_model", "compiler/src/util.rs: SimpleImportSolver", "compiler/src/interface.rs: Loader", "compiler/src/gen/rust/message_from_slice.rs"]}
{"id": "C91", "title": "Grouping members into a message of their own keeps the wire format", "statement": "If consecutive members of a message are moved into a message of their own, and one mandatory member of that type takes their place, the protocol without the group is accepted whenever the one with it is, and the message reads and writes the same bytes as before, with the values of the members inside the group.", "quantifier": "all messages, all groups of consecutive members, all protocols around them, all values, sinks and inputs below 2^64 bytes, all build profiles", "why_tests_cant": "It compares two descriptions, for all of them, all values and all inputs; unions refer to their discriminants by position, which the group shifts, sizes are summed up per message, and messages are told apart by numbers that the group shifts too.", "anchors": ["compiler/src/compiler/message.rs: Message::from_model", "compiler/src/gen/rust/message_from_slice.rs", "compiler/src/gen/rust/message_write.rs"]}
{"id": "C92", "title": "Putting fields into a structure of their own keeps the layout", "statement": "If consecutive fields of a structure are moved into a structure of their own, and one field of that type takes their place, either description is accepted exactly if the other is, the size of the structure stays the same, every scalar keeps its bits, and the accessors through the new structure read and write what the direct ones did.", "quantifier": "all structures, all groups of consecutive fields, all chains of accessors through nested structures, all buffers of at least the size of the structure, all build profiles", "why_tests_cant": "It compares two descriptions, for all of them and all buffers; the fields of the group are placed relative to its start, widths are rounded up to bytes at other places, and nested accessors cut out whole bytes.", "anchors": ["compiler/src/compiler/structure.rs: Structure::from_model", "compiler/src/compiler/structure.rs: Location::from_model", "compiler/src/gen/rust/structure.rs"]}
{"id": "C93", "title": "An array field is as good as separate fields", "statement": "If an array field of a structure is replaced by as many fields of its type, or the other way round, either description is accepted exactly if the other is, the size of the structure and all other fields stay the same, and the accessors of an item read and write what those of the field in its place do.", "quantifier": "all structures, all scalar item types and lengths, all items, all buffers of at least the size of the structure, all build profiles", "why_tests_cant": "It compares two descriptions, for all item types, lengths and buffers; arrays and scalars are compiled by different branches and use different codecs.", "anchors": ["compiler/src/compiler/structure.rs: Field::from_model", "runtime/src/codec/arrays.rs", "runtime/src/codec/bits.rs", "runtime/src/codec/bytes.rs"]}
{"id": "C94", "title": "An error's text tells the error, and names what the description names", "statement": "The printed text of an error determines the error: two failed compilations with the same text failed for the same kind of defect with the same name, number or type, and the same holds for the errors of the tool as a whole and of the runtime. The name, label, width or type in the text is one that is written in the description. (The last part fails for a path to a discriminant with more than two components: the reported name is the first component and the missing one.)", "quantifier": "all pairs of descriptions that fail, in both build modes; all errors of the tool and of the runtime", "why_tests_cant": "Injectivity over all names and numbers, and membership of the reported name in an arbitrary description, are not settled by sample errors", "anchors": ["compiler/src/compiler/error.rs: Error", "compiler/src/error.rs: Error", "compiler/src/gen/template.rs: Error", "runtime/src/message/interface.rs: Error", "compiler/src/compiler/union.rs: DiscriminantField::from_model"]}
{"id": "C95", "title": "Float views keep the order of values", "statement": "For a float view with a step that is not negative, a greater raw value never reads as a smaller number, and of two floats the smaller one is never stored as a greater raw value nor read back as a greater number. With a negative step the raw values run the other way and the numbers read back are still in order. (Fails for values beyond the scale of a field narrower than its raw type, which wrap, and for parameters too big for the view type, which make NaN.)", "quantifier": "all descriptions with float views of any width, all pairs of buffers and all pairs of floats of the view type, infinities included, in both build modes", "why_tests_cant": "Order over all pairs of up to 2^64 raw values or 2^64 floats, with two roundings each, cannot be enumerated", "anchors": ["compiler/src/gen/base/structure.rs: gen_field_view_getter, gen_field_view_setter", "compiler/src/compiler/structure.rs: FieldView::from_model", "compiler/src/gen/rust/structure.field.template: view_float"]}
{"id": "C96", "title": "Changing the kind or the view of a field keeps the layout and the wire format", "statement": "If fields of structures are changed between signed, unsigned, float and boolean numbers of the same width, or get, lose or change a view (with enums added, changed or removed to match, and cases of unions relabelled), then every structure keeps its sizes and the bits that each chain of raw accessors reads and writes, and every message, directly or through nesting, reads every input as the same value with the same size or the same error and has the same encodings. (Fails for a structure of a single unsigned number of 24, 40, 48 or 56 bits, which messages send in more bytes than the structure has.)", "quantifier": "all pairs of protocol descriptions that differ in kinds, views, enums and labels of cases, of any size, with any imports, all inputs and values, in both build modes", "why_tests_cant": "Relates two compilations of arbitrary descriptions and two decoders over all inputs", "anchors": ["compiler/src/compiler/structure.rs: Field::from_model, Structure::from_model", "compiler/src/compiler/union.rs: Union::from_model", "compiler/src/compiler/message.rs: Message::from_model", "compiler/src/gen/base/message_from_slice.rs: generate_from_slice_impl"]}
{"id": "C97", "title": "A list of messages that hold one structure is an array of the structure", "statement": "If a list of messages whose only member is a structure is declared as a list of the structure itself (which is then sent as an array), the protocol is still accepted, every message that contains the list at any depth has the same encodings for the same values, and writing any value does the same to any writer. Encodings that are the whole input are read as the same values by both. (Fails for a structure of a single unsigned number of 24, 40, 48 or 56 bits, which a message sends in more bytes than an array; and with bytes behind the message, which the list takes unless its message is itself an item of lists.)", "quantifier": "all protocol descriptions with any number of lists so replaced, at any place, all values, encodings and writers, in both build modes", "why_tests_cant": "Relates two compilations of arbitrary descriptions and the wire formats of nested messages for all values", "anchors": ["compiler/src/compiler/message.rs: Field::from_model, Message::from_model", "runtime/src/message/util/list.rs: List", "runtime/src/message/util/array.rs: Array"]}
{"id": "C98", "title": "The generated type for a list of structures is a table of rows", "statement": "For every list of structures the generated code declares a type that holds the items. Any sequence of calls on it (adding one or several items, asking for the length, reading or changing the item at an index, reading or changing all items in turn) gives the answers that a table of rows of SIZE bytes gives, and panics exactly when the table has no such row or an item is too short. Data is accepted as n items exactly if it consists of n rows, and a table that was put into a message is read back with the same rows. (Fails in release builds for indices whose offset exceeds a usize, and for empty structures, where every index has an item and iterating panics.)", "quantifier": "all item sizes, all starting tables, all finite sequences of calls with any items, indices and updates that keep the size of an item, both build modes", "why_tests_cant": "Quantifies over all histories of calls on a mutable object; a test runs a few", "anchors": ["runtime/src/message/macros.rs: generate_array_wrapper", "runtime/src/message/util/array.rs: Array", "runtime/src/message/util/list_base.rs: impl_list_base", "compiler/src/gen/rust/message.ext.template"]}
{"id": "C99", "title": "A structure is a record of its scalars and array items, at every depth", "statement": "Take any compiled structure, with structures and arrays in it to any depth. After any sequence of raw setter calls on its scalars and array items, each getter gives the last value written to its place, reduced to the width of the place, or the value it gave before if nothing was written there. The order of setter calls for different places does not matter, bits outside of the written places are kept, and no two places share a bit. (Fails for structures that start inside of a byte: writing a nested scalar changes other fields.)", "quantifier": "all structures that the compiler accepts (any nesting, any number of fields and array items), all finite sequences of setter calls at any depth, all values, all buffers that hold the structure, both build modes", "why_tests_cant": "Quantifies over all schemas and all interleavings of writes at all depths; a test fixes one structure and a few writes", "anchors": ["compiler/src/gen/rust/structure.field.template", "runtime/src/codec/arrays.rs: ArrayCodec", "runtime/src/codec/bits.rs", "runtime/src/codec/bytes.rs", "compiler/src/compiler/structure.rs: Structure::from_model"]}
{"id": "C100", "title": "Through its views a structure is a typed record, at every depth", "statement": "Take any compiled structure, with structures in it to any depth. After any sequence of setter calls, raw or through the views of the fields (signed, unsigned, boolean, float, scaled float, enumeration), each getter gives what it would give if only the last setter call for its field had been made, and for representable values (integers of the declared width and sign, booleans, float bit patterns, enumeration values that fit) this is the value that was set. No setter call with a representable value fails. (Fails for structures that start inside of a byte.)", "quantifier": "all structures that the compiler accepts, all finite sequences of raw and view setter calls at any depth, all values of the types of the setters, all buffers that hold the structure, both build modes", "why_tests_cant": "Quantifies over all schemas and all interleavings of typed and raw writes at all depths; a test fixes one structure and a few values", "anchors": ["compiler/src/gen/rust/structure.field.template", "compiler/src/gen/base/structure.rs", "compiler/src/compiler/structure.rs: FieldView::from_model", "runtime/src/codec/bits.rs"]}
{"id": "C101", "title": "A view shows the same value in Swift as in Rust", "statement": "The view getter that the Swift generator writes for a field, run on a buffer that holds the structure, shows the value that the view getter of the Rust code shows on the same bytes: the same integer with its sign, the same boolean, float, scaled float or case of an enumeration. The items of an array field, and the numbers at the end of a chain of structure fields, are the same, and writing an item of an array leaves the same bytes.", "quantifier": "all structures that the compiler accepts, all fields, views and widths, all contents of the buffer and of the storage behind it, both build modes of either side", "why_tests_cant": "Quantifies over every width and position of a field, every content and the byte behind the field; the repository runs no generated Swift code at all", "anchors": ["compiler/src/gen/swift/structure.field.template", "compiler/src/gen/rust/structure.field.template", "compiler/src/gen/base/structure.rs", "compiler/src/gen/swift/structure.rs"]}
