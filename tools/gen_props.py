#!/usr/bin/env python3
"""Writes /verif/properties.jsonl (one JSON object per line)."""
import json, os
R = "crates/zserio/src/"
Z = R + "ztype/"
A = Z + "array_traits/"
G = "crates/zserio-rs-build/src/internal/generator/"
I = "crates/zserio-rs-build/src/internal/"
P = []
def p(title, statement, quantifier, why, anchors):
    P.append(dict(id="C%02d" % (len(P)+1), title=title, statement=statement,
                  quantifier=quantifier, why_tests_cant=why, anchors=anchors))

p("Unsigned bit fields round-trip",
  "For every width n from 1 to 64 and every value below 2^n, writing the value as an n-bit unsigned field (bit:n, uint8/16/32/64) appends exactly n bits, most significant first, and reading an n-bit unsigned field at that position returns the value, advances by exactly n bits and leaves everything after it unread, whatever precedes or follows it in the stream.",
  "all widths, all in-range values, all stream prefixes and suffixes",
  "2^64 values times 64 widths times arbitrary surrounding data",
  [Z+"bits_encode.rs: write_unsigned_bits, write_uint8..64", Z+"bits_decode.rs: read_unsigned_bits, read_uint8..64"])
p("Signed bit fields round-trip",
  "For every width n from 1 to 64 and every value in [-2^(n-1), 2^(n-1)), writing it as an n-bit signed field appends its n-bit two's complement and reading it back at that position returns the same value and advances by exactly n bits.",
  "all widths, all in-range values, all stream prefixes and suffixes",
  "value space is 2^64; sign extension at every width",
  [Z+"bits_encode.rs: write_signed_bits, write_int8..64", Z+"bits_decode.rs: read_signed_bits, read_int8..64"])
p("Variable-length unsigned integers round-trip",
  "For each of varuint16, varuint32, varuint64, varuint and varsize and for every value in the type's published range, writing succeeds and reading at that position returns exactly the value and consumes exactly the bytes written.",
  "all values of all five types, all surrounding data",
  "ranges up to 2^64, with the special 8-bit last byte only reachable by very large values",
  [Z+"varuint_encode.rs: write_varuint_type", Z+"varuint_decode.rs: read_sized_uint", R+"ztype/limits.rs"])
p("Variable-length signed integers round-trip",
  "For each of varint16, varint32, varint64 and varint and for every value with |v| in the type's representable magnitude, writing succeeds and reading at that position returns exactly the value and consumes exactly the bytes written.",
  "all values of all four types, all surrounding data",
  "ranges up to 2^63 in both signs",
  [Z+"varint_encode.rs: write_varint_type", Z+"varint_decode.rs: read_sized_int"])
p("Variable-length sizes are what is written, and minimal",
  "For every variable-length type and in-range value, the *_bitsize function returns exactly 8 times the number of bytes the writer emits; that number is the least k (at most the type's maximum) such that the value fits into the k-byte form, so a larger magnitude never has a shorter encoding.",
  "all values of all variable-length types",
  "threshold errors occur only at the boundaries of each byte count; monotonicity relates pairs of values",
  [Z+"varuint_bitsize.rs: unsigned_bitsize", Z+"varint_bitsize.rs: signed_bitsize"])
p("Variable-length values outside the range are never written",
  "Writing a value outside the type's range never produces a successful write: varint types return an error, varuint types and varsize abort; correspondingly the *_bitsize functions return an error exactly outside the encodable range (for varsize that range covers every u32, so its size function never fails).",
  "all out-of-range values of all variable-length types",
  "the complement of each range is huge",
  [Z+"varuint_encode.rs: write_varsize, write_varuint_type", Z+"varint_encode.rs: write_varint_type", Z+"varuint_bitsize.rs", Z+"varint_bitsize.rs"])
p("varint and the minimum 64-bit integer",
  "MIN_VARINT is published as i64::MIN, so users expect varint to round-trip every i64. It does for every value except i64::MIN itself: a debug build aborts on it, a release build writes an encoding that is read back as 0.",
  "all i64 values, both overflow-checking modes",
  "single bad value among 2^64",
  [Z+"limits.rs: MIN_VARINT", Z+"varint_encode.rs", Z+"varint_bitsize.rs"])
p("varsize reader accepts more than the writer can emit",
  "The varsize writer only emits values up to 2^31-1; the reader returns for any 5-byte input the low 32 bits of a 36-bit number, so distinct 5-byte inputs exist that decode to the same length and lengths above 2^31-1 are accepted without error.",
  "all byte inputs",
  "only specific 5-byte inputs show it",
  [Z+"varuint_decode.rs: read_varsize", Z+"varuint_encode.rs: MAX_VARSIZE, write_varsize"])
p("Integer readers are total and stay inside the data",
  "On every input, the fixed-width and variable-length integer, boolean and float readers either return a value inside the type's range or an error, never abort, and a successful read moves the position forward by the number of bits consumed, never beyond the end of the data.",
  "all byte strings and positions",
  "inputs are arbitrary, possibly hostile",
  [Z+"bits_decode.rs", Z+"varuint_decode.rs", Z+"varint_decode.rs", Z+"float_decode.rs"])
p("Variable-length readers decode exactly the documented format",
  "For any input the variable-length readers return the concatenation of the 7-bit (last byte of a maximal encoding: 8-bit) groups up to the first byte without continuation bit, and fail with end-of-data exactly when the stream ends before that byte.",
  "all byte strings",
  "all continuation patterns, including non-canonical ones",
  [Z+"varuint_decode.rs: read_sized_uint", Z+"varint_decode.rs: read_sized_int"])
p("bit_length and numbits",
  "bit_length(v) is the number of significant bits of v (the least n with v < 2^n) for every u64; numbits(v) is 0 for 0, 1 for 1 and otherwise the least n with v <= 2^n, i.e. the bits needed for v distinct values. On negative input bit_length aborts and numbits aborts too, except that a release build returns n-1 for the minimum of an n-bit type.",
  "all u64 values (and negative ones)",
  "the shift cascade and 256-entry table have many boundaries",
  [R+"numbits.rs: bit_length, numbits"])
p("Alignment is minimal, zero-padded and the same for writer, reader and size",
  "For every alignment a > 0 and every position p, aligning the writer appends the least number k of zero bits such that a divides p+k, the reader skips exactly the same k bits (or fails if they do not exist), and the size function reports the same k.",
  "all positions and alignments",
  "relation between three functions at every position",
  [Z+"alignment.rs: align_reader, align_writer, align_bitsize"])
p("align_to rounds up",
  "For every alignment a > 0 and position p > 0, align_to returns the least multiple of a not below p; for p = 0 the computation underflows: it aborts with overflow checks and otherwise does not return 0 for any alignment that does not divide 2^64.",
  "all positions and alignments",
  "the boundary position 0 and wrap-around",
  [Z+"bit_alignment.rs: align_to"])
p("Strings round-trip and only valid UTF-8 is accepted",
  "For every string of at most 2^31-1 bytes, writing then reading at the same position returns it and consumes exactly the reported size; a string read from arbitrary data succeeds only if the announced bytes are present and valid UTF-8, where valid means being the UTF-8 encoding of some sequence of Unicode scalar values. A longer string is never read back: its length is cut to 32 bits, and writing aborts if what remains is 2^31 or more.",
  "all strings, all inputs",
  "unbounded strings and hostile inputs",
  [Z+"string_encode.rs: write_string, bitsize_string", Z+"string_decode.rs: read_string"])
p("bytes values round-trip",
  "Every bytes value whose byte_size equals its data length round-trips, at any bit offset, and its reported size equals the bits written; a value whose byte_size disagrees with the data is written without complaint and is not read back as written.",
  "all byte buffers and offsets", "unbounded buffers, arbitrary alignment, inconsistent fields",
  [Z+"bytes_type.rs"])
p("extern values round-trip",
  "Every extern value with bit_size b whose blob has ceil(b/8) bytes with zeroed padding bits round-trips at any bit offset and takes varsize(b)+b bits; a blob with fewer than floor(b/8) bytes aborts, an empty blob for b < 8 fails, and a blob that lacks only the last partial byte is written with bits of the wrong byte.",
  "all bit buffers, all sizes including those not divisible by 8", "off-by-one at every size modulo 8",
  [Z+"extern_type.rs: read_extern_type, write_extern_type, bitsize_of_extern"])
p("Floats round-trip bit-exactly",
  "float32 and float64 values are read back with the identical bit pattern for all 2^32 / 2^64 patterns; float16 values that are representable in half precision are read back unchanged.",
  "all bit patterns", "2^64 patterns incl. NaN payloads, infinities, subnormals",
  [Z+"float_encode.rs", Z+"float_decode.rs"])
p("Reading a length-prefixed value never allocates more than the data present",
  "read_bytes (used by strings, bytes and extern) allocates the requested length only if at least that many bytes remain in the stream; otherwise it fails before allocating.",
  "all announced lengths and streams", "hostile length prefixes",
  [Z+"reader.rs: read_bytes", Z+"string_decode.rs", Z+"bytes_type.rs", Z+"extern_type.rs"])
p("Decoding truncated or hostile input: which readers can abort",
  "Users expect deserialisation of arbitrary bytes to return an error instead of aborting. string, extern, packed-array descriptor and union-selector reading do abort on specific inputs; all other runtime readers never abort. The elements of an integer array read from arbitrary data are values of the Rust type of the elements, and without packing of the declared type; with packing they may lie outside a declared width such as bit:3.",
  "all inputs", "hostile input space",
  [Z+"string_decode.rs: read_string", Z+"extern_type.rs: read_extern_type", A+"delta_context.rs: read_descriptor", G+"zunion.rs: from_u32"])
p("Arrays round-trip (unpacked)",
  "For any element type whose single-element read inverts its write, an unpacked array of up to 2^31-1 elements (or of any fixed size), with implicit length prefix or fixed size, with or without per-element byte alignment for indexed offsets, is read back equal and consumes exactly the bits written. Writing a fixed-size array with another number of elements aborts. A longer array is never read back: the number of elements is cut to 32 bits, and writing aborts if what remains is 2^31 or more.",
  "all element types, all arrays, all positions", "unbounded lengths, alignment depends on the position of every element",
  [Z+"array.rs: Array::zserio_write, zserio_read"])
p("Packed integer arrays round-trip",
  "Delta-packed arrays of every integer type (all widths, signed and unsigned, variable-length) of any length round-trip, provided elements are in range.",
  "all integer arrays", "the packing decision and delta width depend on the complete array",
  [A+"delta_context.rs", Z+"array.rs"])
p("Packed deltas always fit",
  "When the delta context decides to pack, the delta between any two consecutive elements fits into the announced max_bit_number+1 signed bits, max_bit_number is at most 62 and fits the 6-bit descriptor field.",
  "all element sequences", "depends on the worst pair in an unbounded sequence",
  [A+"delta_context.rs: init, finish_init, write_descriptor"])
p("Packing never costs more than one bit",
  "The packed form of an array is never more than one descriptor bit larger than the unpacked form, and it is chosen only when strictly smaller than the unpacked form with its descriptor bit.",
  "all integer arrays", "global size comparison",
  [A+"delta_context.rs: finish_init"])
p("Reported array size equals bits written",
  "For arrays of any integer type, packed or not, with or without per-element alignment, at any position, the size function returns exactly the number of bits the write function appends at that position.",
  "all arrays and positions", "relation between two traversals over unbounded data",
  [Z+"array.rs: zserio_bitsize, zserio_bitsize_packed, zserio_write"])
p("Packed unsigned 64-bit arrays crossing 2^63",
  "A packed uint64/varuint array with two consecutive elements on different sides of 2^63 that are close enough to be delta-packed aborts in a debug build, on writing and on reading, although a release build round-trips it; all other arrays behave the same in both builds. The same holds for int64/varint arrays with neighbours such as i64::MIN, i64::MAX.",
  "all uint64 arrays, both builds", "single boundary crossing",
  [A+"delta_context.rs: write, read"])
p("Packed signed arrays with mixed signs are not delta-packed",
  "A packed signed array with two consecutive elements of opposite sign has an unsigned difference above 2^62 (unless both are huge), so it is stored unpacked; it still round-trips.",
  "all signed arrays", "pairs in unbounded sequences",
  [A+"delta_context.rs: init"])
p("Packed arrays of non-integer elements lose data",
  "Arrays are always treated as packable by generated code; the bool, float and string element adapters map every element to 0, so a packed array of at least two such elements for which packing wins is read back as defaults after the first element.",
  "all arrays of bool/float/string", "depends on the packing decision",
  [A+"boolean_array_trait.rs", A+"float32_array_trait.rs", A+"string_array_trait.rs", G+"packed_contexts.rs: is_delta_packable"])
p("Array reads are protected against hostile lengths",
  "Reading an array reserves at most min(announced length, allocation chunk) elements in advance and grows only with elements actually decoded; the chunk setting never changes the decoded result. For unpacked elements of at least one bit memory is thus linear in the input; a packed array of equal elements needs no bits per element, so under 80 bits of input can decode to any number of elements.",
  "all lengths, chunk settings and inputs", "hostile length prefixes; any chunk value",
  [Z+"array.rs: set_array_alloc_chunk, zserio_read"])
p("Size of string arrays",
  "The size function of a string array counts one bit per byte instead of eight; it equals the written size exactly when all strings are empty.",
  "all string arrays", "universal statement over all arrays",
  [A+"string_array_trait.rs: bitsize_of"])
p("to_bytes produces exactly the written bits, zero-padded to a byte",
  "to_bytes returns ceil(b/8) bytes for b written bits, the written bits first and then zero bits; from_bytes of it sees the same bits.",
  "all objects", "any bit count modulo 8",
  [R+"lib.rs: to_bytes, to_writer, from_bytes, from_reader"])
p("from_bytes(to_bytes(v)) = v for generated types",
  "For every schema of structs, choices, unions, enums, bitmasks, optional fields, conditional fields, alignment, offsets, parameters and arrays, and every consistent value of its unparameterised types, if to_bytes succeeds then from_bytes of the result returns the value, also with arbitrary trailing bytes.",
  "all schemas, all values, all trailing data", "unbounded family of generated programs",
  [G+"encode.rs", G+"decode.rs", G+"zstruct.rs", G+"zchoice.rs", G+"zunion.rs", G+"zenum.rs", G+"zbitmask.rs", R+"lib.rs"])
p("Encodings are uniquely decodable in sequence",
  "Two values of the same type written at the same position such that one bit string is a prefix of the other are equal; hence consecutive fields can never be confused.",
  "all pairs of values", "pairs of values over an infinite domain",
  [G+"encode.rs", G+"decode.rs"])
p("Generated bitsize equals bits written",
  "For every generated type without bytes, extern, dynamic-width bit fields, string arrays, and bit:n fields or unions inside packed elements, zserio_bitsize(position) equals the number of bits zserio_write appends at that position; for the excluded kinds the generated function omits the header, counts 0 bits or counts another encoding.",
  "all schemas, values, positions", "unbounded family of generated programs",
  [G+"bitsize.rs: bitsize_type_reference, bitsize_field", G+"encode.rs"])
p("Conditional and absent fields occupy no space and read as default",
  "A field whose condition is false contributes no bits, and after from_bytes it has its default value; an absent optional field costs exactly one bit.",
  "all structs and values", "conditions range over all earlier field values",
  [G+"encode.rs: encode_field", G+"decode.rs: decode_field"])
p("Reading into a used object keeps stale optional fields",
  "zserio_read on an object that already holds data does not clear optional fields that are absent in the input, so the result depends on the previous contents; from_bytes always starts from the default object and is unaffected.",
  "all prior object states", "depends on history",
  [G+"decode.rs: decode_field", R+"lib.rs: from_bytes"])
p("Unknown enum values and union selectors",
  "Reading an enum returns an error exactly for wire values that are not declared; reading a bitmask accepts any bits; reading an undeclared union selector aborts.",
  "all wire values", "all undeclared values",
  [G+"zenum.rs", G+"zbitmask.rs", G+"zunion.rs"])
p("Enum values",
  "Enum items receive their explicit value or the previous value plus one; if all resulting values are distinct, converting an item to its wire value and back is the identity and conversion from a wire value inverts it. Exceptions: an item that asks for a named constant gets 0, and the largest 32-bit value aborts a debug-built compiler.",
  "all enum declarations", "unbounded declarations mixing explicit and implicit values",
  [G+"zenum.rs", I+"ast/zenum.rs"])
p("Bitmask values",
  "Implicit bitmask values are the doubling of the previous value (1 after 0); if no explicit value is given, item i is 2^i and all are distinct single bits; after an explicit value that is not a power of two the next value is not a single bit.",
  "all bitmask declarations", "unbounded declarations",
  [I+"ast/zbitmask.rs: evaluate"])
p("Packed struct arrays round-trip",
  "For every struct schema the packed form of an array of structs (per-field delta contexts, nested structs, optional fields, nested arrays) reads back the array written.",
  "all schemas, arrays", "contexts are shared between all elements",
  [G+"packed_contexts.rs", G+"encode.rs", G+"decode.rs", Z+"array.rs"])
p("Packed choices with populated unselected fields",
  "The packing context of a choice is initialised with every field of the choice, also unselected ones; if unselected fields hold data, the announced delta width can be too small for the values actually written.",
  "all arrays of choices", "depends on data in unselected fields",
  [G+"zchoice.rs: zserio_init_packing_context"])
p("Packed unions",
  "Packed writing of a union emits the selector but packed reading does not consume it, and no contexts are created, so packed arrays of unions do not round-trip.",
  "all arrays of unions", "asymmetry of two generated functions",
  [G+"zunion.rs: zserio_read_packed, zserio_write_packed"])
p("Constant expressions evaluate to their mathematical value",
  "When a debug-built compiler evaluates a constant expression, the value is the mathematical one and so is that of every subexpression; if a subexpression has no value or none in 32 bits, compilation aborts; a release-built compiler computes the same whenever all subexpressions fit. Operations on doubles give the double nearest to the result on real numbers, with integers converted to the nearest double, and comparisons are those of the real numbers. Exceptions, each shown by a witness: release builds wrap, a left shift drops bits, the equality of two booleans counts as false, an operand that is not selected or that is only known at run time can abort compilation.",
  "all expressions", "unbounded expression trees",
  [I+"ast/expression.rs"])
p("fully_resolved means independent of run-time values",
  "An expression reported as fully resolved has the same value for every run-time assignment of fields and parameters; true if the conditions of its conditional operators are resolved themselves; false otherwise, because a conditional only reports the flag of the operand it picks.",
  "all expressions and assignments", "quantifies over run-time values",
  [I+"ast/expression.rs: evaluate_ternary_expression"])
p("Mixing integer types",
  "The type of an arithmetic operation on two integer types maps to the Rust type that is signed if both are signed and as wide as the wider one, in either order; with equal signedness it has every value of both. Mixing uint64 or a bit field with a different type aborts the compiler. Two floating point types mix to the wider one, an integer and a floating point type to the latter. A name has the type it was declared with, through any chain of subtypes. Exception: a signed and an unsigned type mix to an unsigned one, without the negative values.",
  "all pairs of types", "all pairs incl. bit-field widths",
  [I+"ast/evaluate_mixing_native_types.rs"])
p("Name resolution prefers the own package, then nearest import",
  "Resolving a symbol returns the definition of the current package if there is one, otherwise that of an imported package at minimal import distance, earlier imports first; `import p.Symbol` counts as import of the whole package; a symbol that is missing is reported if the imports are acyclic, and is searched for ever if they have a cycle.",
  "all import graphs", "graphs of any shape and depth",
  [I+"compiler/symbol_scope.rs: resolve_symbol"])
p("Fundamental types",
  "Resolving a type through a chain of subtypes yields a builtin or compound type, never a subtype, the same for every name of the chain; it is idempotent; a chain that ends in a name that is not declared or is no type aborts; cyclic subtypes never terminate.",
  "all subtype declarations", "chains of any length",
  [I+"compiler/fundamental_type.rs: get_fundamental_type"])
p("Template instantiation names",
  "Two uses of templates have the same generated name only if they are written with the same template and argument names, provided no name involved begins another one. Uses with the same generated name share one definition; witnesses show that different uses do: A<BC> and AB<C>, A<bit:3> and A<bit:5>, A<B<X>> and A<B<Y>>, A<p.X> and A<q.X>.",
  "all templates and arguments", "pairs of instantiations",
  [I+"compiler/template_instantiation.rs: generate_instantiated_name"])
p("Template instantiation substitutes arguments",
  "In an instantiated struct/union/choice every field, parameter and function type is the template's with the arguments substituted for the parameters; existing declarations are unchanged, the type used instead is declared, and no template is left among the field types. Exceptions, each shown by a witness: parameters of choices, parameters inside the arguments of an argument, parameters whose type is a template; and a template whose first field is of its own type is instantiated for ever. A use of something that is no template, or with the wrong number of arguments, aborts.",
  "all templates", "unbounded declarations",
  [I+"compiler/template_instantiation.rs"])
p("Generated module tree is complete",
  "The generated top-level module file declares exactly the packages and the packages enclosing them, each once, in increasing order, independent of the order in which packages are visited; it loads the files of the packages that enclose no other package, and never those of the others. Package files declare each module as often as it is generated, in order; no file overwrites another if directories and module names differ; the files of the default package are overwritten.",
  "all sets of packages", "permutations of packages",
  [G+"mod_file.rs"])

p("Reading depends only on the bytes consumed; truncated messages never decode",
  "If reading succeeds on some input, for any type and any input, it consumes a prefix of it and gives the same value whatever follows; on an input cut off inside that prefix it never yields a value. In particular no proper prefix of the bytes to_bytes returns is accepted by from_bytes.",
  "all schemas, all inputs (not only encoder output), all truncation points", "all inputs and all truncation points",
  [G+"decode.rs", "crates/zserio/src/lib.rs: from_bytes", "crates/zserio/src/ztype"])

p("Documented wire format",
  "A value of a generated type is written as exactly the bits of the zserio format: fields in order, alignment, presence bits, varsize length prefixes, big-endian numbers, union selectors, and for packed arrays a descriptor (flag, 6-bit width) with the first element and fixed-width deltas after it, per leaf field; wherever it stands in the stream, in every build, and without failure for every value that has such a format.",
  "all schemas, all values with an encoding, all stream positions, both builds", "unbounded values and nesting; bit-exactness for interoperability",
  [G+"encode.rs", G+"zstruct.rs", G+"zchoice.rs", G+"zunion.rs", "crates/zserio/src/ztype/array.rs", "crates/zserio/src/ztype/array_traits/delta_context.rs"])

p("Successful results do not depend on the build or on out-of-range values",
  "If an operation on a generated type (writing, reading, sizing, creating and initialising packing contexts) succeeds in a debug build whose bit writer rejects out-of-range values, then it succeeds with the same result in every build and with every treatment of out-of-range values. With the same bit writer, a release build gives the same result or error as the debug build wherever the debug build does not panic.",
  "all schemas, values, inputs, stream positions, builds, behaviours of the bit writer on out-of-range values", "quantifies over the behaviours of a dependency",
  [G+"encode.rs", G+"decode.rs", "crates/zserio/src/ztype"])
p("Generated expressions mean what the schema says",
  "The Rust text generated for an expression is read by Rust with the grouping the schema's operator precedence gives it, with every name, literal and cast in its place; conditions of fields become boolean expressions. Exceptions, each shown by a witness: `!isset`, `-valueof`, and expressions for which no valid Rust is generated (unary +, ~, chained comparisons, `valueof(x) < y`).",
  "all expressions of the schema language", "unbounded expression trees",
  [G+"expression.rs"])
p("Integer literals of the schema",
  "An integer literal below 2^31 (decimal, hexadecimal, octal, binary) stands for the number its digits spell and the Rust literal generated for it denotes the same number; every other integer literal makes the compiler abort, none is misread. Exceptions, by witness: numbers from 2^31 on and the capital markers 0X and B cannot be written; no code is generated for binary literals.",
  "all texts of integer literals", "texts of any length",
  [I+"visitor.rs: visit_literalExpression", G+"expression.rs"])
p("String and floating point literals of the schema",
  "The value of a string literal is the text between the quotes; if its escapes are those Rust shares, the generated Rust literal denotes exactly the text the schema means. A double literal has the value its digits spell, rounded to binary64. Exceptions: \\f and \\u escapes give invalid Rust, octal escapes are silently misread, float literals (suffix f) always abort the compiler.",
  "all texts of literals", "texts of any length",
  [I+"visitor.rs: visit_literalExpression", G+"expression.rs"])
p("Types, alignments and imports of the schema",
  "The width of a bit field is the decimal number written, if it is at most 255, otherwise the compiler aborts; a qualified type name is split at its last dot; an alignment is the decimal literal written, if at most 255; an import names a package and one symbol or all. Exception: widths 0 and 65 to 255, which no bit field has, are accepted.",
  "all texts", "texts of any length",
  [I+"visitor.rs: visit_typeReference, visit_fieldAlignment, visit_importDeclaration"])
p("Declarations of a package",
  "If no two declarations of a package have the same name, each one is found under its name and code is generated exactly once for each that is no template; what is found under a name was declared with it, and nothing depends on the order in which hash maps are iterated. Exceptions, by witness: of two structures of the same name the first is lost without a message; of two declarations of different kinds one hides the other and their files overwrite each other.",
  "all packages, all orders of iteration", "unbounded sets of declarations, nondeterministic iteration order",
  [I+"visitor.rs: visit_packageDeclaration", I+"compiler/symbol_scope.rs: build_scope", G+"package.rs"])
p("Choice case labels and default case",
  "If the selector of a choice is a parameter, case labels written as plain names mean the items of its enum type; a label that is no item aborts the compiler. Exceptions, by witness: labels that are named constants and selectors that are no parameters abort the compiler; the default case is dropped, so that for every selector without a case nothing is written and nothing read, without a message.",
  "all choices, all selector values", "all schemas and selector values",
  [I+"ast/zchoice.rs: add_enumeration_type_prefix_to_choice_cases", I+"visitor.rs: visit_choiceDeclaration", G+"zchoice.rs"])
p("The result of template instantiation does not depend on the order of declarations",
  "The declarations of a package are visited in the order of a hash map. If different uses of templates get different names, then whatever the order is, the compiler succeeds with all or none, the same types are generated with the same contents, and the declarations use the same types. Exception, by witness: for colliding names the generated type is that of whichever use is visited first.",
  "all packages, all orders of declarations", "all permutations, recursion of any depth",
  [I+"model.rs", I+"compiler/template_instantiation.rs"])
p("Values computed by generated expressions",
  "Arithmetic, comparisons and logical expressions over integers and booleans: a result is signed if both operands are and as wide as the wider one, literals take the type of the other operand, comparisons are between equal types. If every number that arises fits the type these rules give it, then Rust accepts the generated expression at that type, and both debug and release builds compute exactly the value the expression has in unbounded integers; conditions of fields, constants and the results of functions likewise (a function's result is reduced to its return type). For all other expressions over integers, booleans, enums and bitmasks: if Rust accepts the code and no operation loses bits, both builds compute the schema's value. Exceptions, each by witness: accepted schemas whose code is no well-typed Rust (comparing different types, minus of unsigned, literals outside the type of the other operand, bitwise operands mixed with other types), functions that silently return another number.",
  "all expressions, all values of their names, both builds", "unbounded expression trees and all values",
  [G+"expression.rs", G+"casts.rs", G+"function.rs", G+"zconst.rs", G+"types.rs: zserio_to_rust_type", I+"ast/evaluate_mixing_native_types.rs"])

p("Fields of builtin types by name",
  "For every spelling of a builtin type in a schema (uint8 ... bit:N, int<expr>, varsize, bytes, extern), the generated code calls runtime functions and array traits that exist for the Rust type of the field, and these write and read exactly the wire format of the spelled type; the generated size is the number of bits; the Rust type holds every value of the schema type; exactly the integer types take part in delta packing. Exceptions, by witness: bit and int without a length, lengths after other types; sizes of dynamic bit fields, bytes and extern.",
  "all spellings of builtin types, all widths, all values, all length expressions", "all values, widths and expressions; each name is spelled in six separate tables",
  [G+"encode.rs: encode_type", G+"decode.rs: decode_type", G+"bitsize.rs", G+"array.rs: initialize_array_trait, get_array_trait_for_type", G+"packed_contexts.rs: is_delta_packable", G+"types.rs", I+"visitor.rs: visit_typeInstantiation"])

p("Whole packages with their expressions",
  "For a package whose expressions are of the kind of C53 (array lengths, widths of bit fields, conditions, type arguments including @index, selectors and case labels, over parameters, earlier fields and their members, lengths of arrays, constants and enum items): if a value has a wire format when the expressions are evaluated as the schema says, in unbounded integers, and the numbers that arise fit their types, then the generated code, running the Rust expressions that were printed into it, writes exactly these bytes in debug and release builds, and reads them back as the value. Exceptions, each by witness: type arguments of the form valueof(x), sums that need a conversion, @index alone, and conjunctions give code that is no Rust, does not type check or rejects correct values.",
  "all packages, all values, both builds", "all schemas and values; the expressions pass through four tables and two printers",
  [G+"encode.rs", G+"decode.rs", G+"array.rs", G+"zchoice.rs", G+"pass_parameters.rs", G+"casts.rs", G+"expression.rs"])

p("Embedding objects",
  "ExternType::from_object gives, in debug and release builds, an extern value with exactly the bits of the object and the bytes of to_bytes, or an error if these are 2^32 bits or more; writing it as an extern field and reading that field gives the same value, and from_bytes on its bytes gives the object. Exceptions: objects of 2^31 bits or more, for which writing aborts, and objects with a bytes field, for which debug builds abort and release builds cut the object off.",
  "all schemas, objects, positions and following bits", "for every object and size; the size is computed by other code than the bytes",
  ["crates/zserio/src/ztype/extern_type.rs: ExternType::from_object, read_extern_type, write_extern_type", "crates/zserio/src/lib.rs: to_bytes, from_bytes"])

p("Names and access paths across files",
  "Inside a declaration, a name means the member of that name, or else the declaration of that name in the package or any package it imports directly or indirectly; a.b.c means the member of the type of what stands before it. If no two packages in sight declare the same name, every such path through structures and choices is evaluated to exactly that symbol, with the type it was declared with, through subtypes of any package, whatever the order of the compiler's hash maps. Before that, every type reference that names no package is completed with a package in sight that declares it, and nothing else changes; this succeeds if all names are declared. Exceptions: members of unions are never found, and names declared in two packages are confused, by witness.",
  "all schemas, import graphs, nesting depths, hash orders", "all schemas, all depths of access paths and import graphs, all iteration orders",
  [I+"compiler/symbol_scope.rs", I+"compiler/resolve_types.rs", I+"compiler/fundamental_type.rs", I+"ast/expression.rs: evaluate_dot_expression, symbol_to_expression_type", I+"model.rs"])
p("Every schema file is compiled",
  "The files whose names end in .zs or .zserio, in capitals or not, are loaded, in whatever order they are visited, and no others; a schema file that cannot be parsed stops the compiler. Exception: of several files with the same package only the one visited last is kept, without a message.",
  "all directories, all orders of visiting them", "all file names and orders",
  [I+"model.rs: Model::from_filesystem"])

p("From schema files to bytes",
  "For a schema given by its files (packages with imports, subtypes, constants, enums, bitmasks, structures, choices and unions with parameters): the names in its expressions mean what C64 says, and the expressions have the values that the rules of arithmetic of C60 give them; these rules give at most one value. If a value of one of its types has a wire format with the expressions evaluated so, then the generated code, with the names looked up by the compiler, in whatever order its maps are iterated, and with the literals typed by Rust's inference, writes exactly these bytes in debug and release builds, and reads them back as the value.",
  "all schemas of any number of files, all values, both builds, all hash orders", "all schemas and values; it needs name resolution, type evaluation, printing, casts, and coding to fit together",
  [I+"compiler/symbol_scope.rs", I+"ast/expression.rs", G+"expression.rs", G+"casts.rs", G+"encode.rs", G+"decode.rs", G+"array.rs", G+"pass_parameters.rs"])

p("The printed functions",
  "For the structures, choices, unions, enums and bitmasks of a schema, the functions the generator prints (write, read, bit size, creation and initialisation of packing contexts, plain and packed) are well nested Rust statements; run statement by statement, with their local variables, loops over array elements, blocks of optional and conditional fields, parameter checks, struct literals with default values and context indices, they return what the properties of this list say of the generated code. In particular, from schema files through the printed statements to the bytes: the bytes of the wire format are written and read back. Exception, by witness: a field in the default case of a choice is printed between parentheses, which is not Rust.",
  "all schemas, all objects, all depths of nesting, both builds", "all declarations and combinations of optional, conditional, array, packed and parameterised fields; each combination is printed by different code",
  [G+"zstruct.rs", G+"zchoice.rs", G+"zunion.rs", G+"zenum.rs", G+"zbitmask.rs", G+"encode.rs", G+"decode.rs", G+"bitsize.rs", G+"array.rs", G+"packed_contexts.rs", G+"pass_parameters.rs", G+"index_offsets.rs"])

p("The syntax tree says what the schema says",
  "The syntax tree the compiler builds of a declaration, written down again as schema text, is the text of the declaration, except for what the compiler ignores: extend, explicit, @deprecated and @removed, packed and implicit without an array, align(0), the width 0, constraints of fields of choices and unions, the default case of choices, a trailing comma; and what is ignored makes no difference. Every expression is taken for the one of the parse tree. A file becomes a package with its name, its imports and its declarations in order. A declaration is accepted exactly if its integer literals are below 2^31 and without capital markers, it has no float literal, widths and alignments are at most 255 and alignments are decimal literals; otherwise the compiler aborts. Exceptions: a file without package name, which the grammar allows, makes the compiler abort, and so do literals in ignored directives.",
  "all parse trees of schema files", "unbounded nesting of expressions, types and declarations; each alternative of the grammar is visited by different code",
  [I+"visitor.rs", I+"parser/ZserioParser.g4", I+"ast/expression.rs: evaluate_expression"])

p("From parse trees to bytes",
  "Given the parse trees of the files of a schema: loading ends well exactly if all schema files name their package and contain only literals the compiler can read, else the program aborts; the scopes then contain the names and types that the files declare, and type resolution adds nothing but the packages of names. If a package is what the files say (declarations, fields, conditions, arguments, lengths, labels and items as written in the trees, the types as the resolved names have them), then the loaded syntax trees hold it, and for every value that has a wire format, with the expressions evaluated by the rules of arithmetic, the generated code writes exactly these bytes in debug and release builds and reads them back. A constant written with literals is loaded as written, and the Rust constant has the value it has in the schema.",
  "all schemas of any number of files, all values, both builds, all hash orders", "all parse trees, import graphs and values; it needs the visitor, name resolution, evaluation, printing and coding to fit together",
  [I+"model.rs", I+"model/package.rs", I+"visitor.rs", I+"compiler/symbol_scope.rs", I+"compiler/resolve_types.rs", I+"ast/zchoice.rs", G+"encode.rs", G+"decode.rs", G+"zconst.rs"])

p("What was decoded can be written again",
  "A value decoded from any bytes, canonical or not, by a debug or release build, is written again by every build without error, as the same bytes everywhere, and these bytes decode to the value, whatever follows them; provided that it keeps to the limits of the writer: varsize numbers and lengths are below 2^31, int<e> fields have at least one bit, type parameters contain no floating point number, and packed arrays (of builtin types) hold values of their type. Exceptions, by witness: beyond these limits a message can be read, but writing the decoded value fails: a varsize number from 2^31 on, a packed array whose differences lead out of the range of its type, a parameter that is NaN.",
  "all schemas whose packed arrays have builtin types, all byte sequences, all builds", "all malformed and non-canonical inputs: over-long numbers, padding bits, trailing bytes",
  [G+"decode.rs", G+"encode.rs", G+"zstruct.rs", G+"zchoice.rs", G+"zunion.rs", Z+"array.rs", Z+"varuint_decode.rs", Z+"varuint_encode.rs", R+"lib.rs: from_bytes, to_bytes"])

p("Declarations in the generated crate",
  "In the generated crate the path of every declaration of the schema names one item and no other, and that item is the declaration in Rust: parameters and fields in their order under their converted names, arrays as Vec, optional fields as Option, each builtin type as a Rust type that holds all its values, each other type as the path of the item of the type referred to; enums and bitmasks with all their items and values; provided that packages have different directories, none inside another, and modules have different names. The printed paths can be read in one way only. Names in the files do not conflict exactly if the converted names of the schema are identifiers, differ where they have to and are not among the imported names; all types implement the trait of the runtime with its signatures. Exceptions, by witness: fields named as keywords, a type named Result, a union field named unionSelector, a package lib without a root package.",
  "all schemas, all conversions of names, all hash orders", "all combinations of packages, names and types; conflicts depend on pairs of names in different places",
  [G+"types.rs", G+"preamble.rs", G+"package.rs", G+"model.rs", G+"mod_file.rs", G+"zstruct.rs", G+"zchoice.rs", G+"zunion.rs", G+"zenum.rs", G+"zbitmask.rs", G+"subtype.rs", G+"zconst.rs", G+"function.rs", Z+"traits.rs"])

p("Reading a schema file",
  "A schema that is written down as the grammar says is read back exactly as it was: the package, its imports and declarations, every field with alignment, offset, type, arguments, array range, initialiser, condition and constraint, and every expression with its operands grouped by the levels of the operators, binary operators to the left and the conditional operator to the right. Whatever tree is read has exactly the tokens of the file, in their order; the parser always ends, and a file that is not the tokens of a tree is rejected; two different schemas never have the same tokens. Exceptions, by witness: a field of a type with template arguments and a constraint that compares twice (X<a> x : T<b> c) is read as the offset of another field, and a length behind a named type is read as a template argument.",
  "all schema files, expressions and types of any size and depth", "unbounded nesting; the parser looks ahead without bound and the grammar is ambiguous in places",
  [I+"parser/gen/zserioparser.rs", I+"parser/ZserioParser.g4", I+"model/package.rs"])

p("From the text of a schema file to its tokens",
  "Tokens that are written down in a text, with any number of blanks, line comments and comments in /* */ before, between and behind them, are read back; between two tokens a gap is needed only where they would form another token (after a word or number no letter, digit or underscore, after an integer no point, after an operator none that makes it another one), and a space is always enough. Whatever tokens are read from a text, the text consists of these tokens, blanks and comments, and no token is shorter than it could be; names are no keywords. Together with the parser: a schema written as a text, in any layout, is read back as its tree, the tree read from a text has the tokens of the text, and reading always ends. Exception, by witness: an empty comment /**/ reaches to the end of the next comment, so that what stands between them is lost.",
  "all texts of any length, all sequences of tokens, all layouts", "all sequences of characters; what a token is depends on the longest match among eighty rules",
  [I+"parser/ZserioLexer.g4", I+"parser/gen/zseriolexer.rs", I+"model/package.rs"])

p("From the texts of schema files to bytes",
  "Given a directory with the texts of schema files, written in any layout, among other files: it is loaded as the schema written in these texts. Loading a directory without syntax errors ends well exactly if all its schema files name their package and contain only literals the compiler can read, else the program aborts. The scopes of the compiler then hold the names and types written in the texts, and for every value that has a wire format of the schema, the generated code writes exactly these bytes and reads them back, in debug and release builds; constants written with literals have in Rust their value in the schema. Blanks and comments make no difference. Every tree that is read from a text has the form (literals, names, widths, arguments) that the visitors rely on.",
  "all directories, texts, layouts, schemas, values, builds and hash orders", "all texts; lexer, parser, visitor, name resolution, evaluation, printing and coding have to fit together",
  [I+"model.rs", I+"model/package.rs", I+"parser/ZserioLexer.g4", I+"parser/ZserioParser.g4", I+"visitor.rs", I+"compiler/symbol_scope.rs", G+"encode.rs", G+"decode.rs"])

p("Functions of a schema",
  "The method generated for a function of a struct, choice or union that returns a number or a boolean returns, for every object, the value that the rules for names and arithmetic give the expression of the function: names are parameters and fields of the object and constants, calls are calls of functions of the object itself or of the objects in it, to any depth; in debug and release builds alike. The rules give at most one value. A number that the return type does not have is silently reduced modulo the width of the type, in debug builds too. The code that is run is the one Rust reads in the generated text.",
  "all schemas, functions, objects, call depths, builds and hash orders", "unbounded nesting of calls and expressions; all values of fields",
  [G+"function.rs", G+"expression.rs", I+"ast/zfunction.rs", I+"ast/expression.rs", I+"compiler/symbol_scope.rs"])

p("Functions called in the expressions of fields",
  "Schemas whose conditions, array lengths, bit field widths and arguments call functions, of the object itself or of the objects in it: if a value has a wire format when every call has the result that the rules for names and arithmetic give it, the printed code, with the methods generated for the functions, writes exactly these bytes and reads them back, in debug and release builds; provided that the functions called for a field name only parameters and fields before it, also through the functions they call. Results by the rules exist for every schema, by calculation.",
  "all schemas, functions, values, call depths, builds and hash orders", "unbounded nesting of calls, expressions and types; while reading, functions run on an object of which only a part is there",
  [G+"function.rs", G+"expression.rs", G+"encode.rs", G+"decode.rs", G+"zstruct.rs", I+"ast/zfunction.rs", I+"compiler/symbol_scope.rs"])

p("Float16 values are rounded to the nearest",
  "Every finite single-precision number that is written as a float16 is stored as the nearest half-precision value, the even one of two equally near ones (IEEE 754 roundTiesToEven), with its sign, and as infinity from halfway behind the greatest finite value on; infinities and NaNs stay what they are. What is read back has exactly the stored value.",
  "all 2^32 bit patterns of f32, all stream positions", "four thousand million values, and rounding errors show in few of them",
  [Z+"float_encode.rs: write_float16", Z+"float_decode.rs: read_float16"])

p("From the texts of a schema with functions to the bytes",
  "When the schema files in a directory are the texts of a schema whose conditions, lengths, widths and type arguments call functions, the compiler holds exactly the functions written in the texts, and the code it prints, with the methods printed for the functions, writes every value as its wire format and reads it back, where calls have the results the rules for names and arithmetic give them.",
  "all directories whose files are texts of such schemas, however blanks and comments are placed, all iteration orders of the maps, all values, both builds",
  "composition of lexer, parser, visitor, name resolution, expression evaluation, printing of functions and of coding functions",
  [I+"visitor.rs: visit_functionDefinition", G+"function.rs", G+"encode.rs", G+"decode.rs", I+"model.rs: from_filesystem"])

p("The fields that offsets are kept in",
  "After the evaluation of a schema the offset fields are exactly the fields that the offset of some field of some structure names: a path over fields and parameters, in any package, with or without an index behind it. Such a path is accepted unless the field that has the offset is itself on it. An offset that names no field, a field in parentheses, and a path with the field itself on it abort the compiler. With these marks the code generated from the texts of a schema with offsets writes every value as its wire format and reads it back (together with C69, C74 and C78): a field with an offset, or each element of an array with an indexed one, starts at the next full byte.",
  "all schemas of any number of packages, paths of any length, hash orders and builds", "unbounded paths through unboundedly many declarations and packages; a mark on the wrong field shows only in schemas that use it",
  [I+"ast/field.rs: evaluate", I+"ast/zstruct.rs: evaluate", I+"ast/expression.rs", I+"model.rs: evaluate", G+"index_offsets.rs", G+"encode.rs", G+"decode.rs"])
p("Data from anywhere does not abort a reader",
  "For every type of a schema without strings, extern types, unions and packed arrays, whose expressions have values for all values of the fields and whose computed bit widths are at most 64, reading any sequence of bytes returns a value of the type or an error: it neither aborts nor runs for ever. Types may contain arrays of themselves if the lengths are in the data; the calls are then nested at most proportionally to the number of bytes, but the schema does not bound the depth. A value that is returned has all its numbers in the ranges of their declared types, the items of enums among the declared ones, and arguments of the parameters' types. Without these conditions it is false: truncated strings, extern types and packed arrays, unknown union selectors, widths above 64, and array lengths that are computed although the field is absent all abort, and an array of its own type with a length that is not in the data is read for ever.",
  "all such schemas, all byte sequences, both builds", "hostile input space, schemas of any nesting",
  [R+"lib.rs: from_bytes", G+"decode.rs", G+"zstruct.rs", G+"zchoice.rs", G+"zenum.rs", G+"zbitmask.rs", G+"array.rs"])
p("Decoded values are not much larger than the data",
  "For every type of a schema without packed arrays, recursive or not, in which every array element takes at least one bit and arguments of types are not arrays or objects of unbounded size, there are two numbers such that every value that is read from any data is at most the first number plus the second times the number of bytes: a small message cannot be decoded to a huge value. Without these conditions it is false: five bytes can be read as an array of two thousand million elements that take no bits (and ten as a packed array), and arguments that are objects are copied into every element, so that the size can be that of the data squared.",
  "all such schemas, all byte sequences, both builds", "hostile input space, schemas of any nesting",
  [G+"decode.rs", G+"zstruct.rs", G+"zchoice.rs", G+"zunion.rs", Z+"array.rs: zserio_read", Z+"string_decode.rs", R+"lib.rs: from_bytes"])
p("Which schema changes keep data readable",
  "When fields are added at the end of a structure, a reader generated from the shorter structure accepts whatever a reader of the longer one accepts, and sees the same values in the fields it knows, trailing bytes or not. The other way round, a reader of the longer structure never accepts a message of the shorter one if the first added field is always present and takes at least a byte; a smaller field is silently read from the padding, and a string aborts. When alternatives are added at the end of unions and items at the end of enums and bitmasks anywhere in a schema, every byte sequence that a reader of the old schema accepts for any type is accepted by a reader of the new schema with the same values. The other way round, an old reader aborts on an added alternative and returns an error for an added item.",
  "all schemas and their extensions, all byte sequences, all values, both builds", "pairs of schema versions and hostile or old data: unbounded schemas and messages",
  [R+"lib.rs: from_bytes, to_bytes", G+"decode.rs", G+"zstruct.rs", G+"zunion.rs", G+"zenum.rs", G+"zbitmask.rs"])

p("Equality of generated objects",
  "The == of generated types says whether two objects have the same members, with floating point numbers compared as IEEE 754 says: parameters, the selector, all fields, also alternatives that are not selected and fields whose condition is false, options, arrays of the same length, strings, and extern data with their bit sizes. It is symmetric and transitive, and an object equals itself exactly if no NaN is in it. What is decoded from the bytes of an object, whatever follows them, equals the object exactly if it contains no NaN. Equal objects without zeros among their floating point numbers are written as the same bytes, and objects written as the same bytes are equal, without NaN. Exceptions, by witness: the two zeros are equal but written differently, a NaN is decoded as it was but not equal, and values left in members that are not written make the decoded object different from the original.",
  "all objects of all schemas, all bit patterns of floats", "all pairs and triples of objects; the exceptions are single bit patterns",
  [G+"zstruct.rs: derive", G+"zchoice.rs: derive", G+"zunion.rs: derive", Z+"extern_type.rs: derive", Z+"bytes_type.rs: derive"])

p("Members that are not written do not matter",
  "Objects that are the same except in alternatives that are not selected and in fields whose condition is false, in them and in the objects and unpacked arrays of objects in them, are written as the same bytes (or fail alike), have the same size, and are decoded as the object that has default values in these places, provided that the expressions of the written fields have the same values in both. Two objects are written as the same bytes exactly if they are the same with default values in these places. Exceptions, by witness: if a condition looks at a field that is not written, the value left in it decides what is written, but not what is read; in packed arrays of choices the numbers in alternatives that are not selected change the bytes.",
  "all schemas, all pairs of objects, all builds", "all values that can be left in members that are not written, at any depth",
  [G+"encode.rs: encode_field", G+"bitsize.rs", G+"zstruct.rs", G+"zchoice.rs", G+"zunion.rs", R+"lib.rs: to_bytes"])

p("Objects that do not follow the schema are never written",
  "For every schema whose packed arrays are arrays of fixed-size integers, varuint or varint, and a bit writer that rejects numbers that do not fit their bits: whatever object is serialized without an error has a wire format, and the bytes are that format. So numbers fit their bit widths and the limits of variable-length types, arrays have the lengths the schema asks for, the members that are written are present, and objects have the type parameters the schema gives them; an object that violates this anywhere is refused with an error or an abort. An object that a debug build accepts is accepted by every build, with the same bytes. Exceptions, by witness: a bit writer that cuts numbers off writes them, numbers that do not fit are written into packed arrays of bit fields and read back, and a buffer whose stored size is not that of its bytes is written.",
  "all such schemas, all objects that Rust's types allow, both builds", "invalid objects are an unbounded space, and each way of being invalid can be nested at any depth",
  [R+"lib.rs: to_bytes", G+"encode.rs", G+"zstruct.rs", G+"zchoice.rs", G+"zunion.rs", G+"zenum.rs", G+"zbitmask.rs", Z+"array.rs: zserio_write", Z+"varuint_encode.rs", Z+"varint_encode.rs"])

p("One message per value",
  "In schemas whose numbers have the widths the schema gives (fixed integers, bit fields, computed widths, bool, float32 and float64, enums and bitmasks of these), whose arrays have lengths given by expressions, and that have no alignment, offsets, packed arrays and unions, every decoded value has one sequence of bits such that the data that are decoded to it are exactly those that begin with this sequence: no accepted message can be changed in a bit that is read without changing the value. If the value keeps to the limits of the writer, the sequence is what every build writes for it, up to less than eight zero bits at the end, and a message that fills its bytes is byte for byte the one that is written. For these values, the data that are accepted are exactly those that begin with the wire format of a value that is consistent with the schema. Without these conditions it is false, by witness: numbers, array and string lengths and union selectors in more bytes than needed, the bits skipped for an alignment, and NaNs of float16 give several messages for one value.",
  "all such schemas, all byte sequences, all builds", "all pairs of messages that are decoded to the same value",
  [R+"lib.rs: from_bytes, to_bytes", G+"decode.rs", G+"zstruct.rs", G+"zchoice.rs", G+"zenum.rs", G+"zbitmask.rs", Z+"array.rs: zserio_read", Z+"bits_decode.rs"])

p("The constants for the limits of integer types",
  "The constants MIN_ and MAX_ of every integer type are evaluated without overflow, and a number of the type's Rust type can be written and read back, by every build, exactly if it lies between them. Whatever is read, from any data, lies between them. Exception, by witness: MIN_VARINT cannot be written and read back, and no reader ever returns it.",
  "all sixteen types, all numbers of their Rust types, all data", "all numbers of 64-bit types and all byte sequences",
  [Z+"limits.rs", Z+"varint_encode.rs", Z+"varuint_encode.rs", Z+"varint_decode.rs", Z+"varuint_decode.rs", Z+"bits_encode.rs", Z+"bits_decode.rs"])

p("The sizes of messages",
  "From the schema alone follow a least and a greatest number of bits of the values of a type: builtin types have the limits of their encoding, fields add up, an optional field adds a bit, a condition can leave a field out, an alignment or offset skips less than its value, a choice or union takes one of its fields (and a union a selector in front), an array takes its elements as often as its length allows; arrays with a length in the data, strings, buffers, packed arrays and types that contain themselves have no greatest number. Whatever the data are and wherever an object is read, it takes a number of bits between these limits. So data that are shorter than the least size are never accepted, a buffer of the greatest size is always enough and what follows does not matter, and what is written for a value of the schema is between the limits, up to less than eight bits at the end. The same holds of the printed functions if data cannot make them abort. The limits of variable-length numbers are met. A type that contains itself has no limit at all.",
  "all schemas, all byte sequences, all values of the schema, both builds", "all messages of unbounded schemas; sizes at the limits need particular values everywhere in a message",
  [R+"lib.rs: from_bytes, to_bytes", G+"decode.rs", G+"zstruct.rs", G+"zchoice.rs", G+"zunion.rs", G+"zenum.rs", G+"zbitmask.rs", Z+"array.rs: zserio_read", Z+"alignment.rs", Z+"varuint_decode.rs", Z+"varint_decode.rs"])

p("Generated types have a size, the traits they derive, and their interface",
  "Names and paths aside (C71), the generated types are what Rust asks for. A generated type has a size that rustc can compute exactly if values of the type in the schema do not contain values of the type itself other than through arrays. If subtypes do not go round in circles and no union is without fields, every generated type has the traits Debug, Default, Clone and PartialEq, enums also Copy, Eq and Hash, and whatever a structure derives, the types of all its members have. Every file imports what its code names, from where the library exports it, and offers what belongs to the declaration: the functions of the schema are public methods without arguments that return the type of the schema, a union has an enum with a variant for each field, numbered in order, and a public function that makes it from a number, numbers are converted to enums by TryFrom, and a bitmask has a default. Exceptions: a structure with an optional field of its own type, as in a list, is rejected by rustc, as Option holds its value in place, and so is a union without fields, whose selector has no default.",
  "all schemas of any number of packages and types, any nesting, all orders in which hash tables are visited", "cycles through any number of types; every combination of declarations",
  [G+"zstruct.rs", G+"zchoice.rs", G+"zunion.rs", G+"zenum.rs", G+"zbitmask.rs", G+"types.rs", G+"preamble.rs", R+"lib.rs", R+"vendor.rs"])

p("Reproducible output of the compiler",
  "The compiler keeps packages and declarations in hash tables whose order differs from run to run. Whatever the orders are, every run on a schema writes the same files with the same declarations, and if one run succeeds all do, provided that no two declarations belong in one file. The file of a declaration stays the same whatever else changes in the schema, as long as the types it is based on and the values of its items do, and the file of a package as long as its declarations have the same names. Exception, by witness: two declarations whose names differ only in ways that disappear in the names of modules overwrite each other, and which one is left depends on the order of the hash table.",
  "all schemas, all orders of hash tables, all pairs of schema versions", "the order of a hash table is random in each run; all changes elsewhere in a schema",
  ["crates/zserio-rs-build/src/internal/model.rs", G+"model.rs: generate_model", G+"package.rs: generate_package", G+"mod_file.rs", G+"file_generator.rs"])

p("Interrupted writes and short reads",
  "Whatever the sink of to_writer does in each call (take any part, be interrupted, fail, or the process be killed between calls), it has received the beginning of the bytes of to_bytes, and the call succeeds exactly when it has received all; nothing is written for a value that cannot be serialized. A sink that takes something when asked and does not fail receives all, and an error of the sink or source is returned. A message that was cut anywhere is never read as a value. Reading with from_reader gives the same result in whatever pieces the bytes come. A value that comes out of a writer, any device and a reader is the one that went in. Writing over an older message is safe once the call has succeeded.",
  "all behaviours of sink and source in every call, all points at which the process ends, all schemas and values", "every crash point and every split into pieces, for every message",
  [R+"lib.rs: to_writer, from_reader, from_file"])

p("Strings in functions and constants",
  "The Rust code generated for a function that returns a string is accepted by rustc exactly if the function does not just return a literal or a constant, and then the function returns the value that its expression has in the schema (strings from literals, constants, fields, parameters, members, function calls and +). The code generated for a constant of a string type is accepted exactly if its value is a literal or another constant, and then it has that value. A condition that compares strings is accepted and holds exactly when it holds in the schema.",
  "all string expressions of any depth, all scopes and values of the names in them", "the choice between a copy, a conversion and a reference depends on the whole expression; expressions of any depth",
  [G+"function.rs: generate_function", G+"zconst.rs: generate_constant", G+"expression.rs: generate_expression"])

p("Objects that functions return",
  "The Rust code generated for a function that returns a declared type is accepted by rustc exactly if the type is copied, or every value that the expression can have is an item of an enum or bitmask or the result of another function; then the function returns the value that the expression has in the schema (fields, parameters, their members at any depth, items, calls, parentheses, conditional expressions). The types of enums and bitmasks are copied, those of structures, choices and unions are not. So a function that returns a field of a structure type, which the schema language allows, becomes code that rustc rejects.",
  "all expressions of any depth, all scopes, all declarations of all schemas", "whether a value may be moved depends on every branch of the expression and on the declaration of its type in any package",
  [G+"function.rs: generate_function", G+"expression.rs: generate_expression", G+"zstruct.rs", G+"zchoice.rs", G+"zunion.rs", G+"zenum.rs", G+"zbitmask.rs"])

p("Doubles in functions and constants",
  "The Rust code generated for a function that returns a float64, and for a constant of that type, is accepted by rustc and gives the value that the expression has in the schema, rounded as IEEE 754 says, for expressions made of float literals, names of the type float64, unary minus, parentheses and + - * /, in which integers that have a type (fields, parameters, sums of them) stand beside operands with names of doubles. The compiler does not fail on such an expression if it does not on the names and integers in it. A condition that compares two such expressions is accepted and holds exactly when it holds in the schema. Exceptions: an integer literal beside such an expression, as in d + 1, and an integer field beside float literals only, as in n + 0.5, which the schema language allows, are written as they are, and rustc rejects a function with them.",
  "all such expressions of any depth, all scopes and values of the names in them", "whether an integer is converted depends on the types of all operands, in expressions of any depth; all doubles, infinities and not-a-number among them",
  [G+"function.rs: generate_function", G+"zconst.rs: generate_constant", G+"expression.rs: generate_expression, generate_boolean_expression"])

with open(os.path.join(os.path.dirname(__file__), "..", "properties.jsonl"), "w") as f:
    for x in P: f.write(json.dumps(x) + "\n")
print(len(P))
