{
 "C07": [
  "proved",
  "Exact characterisation: all values but i64::MIN round-trip; the two builds' behaviour on i64::MIN."
 ],
 "C08": [
  "proved",
  "Exact set of accepted inputs; ambiguity shown for every value."
 ],
 "C18": [
  "proved",
  "Allocation size is modelled as the length passed to the buffer constructor."
 ],
 "C19": [
  "proved",
  "Strings, bytes, extern, scalars, integer arrays (packed and not), union selectors."
 ],
 "C21": [
  "proved",
  "Every kind in a release build; every kind narrower than 64 bits in both builds; 64-bit kinds in debug builds: see C25."
 ],
 "C23": [
  "proved",
  "Without per-element alignment (padding depends on positions)."
 ],
 "C27": [
  "proved",
  "Exact result of the round trip for bool, float16/32/64 and strings; bytes and extern arrays abort."
 ],
 "C28": [
  "proved",
  "The chunk size is not an input of the decoding function, only of its memory use, as in the code; the growth rule of Vec is modelled. Packed arrays of equal elements: C28_packed_unbounded."
 ],
 "C29": [
  "proved",
  "Unpacked, without per-element alignment."
 ],
 "C31": [
  "proved",
  "Schemas, expressions and values as in S_Gen.v: expressions are any functions of parameters and earlier fields. Packed arrays inside the value: structs (and choices whose announced widths suffice); packed bool/float/string arrays only where C27 loses nothing. Offsets are not values (never written)."
 ],
 "C39": [
  "proved",
  "Types without choices and unions inside (those are C40, C41). Nested arrays, optional and conditional fields, enums and bitmasks included; no overflow-mode restriction."
 ],
 "C34": [
  "proved",
  "The fields before and after are written with the model's own field loop; from_bytes for every input."
 ],
 "C35": [
  "proved",
  "Stale contents: general theorem plus a concrete refutation of history independence."
 ],
 "C36": [
  "proved",
  "Enum/bitmask over any static integer type; union for every selector."
 ],
 "C40": [
  "proved",
  "Refuted by a witness that has only default values in unselected fields; positive parts: announced widths sufficient, and choices between zero-default builtin fields."
 ],
 "C41": [
  "proved",
  "Refutation for every list with a nonzero selector and for every first element holding an integer or object; witness for selector 0."
 ],
 "C50": [
  "proved",
  "No hypotheses on the schema except for the to_bytes corollary."
 ],
 "C33": [
  "proved",
  "For every successful write of a type whose parts are in the list of S_Size.v (strings below 4 GiB, bit writer that appends the requested number of bits). Each kind left out is shown to be reported wrongly: bytes, extern, dynamic width (all values), bit:n and unions inside packed elements (counterexample), string arrays (C29)."
 ],
 "C51": [
  "proved",
  "The format is the separate specification S_Wire.v (inductive, no writers or contexts). Left out of it: unions and bytes/extern inside packed elements (C41), values out of range. Decoding it is C31."
 ],
 "C37": [
  "proved",
  "Values of items with constant integer expressions, both builds; conversion from integers. Refuted parts: items that ask for a named constant get 0; the largest i32 aborts a debug-built compiler."
 ],
 "C38": [
  "proved",
  "Exact values for non-negative requests; refuted parts: shared bits after a value that is no power of two, 65th constant, negative values."
 ],
 "C42": [
  "proved",
  "Exact for debug-built compilers and for both builds when every subexpression fits 32 bits; refuted parts: release wraps, left shift drops bits, equality of booleans is taken as false, unselected operands and dummy operands can abort."
 ],
 "C43": [
  "proved",
  "Proved when the conditions of conditionals are themselves resolved; refuted otherwise."
 ],
 "C44": [
  "proved",
  "All 16 x 16 mixable names; every other type aborts."
 ],
 "C45": [
  "proved",
  "Exact: own package first, then nearest package; missing names reported for acyclic imports; non-termination for cyclic ones (refuted part)."
 ],
 "C46": [
  "proved",
  "Chains of any length; cyclic subtypes never terminate (refuted part)."
 ],
 "C47": [
  "proved",
  "Distinctness for prefix-free names, sharing in general, and witnesses for the collisions."
 ],
 "C48": [
  "proved",
  "Substitution for fields, functions and struct/union parameters; the exceptions are stated by *_refuted theorems. Template arguments inside the declaration must use the parameters directly (C48_nested_refuted shows why)."
 ],
 "C49": [
  "proved",
  "Module names are any function of the schema names (the snake-case conversion is a dependency)."
 ],
 "C53": [
  "proved",
  "The reader of Rust expressions is a specification (S_Print) of precedence and grouping for the operators generated; exceptions by *_refuted theorems."
 ],
 "C52": [
  "proved",
  "For every schema, value, input and depth: what a debug build with a rejecting bit writer achieves, every environment achieves with the same result (write, read, size, contexts, to_bytes, from_bytes); and with the same bit writer the release build answers exactly as the debug build wherever the latter does not panic, errors included. C52_release_refuted and C52_out_of_range_refuted show that neither hypothesis can be dropped."
 ],
 "C54": [
  "proved",
  "For texts the lexer accepts as integer literals; range and notations that abort are stated by C54_rejected and *_refuted."
 ],
 "C55": [
  "proved",
  "Strings of bytes; the unicode escape beyond ASCII is left out of the specification of meanings (it is never valid Rust, C55_unicode_refuted). C55_double_value uses the axioms of the real numbers of the standard library (listed in DESIGN.md)."
 ],
 "C56": [
  "proved",
  "The parser's tree (ANTLR) is the input; the texts of its tokens are modelled."
 ],
 "C57": [
  "proved",
  "For every list of declarations and every order of iteration of the hash maps."
 ],
 "C58": [
  "proved",
  "The value of a label is the item's name (the evaluator gives every item the placeholder 0, the generated code prints the path)."
 ],
 "C59": [
  "proved",
  "One package; templates of imported packages are found by an arbitrary function. The exception is C59_collision_refuted."
 ],
 "C60": [
  "proved",
  "Doubles are in C94, float16 and float32 are not covered; strings are in C92. The Rust type checker's rules for integer expressions are a specification in S_Rust (a typing of the literals, that of M_Infer, is shown to exist). The exceptions are C60_accepted_refuted, C60_function_refuted and C60_release_refuted."
 ],
 "C61": [
  "proved",
  "C61_size leaves out dynamic lengths, bytes and extern, whose sizes are wrong (C33). A length expression whose type the compiler does not know is assumed to fit a u8, as no cast is printed. Exceptions in C61_grammar_refuted."
 ],
 "C62": [
  "proved",
  "What called functions return is part of the package (C76 runs their methods); selectors are plain parameters, and the name resolution of the compiler is a hypothesis (checked) that the example meets; items of enums and bitmasks have different names. Exceptions in C62_valueof_refuted, C62_sum_refuted, C62_index_refuted, C62_and_refuted."
 ],
 "C63": [
  "proved",
  "For types whose reported size is right (sized, see C33). Exceptions in C63_large_refuted and C63_bytes_refuted."
 ],
 "C64": [
  "proved",
  "Expressions other than names, access paths and enum items are in C42-C44. Templates are instantiated before (C47, C48, C59) and are ordinary declarations here. Exceptions in C64_union_refuted and C64_capture_refuted."
 ],
 "C65": [
  "proved",
  "Walking directories and parsing are not modelled. The exception is C65_all_refuted; C65_last says what happens."
 ],
 "C66": [
  "proved",
  "Joins C51, C53, C60, C62 and C64. What called functions return is part of the package (C76 runs their methods); the expressions mention no member of a union, and are of the forms for which C53 proves printing and C62 the arguments; the exceptions are those of C53, C60, C62 and C64."
 ],
 "C67": [
  "proved",
  "Types have different member names, as many arguments as parameters (or none), unions at least one field, and choices no field in the default case (C67_default_refuted). Where the function of M_Gen aborts nothing is said about the printed one. Offsets of indexed arrays are in the lines; what they call is in M_Array."
 ],
 "C68": [
  "proved",
  "The parse tree is what ANTLR makes of the text; literals, names and builtin types are those of the lexer (formed). Literals by their value: correct rounding of double literals is f64_of_dec, as in C55."
 ],
 "C69": [
  "proved",
  "From parse trees; from texts it is C74. Without templates, SQL, default cases, extend, implicit arrays, explicit arguments and removed items (S_Tree.simple); expressions as in C66. Offsets are paths to fields (C79)."
 ],
 "C70": [
  "proved",
  "Schemas whose packed arrays have builtin types (S_Again.able); values within the limits of the writer (S_Again.within, in simple schemas S_Again.modest). The exceptions are witnesses."
 ],
 "C71": [
  "proved",
  "Models whose files do not get in each other's way (S_Item.apart); names are converted by any two functions. Whether the printed types implement what is derived for them is not modelled."
 ],
 "C72": [
  "proved",
  "From tokens to parse trees; from characters to tokens is C73. adaptive_predict of the ANTLR runtime is a contract: the first alternative with which the rest of the file parses. What the parser does after a syntax error is not modelled."
 ],
 "C73": [
  "proved",
  "The longest match, the first rule on ties and the shortest match of rules with .*? are the contract of the ANTLR runtime. After an error the program reports it and goes on; the model stops."
 ],
 "C74": [
  "proved",
  "Texts whose syntax is correct; what the program does after a syntax error is not modelled. Schemas without templates and what the compiler ignores, as in C69. Offsets are paths to fields (C79)."
 ],
 "C75": [
  "proved",
  "Functions that return builtin numbers or booleans; strings are in C92, enums and compound results in C93; left out are calls of functions of unions and of elements of arrays. Rust's typing of literals that meet only literals is left open (as_return). A function that calls itself without end is outside (returns has finite depth)."
 ],
 "C76": [
  "proved",
  "Functions as in C75. The nesting of calls has a bound for the whole schema (K), as it has when functions do not call themselves in a circle. Called functions are those of the object itself or of members that are not unions; selectors and labels of choices call none."
 ],
 "C77": [
  "proved",
  "The conversion itself is in the external crate half; the model has its portable implementation (f16_of_f32, f32_of_f16)."
 ],
 "C78": [
  "proved",
  "C74 for schemas whose expressions call functions: the functions of the texts are those of C75 and C76."
 ],
 "C79": [
  "proved",
  "Structures without templates. The wire format says where fields with offsets start; that the values of offset fields are these positions is neither checked nor set by the code (DESIGN.md). Acceptance is stated for sufficiently many evaluation steps, as in C64."
 ],
 "C80": [
  "proved",
  "Types without string, extern, union and packed array; recursion only through arrays whose lengths are in the data. Witnesses show that each exception aborts or runs for ever."
 ],
 "C81": [
  "proved",
  "False without the conditions: C81_empty_elements_refuted, C81_copied_arguments_refuted, C28_packed_unbounded."
 ],
 "C82": [
  "proved",
  "Messages of the shorter structure for the longer one: C82_new_reader_fails, and false for small fields and not always an error (C82_small_field_refuted, C82_refused_refuted). Choices are not extended: a selector without a case is accepted by the reader."
 ],
 "C83": [
  "proved",
  "Floating point comparison is specified by Flocq (Bcompare), independently of the bit test of the model. Exceptions: C83_zeros_refuted, C83_nan_refuted, C83_unwritten_refuted."
 ],
 "C84": [
  "proved",
  "Exceptions: C84_expression_refuted, C84_packed_refuted."
 ],
 "C85": [
  "proved",
  "Exceptions: C85_lenient_refuted, C85_buffer_refuted, C85_packed_refuted. Packed arrays of objects, strings of 2^32 bytes and the least i64 in varint members are outside (C07, C14, C41)."
 ],
 "C86": [
  "proved",
  "Exceptions: C86_features_refuted."
 ],
 "C87": [
  "proved",
  "Exception: C87_varint_refuted."
 ],
 "C88": [
  "proved",
  "The limits are rules (S_Range) and need not be the best ones. Exception: C88_recursive_refuted."
 ],
 "C89": [
  "proved",
  "The traits of bitmasks are those its documentation lists. Exceptions: C89_recursive_refuted, C89_empty_refuted."
 ],
 "C90": [
  "proved",
  "Contents are the declarations with the signatures of functions; their bodies are printed for each declaration by itself (C67). Exception: C90_overwritten_refuted."
 ],
 "C91": [
  "proved",
  "The loops of write_all and read_to_end are those that the standard library documents. Exception: C91_torn_over_refuted (a file with an older message that is not truncated first)."
 ],
 "C92": [
  "proved",
  "Exceptions shown: C92_refuted (a literal returned by a function, a sum as a constant), C92_conditional_refuted (all functions that return conditional strings which are not constant); conditional strings elsewhere are not covered."
 ],
 "C93": [
  "proved",
  "Exception shown: C93_refuted (a member of a structure type). Which types are Copy is a parameter of C93_function and settled by C93_copied; that bitmasks are is taken from the documentation of bitmask-enum."
 ],
 "C94": [
  "proved",
  "Exceptions shown: C94_refuted (an integer literal beside a double), C94_mixed_refuted (an integer field beside float literals only). Not covered: float16 and float32, conditional expressions. The integer operands' own code is assumed to have the right value (same_names); that is C60."
 ]
}