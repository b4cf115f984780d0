# Formal model of rust-zserio: design

Scope: `crates/zserio` (the runtime: bit-level types, arrays, delta packing,
top-level API), the programs emitted by `crates/zserio-rs-build` (generator
templates for struct, choice, union, enum, bitmask, arrays, optional fields),
and the purely functional parts of the compiler (constant evaluation, type
mixing, symbol resolution, subtype resolution, template instantiation,
bitmask/enum numbering, module tree, printing of expressions, texts of
literals and types, collection of declarations).

## Conventions

* `M_*.v`  : model, computable Gallina, no proofs. Each definition cites the
  Rust file and lines.
* `S_*.v`  : small independent specifications used in theorem statements.
* `P_*.v`  : lemmas and proofs.
* `X_*.v`  : examples shared by theorem files.
* `T_*.v`  : property theorems only, each `exact lemma`, with an `Example`
  showing that the hypotheses are inhabited and `Print Assumptions`.
* A Rust `Result` is data, a Rust panic is the separate outcome `Panic`:
  `res A := Ok a | Err e | Panic | NoFuel`. `NoFuel` is the outcome of
  an exhausted recursion bound; it is never a result of the program, theorems
  about success exclude it and theorems about termination give the bound.
* Integers are `Z` with explicit ranges and explicit wraps. `build` selects
  overflow-checked (`Debug`) or wrapping (`Release`) arithmetic.
* A bit stream is a list of booleans, most significant bit first. A reader is
  (absolute position, remaining bits), a writer is the list of bits written.
* Out-of-range writes (a value that does not fit the requested bit count) are
  answered by an arbitrary policy of the external bit writer; theorems hold for
  every policy.

## Plan per property

| id | modelled | proof |
|----|----------|-------|
| C01, C02 | bits_encode/bits_decode over the bit-stream contract | induction on width |
| C03-C10 | varuint/varint encode/decode/bitsize loops, as loops over bytes | per-byte-count case analysis on symbolic values; reader by induction over continuation bytes |
| C11 | numbits.rs shift cascade and table | Z.log2 reasoning, finite sweep of the table |
| C12, C13 | alignment.rs, bit_alignment.rs | modular arithmetic |
| C14-C19 | string, bytes, extern, float, read_bytes | list induction; UTF-8 validity as a decoder |
| C20, C24, C28, C29 | array.rs over an abstract array-trait record | list induction with position invariant |
| C21-C27 | delta_context.rs as a state machine | invariant over the element sequence |
| C30 | lib.rs on top of the writer/reader | list lemmas on byte packing |
| C31-C36, C39-C41 | interpreter of the generated code over a schema AST, fuel-indexed (M_Gen) | simultaneous induction: write/read/bitsize simulation with packing contexts |
| C37, C38 | enum / bitmask numbering (M_Expr) | list induction |
| C42-C44 | ast/expression.rs evaluator, evaluate_mixing_native_types.rs (M_Expr) | induction on expressions against a mathematical meaning (S_Expr); operations on doubles against those on real numbers (S_Real) |
| C45, C46 | symbol_scope.rs search, fundamental_type.rs loop, with fuel (M_Scope) | graph-distance invariant of the queue |
| C47, C48 | template_instantiation.rs on names and type references (M_Templ) | string/list induction; collision witnesses |
| C49 | mod_file.rs tree construction (M_Mod) | permutation invariance of sorted maps |
| C50 | all readers of M_Gen | locality: a reader that succeeds depends only on the prefix it consumes; induction over schemas and fuel |
| C51 | all writers of M_Gen against an independent wire format (S_Wire) | induction over schemas; packed arrays by the state of the delta contexts |
| C52 | M_Gen in two environments (build, treatment of out-of-range values) | success order on results, monotone in every operation |
| C53 | generator/expression.rs as tokens (M_Print), read back by a specification of Rust's grammar (S_Print) | induction on expressions with precedence levels |
| C54-C56 | visitor.rs on the texts of tokens (M_Lit) | induction on texts against digit/numeral specifications (S_Lit) |
| C57, C58 | visit_packageDeclaration, build_scope, package generator, choice labels (M_Pkg) | list induction; hash maps iterate in an arbitrary permutation |
| C59 | the instantiation loops of model.rs (M_Pkg, M_Templ) | invariant of the state: every generated type is the canonical content of a use that arises, and what it brings with it is present |
| C60 | types and evaluation of Rust integer expressions (S_Rust), the schema's typing rules over numbers, booleans, enums and bitmasks (S_Rust2), generator/{function,zconst}.rs (M_Print), the types rustc infers for literals (M_Infer) | induction on the typing rules: the generated tree, with the inferred types, is well typed and its loss-free evaluation is the schema's value; loss-free evaluation is what both builds do |
| C61 | the tables of names in generator/{encode,decode,bitsize,array,types,packed_contexts}.rs and the runtime functions they name (M_Types); the table of builtin types (S_Types) | case analysis on the table: each printed name exists at the field's Rust type and is the runtime function of the schema type, whose format is C51 |
| C62 | declarations with their expressions, the texts printed for lengths, widths, conditions, type arguments, selectors and labels, and what these texts read from the object (M_Comp); what the expressions mean by name (S_Comp) | the generated code refines the intended schema expression by expression (C53, C60); the wire format is monotone in the schema; the code reads earlier fields only, so C51 applies |
| C63 | ExternType::from_object (M_Emb) | C33 gives the size, C30 the padding, C16 and C31 the way back |
| C64, C65 | loading of files, scope building, resolution of types, scopes of expressions (M_Link, on M_Scope, M_Pkg, M_Expr) | distance in the import graph, induction on access paths and on chains of subtypes |
| C66 | no new code: the scopes of M_Link are put into the packages of M_Comp, literals are typed by M_Infer. Specification (S_Whole): a package is what its files declare; the values of names in an object; interpretations that follow the rules of S_Rust2; a calculation of the rules (S_Calc) | path by path, the compiler's evaluation notes the declared type (C64) and the generated code reads the value of the name, so the rules of C60 apply; then the package is one of C62 |
| C67 | the bodies of the generated functions as printed: lines, blocks found by their braces, statements run one by one on self, local variables, reader, writer and contexts (M_Code) | printed lines are the lines of statement trees and parsing gives them back; a tree run line by line gives what M_Gen returns, field by field; induction on the depth of calls; then C66 carries over to the printed functions |
| C68 | parse trees as the grammar allows them, the visitor function by function, syntax trees, and how evaluation dispatches on token numbers (M_Visit). Specification (S_Visit): the text of a tree, the text of a syntax tree, what is ignored, what lexer and grammar allow | induction on trees; each visited node shows the text of its tree; acceptance is decided part by part |
| C69 | loading of all files, the scopes built from the syntax trees, which package of M_Comp syntax trees hold (M_Whole). Specification (S_Tree): what parse trees declare, and which package they describe, without reference to the visitor | visited declarations have the body, fields and expressions of their trees; composed with C64 and C66 |
| C70 | no new code. Specification (S_Again): the limits of the writer, on the value only | induction on the depth of calls: what a reader returns has a wire format (C51) and is consistent (C35), so it is written and read back |
| C71 | the declarations in the generated files: converted names, paths of types, imports, struct and enum declarations, bitmasks, aliases, constants, signatures, and all files of a model (M_Item). Specification (S_Item): Rust's rules for modules and paths, which Rust type holds which builtin type, which names may stand in a file | the files are those of C49 and none overwrites another; a path is followed through the module files to one item; case analysis of the declarations |
| C72 | the generated parser rule by rule, as functions on lists of tokens that take the rest of the run as an argument; adaptive_predict is the first alternative with which the rest succeeds (M_Parse). Specification (S_Parse): the tokens of every construct from left to right, levels of operators, which trees are written that way | every rule reads the tokens of what it returns; no rule runs out of fuel; every tree is read back, by induction on expressions with the operator that may follow, and an automaton on tokens that tells types with names from expressions; what is read is well-formed because every tree can be regrouped without changing its tokens, and the regrouped tree is read back |
| C73 | the rules of the lexer as regular expressions in their order; the longest match by derivatives; the loop over the text (M_Lex). Texts are bytes: all characters that are not ASCII are treated alike by the rules. Specification (S_Lex): the texts of names, literals and operators, blanks and comments, what may follow a token directly | the language of each rule is the text of the specification; no rule matches more than the text of the token; what is read is cut where a rule ends |
| C74 | the files of a directory as names and contents; the schema files among them are lexed, parsed and visited (M_Text over M_Lex, M_Parse, M_Whole). Specification (S_Text): which schema the texts of a directory are the text of | every parser function also yields the form of the tree it reads (types, nonempty lists), every token the form of its text; together they give the hypotheses of C68 and C69 for whatever is read from a text; C73 gives the tree of a written text; C69 then leads to the bytes |
| C75 | the methods of schema functions as typed Rust trees, run on objects; calls run the method of the object found at their place, to a given depth (M_Fun). Specification (S_Fun): what a function returns by the rules of C60 and the names of C66, with the results of calls as values | by induction on the depth of calls: the environment with the results of calls declares what the rules use (calls are resolved and typed by C64), then the theorem of C60 for typed trees |
| C76 | the environment of an expression also holds what the methods of functions return (pk_calls in M_Comp), given by running the methods (with_methods in M_Fun). Specification (S_Fun): results of calls by the rules (results_follow), functions that name only what was read before (reads_before) | the package with its methods is the schema, its expressions are as C66 wants them (a called function reads only fields before, by induction on the depth of calls) and its environment has all results the rules give (C75); then C67 |
| C77 | no new code. Specification (S_Round): the magnitudes of binary16 in increasing order, distance, nearest with ties to even | the bit operations as division and remainder, the value lies between two neighbours; magnitudes increase strictly |
| C78 | the functions in the syntax trees (M_Held over M_Visit). Specification (S_Tree2): which functions are written in the parse trees | the visitor keeps name and expression of every function; with C74 for the rest of the schema and C76 for the bytes |
| C79 | the evaluation of offsets: which field the expression names, what is borrowed meanwhile, which fields get the mark (M_Offset over M_Link and M_Visit); the marks in the description the generator starts from (M_Whole.flags_held). Specification (S_Tree.refers, holds_offset, S_Offset.crosses): paths to fields, fields an offset is kept in, fields a path goes through | C59 gives the symbol of a path and where it is declared; the offsets of the syntax trees are those of the parse trees by C68; the theorems C69, C74 and C78 take the marks as they are calculated |
| C80 | the readers of M_Gen and the printed ones of M_Code on arbitrary bytes. Specification (S_Calm): the values of the types of a schema, schemas whose expressions have values for all values of the fields | induction on the nesting of types, for recursive types on the number of bytes left (an array of the same type takes a byte for its length); every builtin reader returns (C19) and its values are in range; C67 carries it to the printed code |
| C81 | the readers of M_Gen and the printed ones of M_Code on arbitrary bytes. Specification (S_Lean): the size of a value (nodes and bytes), types whose values take at least one bit, lean schemas | induction on the depth of reading: what is read is at most what was there before plus a constant (of the nesting without arrays) plus a multiple of the bits taken, one bit less if the type takes bits outside its arrays; that bit pays for the constants of an array element, so that types may contain arrays of themselves. The exceptions are decoded: elements without bits, arguments copied into elements |
| C82 | two types of one schema, one with more fields at the end, and two schemas, one with more alternatives and items at the end (M_Gen readers and writers). Specification (S_Evo): expressions that do not look at what is added, values with added members | the longer reader is the shorter one followed by the rest, as the fields of the shorter structure are read alike with members behind them; after a message at most 7 bits of padding are left, and every field of a byte or more needs 8. For schemas a simulation of every reader, with induction on the nesting and on arrays, packed and not |
| C83 | the derived PartialEq (rust_eq in M_Gen, which the generated code also uses to check arguments). Specification (S_Eq): same members, floating point numbers compared by Flocq's Bcompare on the numbers of their bit patterns | the bit test agrees with Bcompare class by class (zero, finite, infinite, NaN); induction on values; with C31 and C33 for what is decoded |
| C84 | the writers and sizes of M_Gen and the printed writers of M_Code. Specification (S_Alike): objects that differ only in members that are not written, and whose expressions do not see the difference | induction on the depth of calls, field by field: both writers make the same calls; with C31 for what is decoded, with C67 for the printed code |
| C85 | the writers of M_Gen with a rejecting bit writer. Specification (S_Only): the objects that Rust's types allow, before it is known whether they follow the schema; S_Wire | induction on the depth of calls: each successful step of a writer gives the rule of the wire format that applies; the bytes follow from C51 and monotonicity in the depth of calls |
| C86 | the readers of M_Gen. Specification (S_Rigid): the schemas, as a condition on fields, and the message of a value as a condition on data | induction on the depth of calls: two readings that start from the same object and give the same value have read the same bits (numbers are determined by their bits, the same length and arms are taken, absent options are seen because reading starts without them); that other data are read the same way is C50, what is written is C70, and that it is the wire format is C31 |
| C87 | the constants of limits.rs as the compiler evaluates them (M_Limits). Specification (S_Limits): the constants, writer, reader and Rust type of each type, and what it means that a number is kept | the constants by evaluation; the rest from C01-C06 and C10 |
| C88 | the readers and writers of M_Gen. Specification (S_Range): ranges of sizes and the rules by which the range of a type follows from the schema | induction on the depth of calls, for the bits that readers take from any data (their number is that of the formats, C10, and loops add up); for the writer by reading what was written (C31), for the printed code by C67 and C80 |
| C89 | M_Item. Specification (S_Trait): which Rust types have a size and which traits, by rules from the Rust reference, the derives of the library and the documentation of bitmask-enum; containment in the schema; the interface of a file | induction on the relation "contains", both ways (sized types are accessible and the reverse), using that paths lead to one item (C71); induction on subtypes for traits |
| C90 | M_Item: gen_model on packages and declarations in any order. Specification (S_Repro): the same files with the same contents, where the file written last counts; what the output for a declaration takes from the rest of the schema | permutations are carried through the loops; module lists are sorted (C49), and different paths make the order of writing irrelevant |
| C91 | M_Io: the device as a list of answers to calls, of any length and kind; write_all and read_to_end as documented by the standard library; to_writer and from_reader over them. Specification (S_Io): prefix, a device that takes or gives something when asked, a file written over | induction on the answers; with C31 and C50, no prefix of a message is read as a value |
| C92 | M_Print: gen_function and gen_const for strings. Specification (S_Str): which string expressions Rust accepts as `String` or `&str` (borrowed, part of the object, owned) and their values | induction on the expression: its code is read as its tree (C53), and the kind of the tree follows from the shape of the expression |
| C93 | M_Print: gen_function for declared types; M_Item for what types derive. Specification (S_Obj): places behind `&self` may be copied but not moved, `if` and `as` move; S_Trait for `Copy` | induction on the expression: its code is read as its tree (C53), which can be taken exactly if all its leaves can; inversion of `offers` with the only item a path leads to (C71) |
| C94 | M_Print: gen_function, gen_const and gen_bool, M_Expr: eval for float64. Specification (S_Flt): typing and value of Rust expressions of type f64 with the operations of SpecFloat | induction on the two shapes of expressions (literals only, with names): code is read as its tree (C53), whose casts make each integer operand a double; not covered: float16, float32, conditionals |

Properties whose full statement is false of the code are proved with the exact
condition under which they hold, and every exception is a theorem with the suffix
`_refuted` about a concrete input (or a family of inputs).

## Trusted base

* Coq 8.16.1 kernel. `Print Assumptions` reports "Closed under the global context"
  for every theorem of every file T_*.v but a few: no axiom is used. The few are
  `C55_double_value`, `C42_doubles` and `C42_doubles_compared` (T_Double), which speak
  about real numbers, and those of T_Eq whose
  statements use the floating point numbers of Flocq (`C83_equality`, `C83_reflexive`, `C83_decoded`,
  `C83_bytes_of_equal`, `C83_equal_of_bytes`); they use the axioms of
  the real numbers of the standard library: `ClassicalDedekindReals.sig_not_dec`,
  `ClassicalDedekindReals.sig_forall_dec`,
  `FunctionalExtensionality.functional_extensionality_dep` and `Classical_Prop.classic`.
  Rounding is that of Flocq, which has no axioms of its own. (`vcheck` also lists
  entries such as `Coq.ssr.ssrunder`: they come with the library modules loaded and
  no theorem depends on them.)
* The hand translation from Rust into Gallina (the code is not executed here).
* The meaning of generated code: M_Gen gives the meaning of the Rust text the
  generator prints; M_Code gives the printed bodies line by line and the meaning of each
  line, and C67 proves that the two agree. That the text is accepted by rustc is
  not modelled, except for expressions (C53, C60), literals (C54, C55) and the nesting of
  blocks (C67). Where it is
  known not to compile this is listed below.
* Contracts of the external crates, which are not in the repository:
  `bitreader` 0.3.8 (big-endian bits, error at the end of data, error for more than
  64 bits), `rust-bitwriter` 0.0.1 (appends bits; answers values that do not fit by
  an arbitrary policy `e_oor`, theorems hold for all), `half` (float16 conversion,
  written out in M_Prim), Rust `std` (integer arithmetic, from_utf8, HashMap as an
  arbitrary iteration order, `write_all` and `read_to_end` as loops over `write` and `read`
  (written out in M_Io), from_str_radix, parse::<f64> as correct rounding; that the
  function given for it rounds correctly is C55_double_value),
  `stringcase` (an arbitrary function from names to names), the ANTLR runtime
  (`adaptive_predict` chooses the first alternative with which the rest of the file can be
  parsed; the lexer takes the longest match, of equally long ones the first rule, where a
  rule with `.*?` matches as little as it can).

## What is modelled

| code | model |
|------|-------|
| zserio/src/ztype/{bits,varint,varuint}_{encode,decode,bitsize}.rs, limits.rs, reader.rs, writer.rs | M_Bits, M_Var, M_Limits |
| zserio/src/{numbits.rs, error.rs}, ztype/{alignment, bit_alignment, string_*, float_*, bytes_type, extern_type}.rs | M_Prim |
| ztype/array.rs, ztype/array_traits/*.rs, delta_context.rs, packing_context_node.rs | M_Array |
| ExternType::from_object | M_Emb |
| zserio/src/lib.rs (to_bytes, from_bytes, to_writer, from_reader; files as an arbitrary outcome) | M_Gen; devices call by call: M_Io |
| generator/{zstruct, zchoice, zunion, zenum, zbitmask, encode, decode, bitsize, packed_contexts, array, pass_parameters, index_offsets}.rs | M_Gen (meaning of what they print) |
| generator/{types, preamble, model, package, file_generator, subtype, zconst, function}.rs and the declarations printed by generator/{zstruct, zchoice, zunion, zenum, zbitmask}.rs; the conversions of the crate stringcase are any two functions | M_Item |
| ast/{expression, evaluate_mixing_native_types, zenum, zbitmask}.rs | M_Expr |
| generator/{expression, casts}.rs, the expressions of generator/{function, zconst}.rs | M_Print |
| generator/function.rs, ast/zfunction.rs: the methods of functions, when they are called; calls in the expressions of fields | M_Fun, M_Comp |
| the choice of functions, array traits and Rust types for builtin types in generator/{encode, decode, bitsize, array, types, packed_contexts}.rs; visit_typeInstantiation | M_Types |
| compiler/{symbol_scope, fundamental_type, resolve_types}.rs | M_Scope |
| compiler/template_instantiation.rs | M_Templ |
| generator/{mod_file, model, file_generator, package}.rs | M_Mod, M_Pkg |
| visitor.rs: literals, types, alignments, imports, package names, package declarations, choices | M_Lit, M_Pkg |
| visitor.rs: all other functions; the dispatch on token numbers in ast/expression.rs and generator/expression.rs | M_Visit |
| parser/gen/zserioparser.rs (all rules) | M_Parse |
| parser/ZserioLexer.g4, the rules as gen/zseriolexer.rs serialises them | M_Lex |
| model.rs: from_filesystem, model/package.rs: package_from_file, on the names and contents of files | M_Text |
| model.rs: instantiation loops; loading, build_scope, resolve_types, the scopes of evaluate_package | M_Pkg; M_Link |
| model/package.rs; from syntax trees to scopes and packages | M_Whole, M_Held |
| ast/{field, zstruct}.rs: evaluation of offsets | M_Offset |
| encode.rs, decode.rs, array.rs, zchoice.rs, pass_parameters.rs, casts.rs: the expressions in generated types | M_Comp |
| generator/{zstruct, zchoice, zunion, zenum, zbitmask, encode, decode, bitsize, packed_contexts, array, pass_parameters, index_offsets}.rs: the printed bodies of functions, line by line | M_Code |

Not modelled: the ANTLR runtime, what lexer and parser do after an error (they
report it and go on with a damaged tree); command line,
file system, logging; doc comments; the layout of the printed declarations (what is
declared is modelled, M_Item); the attribute macro of bitmask-enum (its traits are taken
from its documentation); memory exhaustion and stack overflow;
constraints and initialisers (the code parses and ignores them).

## Findings

Deviations from what a user would expect. Those with a property in parentheses are
proved about the model; the others are observations from reading the code.

Runtime
* `varint` cannot carry the minimum 64-bit integer: debug builds abort, release builds
  write an encoding read back as 0 (C07); `varsize` readers accept more than writers
  emit (C08); reading a string, an extern value, a packed descriptor or a union
  selector aborts on some inputs (C19); the size of string arrays is wrong (C29).
* packed arrays: uint64 values on both sides of 2^63 abort debug builds (C25); packed
  arrays of bool, float, string lose data (C27); a packed array with zero-bit deltas
  lets a short input allocate any amount (C28).
* ExternType::from_object aborts debug builds, or cuts the object off in release builds,
  for objects with bytes or extern fields; from 2^31 bits on writing its result aborts (C63).
* strings of 4 GiB or more, and arrays of 2^32 elements or more, have their length
  truncated (C14, C20); a packed array read from arbitrary data can have elements outside
  the declared width, which then cannot be written as they were (C19_width_refuted).

Generated code
* reported sizes are wrong for bytes, extern, dynamic-width bit fields, string arrays,
  and for bit fields and unions inside packed elements (C33); stale optional fields stay
  when reading into a used object (C35); undeclared union selectors abort (C36); packed
  choices initialise unselected fields (C40); packed unions do not round-trip (C41).
* the result of out-of-range writes is up to the bit writer (C52_out_of_range_refuted).
* a field in the default case of a choice is printed between parentheses, which is not Rust
  if it takes more than one block (C67); the elements of an array of a parameterised choice
  with only a default case are made by a struct literal without its remaining members.
* offsets are neither written nor checked; implicit arrays write a length.
* an offset in parentheses, one that names no field, and one on whose path the field itself
  is abort the compiler (C79); an indexed offset in front of a field that is no array has no
  effect, not even an alignment (M_Gen.offs_of, S_Wire).
* the length of an array, and the width of its elements, are computed although the clause of
  the field is false, so `uint8 x[n - 2] if n >= 2` aborts debug builds; a computed width above
  64 aborts (C80).
* A few bytes can be decoded to a huge value: the elements of an array may take no bits (`Empty list[]`: five
  bytes, up to 2^31 elements), packed arrays likewise (C28), and arguments that are objects are cloned into every
  element of an array (C81).
* readers cannot tell a message of an older structure from one of a longer one if the added field fits into the padding;
  a missing string aborts, and so does an alternative of a union that the reader does not know (C82).
* data of a recursive type nests the calls of the reader as deeply as it has bytes, whatever the schema (C80); nothing
  limits the depth, so that long hostile data exhausts the stack (the stack is not modelled).
* `==` of generated objects also compares alternatives that are not selected and fields whose
  condition is false, so that an object and what is decoded from its bytes can differ (C83). The writer does not clear them: a
  condition that looks at a field that is not written makes it write data that is not read (C84).
* numbers that do not fit their bits are refused everywhere but in packed arrays, where they are written and read
  back if the deltas are small; the size stored in a buffer is not compared with its bytes (C85).
* readers accept numbers, lengths and selectors in more bytes than needed and any bits in front of aligned fields, so that
  different messages are decoded to the same object (C86).
* a type that contains itself through an `optional` field cannot be compiled, as `Option` holds its value in
  place (C89).
* declarations whose module names coincide (`Ab` and `AB`) overwrite each other's file; which one is left changes from
  run to run (C90).
* A message that is written over an older one without truncating the file, and interrupted, can
  read as a value that is neither (C91_torn_over_refuted). Cut short in an empty file it never
  reads as a value.
* A function that returns a string literal or a string constant, and a string constant that is
  a sum, are turned into code that rustc rejects: `("a") as String`, `HELLO.clone()` as a
  `String`, `const C: &str = format!(..)` (C92_refuted). So is a
  function that returns a conditional string that is not constant (C92_conditional_refuted).
* A function that returns a field (or a member of one) of a structure, choice or union
  type becomes `(self.p) as Page`, which moves out of `&self`: rustc rejects it
  (C93_refuted; C93_function and C93_copied say exactly when).
* An integer literal beside a float64, as in `d + 1`, is written without a cast: rustc rejects
  a function with it (C94_refuted), and so it does `n + 0.5` for an integer field
  (C94_mixed_refuted). Beside names of doubles, fields and parameters of integer types are cast (C94_function).
* `MIN_VARINT` is the least i64, which varint cannot hold (C07, C87).

Compiler: expressions
* `(true == true) ? 1 : 2` evaluates to 2; left shifts drop bits; release builds wrap
  constants; operands that are not selected, or known only at run time, can abort
  compilation (C42); a conditional reports the wrong resolved flag (C43); mixing
  uint64 or bit fields with another type aborts, mixing signed with unsigned types
  loses negative values (C44).
* enum and bitmask items given by named constants get 0; an item i32::MAX aborts
  debug builds; negative bitmask values; the 65th bitmask constant is 0 (C37, C38).
* generated expressions: `!isset(..)`, `-valueof(..)` are misread, unary `+`, `~` and
  chained comparisons are not Rust (C53); binary literals abort the generator (C54);
  a double literal 1.0 is printed as `1`.
* `k.A` with `k` a field of an enum type is accepted and printed as `Kind::A`; the name of a
  subtype used as a value is evaluated as a number.
* generated code that Rust rejects although the compiler accepts the schema: comparisons
  of different integer types, `-a` for unsigned `a`, `a + 300` for `a : uint8`, results of
  bitwise operators and conditionals mixed with other types; functions silently truncate
  their result to the return type, release builds silently wrap (C60).
* `bit` or `int` without a length is accepted but the generated code calls a function that
  does not exist; a length is accepted after every type: `varuint64<5>` is silently a 5-bit
  field, and the size of `bit:5<3>` is not that of its encoding (C61_grammar_refuted).
* type arguments: `valueof(x)` gives `x as u8.clone()` in the reader, which is no Rust;
  `a + b` with a conversion gives `a + b as T`, which converts `b` only; `@index` alone is
  a `usize` where a number type is wanted; the writer's check of `a && b` is
  `p == a && b` and rejects correct objects (C62). A selector that is not a plain name
  is printed without its operands (`match self.`).
* literals: integers from 2^31 on, `0X..`, `..B` abort (C54); every float literal with
  suffix f aborts, `\f` and `\u` escapes give invalid Rust, `\07` is read as NUL and
  '7' (C55); `bit:0` and `bit:65` are accepted (C56).

Compiler: names, templates, packages
* `import p.Symbol` imports everything; cyclic imports and cyclic subtypes loop (C45,
  C46); generated template names collide (C47) and then the result depends on the
  iteration order of a hash map (C59); nested template arguments, choice parameters
  and template-typed parameters are not substituted, recursive templates loop (C48);
  a package that is the prefix of another is never loaded, the default package's
  files are overwritten (C49); duplicate declarations are silently replaced (C57).
* fields of unions cannot be used in expressions (`u.field` aborts, or means a declaration
  of that name); a name that two packages in sight declare is confused even where it is
  qualified (C64); of two files with the same package one is lost (C65).
* an enum or bitmask over a subtype makes the generator abort; `a[i].m` aborts; of the
  words reserved in Rust only `type`, `struct` and `self` are renamed.
* the default case of a choice is dropped without a message; named constants as case
  labels abort the compiler (C58). So are the constraints of fields of choices and unions,
  `extend`, `explicit` and the markers of enum items (C68). The printing of a default case
  (C67_default_refuted) is therefore not reached from schema files.
* a schema file without `package` makes the compiler abort, although the grammar allows it;
  a literal the compiler cannot read aborts it even in an SQL table or rule group (C68).
* some messages can be decoded but not encoded again: varsize numbers from 2^31 on, packed
  arrays whose differences leave the range of the element type, objects with a NaN as type
  parameter (C70).
* generated files can fail to compile: fields, types or packages with the names of Rust
  keywords, types with the names of imports (`Result`, `BitReader`, ...), a field
  `unionSelector` in a union, different names with the same conversion, a package `lib`
  without a root package (C71).
* the grammar is ambiguous: `X<a> x : T<b> c;` is read as a field `c` with the offset
  `X < a > x`, not as a field `x` with a constraint; `T<a> x` with a length `a` is read as a
  template argument (C72).
* an empty comment `/**/` reaches to the end of the next comment, because it also starts a
  documentation comment and the longer match is taken; what is between is lost without a
  message (C73).
