# A formal model of substrait-cpp in Rocq (Coq 8.16.1)

## What is here

* `properties.jsonl`: the properties, in terms of the API and what a user sees.
* `rocq/theories/*Model.v`: the model, one file per component of `/repo`, every definition with the file and lines it models.
* `rocq/theories/*Facts.v`: specifications and proofs. The specifications are at the top of the files, as inductive predicates or
  short definitions that do not use the functions of the model they are about.
* `rocq/theories/Prop*.v`: the theorems about the properties, `Print Assumptions` for each, and concrete cases (`Example`) next to them.
* `MANIFEST.json`: which theorems belong to which property. `tools/gen_props.py`, `tools/gen_manifest.py`, `tools/gen_design.py` write
  `properties.jsonl`, `MANIFEST.json` and this file; `tools/assumptions.py` prints what all theorems depend on.
* `seeded/LOG.jsonl`: attempts to break the theorems by changing the model (`tools/mutate.py` with `seeded/mutants/*.json`).

Theorem names start with the property. `…_refuted` is a theorem that shows that the code does not have the property as stated (a finding);
most of these are general statements about all inputs of a class, some are about one witness. `…_partial` is the part of a property
that holds. A property is `proved` in the manifest only if the statement in `properties.jsonl` holds of the model as it is.

## How the model is made

* Functions of the code are total Gallina functions. Loops are structural or have fuel with a theorem that the fuel is enough.
* `outcome A` is `Ok a`, `Throw e` (an exception, with its class) or `UB` (undefined behaviour: reads out of bounds, null pointers,
  negative arguments of `std::isalpha`, …). Errors reported to a listener are data next to the result.
* Strings are lists of bytes (`ascii`). Numbers are `Z`/`N` with the bounds of the C++ types where the code depends on them
  (wrapping of 128 bit decimals, `std::stoi`, sizes of files, …).
* Pointers are numbers or indices into lists; hash maps are functions or association lists, with theorems for every order of iteration where
  the code iterates over them.
* Where several functions interleave (symbol table, pipelines in a text), the model is a state machine and theorems are invariants of all
  sequences of operations.

## Trusted base

1. The kernel of Coq 8.16.1 (and `coqchk`, which accepts all files). No flags that switch off checks; no axioms of our own, no functors.
2. Axioms: `Print Assumptions` says "Closed under the global context" for every theorem in `MANIFEST.json` (`tools/assumptions.py`).
3. That the Gallina functions say what the C++ code does. Nothing was compiled or run; the code was read. Every definition cites its lines.
4. External code, modelled from its documentation:
   * ANTLR 4: the lexer takes the longest match, the first rule among equals (`LexModel`). The generated parser is modelled as recursive
     descent over the tokens for names, types, literals, expressions, relations and whole plans (`NameModel`, `TypeModel`, `ExprModel`, `RelModel`, `SectionModel`); what
     ANTLR does after a syntax error (recovery) is not modelled: a text that does not parse is `None`.
   * `std::regex` (backtracking matcher in `IoModel`), `std::stoi/stol/stof/stod`, printing of floating point numbers with six digits
     (`FloatModel`), the date library (`CalendarModel`, `TimeModel`), `std::sort` (any function that sorts), `absl::SimpleAtoi` for `uint128`,
     protobuf messages as records (`ProtoModel`), protobuf and JSON parsing as parameters (`IoModel`), yaml-cpp as trees of nodes
     (`FunctionModel`), `fmt` only where it can throw.

## What is modelled

| file in /repo | model | not modelled |
|---|---|---|
| include/substrait/type/Type.h, src/substrait/type/Type.cpp | TypeModel: decode, matching, signatures, toString of all classes | – |
| include/substrait/function/*.h, src/substrait/function/*.cpp | FunctionModel: matching of all kinds, lookup, registration, loading of yaml nodes | file access, the yaml grammar |
| src/substrait/expression/DecimalLiteral.cpp | DecimalModel: all functions | – |
| src/substrait/common/{StringUtils.h, NumberUtils.h} | StringsModel | – |
| src/substrait/common/{Io.cpp, PlanTransformerTool.cpp}, export/planloader/planloader.cpp, textplan/converter/LoadBinary.cpp | IoModel | the file system is a map; protobuf, JSON and text format are parameters |
| src/substrait/textplan/{SymbolTable, Location, ParseResult, SubstraitErrorListener} | SymbolModel: all operations | toDebugString |
| src/substrait/textplan/StringManipulation.cpp, string literals of printer, lexer and visitors | EscapeModel, StringsModel | – |
| src/substrait/textplan/converter/ReferenceNormalizer.cpp | NormalizerModel over ProtoModel: all functions | – |
| src/substrait/textplan/converter/{InitialPlanProtoVisitor, PipelineVisitor}.cpp | DeclModel (extensions, functions), TreeModel and PipeModel (relations, pipelines, subqueries), FieldModel (columns), KindModel (columns of schemas) | sources other than their names |
| src/substrait/textplan/converter/BasePlanProtoVisitor.cpp | VisitModel over VisitMessages (written by tools/gen_visit.py): every function, as the visitors above inherit it | advanced extensions and expected type URLs (nothing is done with them) |
| src/substrait/textplan/SymbolTablePrinter.cpp | SectionModel (all sections as characters), DeclModel, PipeModel, TreeModel, WholeModel (all together, both ways) | writing sources and schemas to a binary plan other than by read relations |
| src/substrait/textplan/PlanPrinterVisitor.cpp | TypeModel, ExprModel, RelModel, FieldModel (names of columns), CalendarModel, FloatModel, DecimalModel | – |
| src/substrait/textplan/parser/grammar/SubstraitPlanLexer.g4 | LexModel: all rules and modes | – |
| src/substrait/textplan/parser/grammar/SubstraitPlanParser.g4 | NameModel, ExprModel, RelModel, SectionModel: all rules up to plan | advanced extensions (parsed by the code and then ignored) |
| src/substrait/textplan/parser/SubstraitPlanTypeVisitor.cpp | TypeModel | – |
| src/substrait/textplan/parser/SubstraitPlanVisitor.cpp | SectionModel (schemas, sources, files), DeclModel (extension spaces, functions), TreeModel (roots, relations), EscapeModel | – |
| src/substrait/textplan/parser/SubstraitPlanPipelineVisitor.cpp | PipeModel: all of it | – |
| src/substrait/textplan/parser/{SubstraitPlanRelationVisitor, SubstraitPlanSubqueryRelationVisitor}.cpp | EnumModel, ExprModel, TimeModel, RelModel, FieldModel, TreeModel, SubModel (subqueries) | timestamps with time zones inside larger literals (TimeModel has the function, C88 its properties) |
| src/substrait/proto/ProtoUtils.cpp | RelModel, KindModel (names of kinds) | – |
| src/substrait/textplan/parser/{ParseText, LoadText, Tool}.cpp, converter/{ParseBinary, SaveBinary, Tool}.cpp | SessionModel: the passes, files and tools; the passes themselves are parameters | glob patterns and options of the tools |
| tests | – | all |

Models meet at parameters: `ExprModel` and `RelModel` take the functions that name and find columns as parameters; `FieldModel` is where they are
defined and where C41–C43 and C58–C61 relate naming and finding. `TreeModel` takes what a relation says apart from inputs and subqueries as an
opaque text. `WholeModel` puts the passes of both directions together, with the functions of the other models in the place of the parameters:
C91 goes from a whole binary plan (as a message, not as bytes) to the text, character by character, and back to the binary plan.
The relations of a text are read twice there, as in the code: the first time to define columns (errors stop the conversion after it), the second time for the plan.
`SubModel` is the reading half of `WholeModel` with subqueries: outer columns, the relations of subqueries and where they are put. C100 is about it, and
`C100_same` says that both models agree on texts without subqueries. Writing subqueries as text is only in `TreeModel` (names, pipelines) and `ExprModel` (expressions).
`EvalFacts` gives plans results: an evaluator of trees of relations over rows, with everything that Substrait leaves to the functions, the tables
and the engine as a parameter (`meaning`). It is a specification, not a model of code in /repo (the project does not execute plans), and says
what C92 means by results: reads give the rows of a table, filters keep rows, fetches take some, projects append columns, joins and cross
products put rows side by side, aggregates give keys and measures per group, and an emit picks columns.
C96 repeats this: the class of plans is closed under conversion, and the names that are given anew each time come out as before.

## Results per property

### C01 Rendering a decimal literal prints its exact signed value

For every decimal literal whose stored value has between 1 and 16 bytes, the value text produced for it is the canonical base-10 numeral (no leading zeros, '-' exactly when negative) of the little-endian two's-complement integer those bytes denote; the empty value prints as 0.

**proved.** Exact for every value of 1..16 bytes; oversized values wrap (C01_oversized_refuted shows the bound is needed).

Theorems: `C01_base_string`, `C01_numeral_unique`, `C01_empty`, `C01_total`, `C01_oversized_refuted`.

### C02 Decimal text survives parsing and printing

For every natural number below 2^127, parsing its decimal text as a decimal literal and printing the value back gives the same text, and the parsed literal is accepted as valid exactly when the precision is between 1 and 38; text that is not an unsigned integer below 2^128 yields a literal that is rejected as invalid.

**proved.** As stated (below 2^127). Beyond: C02_high_refuted, C02_negative_rejected are findings.

Theorems: `C02_roundtrip`, `C02_spelling`, `C02_valid`, `C02_reject`, `C02_high_refuted`, `C02_high`, `C02_negative_rejected`.

### C03 Decimal literals survive conversion from and to the protobuf message

Building a decimal literal from a protobuf decimal message and converting it back reproduces the identical bytes, precision and scale, for every message, valid or not.

**proved.** As stated.

Theorems: `C03_proto_roundtrip`, `C03_literal_roundtrip`.

### C04 The full rendering of a decimal determines its value, scale and precision

Two decimal literals of at most 16 bytes whose full renderings (value, exponent, precision) are equal denote the same integer, the same scale and the same precision; the rendering is well defined for every scale.

**partial.** Injectivity proved; rendering is defined for every scale except -2^31, where it is undefined behaviour (C04_total_refuted).

Theorems: `C04_injective`, `C04_defined`, `C04_total_refuted`.

### C05 Trimming removes exactly the surrounding whitespace

For every string, trimming returns the unique substring obtained by deleting the longest whitespace prefix and the longest whitespace suffix: nothing inside is touched, the result neither starts nor ends with whitespace, trimming twice equals trimming once.

**proved.** As stated.

Theorems: `C05_trim_exact`, `C05_trim_idempotent`, `C05_trim_margins`.

### C06 Integer recognisers accept exactly the integer numerals

The non-negative recogniser accepts a string iff it is one or more decimal digits, the negative recogniser iff it is '-' followed by one or more digits, the integer recogniser iff either; no string is accepted by both of the former.

**proved.** As stated.

Theorems: `C06_nonnegative`, `C06_negative`, `C06_integer`, `C06_disjoint`.

### C07 A string literal printed in a text plan reads back as the same string

For every string value, the quoted text the plan printer emits for it is recognised by the text plan lexer as exactly one string token and evaluating that token's escapes yields the original value, without any error being reported.

**partial.** Proved for all values without a backslash and any following text; false for values with a backslash (C07_value_refuted, C07_token_refuted).

Theorems: `C07_lexer_is_longest_match`, `C07_lexer_complete`, `C07_string_roundtrip_partial`, `C07_value_refuted`, `C07_token_refuted`.

### C08 Escape processing of string literals terminates and only rewrites escapes

For every string-literal body, escape processing terminates, leaves text without backslashes unchanged, expands each escape sequence to the documented character, and every input character that is not part of a recognised escape is preserved or reported.

**partial.** Termination, identity, documented escapes and error reporting proved; preservation is false for malformed \u escapes (C08_preserved_refuted).

Theorems: `C08_total`, `C08_identity`, `C08_elements`, `C08_preserved_refuted`.

### C09 Decoding a type string always ends in a type or a reported error

For every string and both decoding modes, decoding terminates and either returns a type or throws a library exception; it never reads out of bounds or dereferences a missing object.

**partial.** Proved in full with parameter support (the mode the library uses) except that a brace in the name turns the library exception into a fmt error (C09_message_refuted); without parameter support termination holds but out-of-bounds and null accesses occur (C09_concrete_refuted).

Theorems: `C09_terminates`, `C09_parameterised`, `C09_concrete_refuted`, `C09_message_refuted`.

### C10 Type names are case- and margin-insensitive

For every string, surrounding it with whitespace does not change what it decodes to, and changing the letter case of a string that decodes to a concrete type does not change the decoded type.

**proved.** As stated.

Theorems: `C10_margins`, `C10_case`, `C10_case_parameterised`, `C10_case_general`.

### C11 Every well-formed type text decodes to the type it denotes

For every concrete type built from the scalar types, decimals, fixed/variable length types, lists, maps and structs, the type's text decodes to that type, with the nullability written next to each base name.

**partial.** Proved for every type and every way of writing it unless a nullable compound type has a nullable part; those are rejected (C11_nested_nullable, C11_nested_nullable_refuted).

Theorems: `C11_text_partial`, `C11_text_parameterised_partial`, `C11_nested_nullable`, `C11_nested_nullable_refuted`, `C11_trailing_refuted`.

### C12 Concrete types match exactly when they agree structurally and in nullability

A declared concrete type matches an actual concrete type iff they are the same kind with equal parameters (recursively) and at each level the declared type is nullable or the actual is not.

**partial.** Exact behaviour proved (C12_exact); the stated equivalence holds unless a required struct meets a nullable struct (C12_struct_refuted).

Theorems: `C12_exact`, `C12_match_iff_partial`, `C12_accepts`, `C12_struct_refuted`.

### C13 Wildcards match every type, parameterised declarations match every instance

A declared 'any' argument matches every actual type, and a declared parameterised decimal, varchar, fixedchar or fixedbinary matches every actual type of that kind that respects nullability, whatever its parameters.

**partial.** Exact set of accepted instances proved; parameterised fixedbinary accepts nothing (C13_fixedbinary_refuted).

Theorems: `C13_any`, `C13_instances_partial`, `C13_fixedbinary_refuted`.

### C14 Matching concrete types share a signature

If a declared concrete type matches an actual concrete type then both have the same signature text, so a function's signature can be used as lookup key for any argument list it accepts.

**proved.** As stated.

Theorems: `C14_signature`.

### C15 Type text in plans survives printing and parsing

For every protobuf type the plan printer can print, parsing the printed text gives back the same type with the same parameters and nullability (an unspecified nullability being read as required), and types it cannot print are reported as errors.

**proved.** Also C15_reading for every type text; reading fixedbinary loses its length (C15_fixedbinary_refuted, a type the printer cannot print).

Theorems: `C15_roundtrip`, `C15_unprintable_reported`, `C15_reading`, `C15_unknown_reported`, `C15_fixedbinary_refuted`, `C15_reading_refuted`.

### C16 Function lookup returns the first registered match

Looking a function up by name, argument types and return type yields the earliest registered variant with that name that accepts them, and nothing iff no registered variant accepts them.

**proved.** For declarations and queries with all parts present (ValidDecl, ValidQuery); C54_valid tells which loaded declarations are.

Theorems: `C16_first_match`, `C16_unique`.

### C17 A non-variadic function accepts exactly pointwise matching value arguments

A function without variadic arguments accepts a list of actual types iff it has exactly as many as the declared value arguments and each matches in order, and the return types match whenever both are known; non-value arguments are ignored.

**proved.** As stated.

Theorems: `C17_fixed`.

### C18 A variadic function accepts exactly the argument counts within its bounds

A function with variadic arguments accepts a list of actual types iff its length lies between the declared minimum and maximum (when given) and every actual type matches the declared argument, and it never reads a missing declared argument.

**partial.** Proved for declarations whose only argument is a value argument, and exactly (C18_exact) for all others with non-negative bounds and at least one argument; false for several arguments, negative bounds, and undefined without arguments (C18_*_refuted).

Theorems: `C18_exact`, `C18_variadic_partial`, `C18_no_arguments_refuted`, `C18_negative_refuted`, `C18_later_arguments_refuted`.

### C19 Aggregate functions also accept their intermediate type, and only as a single argument

An aggregate function accepts a call iff the ordinary rule accepts it or there is exactly one actual argument and it matches the declared intermediate type.

**proved.** The requested return type is ignored in the intermediate case (C19_return_unchecked).

Theorems: `C19_aggregate`, `C19_return_unchecked`.

### C20 Registering functions and types never disturbs earlier registrations

After any sequence of registrations, a query that previously found a function or a type still finds the same one, and registrations under one name do not affect queries for another name.

**proved.** As stated.

Theorems: `C20_functions_stable`, `C20_functions_independent`, `C20_types`, `C20_types_stable`, `C20_types_independent`.

### C21 A function signature lists the name and argument signatures in order

The signature of every function is its name, followed, when there are arguments, by ':' and the argument signatures joined by '_' in declaration order.

**partial.** Exact text proved; undefined for declared types with a non-literal length parameter (C21_parameter_refuted).

Theorems: `C21_signature`, `C21_defined`, `C21_defined_concrete`, `C21_parameter_refuted`.

### C22 Symbol lookup by name returns the first definition, forever

After any sequence of definitions, looking a name up returns the earliest symbol defined under that name (or the earliest alias), and later operations never change the answer for a name that already resolves.

**proved.** C22_defined: operations naming a symbol that is not in the table are out-of-bounds accesses, all others are defined. Counters are modelled as unbounded integers.

Theorems: `C22_first`, `C22_stable`, `C22_defined`.

### C23 Lookup by location returns every symbol recorded there in recording order

After any sequence of definitions and permanent-location additions, looking up a location returns exactly the symbols recorded at it, in recording order, and the type-filtered lookup returns the first one of that type.

**proved.** C23_unknown_refuted: recording a location for an unknown symbol is an out-of-bounds access.

Theorems: `C23_locations`, `C23_types`, `C23_type`, `C23_unknown_refuted`.

### C24 Generated unique names are unique

Every name handed out by the unique-name generator differs from every name handed out before and every symbol already defined.

**partial.** Exact naming proved; uniqueness holds when no requested name is another one followed by digits and is false otherwise, and for names defined without asking (C24_collision_refuted, C24_defined_refuted).

Theorems: `C24_exact`, `C24_unique_partial`, `C24_no_final_digit`, `C24_found_partial`, `C24_collision_refuted`, `C24_defined_refuted`.

### C25 Subqueries of one parent are numbered consecutively

When symbols are attached one after another to parent queries, the symbols attached to each parent are numbered 0,1,2,… in attachment order and can be found again by parent, number and kind.

**proved.** For symbols attached at most once and known parents; C25_again shows that attaching a symbol twice skips a number.

Theorems: `C25_numbered`, `C25_found`, `C25_again`.

### C26 Iteration visits symbols in definition order and the n-th symbol of a kind is the n-th defined

Iterating a symbol table yields every defined symbol exactly once in definition order; asking for the n-th symbol of a kind yields the n-th defined symbol of that kind or nothing if there are fewer.

**proved.** As stated.

Theorems: `C26_iteration`, `C26_nth`.

### C27 Every symbol kind has a printable name

For every symbol kind the kind-to-name conversion returns a name without reading outside its table, and distinct kinds have distinct names.

**partial.** False for the root kind (out-of-bounds read) and for tables and measures (exception): C27_root_refuted.

Theorems: `C27_names_partial`, `C27_distinct`, `C27_root_refuted`.

### C28 Locations are usable as keys

Location equality is an equivalence relation, equal locations hash equally, and the location ordering is a strict weak order whose incomparability is exactly equality.

**proved.** Addresses are modelled as numbers ordered as std::less orders pointers.

Theorems: `C28_equality`, `C28_hash`, `C28_order`.

### C29 Parse results report success exactly when no error was recorded, and report errors in order

A parse result is successful iff no syntax or semantic error was recorded; all errors are listed, syntax errors first, each group in recording order; an error with a known position is rendered as line:column → message and one without a position as the bare message.

**proved.** As stated.

Theorems: `C29_success`, `C29_all_errors`, `C29_messages`, `C29_has_errors`.

### C30 Normalising references preserves what every function call means

For every plan with distinct anchors in which every function reference is declared, after normalisation every function call reached in the plan refers to a declaration with the same name in a space with the same URI as before.

**partial.** Proved for every call the normaliser looks at. Refuted for calls in the places it skips (arguments, sorts and filters of measures, groupings, window functions, switch, or-lists, nested values, deprecated arguments, expand, write, window, exchange and nested loop relations) and for function zero next to a type declaration.

Theorems: `C30_meaning_preserved_partial`, `C30_missed_calls_refuted`, `C30_type_declaration_refuted`.

### C31 Normalised declarations are sorted and densely numbered

After normalisation the extension spaces are sorted by URI and numbered from one upward without gaps, the functions are sorted by space and name and numbered from zero upward without gaps, and no declaration is lost or invented.

**partial.** Proved for plans whose declarations are all functions (the permutation of meanings for well numbered plans). Refuted for type declarations, which are turned into unnamed functions.

Theorems: `C31_spaces_numbered`, `C31_functions_numbered`, `C31_declarations_kept`, `C31_type_declaration_refuted`.

### C32 Normalisation is idempotent

Normalising a plan a second time changes nothing.

**partial.** Proved for any two valid sorting procedures when URIs and (space, name) pairs are distinct and there are no type declarations. Refuted with duplicates (std::sort is not stable) and with type declarations.

Theorems: `C32_idempotent_partial`, `C32_idempotent_well_numbered`, `C32_duplicates_refuted`, `C32_type_declaration_refuted`.

### C33 Plans that differ only in numbering normalise to the same plan

If one plan is obtained from another by consistently renumbering its extension spaces and functions and reordering the declarations, both normalise to the identical plan.

**partial.** Proved for plans whose calls are all in places the normaliser looks at, with distinct URIs and distinct functions. Refuted otherwise.

Theorems: `C33_canonical_partial`, `C33_missed_calls_refuted`.

### C34 Normalisation fails exactly on dangling references

Normalisation throws iff some function call it reaches refers to an undeclared anchor; otherwise it completes and leaves everything except reference numbers unchanged.

**partial.** Throwing is characterised exactly for plans whose declarations are all functions. Everything but references is unchanged up to absent inputs becoming empty ones (refuted without that), and a dangling space reference is not detected (refuted).

Theorems: `C34_throws_iff_dangling`, `C34_no_other_outcome`, `C34_only_references_partial`, `C34_absent_input_refuted`, `C34_dangling_space_refuted`, `C34_type_declaration_refuted`.

### C35 Splitting a plan into pipelines and reassembling it gives the same relation tree

For every relation tree, recording it as pipelines and then reassembling the plan from the symbol table yields the same tree, with every relation having the same inputs in the same order.

**partial.** Proved for every plan of read, filter, fetch, aggregate, sort, project, join and cross relations with all their inputs and with distinct names, through the text. Refuted for several named roots, a name that something else has, other kinds, missing inputs, texts with cycles or too many inputs, and for reassembling without the text. Expressions and bodies are opaque texts in this model.

Theorems: `C35_round_trip_partial`, `C35_unique_names_partial`, `C35_defined_twice`, `C35_two_roots_refuted`, `C35_one_named_refuted`, `C35_root_column_refuted`, `C35_name_taken_refuted`, `C35_other_kinds_refuted`, `C35_missing_input_refuted`, `C35_direct_refuted`, `C35_endless_refuted`, `C35_nothing_refuted`, `C35_dropped_refuted`.

### C36 Each subquery is reattached to the expression it came from

For every relation with any number and nesting of subqueries in its expressions, reassembling the plan attaches to each subquery expression the relation tree that was recorded for it.

**partial.** Proved when no subquery has a subquery among its operands and no read filters by one; refuted otherwise (C36_*_refuted).

Theorems: `C36_attached_partial`, `C36_swapped_refuted`, `C36_needle_refuted`, `C36_read_refuted`.

### C37 Accepted text pipelines describe a forest

If a list of text pipelines is accepted without error then the recorded input relationships contain no cycle and no relation is used as a middle element of two pipelines.

**partial.** Proved: when the text is accepted no relation is in the middle of two pipelines; acceptance and what is recorded are characterised exactly. Refuted: cycles and shared inputs are accepted, a schema hides a loop within one pipeline, names of other symbols are ignored or are null pointers.

Theorems: `C37_accepted`, `C37_recorded`, `C37_middle_partial`, `C37_cycle_refuted`, `C37_shared_refuted`, `C37_schema_loop_refuted`, `C37_other_name_refuted`.

### C38 The printed pipelines cover every relation

Every relation of a converted plan appears in the printed pipelines section, each pipeline lists a relation followed by its inputs down to a leaf or a branching relation.

**partial.** Proved exactly for plans of relations that have a text, and for relations of every kind that every input stands directly before its relation; refuted for subqueries an IN looks for and for what a DDL relation defines its view by.

Theorems: `C38_pipelines_partial`, `C38_every_kind`, `C38_needle_refuted`, `C38_below_refuted`.

### C39 Every function of the symbol table is emitted exactly once in the binary plan

When a symbol table is written as a binary plan each function symbol becomes exactly one function declaration carrying its name and anchor, grouped by ascending space reference, functions without a space last.

**proved.** For declared spaces; a function of an undeclared space is written as one of space zero (C39_undeclared_refuted).

Theorems: `C39_declarations`, `C39_undeclared_refuted`.

### C40 Every function is listed in the printed text plan

When a symbol table is printed as text every function symbol is listed exactly once under the extension space it belongs to.

**partial.** Proved when every function has a space and used spaces have different URIs. Otherwise printing throws (no space) or functions are missing (equal or missing URIs): refuted.

Theorems: `C40_listed_partial`, `C40_no_space_refuted`, `C40_lost_refuted`.

### C41 A field name resolves to the last matching column

When a column is referenced by name in a text plan, the recorded field number is that of the last generated column with that name or alias if there is one, otherwise of the last input column with that name, alias or schema-qualified name, and -1 otherwise.

**partial.** Proved for all names except emits of an aggregate that name an input column; those get a meaningless number (refuted).

Theorems: `C41_field_number`, `C41_unique`, `C41_aggregate_emit`, `C41_aggregate_emit_refuted`.

### C42 Output mappings select columns in the listed order and reject missing columns

Applying an output mapping produces the listed columns in the listed order with repetitions preserved; an error is reported for each listed column number that does not exist.

**proved.** As stated.

Theorems: `C42_mapping`, `C42_all_present`, `C42_reported`, `C42_converter`.

### C43 Outer references resolve to the nearest enclosing query that has the column

A column name inside nested subqueries resolves to the innermost enclosing query that has such a column, with a step count equal to the number of query boundaries crossed; an error is reported iff no enclosing query has it.

**proved.** As stated.

Theorems: `C43_nearest`, `C43_not_found`, `C43_in_one_query`.

### C44 Enumeration names are read case- and punctuation-insensitively

For every join type, sort direction, aggregation phase and aggregation invocation, the printed name parses back to the same value, and so does every variant of it differing in letter case, digits or punctuation or carrying the protobuf prefix.

**partial.** Proved for all values but the unspecified join type (printed as a name that is rejected) and the explicitly unspecified sort direction (printed as no direction): C44_unspecified_refuted. Texts are ASCII, as the grammar guarantees.

Theorems: `C44_names_partial`, `C44_errors`, `C44_round_trip_partial`, `C44_comparisons`, `C44_unspecified_refuted`.

### C45 File format detection follows the documented markers with fixed priority

For every file content the detected format is JSON if it contains one of the quoted JSON field names, else protobuf text if some line starts with one of the field names followed by ' {', else text plan if some line starts with a text plan keyword after spaces, else binary.

**proved.** Regular expressions are modelled with full backtracking semantics; ^ matches at the start of the content only.

Theorems: `C45_detected_format`.

### C46 Output format names are recognised regardless of case, every other argument means text

The format argument of the plan transformer tool selects the named format in any capitalisation, and every other argument selects the text format.

**proved.** As stated.

Theorems: `C46_named_format`, `C46_other_argument`.

### C47 JSON loading ignores exactly one leading comment line

When JSON content starts with '#', exactly the text up to the first newline is dropped before parsing and everything else is parsed unchanged; empty content is rejected.

**proved.** As stated.

Theorems: `C47_usable_json`, `C47_parsed_text`.

### C48 The C plan loader returns the whole serialized plan

For every plan that loads, the buffer returned by the C loader contains the serialized plan and the reported size equals its length; on failure the error message is returned instead.

**proved.** For serialized plans under 2 GiB, the most protobuf can write; C48_size_bound is exact for all lengths.

Theorems: `C48_whole_plan`, `C48_error_message`, `C48_unreadable`, `C48_freed`, `C48_size_bound`.

### C49 Integer literals survive printing and parsing

For every i8, i16, i32 and i64 literal value, nullable or not, the text printed for it parses back to a literal with the same type, value and nullability.

**proved.** For every value in the range of its type, nullable or not, wherever the literal stands (C64_in_context).

Theorems: `C49_round_trip`.

### C50 Relation kind names survive printing and parsing

For every relation kind that can be printed, parsing the printed kind name gives the same kind.

**proved.** The numbers of the cases of Rel come with the generated protobuf code and are modelled from its definition.

Theorems: `C50_reads`, `C50_survives`, `C50_distinct`, `C50_others`, `C50_relations`.

### C51 Schema columns keep their types

When a table schema is imported from a binary plan, each listed column is recorded with the type at the same position.

**partial.** Proved for schemas of new and different names; C51_exact describes every schema. Refuted: a name that is already in use shifts the types of the columns after it.

Theorems: `C51_columns_partial`, `C51_exact`, `C51_shift_refuted`.

### C52 Quoting a name or string is undone exactly

Removing the quotation marks of a quoted name or raw string gives back exactly the quoted characters, for double quotes and for one, two or three backticks.

**partial.** Proved for double quotes, single, and triple backticks and for double backticks when the text does not start with a backtick; otherwise false (C52_double_backticks_refuted).

Theorems: `C52_double_quotes`, `C52_single_backticks`, `C52_double_backticks`, `C52_triple_backticks`, `C52_unquoted`, `C52_double_backticks_refuted`.

### C53 Signatures identify concrete types up to nullability

Two concrete types have the same signature text iff they are the same type when all nullability is ignored.

**proved.** As stated.

Theorems: `C53_signature_identifies`.

### C54 Extension files register exactly the functions and types they list

After loading any list of extension files, a lookup sees exactly the scalar, aggregate and window function variants and the types listed in the files, in file and document order, each with its name, the path of its file and the arguments, return type, bounds and intermediate type written there; and no lookup on the result is undefined.

**partial.** Proved for scalar and aggregate functions and types; window functions are never loaded (C54_window_refuted) and some loadable declarations make lookups undefined (C54_lookup_refuted).

Theorems: `C54_functions`, `C54_types`, `C54_valid`, `C54_window_refuted`, `C54_lookup_refuted`.

### C55 The return type of a function is the last line of its return expression

For every function declaration whose return entry is a text, the declared return type is the type written on the last line of the text, with or without a final line break.

**partial.** Proved for texts without a final line break; with one the return type is lost (C55_trailing_newline_refuted).

Theorems: `C55_last_line`, `C55_trailing_newline_refuted`.

### C56 The C plan saver reports failures

Saving a serialized plan through the C interface writes the plan made of the given bytes; bytes that are not a plan and failures to write are reported with a readable message, and a null pointer means success.

**partial.** The plan is saved and null is returned exactly on success; bytes that are no plan are not reported and error messages are dangling pointers (C56_*_refuted).

Theorems: `C56_saves_partial`, `C56_bad_bytes_refuted`, `C56_dangling_message_refuted`.

### C57 A plan file is loaded as the format it was written in

A plan written in any format is loaded by the reader of that format, whatever names and values the plan contains.

**partial.** Proved for contents without quotation marks; refuted by names in quotes, by 32 byte strings in binary plans and by plans with only a version (C57_*_refuted).

Theorems: `C57_loaded_as_partial`, `C57_quoted_name_refuted`, `C57_binary_refuted`, `C57_version_only_refuted`.

### C58 A relation of a text plan sees the columns its inputs expose

In a text plan the columns available inside a relation are the columns its inputs expose, in the order of the inputs, wherever in the text the inputs are written; a relation exposes its schema's columns, its emitted columns in the listed order, or, without an emit, all its input and generated columns (only the generated ones for an aggregate); a project generates one column per expression.

**partial.** Proved for inputs written earlier in the text; an input written later contributes no columns, and an emit of only unknown names exposes everything (refuted).

Theorems: `C58_inputs_partial`, `C58_outputs`, `C58_project`, `C58_order_refuted`, `C58_unknown_emit_refuted`.

### C59 A printed column name refers to the same column when read back

When a binary plan is printed, the text of every field reference and emitted field, read back in the same relation, refers to the same column.

**partial.** Proved when no other column has the printed name; refuted for columns with the same alias and for grouping columns emitted by an aggregate.

Theorems: `C59_found_again_partial`, `C59_printed`, `C59_emit_printed`, `C59_aggregate_emit_refuted`, `C59_same_alias_refuted`.

### C60 Names in groupings and measures refer to the columns of the aggregated input

Inside an aggregate relation of a text plan, every column name in a grouping or a measure refers to a column of the input, and the relation produces one column per grouping column followed by one per measure.

**partial.** Proved when no name is the plain name of a column added by an earlier grouping or measure; otherwise refuted, including an out of bounds read; unnamed measures produce no column (refuted).

Theorems: `C60_names_partial`, `C60_shadowed_refuted`, `C60_twice_refuted`, `C60_unnamed_refuted`.

### C61 The columns computed for a binary plan are those of the Substrait specification

For every valid relation of a binary plan, the columns that the converter passes to the next relation are the columns the Substrait specification gives to the relation, so that every field number is printed as the name of the column it denotes.

**partial.** Proved for reads, filters, sorts, fetches, projects, full joins, cross products and aggregates grouped once by columns; refuted for sets, semi/anti joins, grouping by expressions, window relations and empty emits.

Theorems: `C61_columns_partial`, `C61_missing_reported`, `C61_printed_partial`, `C61_set_refuted`, `C61_semi_join_refuted`, `C61_group_expression_refuted`, `C61_window_refuted`, `C61_empty_emit_refuted`.

### C62 Function references survive conversion to text and back

For every binary plan, each function reference is printed as a short name that, when the text is read, resolves to a declaration with the same extension URI and the same function name, and no two declarations are merged or lost.

**partial.** Proved when anchors and URIs are distinct, every space is declared, no short name is another followed by digits and no schema, column, source, table or URI has the short name of a function; refuted otherwise. The text is modelled as the parsed declarations, not as characters.

Theorems: `C62_round_trip_partial`, `C62_printed`, `C62_hidden_refuted`, `C62_collision_refuted`.

### C63 Printed names can be read back as the same names

Every name a plan text shows (columns, tables, relations, functions, schemas) is read back as the same name; numbering names to make them unique keeps them readable; exactly the names of a stated form can be read.

**partial.** Proved: a name is readable exactly when it is of the form Name, numbering keeps it readable, all names the converter makes up are readable. Refuted for names with number words (col_1), reserved words and names starting like keywords with underscores, which are printed as they are.

Theorems: `C63_characters`, `C63_readable_iff`, `C63_in_text`, `C63_numbered`, `C63_unique_names`, `C63_given_names`, `C63_number_word_refuted`, `C63_keyword_refuted`, `C63_compound_refuted`.

### C65 A text is cut into the longest tokens and nothing is lost

Every plan text is divided into tokens, ignored characters and reported characters whose concatenation is the text; each token is the longest that any rule matches at its place, and the first rule in the grammar wins among equally long ones; only between extension_space and the next brace do URIs count.

**proved.** The generated ANTLR lexer is modelled by its documented rule (longest match, first rule); proved equivalent to an independent specification of all rules as languages.

Theorems: `C65_longest_match`, `C65_nothing_lost`, `C65_modes`, `C65_words`, `C65_only_words`, `C65_seen`, `C65_reported`.

### C66 Letter case never changes how a text is divided into tokens

Two texts that differ only in the case of letters have the same kinds of tokens at the same places.

**proved.** For letters of ASCII.

Theorems: `C66_case_insensitive`, `C66_same_cuts`.

### C67 Changing white space and comments never changes the tokens of a text

When every gap of white space and comments between tokens is replaced by any other gap (that starts with white space, with comments that have no quotes and no backticks), an accepted text keeps exactly the same tokens.

**proved.** For gaps that start with a white space character; comments without quotes and backticks (a quote in a comment can lengthen a string that ends with a backslash, C67_quoted_comment_refuted); removing white space altogether can join tokens (C67_removal_refuted).

Theorems: `C67_white_space`, `C67_comment`, `C67_quoted_comment_refuted`, `C67_removal_refuted`.

### C69 The URI of an extension space can be read back

The URI of every extension space, as printed after extension_space, is read back as the same URI; exactly the URIs of a stated form can be read.

**partial.** Proved: a URI is read back exactly when it is of the form LUri. Refuted for ports, percent signs, queries, tildes, empty paths and double slashes.

Theorems: `C69_uri_iff`, `C69_characters`, `C69_uris_refuted`.

### C71 Dates keep their meaning

A date literal is printed as the day of the Gregorian calendar with that number, counted from 1 January 1970, and reading the printed text gives the same number.

**partial.** Proved for the years 0 to 9999; later years are printed but not read (C71_late_refuted). The date library is modelled from its documentation.

Theorems: `C71_calendar`, `C71_one_to_one`, `C71_round_trip_partial`, `C71_late_refuted`, `C71_read`, `C71_rest_refuted`.

### C64 Expressions survive printing and parsing

Every expression of literals, columns, function calls, conditions, casts and subqueries, nested to any depth, is printed without errors as a text that is read back, without errors, as the same expression.

**partial.** Proved for all readable expressions (literals as in C72, readable names, printable types). Refuted: function options, cast failure behaviour, list elements, map values, fields of fields and fields of expressions are lost without a report; masked references stop the conversion; functions named ifthen are shadowed.

Theorems: `C64_round_trip`, `C64_in_context`, `C64_injective`, `C64_options_refuted`, `C64_failure_refuted`, `C64_inner_refuted`, `C64_root_refuted`, `C64_masked_refuted`, `C64_ifthen_refuted`.

### C68 Arguments keep their kind

A function argument that is a value is read back as a value, one that is an enum as that enum, and one that is a type as that type.

**partial.** Proved for value and enum arguments whose texts are apart. Refuted: a column whose name ends in _enum is read as an enum, a type argument as a column.

Theorems: `C68_enum_refuted`, `C68_read_refuted`, `C68_type_refuted`, `C68_kept`.

### C72 Literals other than integers survive printing and parsing

Every literal that is printed without a report is read back as the same literal: kind, value and nullability.

**partial.** Proved for strings, dates (years 0 to 9999), intervals, decimals, fixed and variable character strings and finite floating point numbers (up to the printed text, see C70). Refuted: nullability of strings, dates and intervals is lost; booleans are printed without a type.

Theorems: `C72_round_trip_partial`, `C72_nullable_refuted`, `C72_boolean_refuted`, `C72_unprinted`.

### C73 Numbers are read as written

A number written with an integer type is read as a literal of exactly that value and within the range of its type, or an error is reported.

**partial.** Refuted: i8 and i16 are not checked, and the fraction and exponent of an integer are ignored without a report.

Theorems: `C73_range_refuted`, `C73_fraction_refuted`, `C73_overflow`.

### C74 Relations survive printing and parsing

A relation of a kind the text format has, with readable names, is printed without errors as a text that reads back, without errors, under the same name and as the same relation.

**partial.** Proved for reads, filters, fetches without offset, aggregates, sorts, projects, joins and cross products as RelReads describes: emits only of projects and aggregates, grouping sets merged, deprecated arguments as arguments.  Expressions with subqueries as in C86.

Theorems: `C74_round_trip_partial`, `C74_in_context`, `C74_injective`.

### C75 Nothing about a relation is lost without a report

Whatever part of a relation the text does not show, an error is reported; two relations that differ are not printed as the same text without an error.

**partial.** Refuted: emits of most relations, grouping sets, best effort filters, sorts of measures, comparison functions of sorts, outer columns in groupings, unknown sources and schemas and unspecified directions are lost or changed without a report.

Theorems: `C75_emit_refuted`, `C75_grouping_sets_refuted`, `C75_best_effort_refuted`, `C75_measure_sorts_refuted`, `C75_sort_function_refuted`, `C75_outer_refuted`, `C75_unknown_refuted`, `C75_unspecified_refuted`.

### C76 The text of a relation that is printed without an error can be read without one

If a relation is printed and no error is reported then the text can be parsed and is evaluated without errors.

**partial.** Refuted for fetches with an offset, reads with two filters, post join filters and options of measures. Proved: what the printer cannot print is reported.

Theorems: `C76_offset_refuted`, `C76_two_filters_refuted`, `C76_post_join_refuted`, `C76_measure_options_refuted`, `C76_unprinted`.

### C77 Reading a relation is always defined

Evaluating any relation the grammar accepts either succeeds or reports an error; it never reads outside of a list or through a null pointer.

**partial.** Refuted: grouping by a column number that is too large and measures that are not function calls are undefined behaviour.

Theorems: `C77_grouping_refuted`, `C77_measure_refuted`.

### C78 Schemas survive printing and parsing

Every schema is printed as a text that is read back as the same columns in the same order with the same types, and whoever refers to a schema by its name gets that schema.

**partial.** Proved for schemas of readable names and printable types, when no earlier schema or column has the name. Refuted: hidden names, surplus names or types, nullability of the struct, and errors of types are lost without a report.

Theorems: `C78_round_trip_partial`, `C78_hidden_refuted`, `C78_truncated_refuted`, `C78_nullability_refuted`, `C78_error_refuted`.

### C79 Sources survive printing and parsing

Every named table and every list of files is printed as a text that is read back as the same names and the same files, and whoever refers to a source by its name gets that source.

**partial.** Proved for tables of at least one name without stray quotes and for single parquet or orc files, when no earlier name hides them and no file is listed twice. Refuted: several files, none, arrow and dwrf, tables without names, quotes in names, addresses of folders, paths and globs, repeated files, hidden names; one source that cannot be printed stops the whole plan.

Theorems: `C79_round_trip_partial`, `C79_file_again_refuted`, `C79_hidden_refuted`, `C79_files_refuted`, `C79_no_names_refuted`, `C79_quotes_refuted`, `C79_location_refuted`, `C79_stops_refuted`.

### C80 Pipelines, roots and extension spaces survive printing and parsing

The characters printed for pipelines, for the names of a root and for extension spaces are parsed as the same pipelines, names, URIs and function declarations.

**partial.** Proved for readable names and URIs and functions with a signature. Refuted for empty pipelines and functions without a colon in their name.

Theorems: `C80_pipelines_partial`, `C80_roots_partial`, `C80_spaces_partial`, `C80_no_pipeline_refuted`, `C80_no_colon_refuted`.

### C81 Whole plans survive printing and parsing

A plan with any number of pipelines, relations, roots, schemas, sources and extension spaces is printed as one text that is parsed without errors and in which every part means what it did.

**partial.** Proved for all plans of readable parts (PlanReads): one text with all sections; relations as in C74, functions as in C62. Advanced extensions are not printed and not modelled.

Theorems: `C81_round_trip_partial`, `C81_injective`, `C81_functions`.

### C82 Reading a text reports every problem

A text gives a plan exactly if the lexer, the parser and all passes over the tree report nothing and throw nothing; otherwise everything that was reported or thrown is in the returned error, and no exception of a pass escapes.

**proved.** The passes are parameters: any function of the errors so far and the table.

Theorems: `C82_success`, `C82_reports`, `C82_contained`.

### C83 Saving a plan replaces the file by the whole plan or leaves it alone

If saving reports success, the file has exactly the text of the plan and nothing else has changed; if it reports an error, the file still has its old content and nothing is left open.

**partial.** Proved: what success means, when it is reported, and that other files are never touched. Refuted: a failed conversion or printing has already destroyed the old content, and failed serialization leaves a descriptor open. Converters and the operating system are parameters.

Theorems: `C83_saved`, `C83_succeeds`, `C83_others`, `C83_lost_refuted`, `C83_incomplete_refuted`, `C83_leak_refuted`.

### C84 The command line tools say what went wrong

The tools print a text plan only for input that was converted without an error, treat every file as if it were alone, and tell failure by their exit status.

**partial.** Proved for the output of the parser and for lists of files. Refuted: exit status, text printed by the converter for plans with errors, exceptions ending the run.

Theorems: `C84_parser`, `C84_unread`, `C84_each_file`, `C84_status_refuted`, `C84_converter_refuted`, `C84_stops_refuted`.

### C85 The file that is named is the file that is loaded

Loading a plan reads the file whose name the caller gave, also if the name is part of a longer text, and reads what saving under the same name wrote.

**partial.** Proved for names followed by a zero. Refuted for names that are the beginning of a longer text or have no zero after them.

Theorems: `C85_named_partial`, `C85_missing`, `C85_longer_refuted`, `C85_unterminated_refuted`.

### C86 Subqueries survive printing and parsing

A scalar subquery, a membership test, a predicate or a comparison with the rows of a relation is printed without errors as a text that is read back as the same subquery of the same relation, wherever an expression may stand; what cannot be written is reported.

**partial.** Proved for subqueries as arguments of functions and for comparisons. Refuted: scalar subqueries, memberships and predicates that stand by themselves are refused by the first pass in filters, projects, groupings and joins; relations named like enum arguments become enum arguments.

Theorems: `C86_passes_agree`, `C86_first_pass`, `C86_argument`, `C86_comparison`, `C86_filter_refuted`, `C86_project_refuted`, `C86_grouping_refuted`, `C86_join_refuted`, `C86_enum_refuted`, `C86_reported`.

### C87 What an expression refers to is there or is reported

If a text is read as an expression without an error, every function, column and relation that it refers to is known, and no argument, operand or operation is missing.

**partial.** Proved for all texts except that a condition without parts is read as nothing, which is refuted.

Theorems: `C87_resolved`, `C87_empty_condition_refuted`.

### C70 Floating point literals survive printing and parsing up to six digits

A finite floating point literal is printed as the decimal number with at most six digits that is nearest to its value (ties to an even digit), with its sign. Reading a number with an fp32 or fp64 type gives the nearest number of that format, or an out-of-range error exactly when it is too large. Every finite literal of a plan can be read back, keeps its sign, is unchanged if it has at most six digits, and prints as the same text again if it is in the normal range.

**proved.** Printing and stof/stod are library functions, modelled by their contracts (%g with six digits; nearest number; whether a number that is too small is reported is left to the library and not modelled). Findings beside it: digits after the sixth are lost silently, infinities and NaN are printed as words that are not literals.

Theorems: `C70_printed`, `C70_read`, `C70_always_read`, `C70_exact`, `C70_again`, `C70_literal`, `C70_literal_single`, `C70_precision_refuted`, `C70_changed_refuted`, `C70_infinite_refuted`, `C70_subnormal_refuted`.

### C88 Timestamps and times of day in texts mean what they say

A quoted date and time with the type timestamp is read as that point in time, a quoted time of day with the type time as that time; texts that name no point in time or no time of day are reported; a time zone shifts a timestamp by its offset.

**partial.** Proved for all texts in range, and that texts without a meaning are reported. Refuted: timestamps are seconds where the message has microseconds, points in time outside 1677 to 2262 are undefined behaviour, text after the part that is read is ignored, unreadable seconds are ignored. The date library is modelled by its documentation.

Theorems: `C88_timestamp`, `C88_timestamp_only`, `C88_timestamp_reported`, `C88_unit_refuted`, `C88_range_refuted`, `C88_rest_refuted`, `C88_time`, `C88_time_only`, `C88_seconds_refuted`, `C88_time_reported`, `C88_zoned`, `C88_zoned_only`, `C88_zone_reported`.

### C89 Literals written in a text mean what they say

A constant with a type next to it, in braces or not and nested to any depth, is read as the value it spells for that type. What has no value of that type is reported. Without a type only booleans and strings are read.

**partial.** Proved: what a constant means is read, and what is read is what the constant means or one of the listed oddities. Refuted: numbers with types that are none of numbers, lengths of strings, pairs with struct types, intervals of nothing or of nulls, and types inside braces are not checked. Types are those that the parser reads as basic types, lists, maps and structs of them; timestamps with time zones are not part of it.

Theorems: `C89_text`, `C89_sound`, `C89_reported`, `C89_untyped`, `C89_number_refuted`, `C89_length_refuted`, `C89_pairs_refuted`, `C89_interval_refuted`, `C89_interval_null_refuted`, `C89_inner_refuted`.

### C90 What is printed without an error has no gaps

An expression or a relation is printed without an error exactly if every function and column it refers to is known, every part it needs is there and everything in it has a text; what ends the printing by an exception is an expression without a kind or a selection of something else than a field, and nothing else.

**partial.** Proved for all expressions and relations. Refuted: an aggregate argument without a value is not reported, and a comparison function replaces the text of a sort relation.

Theorems: `C90_clean`, `C90_reported`, `C90_stuck`, `C90_defined`, `C90_relation`, `C90_argument_refuted`, `C90_sorts_refuted`.

### C91 A whole plan survives conversion to text and back

A binary plan whose relations are reads, filters, fetches, aggregates, sorts, projects, joins and cross products, nested in any way, is converted to a text without errors, and the text is converted back without errors to a plan with the same trees of relations: the same sources and schemas, the same functions (by URI and name), types and literals, and expressions, groupings, measures and emits that use the same columns of the same reads or computations, whatever numbers they have.

**partial.** Proved for every plan of the class Convertible, without a bound on its size. Not in the class: subqueries, offsets of fetches, filters of reads that use columns, several grouping sets, grouping by computed expressions, semi and anti joins, literals and types whose own round trip is refuted, set and extension relations, and names that the conversion could make up itself. Refuted: a computed column that is grouped by and used in a measure comes back as a column that is not there; columns in the filter of a read are not found.

Theorems: `C91_round_trip_partial`, `C91_injective`, `C91_grouped_refuted`, `C91_read_filter_refuted`.

### C92 A plan that went through a text computes the same results

Whatever the tables hold and the functions, literals, casts, orders, groups and joins mean, a binary plan and the plan it becomes by conversion to text and back have the same rows in the same order under the same names, for every relation of the plan. Two plans with the same text have the same results.

**partial.** Proved for the class of plans of C91 and every meaning that gives values to literals, functions, casts, conditions, tables, orders, groups and joins by what they are given. Refuted for the plans outside it that C91 names: a computed column that is grouped by and used in a measure is replaced by nothing, so the results differ.

Theorems: `C92_results_partial`, `C92_text_partial`, `C92_grouped_refuted`.

### C93 A relation in a text means what its details say, and nothing is reported about it exactly if everything in it belongs there

Reading a relation from a text reports nothing exactly if every detail belongs to relations of its kind, filters, join expressions and the function and filter of a measure are given at most once, and every expression, type, phase, invocation, direction, count, emitted column and join type in it can be read. The relation is then made of exactly these details, in their order; the sorts and the invocation of a measure are part of its function.

**partial.** Proved for every relation, as an equivalence. Refuted: the last of several counts (and in the same way types of joins and invocations of measures) is taken without a report; sources and schemas that are not known are left out without a report (C75).

Theorems: `C93_exact_partial`, `C93_misplaced`, `C93_kind`, `C93_emit`, `C93_counts_refuted`.

### C94 The definitions of a text are found under their names, and what is wrong with them is reported

Reading a text defines exactly the schemas, columns, sources, files, tables, extension spaces and functions that are written in it, in their order; a name means the first definition of it. Reported are exactly what is wrong with the types of columns and functions without a signature; a number that does not fit is never read as another number.

**partial.** Proved for every text. Refuted: virtual and extension tables can be defined, but relations that use them have no source and nothing is reported; negative numbers in files become large ones.

Theorems: `C94_symbols`, `C94_first`, `C94_numbers`, `C94_virtual_refuted`, `C94_negative_refuted`.

### C95 Which binary plans are taken in without an exception

The symbols and pipelines of a binary plan are found without an exception exactly if every message of it in which one of several kinds must be chosen has one that is supported (types, literals, expressions, arguments, references, sources, relations, at any depth), every declaration is one of a function, and every subquery has its relation; nothing ends the process otherwise.

**partial.** Proved as an equivalence for the first two of the three passes of reading a binary plan, all messages, without a bound; the third pass is the printing of relations (C90). Refuted: a subquery without its relation is undefined behaviour (a symbol that was not found is used); the needles of an IN are not looked at; a missing input of any relation but a root is not noticed.

Theorems: `C95_exact`, `C95_exception`, `C95_crash_only`, `C95_subquery_refuted`, `C95_needles_refuted`, `C95_inputs_refuted`, `C95_root`.

### C96 Plans can be converted to text and back again and again

A plan that was converted to text and back can be converted again, any number of times: no errors are reported and the plan stays the same, with the same results. If no more than nine functions have the same name, all texts after the first are equal, and all plans after the second.

**partial.** Proved for the class of plans of C91, any number of conversions and every meaning. Refuted without the bound on functions of one name: with ten of them the text changes with every conversion, since f10 is written before f2 and gets the name f2 the next time.

Theorems: `C96_again`, `C96_stable`, `C96_text_refuted`.

### C97 A plan made from a text without reports refers only to what is there

If a text is converted to a binary plan and nothing is reported, every function that an expression or a measure calls is declared in the plan, every column that a relation uses is a column of its inputs, every column that it emits exists, and every relation has the inputs it needs. The order of the sections does not change the plan.

**partial.** Functions: proved for every text. Columns: proved for every text in which each relation comes after its inputs, has as many as it needs, and each aggregation names a measure, except for the columns inside of aggregations. Refuted for all others: another order of sections makes another plan; a filter with two inputs, aggregations without named measures and columns that are grouped by and measured lead to columns that are not there; a join of one input has none; a measure without a call calls the first function. About texts without subqueries (C100_same); functions in subqueries: C100_functions. The names of a tree of the plan are those of the text's only root, or there are none (C97_names); if a pipeline ends in the root and none goes on from there, there is a tree with these names (C97_root).

Theorems: `C97_names`, `C97_root`, `C97_functions`, `C97_columns_partial`, `C97_order_refuted`, `C97_inputs_refuted`, `C97_unnamed_refuted`, `C97_grouped_refuted`, `C97_join_refuted`, `C97_no_call_refuted`.

### C98 Reading a text of a plan is never undefined behaviour and always ends

Converting any text to a binary plan either makes a plan or reports errors: it does not read past the end of a list, follow a null pointer, convert a number that is out of range, or recurse without end, whatever the types, constants, groupings, measures and pipelines of the text are.

**partial.** Proved: every text whose behaviour is undefined has one of the listed traps (for constants exactly those that are listed), the types of accepted texts are always read, and recursion ends unless pipelines go round in a circle. Refuted otherwise, with a text for each trap: grouping twice by one column, a measure that is no call, an interval with too few parts, a timestamp out of range, a pipeline through something that is no relation, relations that feed each other. About texts without subqueries (C100_same), where looking for a column that is nowhere does not end either if pipelines go round in a circle (C100_ends_refuted).

Theorems: `C98_defined`, `C98_constants`, `C98_types`, `C98_ends`, `C98_grouped_twice_refuted`, `C98_grouped_same_refuted`, `C98_measure_refuted`, `C98_interval_refuted`, `C98_timestamp_refuted`, `C98_pipeline_refuted`, `C98_endless_refuted`.

### C99 The order of the sections of a text does not matter

Two texts of a plan that have the same sections in another order convert to the same binary plan with the same reports. Definitions, pipelines, relations and roots may be mixed in any way; relations may come in any order in which each comes after its inputs; schemas, sources and extension spaces may come in any order in which the spaces, whose functions are numbered, stay in theirs.

**partial.** Proved: sections of different kinds may be mixed in any way, for every text, valid or not (C99_kinds); relations may come in any order in which each comes after its inputs, for accepted texts whose pipelines name relations and whose project expressions have names (C99_relations, C99_same); schemas, sources and extension spaces may come in any order in which the spaces stay in theirs, for accepted texts in which no other definition has the name of a function and names that relations use and those of files are defined once (C99_definitions); all of it at once (C99_any). False if a relation comes before its inputs (C97_order_refuted) and, without a report, if two schemas have the same name (C99_hidden_refuted). For texts with subqueries the kinds may be mixed as well (C99_subqueries), and the definitions moved (C99_subquery_definitions); relations may be moved there if each comes after its inputs and after the relations it is inside of, and no two relations have the same subquery (C99_subquery_relations), also together with definitions (C99_subquery_any), but not otherwise: with nested subqueries the order of two relations that do not feed each other counts, without a report (C99_subquery_relations_refuted). Spaces in another order number the functions differently.

Theorems: `C99_kinds`, `C99_relations`, `C99_same`, `C99_definitions`, `C99_any`, `C99_hidden_refuted`, `C99_subqueries`, `C99_subquery_definitions`, `C99_subquery_relations_refuted`, `C99_subquery_relations`, `C99_subquery_any`.

### C100 Subqueries of a text are those of the plan

When a text is read without a report, every relation of the plan, inside of subqueries or outside, is a relation of the text with its kind, its inputs and its subqueries: every subquery in its message has the relation that is named at its place in the text. A subquery is no root of the plan. A column that a subquery reads from outside is one of a relation around it, as many subqueries out as the plan says. Functions called in subqueries are declared. Texts without subqueries are read as if there were none. Reading ends.

**partial.** Proved for every text: every relation of the plan is made of the relation of the text with its name, of its kind, with inputs that feed it; the subqueries in its message are exactly those that are attached to it, each is one of the text's, and all of them are there unless some are in sorts of measures or in arguments that are read as enumerations; no root is a subquery; all called functions are declared; a column that is read k steps outwards belongs to a relation k subqueries around the reading one, and relations outside of subqueries read their own columns only; given the columns of a relation and of those around it, a name in it (no aggregation) stands for the nearest column that has it (C100_columns_partial, C100_section); texts without subqueries are read as in C91 to C99; reading ends unless a relation supplies itself over pipelines and subqueries; it is defined unless the text has one of the traps of C98 or groups, within a subquery, by a column from outside. Refuted: that each subquery is at its place, if there are several (a join whose filter comes before its expression, a subquery among the operands of another, a subquery in a sort of a measure); that a subquery used twice reads the right columns; that a name may end in _enum; that reading ends; that an aggregation may group by a column from outside; that a column from outside is a column of the inputs of the relation around (it can be one that a project makes). Missing: that the columns of the relations around, when a relation is read, are those they have in the plan; names in aggregations within subqueries. The names of the plan's trees are those of the root (C100_names), and one of them has these names (C100_root).

Theorems: `C100_names`, `C100_root`, `C100_same`, `C100_same_accepted`, `C100_functions`, `C100_subqueries`, `C100_all_subqueries`, `C100_around`, `C100_own`, `C100_columns_partial`, `C100_section`, `C100_ends`, `C100_defined`, `C100_new_refuted`, `C100_swapped_refuted`, `C100_operand_refuted`, `C100_hidden_refuted`, `C100_shared_refuted`, `C100_enum_refuted`, `C100_ends_refuted`, `C100_grouping_refuted`.

### C101 The names of columns in a text stand for the columns that have those names

If a text is converted to a binary plan and nothing is reported, each relation of the plan reads, groups by and emits the columns that are named in its section: the column of its inputs with that name, or with that schema and name, the last one if there are several; and a relation has the columns of its inputs, those of its schema, those that it computes, groups by and measures under the names that it gives them, or just those it emits, in that order.

**partial.** Proved for accepted texts in which each relation comes after its inputs, has as many as it needs, uses schemas that are there, and in which no column is renamed and aggregations group by columns before they measure, with one name for each measure (C101_columns_partial). Names in measures that are also columns of the aggregation may stand for columns that are not there (C97_grouped_refuted). About texts without subqueries (C100_same). Refuted for other texts: a new name for a column is ignored, grouping by an expression shifts the columns after it, and so does a measure before a grouping.

Theorems: `C101_columns_partial`, `C101_one`, `C101_one_emitted`, `C101_renamed_refuted`, `C101_shifted_refuted`, `C101_measured_first_refuted`.

## Findings

What the model says is wrong with the code. Each line is backed by the theorem named.

Crashes and undefined behaviour:

* Decoding a type name without parameter support reads out of bounds or through null for malformed parameter lists (`C09_concrete_refuted`).
* A function declaration without arguments and a variadic bound: lookups read an empty list (`C18_no_arguments_refuted`); declarations that load but make lookups undefined (`C54_lookup_refuted`).
* The signature of a type with a non-literal length is a bad cast (`C21_parameter_refuted`).
* `symbolTypeName` reads outside of its table for the root kind (`C27_root_refuted`).
* A scale of -2^31 in a decimal negates the least integer (`C04_total_refuted`).
* Texts that name something other than a relation in a pipeline, or that give a relation the name of another symbol (`C37_other_name_refuted`, `C35_name_taken_refuted`).
* A missing input of a join in a binary plan (`C35_missing_input_refuted`); cyclic pipelines never finish (`C35_endless_refuted`).
* Grouping by a column number that is too large (`C77_grouping_refuted`, `C60_twice_refuted`); a measure that is not a function call (`C77_measure_refuted`).
* Error messages returned by the plan loader are dangling pointers (`C56_dangling_message_refuted`).
* A source named like a schema, a column or a table is a bad cast (`C79_hidden_refuted`); a virtual table, an extension table or an unset file format stops the printing of a whole plan (`C79_stops_refuted`).
* A masked reference in an expression is a bad cast that stops the conversion (`C64_masked_refuted`).

Meaning changed without a report:

* Decimals of 2^127 and more become negative (`C02_high_refuted`); oversized decimal values wrap (`C01_oversized_refuted`).
* String values with a backslash come back changed (`C07_value_refuted`); malformed `\u` escapes are dropped (`C08_preserved_refuted`).
* The normaliser misses calls in many places and renumbers functions under them, and turns type declarations into functions (`C30_missed_calls_refuted`, `C31_type_declaration_refuted`); its result depends on the order of equal entries (`C32_duplicates_refuted`).
* Function options, cast failure behaviour, inner fields, fields of expressions (`C64_*_refuted`); enum-like column names (`C68_enum_refuted`); nullability of some literals (`C72_nullable_refuted`); digits of floating point numbers after the sixth (`C70_precision_refuted`, `C70_changed_refuted`); i8/i16 ranges and fractions of integers (`C73_*_refuted`).
* Emits, grouping sets, best effort filters, sorts of measures, comparison functions of sorts (`C75_*_refuted`).
* Schemas: surplus names or types, nullability, schemas hidden by columns (`C78_*_refuted`); sources: addresses other than of single files, repeated files, names with quotes (`C79_location_refuted`, `C79_file_again_refuted`, `C79_quotes_refuted`).
* Columns of a schema get the types of their neighbours if a name is already in use (`C51_shift_refuted`).
* Subqueries that are operands of subqueries change places (`C36_swapped_refuted`).
* Names: two symbols can get one name (`C24_collision_refuted`), functions can be hidden (`C62_hidden_refuted`), a column can be resolved to another one (`C59_same_alias_refuted`, `C60_shadowed_refuted`), columns of sets, semi joins and window relations are miscounted (`C61_*_refuted`).
* Functions of undeclared spaces become functions of space zero (`C39_undeclared_refuted`); functions of spaces with equal URIs are lost (`C40_lost_refuted`).

What is printed cannot be read, or is refused:

* Names with number words, keywords and compound keywords (`C63_*_refuted`); URIs with ports, queries and the like (`C69_uris_refuted`).
* Infinities and NaN (`C70_infinite_refuted`).
* Dates after the year 9999 (`C71_late_refuted`); booleans (`C72_boolean_refuted`); nested nullable types (`C11_nested_nullable_refuted`).
* Sources with several files or none, arrow and dwrf files, tables without names (`C79_files_refuted`, `C79_no_names_refuted`); empty pipelines, functions without a signature (`C80_*_refuted`).
* Scalar subqueries, memberships and predicates that are not arguments of functions (`C86_*_refuted`).
* Fetches with an offset, post join filters, options of measures, reads with two filters (`C76_*_refuted`); two named roots (`C35_two_roots_refuted`).

Files and tools:

* Saving as text empties the file before converting: a plan that cannot be converted destroys what the file held (`C83_lost_refuted`), one that cannot be printed replaces it by an incomplete text (`C83_incomplete_refuted`); failed serialization leaks a descriptor (`C83_leak_refuted`).
* The tools exit with success whatever happened (`C84_status_refuted`), the converter prints a text for plans with errors (`C84_converter_refuted`), and one plan that throws ends the run (`C84_stops_refuted`).
* `loadPlan` takes a string_view and reads on to the next zero byte (`C85_longer_refuted`, `C85_unterminated_refuted`).

* A computed column that is grouped by and also used in a measure comes back as a column that does not exist, without a report (`C91_grouped_refuted`); the results of such a plan change (`C92_grouped_refuted`). Columns in the filter of a read relation cannot be read back at all (`C91_read_filter_refuted`).
* With ten functions of the same name (before the colon) the text of a plan changes with every conversion to text and back: the functions are written in the order of their names as strings, f10 before f2, and are numbered anew in that order when the plan is read (`C96_text_refuted`). With nine or fewer the text stays from the second on (`C96_stable`).
* Of several `count` details of a fetch relation the last one counts, and nothing is reported (`C93_counts_refuted`); the same holds for the type of a join and the invocation of a measure, where second filters, expressions and functions are reported.
* Virtual tables and extension tables can be defined in a text, but a relation that uses one has no source, without a report (`C94_virtual_refuted`). A negative `start`, `length` or `partition_index` of a file wraps around to a large number (`C94_negative_refuted`).
* Reading a binary plan whose subquery has no relation dereferences a null pointer (`C95_subquery_refuted`).

Accepted though wrong:

* The order of relation sections in a text matters: a relation before its inputs counts columns as if these had none, so that the same sections in another order make another plan, without a report (`C97_order_refuted`).
* Of two schemas (or sources) with the same name the first one of the text is taken and nothing is reported, so that exchanging them makes another plan (`C99_hidden_refuted`).
* Which columns a relation within a subquery has is only known when the second pass has come to it.  A relation in a subquery of that relation which comes earlier in the text looks for its outer columns among those of the first pass, in which columns of subqueries are not evaluated (SubstraitPlanRelationVisitor.cpp 1220-1229), so that exchanging two relations that do not feed each other makes another plan without a report (`C99_subquery_relations_refuted`).  If each relation comes after those it is inside of, the order does not matter (`C99_subquery_relations`).
* A relation with more inputs than it can have counts the columns of all of them (`C97_inputs_refuted`); an aggregation without named measures passes on the columns of its input (`C97_unnamed_refuted`); a column that is grouped by and also measured, written without its schema, is read as one that does not exist (`C97_grouped_refuted`). All become columns that are not there.
* A join with one input has none in the plan (`C97_join_refuted`); a measure that calls nothing calls the first function of the plan (`C97_no_call_refuted`).
* A new name for a column of the inputs is ignored: the name stands for another column or none (`C101_renamed_refuted`). An aggregation that groups by an expression, or that has a measure before a grouping, counts its columns in another way than the message has them, so that names stand for other columns in the relations after it, without a report (`C101_shifted_refuted`, `C101_measured_first_refuted`).
* Grouping twice by one column reads past the end of the list of fields (`C98_grouped_twice_refuted`, `C98_grouped_same_refuted`); a measure that is a column follows a null pointer (`C98_measure_refuted`). With intervals of too few parts, timestamps out of range and pipelines through names of other things these are all ways in which reading a text is undefined, except for relations with 2^31 columns (`C98_defined`).
* Subqueries are recorded in the order in which the parser meets them and put into the message in the order of its fields. If a relation has several, they are swapped without a report: a join whose post-join filter is written before its expression (`C100_swapped_refuted`), a subquery among the operands of another (`C100_operand_refuted`), a subquery in a sort of a measure (`C100_hidden_refuted`).
* A relation that is a subquery of two relations is read with the columns around the last of them, in both places (`C100_shared_refuted`). A subquery whose relation has a name that ends in _enum is read as an enumeration (`C100_enum_refuted`). A relation that is its own subquery, and a column that is nowhere while pipelines go round in a circle, make reading never end (`C100_ends_refuted`). An aggregation within a subquery that groups by a column from outside groups by its own column with that number, which need not be there (`C100_grouping_refuted`).
* A subquery may name a column that the project around it makes. The plan then has an outer reference to a column that the project's input does not have, and there is no report (`C100_new_refuted`).
* Messages that are not set in the needles of an IN (`C95_needles_refuted`) and missing inputs of relations in binary plans (`C95_inputs_refuted`).
* Pipelines with cycles, shared inputs and too many inputs (`C37_*_refuted`, `C35_dropped_refuted`); unknown sources and schemas (`C75_unknown_refuted`).
* A condition without parts, which is read as no expression at all (`C87_empty_condition_refuted`).
* Numbers with types such as `bool` are read as literals without a value (`C89_number_refuted`); strings of any length as `fixedchar` and `varchar` (`C89_length_refuted`); pairs with a struct type as an empty struct (`C89_pairs_refuted`); `{}_interval_year` is undefined behaviour and null in an interval is zero (`C89_interval_refuted`, `C89_interval_null_refuted`); types inside braces are ignored (`C89_inner_refuted`).
* Text after a date, a timestamp or a time of day, and seconds that cannot be read (`C71_rest_refuted`, `C88_rest_refuted`, `C88_seconds_refuted`).
* Timestamps are read as seconds, but the message has microseconds (`C88_unit_refuted`); outside 1677 to 2262 the conversion overflows (`C88_range_refuted`).
* An argument of an aggregate function without a value is printed as a word (`C90_argument_refuted`); a comparison function in a sort relation replaces all other text of the relation (`C90_sorts_refuted`).
* Bytes that are not a plan (`C56_bad_bytes_refuted`); format detection is fooled by names in quotes and by binary plans (`C57_*_refuted`).
* Window functions are silently not loaded (`C54_window_refuted`); a trailing newline loses a return type (`C55_trailing_newline_refuted`).

## Testing the theorems

`tools/mutate.py` applies an edit to a scratch copy of the theories, rebuilds every file that depends on it and records which theorems no longer hold.
`seeded/LOG.jsonl` has one line per attempt: the definition, the edit, the claim it breaks, what failed, and what was tightened.
