# A formal model of substrait-cpp in Rocq (Coq 8.16.1)

## What is here

* `properties.jsonl`: the properties, in terms of the API and what a user sees.
* `rocq/theories/*Model.v`: the model, one file per component of `/repo`, every definition with the file and lines it models.
* `rocq/theories/*Facts.v`: specifications and proofs. The specifications are at the top of the files, as inductive predicates or
  short definitions that do not use the functions of the model they are about.
* `rocq/theories/Prop*.v`: the theorems about the properties, `Print Assumptions` for each, and concrete cases (`Example`) next to them.
* `MANIFEST.json`: which theorems belong to which property. `tools/gen_props.py`, `tools/gen_manifest.py`, `tools/gen_design.py` write
  `properties.jsonl`, `MANIFEST.json` and this file; `tools/assumptions.py` prints what all theorems depend on.
* `seeded/LOG.jsonl`: attempts to break the theorems by changing the model (`tools/mutate.py` with `seeded/mutants/*.json`).

Theorem names start with the property. `…_refuted` is a theorem that shows that the code does not have the property as stated (a finding);
most of these are general statements about all inputs of a class, some are about one witness. `…_partial` is the part of a property
that holds. A property is `proved` in the manifest only if the statement in `properties.jsonl` holds of the model as it is.

## How the model is made

* Functions of the code are total Gallina functions. Loops are structural or have fuel with a theorem that the fuel is enough.
* `outcome A` is `Ok a`, `Throw e` (an exception, with its class) or `UB` (undefined behaviour: reads out of bounds, null pointers,
  negative arguments of `std::isalpha`, …). Errors reported to a listener are data next to the result.
* Strings are lists of bytes (`ascii`). Numbers are `Z`/`N` with the bounds of the C++ types where the code depends on them
  (wrapping of 128 bit decimals, `std::stoi`, sizes of files, …).
* Pointers are numbers or indices into lists; hash maps are functions or association lists, with theorems for every order of iteration where
  the code iterates over them.
* Where several functions interleave (symbol table, pipelines in a text), the model is a state machine and theorems are invariants of all
  sequences of operations.

## Trusted base

1. The kernel of Coq 8.16.1 (and `coqchk`, which accepts all files). No flags that switch off checks; no axioms of our own, no functors.
2. Axioms: `Print Assumptions` says "Closed under the global context" for every theorem in `MANIFEST.json` (`tools/assumptions.py`).
3. That the Gallina functions say what the C++ code does. Nothing was compiled or run; the code was read. Every definition cites its lines.
4. External code, modelled from its documentation:
   * ANTLR 4: the lexer takes the longest match, the first rule among equals (`LexModel`). The generated parser is modelled as recursive
     descent over the tokens for names, types, literals, expressions, relations and whole plans (`NameModel`, `TypeModel`, `ExprModel`, `RelModel`, `SectionModel`); what
     ANTLR does after a syntax error (recovery) is not modelled: a text that does not parse is `None`.
   * `std::regex` (backtracking matcher in `IoModel`), `std::stoi/stol/stof/stod`, printing of floating point numbers with six digits
     (`FloatModel`), the date library (`CalendarModel`, `TimeModel`), `std::sort` (any function that sorts), `absl::SimpleAtoi` for `uint128`,
     protobuf messages as records (`ProtoModel`), protobuf and JSON parsing as parameters (`IoModel`), yaml-cpp as trees of nodes
     (`FunctionModel`), `fmt` only where it can throw.

## What is modelled

| file in /repo | model | not modelled |
|---|---|---|
| include/substrait/type/Type.h, src/substrait/type/Type.cpp | TypeModel: decode, matching, signatures, toString of all classes | – |
| include/substrait/function/*.h, src/substrait/function/*.cpp | FunctionModel: matching of all kinds, lookup, registration, loading of yaml nodes | file access, the yaml grammar |
| src/substrait/expression/DecimalLiteral.cpp | DecimalModel: all functions | – |
| src/substrait/common/{StringUtils.h, NumberUtils.h} | StringsModel | – |
| src/substrait/common/{Io.cpp, PlanTransformerTool.cpp}, export/planloader/planloader.cpp, textplan/converter/LoadBinary.cpp | IoModel | the file system is a map; protobuf, JSON and text format are parameters |
| src/substrait/textplan/{SymbolTable, Location, ParseResult, SubstraitErrorListener} | SymbolModel: all operations | toDebugString |
| src/substrait/textplan/StringManipulation.cpp, string literals of printer, lexer and visitors | EscapeModel, StringsModel | – |
| src/substrait/textplan/converter/ReferenceNormalizer.cpp | NormalizerModel over ProtoModel: all functions | – |
| src/substrait/textplan/converter/{InitialPlanProtoVisitor, PipelineVisitor}.cpp | DeclModel (extensions, functions), TreeModel and PipeModel (relations, pipelines, subqueries), FieldModel (columns), KindModel (columns of schemas) | sources other than their names |
| src/substrait/textplan/converter/BasePlanProtoVisitor.cpp | VisitModel over VisitMessages (written by tools/gen_visit.py): every function, as the visitors above inherit it | advanced extensions and expected type URLs (nothing is done with them) |
| src/substrait/textplan/SymbolTablePrinter.cpp | SectionModel (all sections as characters), DeclModel, PipeModel, TreeModel, WholeModel (all together, both ways) | writing sources and schemas to a binary plan other than by read relations |
| src/substrait/textplan/PlanPrinterVisitor.cpp | TypeModel, ExprModel, RelModel, FieldModel (names of columns), CalendarModel, FloatModel, DecimalModel | – |
| src/substrait/textplan/parser/grammar/SubstraitPlanLexer.g4 | LexModel: all rules and modes | – |
| src/substrait/textplan/parser/grammar/SubstraitPlanParser.g4 | NameModel, ExprModel, RelModel, SectionModel: all rules up to plan | advanced extensions (parsed by the code and then ignored) |
| src/substrait/textplan/parser/SubstraitPlanTypeVisitor.cpp | TypeModel | – |
| src/substrait/textplan/parser/SubstraitPlanVisitor.cpp | SectionModel (schemas, sources, files), DeclModel (extension spaces, functions), TreeModel (roots, relations), EscapeModel | – |
| src/substrait/textplan/parser/SubstraitPlanPipelineVisitor.cpp | PipeModel: all of it | – |
| src/substrait/textplan/parser/{SubstraitPlanRelationVisitor, SubstraitPlanSubqueryRelationVisitor}.cpp | EnumModel, ExprModel, TimeModel, RelModel, FieldModel, TreeModel, SubModel (subqueries) | timestamps with time zones inside larger literals (TimeModel has the function, C88 its properties) |
| src/substrait/proto/ProtoUtils.cpp | RelModel, KindModel (names of kinds) | – |
| src/substrait/textplan/parser/{ParseText, LoadText, Tool}.cpp, converter/{ParseBinary, SaveBinary, Tool}.cpp | SessionModel: the passes, files and tools; the passes themselves are parameters | glob patterns and options of the tools |
| tests | – | all |

Models meet at parameters: `ExprModel` and `RelModel` take the functions that name and find columns as parameters; `FieldModel` is where they are
defined and where C41–C43 and C58–C61 relate naming and finding. `TreeModel` takes what a relation says apart from inputs and subqueries as an
opaque text. `WholeModel` puts the passes of both directions together, with the functions of the other models in the place of the parameters:
C91 goes from a whole binary plan (as a message, not as bytes) to the text, character by character, and back to the binary plan.
The relations of a text are read twice there, as in the code: the first time to define columns (errors stop the conversion after it), the second time for the plan.
`SubModel` is the reading half of `WholeModel` with subqueries: outer columns, the relations of subqueries and where they are put. C100 is about it, and
`C100_same` says that both models agree on texts without subqueries. Writing subqueries as text is only in `TreeModel` (names, pipelines) and `ExprModel` (expressions).
`EvalFacts` gives plans results: an evaluator of trees of relations over rows, with everything that Substrait leaves to the functions, the tables
and the engine as a parameter (`meaning`). It is a specification, not a model of code in /repo (the project does not execute plans), and says
what C92 means by results: reads give the rows of a table, filters keep rows, fetches take some, projects append columns, joins and cross
products put rows side by side, aggregates give keys and measures per group, and an emit picks columns.
C96 repeats this: the class of plans is closed under conversion, and the names that are given anew each time come out as before.

