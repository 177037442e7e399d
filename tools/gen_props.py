# Regenerates properties.jsonl (one JSON object per line).
import json, os
P = []
def p(id, title, statement, quantifier, why, anchors):
    P.append(dict(id=id, title=title, statement=statement, quantifier=quantifier, why_tests_cant=why, anchors=anchors))

DEC="src/substrait/expression/DecimalLiteral.cpp"
TYP="src/substrait/type/Type.cpp"
TYPH="include/substrait/type/Type.h"
FUN="src/substrait/function/Function.cpp"
FLK="src/substrait/function/FunctionLookup.cpp"
EXT="src/substrait/function/Extension.cpp"
SYM="src/substrait/textplan/SymbolTable.cpp"
LOC="src/substrait/textplan/Location.cpp"
NRM="src/substrait/textplan/converter/ReferenceNormalizer.cpp"
PIPC="src/substrait/textplan/converter/PipelineVisitor.cpp"
PRT="src/substrait/textplan/SymbolTablePrinter.cpp"
PPV="src/substrait/textplan/PlanPrinterVisitor.cpp"
INI="src/substrait/textplan/converter/InitialPlanProtoVisitor.cpp"
TPV="src/substrait/textplan/parser/SubstraitPlanTypeVisitor.cpp"
PPI="src/substrait/textplan/parser/SubstraitPlanPipelineVisitor.cpp"
PLV="src/substrait/textplan/parser/SubstraitPlanVisitor.cpp"
REL="src/substrait/textplan/parser/SubstraitPlanRelationVisitor.cpp"
SUB="src/substrait/textplan/parser/SubstraitPlanSubqueryRelationVisitor.cpp"
LEX="src/substrait/textplan/parser/grammar/SubstraitPlanLexer.g4"
IO="src/substrait/common/Io.cpp"
LDB="src/substrait/textplan/converter/LoadBinary.cpp"
PLD="export/planloader/planloader.cpp"
ERR="src/substrait/textplan/parser/SubstraitParserErrorListener.cpp"

# ---- decimals
p("C01","Rendering a decimal literal prints its exact signed value",
  "For every decimal literal whose stored value has between 1 and 16 bytes, the value text produced for it is the canonical base-10 numeral (no leading zeros, '-' exactly when negative) of the little-endian two's-complement integer those bytes denote; the empty value prints as 0.",
  "every byte string of length 1..16 (2^128 values for the normal length), every precision and scale",
  "There are 2^128 sixteen-byte values; tests sample a handful and the carry chain of the negation and the minimum value are corner cases.",
  [DEC+":negate", DEC+":DecimalLiteral::toBaseString"])
p("C02","Decimal text survives parsing and printing",
  "For every natural number below 2^127, parsing its decimal text as a decimal literal and printing the value back gives the same text, and the parsed literal is accepted as valid exactly when the precision is between 1 and 38; text that is not an unsigned integer below 2^128 yields a literal that is rejected as invalid.",
  "every input string, every precision and scale",
  "Unbounded set of strings and 2^127 values; only exhaustive reasoning shows no value is corrupted.",
  [DEC+":DecimalLiteral::fromString", DEC+":uint128ToBytes", DEC+":DecimalLiteral::isValid", DEC+":DecimalLiteral::toBaseString"])
p("C03","Decimal literals survive conversion from and to the protobuf message",
  "Building a decimal literal from a protobuf decimal message and converting it back reproduces the identical bytes, precision and scale, for every message, valid or not.",
  "every protobuf decimal message",
  "Ranges over all byte strings and all pairs of 32-bit integers.",
  [DEC+":DecimalLiteral::fromProto", DEC+":DecimalLiteral::toProto"])
p("C04","The full rendering of a decimal determines its value, scale and precision",
  "Two decimal literals of at most 16 bytes whose full renderings (value, exponent, precision) are equal denote the same integer, the same scale and the same precision; the rendering is well defined for every scale.",
  "every pair of decimal literals",
  "An injectivity claim over pairs of unbounded objects cannot be sampled.",
  [DEC+":DecimalLiteral::toString"])
# ---- strings and numbers
p("C05","Trimming removes exactly the surrounding whitespace",
  "For every string, trimming returns the unique substring obtained by deleting the longest whitespace prefix and the longest whitespace suffix: nothing inside is touched, the result neither starts nor ends with whitespace, trimming twice equals trimming once.",
  "every string",
  "Infinite domain, including all-whitespace and empty strings.",
  ["src/substrait/common/StringUtils.h:trim"])
p("C06","Integer recognisers accept exactly the integer numerals",
  "The non-negative recogniser accepts a string iff it is one or more decimal digits, the negative recogniser iff it is '-' followed by one or more digits, the integer recogniser iff either; no string is accepted by both of the former.",
  "every string",
  "Infinite domain.",
  ["src/substrait/common/NumberUtils.h:NumberUtils"])
p("C07","A string literal printed in a text plan reads back as the same string",
  "For every string value, the quoted text the plan printer emits for it is recognised by the text plan lexer as exactly one string token and evaluating that token's escapes yields the original value, without any error being reported.",
  "every string value and every text following the literal in the plan",
  "The set of strings (and of surrounding text) is infinite; corner cases are adjacent quotes and backslashes.",
  [PPV+":stringEscape", PPV+":PlanPrinterVisitor::visitLiteral", LEX+":STRING", REL+":SubstraitPlanRelationVisitor::visitString", REL+":SubstraitPlanRelationVisitor::escapeText"])
p("C08","Escape processing of string literals terminates and only rewrites escapes",
  "For every string-literal body, escape processing terminates, leaves text without backslashes unchanged, expands each escape sequence to the documented character, and every input character that is not part of a recognised escape is preserved or reported.",
  "every string-literal body",
  "Infinite domain; the index arithmetic wraps around for short inputs and unterminated sequences.",
  [REL+":SubstraitPlanRelationVisitor::escapeText"])
# ---- types
p("C09","Decoding a type string always ends in a type or a reported error",
  "For every string and both decoding modes, decoding terminates and either returns a type or throws a library exception; it never reads out of bounds or dereferences a missing object.",
  "every string, both with and without parameter support",
  "Unbounded nesting and malformed inputs.",
  [TYP+":ParameterizedType::decode", TYP+":decodeType", TYP+":findNextComma"])
p("C10","Type names are case- and margin-insensitive",
  "For every string, surrounding it with whitespace does not change what it decodes to, and changing the letter case of a string that decodes to a concrete type does not change the decoded type.",
  "every string and every recapitalisation of it",
  "Infinite domain, exponential number of capitalisations.",
  [TYP+":ParameterizedType::decode"])
p("C11","Every well-formed type text decodes to the type it denotes",
  "For every concrete type built from the scalar types, decimals, fixed/variable length types, lists, maps and structs, the type's text decodes to that type, with the nullability written next to each base name.",
  "every concrete type of any nesting depth and any parameters in range",
  "Nesting depth and parameter values are unbounded.",
  [TYP+":ParameterizedType::decode", TYP+":decodeType", TYP+":findNextComma"])
p("C12","Concrete types match exactly when they agree structurally and in nullability",
  "A declared concrete type matches an actual concrete type iff they are the same kind with equal parameters (recursively) and at each level the declared type is nullable or the actual is not.",
  "every pair of concrete types of any nesting depth",
  "Pairs of recursive types cannot be enumerated.",
  [TYP+":isMatch", TYPH+":Type::nullMatch", TYPH+":TypeBase::isMatch"])
p("C13","Wildcards match every type, parameterised declarations match every instance",
  "A declared 'any' argument matches every actual type, and a declared parameterised decimal, varchar, fixedchar or fixedbinary matches every actual type of that kind that respects nullability, whatever its parameters.",
  "every actual type",
  "Unbounded set of actual types.",
  [TYP+":StringLiteral::isMatch", TYP+":ParameterizedDecimal::isMatch", TYP+":ParameterizedFixedBinary::isMatch", TYP+":ParameterizedVarchar::isMatch"])
p("C14","Matching concrete types share a signature",
  "If a declared concrete type matches an actual concrete type then both have the same signature text, so a function's signature can be used as lookup key for any argument list it accepts.",
  "every pair of concrete types",
  "Pairs of recursive types cannot be enumerated.",
  [TYP+":signature", TYP+":isMatch"])
p("C15","Type text in plans survives printing and parsing",
  "For every protobuf type the plan printer can print, parsing the printed text gives back the same type with the same parameters and nullability (an unspecified nullability being read as required), and types it cannot print are reported as errors.",
  "every protobuf type",
  "All parameter values and nullabilities.",
  [PPV+":PlanPrinterVisitor::visitType", TPV+":SubstraitPlanTypeVisitor::textToTypeProto", TPV+":SubstraitPlanTypeVisitor::typeToProto"])
# ---- functions
p("C16","Function lookup returns the first registered match",
  "Looking a function up by name, argument types and return type yields the earliest registered variant with that name that accepts them, and nothing iff no registered variant accepts them.",
  "every sequence of registrations and every query",
  "Ranges over all registration histories.",
  [FLK+":FunctionLookup::lookupFunction", EXT+":Extension::addScalarFunctionImpl"])
p("C17","A non-variadic function accepts exactly pointwise matching value arguments",
  "A function without variadic arguments accepts a list of actual types iff it has exactly as many as the declared value arguments and each matches in order, and the return types match whenever both are known; non-value arguments are ignored.",
  "every declaration and every list of actual types",
  "Unbounded lists of recursive types.",
  [FUN+":FunctionImplementation::tryMatch"])
p("C18","A variadic function accepts exactly the argument counts within its bounds",
  "A function with variadic arguments accepts a list of actual types iff its length lies between the declared minimum and maximum (when given) and every actual type matches the declared argument, and it never reads a missing declared argument.",
  "every variadic declaration and every list of actual types",
  "Unbounded list lengths and bounds.",
  [FUN+":FunctionImplementation::tryMatch"])
p("C19","Aggregate functions also accept their intermediate type, and only as a single argument",
  "An aggregate function accepts a call iff the ordinary rule accepts it or there is exactly one actual argument and it matches the declared intermediate type.",
  "every aggregate declaration and call",
  "Unbounded declarations and calls.",
  [FUN+":AggregateFunctionImplementation::tryMatch"])
p("C20","Registering functions and types never disturbs earlier registrations",
  "After any sequence of registrations, a query that previously found a function or a type still finds the same one, and registrations under one name do not affect queries for another name.",
  "every sequence of registrations",
  "Ranges over all histories.",
  [EXT+":Extension::addScalarFunctionImpl", EXT+":Extension::addAggregateFunctionImpl", EXT+":Extension::addWindowFunctionImpl", EXT+":Extension::addTypeVariant", EXT+":Extension::lookupType"])
p("C21","A function signature lists the name and argument signatures in order",
  "The signature of every function is its name, followed, when there are arguments, by ':' and the argument signatures joined by '_' in declaration order.",
  "every function declaration",
  "Unbounded argument lists.",
  [FUN+":FunctionImplementation::signature", "include/substrait/function/Function.h"])
# ---- symbol table
p("C22","Symbol lookup by name returns the first definition, forever",
  "After any sequence of definitions, looking a name up returns the earliest symbol defined under that name (or the earliest alias), and later operations never change the answer for a name that already resolves.",
  "every sequence of symbol-table operations",
  "Ranges over all histories.",
  [SYM+":SymbolTable::defineSymbol", SYM+":SymbolTable::addAlias", SYM+":SymbolTable::lookupSymbolByName"])
p("C23","Lookup by location returns every symbol recorded there in recording order",
  "After any sequence of definitions and permanent-location additions, looking up a location returns exactly the symbols recorded at it, in recording order, and the type-filtered lookup returns the first one of that type.",
  "every sequence of symbol-table operations, every location",
  "Ranges over all histories.",
  [SYM+":SymbolTable::lookupSymbolsByLocation", SYM+":SymbolTable::lookupSymbolByLocationAndType", SYM+":SymbolTable::addPermanentLocation"])
p("C24","Generated unique names are unique",
  "Every name handed out by the unique-name generator differs from every name handed out before and every symbol already defined.",
  "every sequence of requests and definitions",
  "Ranges over all histories, collisions appear only for particular name combinations.",
  [SYM+":SymbolTable::getUniqueName", SYM+":SymbolTable::defineUniqueSymbol"])
p("C25","Subqueries of one parent are numbered consecutively",
  "When symbols are attached one after another to parent queries, the symbols attached to each parent are numbered 0,1,2,… in attachment order and can be found again by parent, number and kind.",
  "every sequence of attachments of distinct symbols to any parents",
  "Ranges over all histories.",
  [SYM+":SymbolTable::setParentQueryLocation", SYM+":SymbolTable::lookupSymbolByParentQueryAndType"])
p("C26","Iteration visits symbols in definition order and the n-th symbol of a kind is the n-th defined",
  "Iterating a symbol table yields every defined symbol exactly once in definition order; asking for the n-th symbol of a kind yields the n-th defined symbol of that kind or nothing if there are fewer.",
  "every sequence of definitions, every n and kind",
  "Ranges over all histories.",
  [SYM+":SymbolTable::nthSymbolByType", SYM+":SymbolTable::begin", "src/substrait/textplan/SymbolTable.h"])
p("C27","Every symbol kind has a printable name",
  "For every symbol kind the kind-to-name conversion returns a name without reading outside its table, and distinct kinds have distinct names.",
  "every symbol kind",
  "Finite, but the out-of-range read is undefined behaviour that a passing test does not reveal.",
  [SYM+":symbolTypeName"])
p("C28","Locations are usable as keys",
  "Location equality is an equivalence relation, equal locations hash equally, and the location ordering is a strict weak order whose incomparability is exactly equality.",
  "all pairs and triples of locations",
  "Universally quantified over pointers.",
  [LOC+":Location::operator==", LOC+":std::hash<::io::substrait::textplan::Location>", LOC+":std::less<::io::substrait::textplan::Location>"])
# ---- errors
p("C29","Parse results report success exactly when no error was recorded, and report errors in order",
  "A parse result is successful iff no syntax or semantic error was recorded; all errors are listed, syntax errors first, each group in recording order; an error with a known position is rendered as line:column → message and one without a position as the bare message.",
  "every sequence of recorded errors",
  "Ranges over all histories.",
  ["src/substrait/textplan/ParseResult.h", "src/substrait/textplan/SubstraitErrorListener.cpp"])
# ---- normaliser
p("C30","Normalising references preserves what every function call means",
  "For every plan with distinct anchors in which every function reference is declared, after normalisation every function call reached in the plan refers to a declaration with the same name in a space with the same URI as before.",
  "every plan: any declarations, relation tree and expression depth",
  "Unbounded trees and anchor assignments.",
  [NRM+":ReferenceNormalizer::normalizeSpaces", NRM+":ReferenceNormalizer::normalizeFunctions", NRM+":ReferenceNormalizer::normalize"])
p("C31","Normalised declarations are sorted and densely numbered",
  "After normalisation the extension spaces are sorted by URI and numbered from one upward without gaps, the functions are sorted by space and name and numbered from zero upward without gaps, and no declaration is lost or invented.",
  "every plan",
  "Unbounded declaration lists.",
  [NRM+":ReferenceNormalizer::normalizeSpaces", NRM+":ReferenceNormalizer::normalizeFunctions"])
p("C32","Normalisation is idempotent",
  "Normalising a plan a second time changes nothing.",
  "every plan on which normalisation succeeds",
  "Unbounded plans.",
  [NRM+":ReferenceNormalizer::normalize"])
p("C33","Plans that differ only in numbering normalise to the same plan",
  "If one plan is obtained from another by consistently renumbering its extension spaces and functions and reordering the declarations, both normalise to the identical plan.",
  "every plan and every renumbering and reordering",
  "Unbounded plans and permutations.",
  [NRM+":ReferenceNormalizer::normalize"])
p("C34","Normalisation fails exactly on dangling references",
  "Normalisation throws iff some function call it reaches refers to an undeclared anchor; otherwise it completes and leaves everything except reference numbers unchanged.",
  "every plan",
  "Unbounded plans.",
  [NRM+":normalizeFunctionsForExpression", NRM+":normalizeFunctionsForRelation"])
# ---- pipelines
p("C35","Splitting a plan into pipelines and reassembling it gives the same relation tree",
  "For every relation tree, recording it as pipelines and then reassembling the plan from the symbol table yields the same tree, with every relation having the same inputs in the same order.",
  "every relation tree over the supported relation kinds",
  "Unbounded trees.",
  [PIPC+":PipelineVisitor::visitRelation", PRT+":addInputsToRelation"])
p("C36","Each subquery is reattached to the expression it came from",
  "For every relation with any number and nesting of subqueries in its expressions, reassembling the plan attaches to each subquery expression the relation tree that was recorded for it.",
  "every expression tree with subqueries",
  "Unbounded nesting and order.",
  [PIPC+":PipelineVisitor::visitExpression", PRT+":addInputsToExpression", PPI+":SubstraitPlanPipelineVisitor::visitExpressionInPredicateSubquery"])
p("C37","Accepted text pipelines describe a forest",
  "If a list of text pipelines is accepted without error then the recorded input relationships contain no cycle and no relation is used as a middle element of two pipelines.",
  "every list of pipelines",
  "Unbounded lists and names.",
  [PPI+":SubstraitPlanPipelineVisitor::visitPipeline"])
p("C38","The printed pipelines cover every relation",
  "Every relation of a converted plan appears in the printed pipelines section, each pipeline lists a relation followed by its inputs down to a leaf or a branching relation.",
  "every relation tree",
  "Unbounded trees.",
  [PRT+":outputPipelinesSection", PRT+":pipelineToPath"])
# ---- declarations in printed output
p("C39","Every function of the symbol table is emitted exactly once in the binary plan",
  "When a symbol table is written as a binary plan each function symbol becomes exactly one function declaration carrying its name and anchor, grouped by ascending space reference, functions without a space last.",
  "every symbol table",
  "Unbounded tables.",
  [PRT+":outputFunctionsToBinaryPlan", PRT+":outputExtensionSpacesToBinaryPlan"])
p("C40","Every function is listed in the printed text plan",
  "When a symbol table is printed as text every function symbol is listed exactly once under the extension space it belongs to.",
  "every symbol table",
  "Unbounded tables; only particular combinations of spaces lose functions.",
  [PRT+":outputFunctionsSection"])
# ---- fields
p("C41","A field name resolves to the last matching column",
  "When a column is referenced by name in a text plan, the recorded field number is that of the last generated column with that name or alias if there is one, otherwise of the last input column with that name, alias or schema-qualified name, and -1 otherwise.",
  "every list of columns and every name",
  "Unbounded column lists.",
  [REL+":SubstraitPlanRelationVisitor::findFieldReferenceByName"])
p("C42","Output mappings select columns in the listed order and reject missing columns",
  "Applying an output mapping produces the listed columns in the listed order with repetitions preserved; an error is reported for each listed column number that does not exist.",
  "every mapping and column list",
  "Unbounded lists.",
  [REL+":SubstraitPlanRelationVisitor::applyOutputMappingToSchema", INI+":InitialPlanProtoVisitor::updateLocalSchema"])
p("C43","Outer references resolve to the nearest enclosing query that has the column",
  "A column name inside nested subqueries resolves to the innermost enclosing query that has such a column, with a step count equal to the number of query boundaries crossed; an error is reported iff no enclosing query has it.",
  "every chain of nested queries and every name",
  "Unbounded nesting depth.",
  [SUB+":SubstraitPlanSubqueryRelationVisitor::findFieldReferenceByName"])
# ---- enums
p("C44","Enumeration names are read case- and punctuation-insensitively",
  "For every join type, sort direction, aggregation phase and aggregation invocation, the printed name parses back to the same value, and so does every variant of it differing in letter case, digits or punctuation or carrying the protobuf prefix.",
  "every enumeration value and every such variant of its text",
  "Infinitely many variants.",
  [REL+":normalizeProtoEnum", REL+":SubstraitPlanRelationVisitor::visitRelationJoinType", REL+":SubstraitPlanRelationVisitor::visitSortDirection", REL+":SubstraitPlanRelationVisitor::visitAggregationPhase", REL+":SubstraitPlanRelationVisitor::visitAggregationInvocation"])
# ---- IO
p("C45","File format detection follows the documented markers with fixed priority",
  "For every file content the detected format is JSON if it contains one of the quoted JSON field names, else protobuf text if some line starts with one of the field names followed by ' {', else text plan if some line starts with a text plan keyword after spaces, else binary.",
  "every byte string",
  "Infinite domain.",
  [IO+":detectFormat"])
p("C46","Output format names are recognised regardless of case, every other argument means text",
  "The format argument of the plan transformer tool selects the named format in any capitalisation, and every other argument selects the text format.",
  "every argument string",
  "Infinite domain.",
  ["src/substrait/common/PlanTransformerTool.cpp:planFileFormatFromText"])
p("C47","JSON loading ignores exactly one leading comment line",
  "When JSON content starts with '#', exactly the text up to the first newline is dropped before parsing and everything else is parsed unchanged; empty content is rejected.",
  "every content",
  "Infinite domain.",
  [LDB+":loadFromJson"])
p("C48","The C plan loader returns the whole serialized plan",
  "For every plan that loads, the buffer returned by the C loader contains the serialized plan and the reported size equals its length; on failure the error message is returned instead.",
  "every serialized plan length",
  "Lengths of 2 GiB and more are not testable cheaply.",
  [PLD+":load_substrait_plan", PLD+":free_substrait_plan", PLD+":save_substrait_plan"])
# ---- literals
p("C49","Integer literals survive printing and parsing",
  "For every i8, i16, i32 and i64 literal value, nullable or not, the text printed for it parses back to a literal with the same type, value and nullability.",
  "every value in range",
  "2^64 values.",
  [PPV+":PlanPrinterVisitor::visitLiteral", REL+":SubstraitPlanRelationVisitor::visitNumber"])
p("C50","Relation kind names survive printing and parsing",
  "For every relation kind that can be printed, parsing the printed kind name gives the same kind.",
  "every relation kind",
  "Needs agreement of two independently written tables for every kind.",
  ["src/substrait/proto/ProtoUtils.cpp:relTypeCaseName", PLV+":SubstraitPlanVisitor::visitRelation_type"])
p("C51","Schema columns keep their types",
  "When a table schema is imported from a binary plan, each listed column is recorded with the type at the same position.",
  "every column list, including repeated names across schemas",
  "Unbounded lists; only repeated names expose a shift.",
  [INI+":InitialPlanProtoVisitor::visitNamedStruct"])

p("C52","Quoting a name or string is undone exactly",
  "Removing the quotation marks of a quoted name or raw string gives back exactly the quoted characters, for double quotes and for one, two or three backticks.",
  "every quoted text",
  "Infinite domain; needs all contents including quotation characters.",
  [PLV+":extractFromString", PLV+":SubstraitPlanVisitor::parseString", REL+":SubstraitPlanRelationVisitor::visitString"])

p("C53","Signatures identify concrete types up to nullability",
  "Two concrete types have the same signature text iff they are the same type when all nullability is ignored.",
  "every pair of concrete types of any nesting depth",
  "Needs unique readability of the signature text for unbounded nesting.",
  ["src/substrait/type/Type.cpp:signature", "include/substrait/type/Type.h:TypeTraits::kSignature"])

p("C54","Extension files register exactly the functions and types they list",
  "After loading any list of extension files, a lookup sees exactly the scalar, aggregate and window function variants and the types listed in the files, in file and document order, each with its name, the path of its file and the arguments, return type, bounds and intermediate type written there; and no lookup on the result is undefined.",
  "every list of parsed YAML documents",
  "Unbounded documents; the order and completeness of the registrations cannot be sampled.",
  [EXT+":Extension::load", EXT+":decodeFunctionImpl"])
p("C55","The return type of a function is the last line of its return expression",
  "For every function declaration whose return entry is a text, the declared return type is the type written on the last line of the text, with or without a final line break.",
  "every return text",
  "Infinite domain.",
  [EXT+":decodeFunctionImpl"])

p("C56","The C plan saver reports failures",
  "Saving a serialized plan through the C interface writes the plan made of the given bytes; bytes that are not a plan and failures to write are reported with a readable message, and a null pointer means success.",
  "every byte string, format and outcome of writing",
  "Reading freed memory often appears to work; unbounded inputs.",
  [PLD+":save_substrait_plan"])
p("C57","A plan file is loaded as the format it was written in",
  "A plan written in any format is loaded by the reader of that format, whatever names and values the plan contains.",
  "every plan and format",
  "Depends on arbitrary user-chosen names in the file.",
  [IO+":detectFormat", IO+":loadPlan"])

p("C58","A relation of a text plan sees the columns its inputs expose",
  "In a text plan the columns available inside a relation are the columns its inputs expose, in the order of the inputs, wherever in the text the inputs are written; a relation exposes its schema's columns, its emitted columns in the listed order, or, without an emit, all its input and generated columns (only the generated ones for an aggregate); a project generates one column per expression.",
  "every set of relations, in any textual order, and every list of details",
  "Unbounded chains of relations and column lists.",
  [REL+":SubstraitPlanRelationVisitor::addInputFieldsToSchema", REL+":SubstraitPlanRelationVisitor::visitRelation", REL+":SubstraitPlanRelationVisitor::addExpressionsToSchema"])
p("C59","A printed column name refers to the same column when read back",
  "When a binary plan is printed, the text of every field reference and emitted field, read back in the same relation, refers to the same column.",
  "every relation, column list and field number",
  "Names may collide in arbitrarily many ways.",
  [PPV+":PlanPrinterVisitor::lookupFieldReference", PPV+":PlanPrinterVisitor::lookupFieldReferenceForEmit", REL+":SubstraitPlanRelationVisitor::findFieldReferenceByName"])
p("C60","Names in groupings and measures refer to the columns of the aggregated input",
  "Inside an aggregate relation of a text plan, every column name in a grouping or a measure refers to a column of the input, and the relation produces one column per grouping column followed by one per measure.",
  "every aggregate relation",
  "Unbounded details; out of bounds reads may appear to work.",
  [REL+":SubstraitPlanRelationVisitor::visitRelationGrouping", REL+":SubstraitPlanRelationVisitor::visitMeasure_detail"])
p("C61","The columns computed for a binary plan are those of the Substrait specification",
  "For every valid relation of a binary plan, the columns that the converter passes to the next relation are the columns the Substrait specification gives to the relation, so that every field number is printed as the name of the column it denotes.",
  "every relation tree",
  "Unbounded nesting of relations.",
  [INI+":InitialPlanProtoVisitor::updateLocalSchema", INI+":InitialPlanProtoVisitor::addFieldsToRelation", PPV+":PlanPrinterVisitor::lookupFieldReference"])
p("C62","Function references survive conversion to text and back",
  "For every binary plan, each function reference is printed as a short name that, when the text is read, resolves to a declaration with the same extension URI and the same function name, and no two declarations are merged or lost.",
  "every list of extension URIs and function declarations",
  "Unbounded lists; the anchors, the order and the short names all change on the way.",
  [INI+":InitialPlanProtoVisitor::visitExtension", PRT+":outputFunctionsSection", PLV+":SubstraitPlanVisitor::visitFunction", PRT+":outputFunctionsToBinaryPlan"])
p("C63","Printed names can be read back as the same names",
  "Every name a plan text shows (columns, tables, relations, functions, schemas) is read back as the same name; numbering names to make them unique keeps them readable; exactly the names of a stated form can be read.",
  "every name, wherever it stands in a text",
  "Names are unbounded and interact with two dozen keywords and the longest-match rule.",
  ["src/substrait/textplan/parser/grammar/SubstraitPlanParser.g4:id,simple_id", LEX+":IDENTIFIER", "src/substrait/textplan/SymbolTable.cpp:SymbolTable::getUniqueName"])
p("C65","A text is cut into the longest tokens and nothing is lost",
  "Every plan text is divided into tokens, ignored characters and reported characters whose concatenation is the text; each token is the longest that any rule matches at its place, and the first rule in the grammar wins among equally long ones; only between extension_space and the next brace do URIs count.",
  "every text",
  "All strings; the rules overlap (keywords, identifiers, comments, URIs).",
  [LEX+":all rules"])
p("C66","Letter case never changes how a text is divided into tokens",
  "Two texts that differ only in the case of letters have the same kinds of tokens at the same places.",
  "every text",
  "All strings and all choices of case.",
  [LEX+":options caseInsensitive"])
p("C67","Changing white space and comments never changes the tokens of a text",
  "When every gap of white space and comments between tokens is replaced by any other gap (that starts with white space, with comments that have no quotes and no backticks), an accepted text keeps exactly the same tokens.",
  "every accepted text and every choice of white space",
  "All strings and all choices of white space.",
  [LEX+":SPACES"])
p("C69","The URI of an extension space can be read back",
  "The URI of every extension space, as printed after extension_space, is read back as the same URI; exactly the URIs of a stated form can be read.",
  "every URI",
  "URIs are unbounded; unit tests use a handful.",
  [LEX+":URI", PRT+":outputFunctionsSection", PLV+":SubstraitPlanVisitor::visitExtensionspace"])
p("C71","Dates keep their meaning",
  "A date literal is printed as the day of the Gregorian calendar with that number, counted from 1 January 1970, and reading the printed text gives the same number.",
  "every date from the year 0 to the year 9999, and the calendar without bounds",
  "Millions of dates; leap years and centuries make errors rare and far apart.",
  [PPV+":PlanPrinterVisitor::visitLiteral", "src/substrait/textplan/parser/SubstraitPlanSubqueryRelationVisitor.cpp:visitDate"])

p("C64","Expressions survive printing and parsing",
  "Every expression of literals, columns, function calls, conditions, casts and subqueries, nested to any depth, is printed without errors as a text that is read back, without errors, as the same expression.",
  "every expression whose names and literals are readable, at any nesting depth and in any surrounding text",
  "Expression trees are unbounded; unit tests read a few texts and never compare with what would be printed.",
  [PPV+":PlanPrinterVisitor::visitExpression", PPV+":PlanPrinterVisitor::visitScalarFunction", PPV+":PlanPrinterVisitor::visitIfThen", PPV+":PlanPrinterVisitor::visitCast", "src/substrait/textplan/parser/SubstraitPlanSubqueryRelationVisitor.cpp:visitExpression"])
p("C68","Arguments keep their kind",
  "A function argument that is a value is read back as a value, one that is an enum as that enum, and one that is a type as that type.",
  "every argument list",
  "Any column name may collide with the marker for enums.",
  [PPV+":PlanPrinterVisitor::visitEnumArgument", PPV+":PlanPrinterVisitor::visitTypeArgument", "src/substrait/textplan/parser/SubstraitPlanSubqueryRelationVisitor.cpp:visitExpressionFunctionUse"])
p("C72","Literals other than integers survive printing and parsing",
  "Every literal that is printed without a report is read back as the same literal: kind, value and nullability.",
  "every literal",
  "Unbounded strings and intervals of every kind, each with its own code for printing and for reading.",
  [PPV+":PlanPrinterVisitor::visitLiteral", "src/substrait/textplan/parser/SubstraitPlanSubqueryRelationVisitor.cpp:visitConstant"])
p("C73","Numbers are read as written",
  "A number written with an integer type is read as a literal of exactly that value and within the range of its type, or an error is reported.",
  "every number the lexer accepts",
  "Infinitely many number texts.",
  ["src/substrait/textplan/parser/SubstraitPlanSubqueryRelationVisitor.cpp:visitNumber"])

p("C74","Relations survive printing and parsing",
  "A relation of a kind the text format has, with readable names, is printed without errors as a text that reads back, without errors, under the same name and as the same relation.",
  "every relation with any number of sources, schemas, filters, groupings, measures, sorts, expressions and emitted columns, and every expression in them",
  "Relations contain unboundedly many details with unboundedly nested expressions, and every character and token of the text matters.",
  ["src/substrait/textplan/PlanPrinterVisitor.cpp:printRelation,visitAggregateRelation,visitSortRelation,visitProjectRelation","src/substrait/textplan/parser/SubstraitPlanSubqueryRelationVisitor.cpp:visitRelation,visitRelationDetail","src/substrait/textplan/parser/grammar/SubstraitPlanParser.g4:relation,relation_detail,measure_detail"])
p("C75","Nothing about a relation is lost without a report",
  "Whatever part of a relation the text does not show, an error is reported; two relations that differ are not printed as the same text without an error.",
  "every relation",
  "All pairs of different relations would have to be tried.",
  ["src/substrait/textplan/PlanPrinterVisitor.cpp:visitReadRelation,visitAggregateRelation,visitSortRelation,visitRelationCommon","src/substrait/textplan/parser/SubstraitPlanSubqueryRelationVisitor.cpp:visitRelationGrouping,visitRelationSourceReference,visitRelationUsesSchema"])
p("C76","The text of a relation that is printed without an error can be read without one",
  "If a relation is printed and no error is reported then the text can be parsed and is evaluated without errors.",
  "every relation",
  "All relations would have to be tried.",
  ["src/substrait/textplan/PlanPrinterVisitor.cpp:visitFetchRelation,visitJoinRelation,visitAggregateFunction,visitReadRelation","src/substrait/textplan/parser/grammar/SubstraitPlanParser.g4:relation_detail"])
p("C77","Reading a relation is always defined",
  "Evaluating any relation the grammar accepts either succeeds or reports an error; it never reads outside of a list or through a null pointer.",
  "every text of a relation, every table of names",
  "Infinitely many texts; undefined behaviour need not show in a test.",
  ["src/substrait/textplan/parser/SubstraitPlanSubqueryRelationVisitor.cpp:visitRelationGrouping,visitMeasure_detail"])

p("C78","Schemas survive printing and parsing",
  "Every schema is printed as a text that is read back as the same columns in the same order with the same types, and whoever refers to a schema by its name gets that schema.",
  "every list of schemas with any number of columns",
  "Unbounded lists; schemas and columns share one table of names, so the result depends on all names before.",
  [PRT+":outputSchemaSection", PLV+":visitSchema_definition,visitSchema_item", "src/substrait/textplan/parser/SubstraitPlanSubqueryRelationVisitor.cpp:visitRelationUsesSchema"])
p("C79","Sources survive printing and parsing",
  "Every named table and every list of files is printed as a text that is read back as the same names and the same files, and whoever refers to a source by its name gets that source.",
  "every list of sources, with any names, addresses, partitions, ranges and formats",
  "Unbounded lists of arbitrary strings; files are identified by the text of their description.",
  [PRT+":outputSourcesSection,localFileToText", PLV+":visitNamed_table_detail,visitLocal_files_detail,visitFile", "src/substrait/textplan/parser/SubstraitPlanSubqueryRelationVisitor.cpp:visitRelationSourceReference"])
p("C80","Pipelines, roots and extension spaces survive printing and parsing",
  "The characters printed for pipelines, for the names of a root and for extension spaces are parsed as the same pipelines, names, URIs and function declarations.",
  "every list of pipelines, of names and of extension spaces",
  "Unbounded lists of names, each of which may interact with keywords.",
  [PRT+":outputPipelinesSection,outputRootSection,outputFunctionsSection", "src/substrait/textplan/parser/grammar/SubstraitPlanParser.g4:pipelines,root_relation,extensionspace,function"])
p("C81","Whole plans survive printing and parsing",
  "A plan with any number of pipelines, relations, roots, schemas, sources and extension spaces is printed as one text that is parsed without errors and in which every part means what it did.",
  "every plan of readable parts",
  "Plans are unbounded, and every section may change how the following ones are read.",
  [PRT+":SymbolTablePrinter::outputToText", "src/substrait/textplan/parser/grammar/SubstraitPlanParser.g4:plan", PLV+":SubstraitPlanVisitor"])

p("C82","Reading a text reports every problem",
  "A text gives a plan exactly if the lexer, the parser and all passes over the tree report nothing and throw nothing; otherwise everything that was reported or thrown is in the returned error, and no exception of a pass escapes.",
  "every behaviour of the passes",
  "Needs all combinations of errors and exceptions of five stages.",
  ["src/substrait/textplan/parser/ParseText.cpp:parseStream", "src/substrait/textplan/parser/LoadText.cpp:loadFromText"])
p("C83","Saving a plan replaces the file by the whole plan or leaves it alone",
  "If saving reports success, the file has exactly the text of the plan and nothing else has changed; if it reports an error, the file still has its old content and nothing is left open.",
  "every plan, format, previous content and answer of the operating system",
  "Needs every way in which converting, printing and writing can fail.",
  ["src/substrait/textplan/converter/SaveBinary.cpp:savePlanToBinary,savePlanToJson,savePlanToText,savePlanToProtoText", IO+":savePlan"])
p("C84","The command line tools say what went wrong",
  "The tools print a text plan only for input that was converted without an error, treat every file as if it were alone, and tell failure by their exit status.",
  "every list of files and every outcome for each",
  "Unbounded lists; failures in the middle of a list are easily missed.",
  ["src/substrait/textplan/converter/Tool.cpp:convertPlanToText,main", "src/substrait/textplan/parser/Tool.cpp:readText,main"])
p("C85","The file that is named is the file that is loaded",
  "Loading a plan reads the file whose name the caller gave, also if the name is part of a longer text, and reads what saving under the same name wrote.",
  "every name and every text it is part of",
  "Names in tests are complete literals, which hides the difference.",
  [IO+":loadPlan", LDB+":readFromFile"])

p("C86","Subqueries survive printing and parsing",
  "A scalar subquery, a membership test, a predicate or a comparison with the rows of a relation is printed without errors as a text that is read back as the same subquery of the same relation, wherever an expression may stand; what cannot be written is reported.",
  "every expression with subqueries of any kind and nesting, as a condition, projected expression, grouping, join condition or argument",
  "The text is read in passes that treat subqueries differently; tests only read subqueries as arguments of functions.",
  [PPV+":PlanPrinterVisitor::visitSubqueryScalar,visitSubqueryInPredicate,visitSubquerySetPredicate,visitSubquerySetComparison", "src/substrait/textplan/parser/SubstraitPlanRelationVisitor.cpp:visitExpression,hasSubquery,visitRelationFilter", SUB+":visitExpressionScalarSubquery,visitExpressionInPredicateSubquery,visitExpressionSetPredicateSubquery,visitExpressionSetComparisonSubquery"])
p("C87","What an expression refers to is there or is reported",
  "If a text is read as an expression without an error, every function, column and relation that it refers to is known, and no argument, operand or operation is missing.",
  "every text that is accepted as an expression",
  "Accepted texts are infinitely many and nested without bounds.",
  [SUB+":visitExpressionFunctionUse,visitExpressionColumn,visitExpressionScalarSubquery"])

p("C70","Floating point literals survive printing and parsing up to six digits",
 "A finite floating point literal is printed as the decimal number with at most six digits that is nearest to its value (ties to an even digit), with its sign. Reading a number with an fp32 or fp64 type gives the nearest number of that format, or an out-of-range error exactly when it is too large. Every finite literal of a plan can be read back, keeps its sign, is unchanged if it has at most six digits, and prints as the same text again if it is in the normal range.",
 "all finite numbers of both formats, all number texts",
 "Rounding errors appear at ties, at powers of ten and two and at the largest numbers; no sample of the 2^64 values settles them.",
 [PPV+": visitLiteral (fp32, fp64)", SUB+": visitNumber"])

p("C88","Timestamps and times of day in texts mean what they say",
 "A quoted date and time with the type timestamp is read as that point in time, a quoted time of day with the type time as that time; texts that name no point in time or no time of day are reported; a time zone shifts a timestamp by its offset.",
 "all quoted texts",
 "The number of texts, dates and times is unbounded; the library that reads them stops at the first character it cannot use.",
 [SUB+":visitTimestamp,visitTimestampTz,visitTime"])
p("C89","Literals written in a text mean what they say",
 "A constant with a type next to it, in braces or not and nested to any depth, is read as the value it spells for that type. What has no value of that type is reported. Without a type only booleans and strings are read.",
 "all constants and types of any nesting",
 "Constants nest without bounds and every kind of constant meets every kind of type.",
 [SUB+":visitConstant,visitNumber,visitString,visitConstantWithType,visitStructLiteralWithType,visitMapLiteralWithType,visitIntervalYear,visitIntervalDay", "src/substrait/textplan/parser/grammar/SubstraitPlanParser.g4:constant,map_literal,struct_literal,literal_complex_type"])
p("C90","What is printed without an error has no gaps",
 "An expression or a relation is printed without an error exactly if every function and column it refers to is known, every part it needs is there and everything in it has a text; what ends the printing by an exception is an expression without a kind or a selection of something else than a field, and nothing else.",
 "all expressions and relations of any nesting",
 "Gaps can be at any depth of an expression; placeholders look like texts.",
 [PPV+":visitExpression,visitScalarFunction,visitIfThen,visitCast,visitLiteral,visitFieldReference,lookupFunctionReference,lookupFieldReference,printRelation,visitAggregateRelation,visitSortRelation,visitProjectRelation"])

p("C91","A whole plan survives conversion to text and back",
 "A binary plan whose relations are reads, filters, fetches, aggregates, sorts, projects, joins and cross products, nested in any way, is converted to a text without errors, and the text is converted back without errors to a plan with the same trees of relations: the same sources and schemas, the same functions (by URI and name), types and literals, and expressions, groupings, measures and emits that use the same columns of the same reads or computations, whatever numbers they have.",
 "all plans of any size in which no name looks like one that the conversion makes up, and that avoid the listed findings",
 "The number of relations, columns, functions and the depth of plans are unbounded, and names of one relation can meet names of any other; round trip tests cover a few plans.",
 [PPV+":printRelation", PRT+":outputToText,outputToBinaryPlan", INI+":visitRelation,visitReadRelation,visitPlanRelation", PIPC+":visitRelation,visitFieldReference", REL+":visitRelation,findFieldReferenceByName,addExpressionsToSchema,applyOutputMappingToSchema", "src/substrait/textplan/converter/ParseBinary.cpp:parseBinaryPlan","src/substrait/textplan/parser/ParseText.cpp:parseStream"])

p("C92","A plan that went through a text computes the same results",
 "Whatever the tables hold and the functions, literals, casts, orders, groups and joins mean, a binary plan and the plan it becomes by conversion to text and back have the same rows in the same order under the same names, for every relation of the plan. Two plans with the same text have the same results.",
 "all plans as for C91, all values, all tables and all meanings of functions",
 "It is about every table and every meaning of every function; no execution engine is part of the project.",
 [PPV+":printRelation", PRT+":outputToText,outputToBinaryPlan", PIPC+":visitRelation", REL+":visitRelation,findFieldReferenceByName,addExpressionsToSchema,applyOutputMappingToSchema"])

p("C93","A relation in a text means what its details say, and nothing is reported about it exactly if everything in it belongs there",
 "Reading a relation from a text reports nothing exactly if every detail belongs to relations of its kind, filters, join expressions and the function and filter of a measure are given at most once, and every expression, type, phase, invocation, direction, count, emitted column and join type in it can be read. The relation is then made of exactly these details, in their order; the sorts and the invocation of a measure are part of its function.",
 "all relations with any number of details in any order, all symbols around them",
 "Details can be combined and repeated without bounds and every kind of detail meets every kind of relation.",
 [SUB+":visitRelation,visitRelationDetail,visitRelationFilter,visitRelationUsesSchema,visitRelationExpression,visitRelationGrouping,visitRelationMeasure,visitMeasure_detail,visitRelationSort,visitRelationCount,visitRelationJoinType,visitRelationEmit,visitRelation_filter_behavior"])
p("C94","The definitions of a text are found under their names, and what is wrong with them is reported",
 "Reading a text defines exactly the schemas, columns, sources, files, tables, extension spaces and functions that are written in it, in their order; a name means the first definition of it. Reported are exactly what is wrong with the types of columns and functions without a signature; a number that does not fit is never read as another number.",
 "all texts with any number of definitions",
 "The number of definitions is unbounded and any name can meet any other.",
 [PLV+":visitPlan,visitSchema_definition,visitSchema_item,visitExtensionspace,visitFunction,visitLocalFiles,visitNamedTable,visitVirtualTable,visitExtensionTable,visitFile_detail"])

p("C95","Which binary plans are taken in without an exception",
 "The symbols and pipelines of a binary plan are found without an exception exactly if every message of it in which one of several kinds must be chosen has one that is supported (types, literals, expressions, arguments, references, sources, relations, at any depth), every declaration is one of a function, and every subquery has its relation; nothing ends the process otherwise.",
 "all plans, with all kinds of relations, expressions, literals and types of any nesting and size",
 "A message that is not set can be at any depth, and there are over a hundred places for it.",
 ["src/substrait/textplan/converter/BasePlanProtoVisitor.cpp:visitType,visitLiteral,visitExpression,visitRelation,visitPlanRelation,visitFunctionArgument,visitReferenceSegment,visitSelect,visitReadRelation", INI+":visitExpression,visitExtension,visitNamedStruct,visitReadRelation", "src/substrait/textplan/converter/PipelineVisitor.cpp:visitExpression", "src/substrait/textplan/converter/ParseBinary.cpp:parseBinaryPlan"])

p("C96","Plans can be converted to text and back again and again",
 "A plan that was converted to text and back can be converted again, any number of times: no errors are reported and the plan stays the same, with the same results. If no more than nine functions have the same name, all texts after the first are equal, and all plans after the second.",
 "all plans as for C91, any number of conversions, all meanings of functions and tables",
 "It is about every number of conversions; names are given anew each time, so that an effect can show after many of them.",
 [PPV+":printRelation,lookupFunctionReference", PRT+":outputToText,outputFunctionsSection,outputToBinaryPlan", INI+":visitExtension,visitRelation", REL+":visitRelation", "src/substrait/textplan/SymbolTable.cpp:getUniqueName"])

p("C97","A plan made from a text without reports refers only to what is there",
 "If a text is converted to a binary plan and nothing is reported, every function that an expression or a measure calls is declared in the plan, every column that a relation uses is a column of its inputs, every column that it emits exists, and every relation has the inputs it needs. The order of the sections does not change the plan.",
 "all texts, with any number of sections, relations, pipelines and expressions of any nesting",
 "Texts combine sections, names and orders without bounds; what refers to nothing looks like any other number in a plan.",
 [REL+":visitRelation,findFieldReferenceByName,addExpressionsToSchema,applyOutputMappingToSchema", SUB+":visitRelation,visitExpressionFunctionUse,visitMeasure_detail", PRT+":outputToBinaryPlan", "src/substrait/textplan/parser/ParseText.cpp:parseStream"])

p("C98","Reading a text of a plan is never undefined behaviour and always ends",
 "Converting any text to a binary plan either makes a plan or reports errors: it does not read past the end of a list, follow a null pointer, convert a number that is out of range, or recurse without end, whatever the types, constants, groupings, measures and pipelines of the text are.",
 "all texts",
 "Any text can be given; what is undefined can go unnoticed in a test, and the places where it happens depend on combinations of names, orders and types.",
 [SUB+":visitRelationGrouping,visitMeasure_detail,findFieldReferenceByName", REL+":visitRelationGrouping,visitConstant,visitTimestamp,visitIntervalYear,visitIntervalDay", PPI+":visitPipeline", PRT+":outputToBinaryPlan", "src/substrait/type/Type.cpp:Type::decode"])

p("C99","The order of the sections of a text does not matter",
 "Two texts of a plan that have the same sections in another order convert to the same binary plan with the same reports. Definitions, pipelines, relations and roots may be mixed in any way; relations may come in any order in which each comes after its inputs; schemas, sources and extension spaces may come in any order in which the spaces, whose functions are numbered, stay in theirs.",
 "all texts of plans, and all ways of reordering their sections",
 "The number of orders grows with the factorial of the number of sections, and the passes share one symbol table whose entries depend on where a section is.",
 [PLV+":visitPlan,visitRelation,visitSchema_definition,visitSource_definition", PPI+":visitPipeline", REL+":visitRelation", SUB+":visitRelation,addInputFieldsToSchema", PRT+":outputToBinaryPlan", SYM+":lookupSymbolByName,lookupSymbolsByLocation"])

p("C100","Subqueries of a text are those of the plan",
 "When a text is read without a report, every relation of the plan, inside of subqueries or outside, is a relation of the text with its kind, its inputs and its subqueries: every subquery in its message has the relation that is named at its place in the text. A subquery is no root of the plan. A column that a subquery reads from outside is one of a relation around it, as many subqueries out as the plan says. Functions called in subqueries are declared. Texts without subqueries are read as if there were none. Reading ends.",
 "all texts of plans, with subqueries in any expressions and nested to any depth",
 "Relations for subqueries are recorded in the order of one pass and put into the messages in the order of another; which of them meet depends on the whole text, on nesting, and on which details come first. Tests have one subquery per relation.",
 [SUB+":visitRelation,findFieldReferenceByName,addInputFieldsToSchema", PRT+":addInputsToRelation,addInputsToExpression,outputToBinaryPlan", REL+":visitRelation,isWithinSubquery,hasSubquery", SYM+":lookupSymbolByParentQueryAndType"])

p("C101","The names of columns in a text stand for the columns that have those names",
 "If a text is converted to a binary plan and nothing is reported, each relation of the plan reads, groups by and emits the columns that are named in its section: the column of its inputs with that name, or with that schema and name, the last one if there are several; and a relation has the columns of its inputs, those of its schema, those that it computes, groups by and measures under the names that it gives them, or just those it emits, in that order.",
 "all texts, with any number of relations, schemas and columns, and expressions of any nesting",
 "Whether a number in a plan is the column that was meant depends on everything below the relation; tests compare a few plans with numbers that were copied from the output.",
 [REL+":visitRelation,findFieldReferenceByName,addExpressionsToSchema,applyOutputMappingToSchema,addInputFieldsToSchema", SUB+":visitRelation,findFieldReferenceByName", "src/substrait/textplan/SymbolTable.h:RelationData"])

with open(os.path.join(os.path.dirname(__file__),'..','properties.jsonl'),'w') as f:
    for x in P: f.write(json.dumps(x, ensure_ascii=False)+"\n")
print(len(P))
