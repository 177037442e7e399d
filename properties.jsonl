{"id": "C01", "title": "Rendering a decimal literal prints its exact signed value", "statement": "For every decimal literal whose stored value has between 1 and 16 bytes, the value text produced for it is the canonical base-10 numeral (no leading zeros, '-' exactly when negative) of the little-endian two's-complement integer those bytes denote; the empty value prints as 0.", "quantifier": "every byte string of length 1..16 (2^128 values for the normal length), every precision and scale", "why_tests_cant": "There are 2^128 sixteen-byte values; tests sample a handful and the carry chain of the negation and the minimum value are corner cases.", "anchors": ["src/substrait/expression/DecimalLiteral.cpp:negate", "src/substrait/expression/DecimalLiteral.cpp:DecimalLiteral::toBaseString"]}
{"id": "C02", "title": "Decimal text survives parsing and printing", "statement": "For every natural number below 2^127, parsing its decimal text as a decimal literal and printing the value back gives the same text, and the parsed literal is accepted as valid exactly when the precision is between 1 and 38; text that is not an unsigned integer below 2^128 yields a literal that is rejected as invalid.", "quantifier": "every input string, every precision and scale", "why_tests_cant": "Unbounded set of strings and 2^127 values; only exhaustive reasoning shows no value is corrupted.", "anchors": ["src/substrait/expression/DecimalLiteral.cpp:DecimalLiteral::fromString", "src/substrait/expression/DecimalLiteral.cpp:uint128ToBytes", "src/substrait/expression/DecimalLiteral.cpp:DecimalLiteral::isValid", "src/substrait/expression/DecimalLiteral.cpp:DecimalLiteral::toBaseString"]}
{"id": "C03", "title": "Decimal literals survive conversion from and to the protobuf message", "statement": "Building a decimal literal from a protobuf decimal message and converting it back reproduces the identical bytes, precision and scale, for every message, valid or not.", "quantifier": "every protobuf decimal message", "why_tests_cant": "Ranges over all byte strings and all pairs of 32-bit integers.", "anchors": ["src/substrait/expression/DecimalLiteral.cpp:DecimalLiteral::fromProto", "src/substrait/expression/DecimalLiteral.cpp:DecimalLiteral::toProto"]}
{"id": "C04", "title": "The full rendering of a decimal determines its value, scale and precision", "statement": "Two decimal literals of at most 16 bytes whose full renderings (value, exponent, precision) are equal denote the same integer, the same scale and the same precision; the rendering is well defined for every scale.", "quantifier": "every pair of decimal literals", "why_tests_cant": "An injectivity claim over pairs of unbounded objects cannot be sampled.", "anchors": ["src/substrait/expression/DecimalLiteral.cpp:DecimalLiteral::toString"]}
{"id": "C05", "title": "Trimming removes exactly the surrounding whitespace", "statement": "For every string, trimming returns the unique substring obtained by deleting the longest whitespace prefix and the longest whitespace suffix: nothing inside is touched, the result neither starts nor ends with whitespace, trimming twice equals trimming once.", "quantifier": "every string", "why_tests_cant": "Infinite domain, including all-whitespace and empty strings.", "anchors": ["src/substrait/common/StringUtils.h:trim"]}
{"id": "C06", "title": "Integer recognisers accept exactly the integer numerals", "statement": "The non-negative recogniser accepts a string iff it is one or more decimal digits, the negative recogniser iff it is '-' followed by one or more digits, the integer recogniser iff either; no string is accepted by both of the former.", "quantifier": "every string", "why_tests_cant": "Infinite domain.", "anchors": ["src/substrait/common/NumberUtils.h:NumberUtils"]}
{"id": "C07", "title": "A string literal printed in a text plan reads back as the same string", "statement": "For every string value, the quoted text the plan printer emits for it is recognised by the text plan lexer as exactly one string token and evaluating that token's escapes yields the original value, without any error being reported.", "quantifier": "every string value and every text following the literal in the plan", "why_tests_cant": "The set of strings (and of surrounding text) is infinite; corner cases are adjacent quotes and backslashes.", "anchors": ["src/substrait/textplan/PlanPrinterVisitor.cpp:stringEscape", "src/substrait/textplan/PlanPrinterVisitor.cpp:PlanPrinterVisitor::visitLiteral", "src/substrait/textplan/parser/grammar/SubstraitPlanLexer.g4:STRING", "src/substrait/textplan/parser/SubstraitPlanRelationVisitor.cpp:SubstraitPlanRelationVisitor::visitString", "src/substrait/textplan/parser/SubstraitPlanRelationVisitor.cpp:SubstraitPlanRelationVisitor::escapeText"]}
{"id": "C08", "title": "Escape processing of string literals terminates and only rewrites escapes", "statement": "For every string-literal body, escape processing terminates, leaves text without backslashes unchanged, expands each escape sequence to the documented character, and every input character that is not part of a recognised escape is preserved or reported.", "quantifier": "every string-literal body", "why_tests_cant": "Infinite domain; the index arithmetic wraps around for short inputs and unterminated sequences.", "anchors": ["src/substrait/textplan/parser/SubstraitPlanRelationVisitor.cpp:SubstraitPlanRelationVisitor::escapeText"]}
{"id": "C09", "title": "Decoding a type string always ends in a type or a reported error", "statement": "For every string and both decoding modes, decoding terminates and either returns a type or throws a library exception; it never reads out of bounds or dereferences a missing object.", "quantifier": "every string, both with and without parameter support", "why_tests_cant": "Unbounded nesting and malformed inputs.", "anchors": ["src/substrait/type/Type.cpp:ParameterizedType::decode", "src/substrait/type/Type.cpp:decodeType", "src/substrait/type/Type.cpp:findNextComma"]}
{"id": "C10", "title": "Type names are case- and margin-insensitive", "statement": "For every string, surrounding it with whitespace does not change what it decodes to, and changing the letter case of a string that decodes to a concrete type does not change the decoded type.", "quantifier": "every string and every recapitalisation of it", "why_tests_cant": "Infinite domain, exponential number of capitalisations.", "anchors": ["src/substrait/type/Type.cpp:ParameterizedType::decode"]}
{"id": "C11", "title": "Every well-formed type text decodes to the type it denotes", "statement": "For every concrete type built from the scalar types, decimals, fixed/variable length types, lists, maps and structs, the type's text decodes to that type, with the nullability written next to each base name.", "quantifier": "every concrete type of any nesting depth and any parameters in range", "why_tests_cant": "Nesting depth and parameter values are unbounded.", "anchors": ["src/substrait/type/Type.cpp:ParameterizedType::decode", "src/substrait/type/Type.cpp:decodeType", "src/substrait/type/Type.cpp:findNextComma"]}
{"id": "C12", "title": "Concrete types match exactly when they agree structurally and in nullability", "statement": "A declared concrete type matches an actual concrete type iff they are the same kind with equal parameters (recursively) and at each level the declared type is nullable or the actual is not.", "quantifier": "every pair of concrete types of any nesting depth", "why_tests_cant": "Pairs of recursive types cannot be enumerated.", "anchors": ["src/substrait/type/Type.cpp:isMatch", "include/substrait/type/Type.h:Type::nullMatch", "include/substrait/type/Type.h:TypeBase::isMatch"]}
{"id": "C13", "title": "Wildcards match every type, parameterised declarations match every instance", "statement": "A declared 'any' argument matches every actual type, and a declared parameterised decimal, varchar, fixedchar or fixedbinary matches every actual type of that kind that respects nullability, whatever its parameters.", "quantifier": "every actual type", "why_tests_cant": "Unbounded set of actual types.", "anchors": ["src/substrait/type/Type.cpp:StringLiteral::isMatch", "src/substrait/type/Type.cpp:ParameterizedDecimal::isMatch", "src/substrait/type/Type.cpp:ParameterizedFixedBinary::isMatch", "src/substrait/type/Type.cpp:ParameterizedVarchar::isMatch"]}
{"id": "C14", "title": "Matching concrete types share a signature", "statement": "If a declared concrete type matches an actual concrete type then both have the same signature text, so a function's signature can be used as lookup key for any argument list it accepts.", "quantifier": "every pair of concrete types", "why_tests_cant": "Pairs of recursive types cannot be enumerated.", "anchors": ["src/substrait/type/Type.cpp:signature", "src/substrait/type/Type.cpp:isMatch"]}
{"id": "C15", "title": "Type text in plans survives printing and parsing", "statement": "For every protobuf type the plan printer can print, parsing the printed text gives back the same type with the same parameters and nullability (an unspecified nullability being read as required), and types it cannot print are reported as errors.", "quantifier": "every protobuf type", "why_tests_cant": "All parameter values and nullabilities.", "anchors": ["src/substrait/textplan/PlanPrinterVisitor.cpp:PlanPrinterVisitor::visitType", "src/substrait/textplan/parser/SubstraitPlanTypeVisitor.cpp:SubstraitPlanTypeVisitor::textToTypeProto", "src/substrait/textplan/parser/SubstraitPlanTypeVisitor.cpp:SubstraitPlanTypeVisitor::typeToProto"]}
{"id": "C16", "title": "Function lookup returns the first registered match", "statement": "Looking a function up by name, argument types and return type yields the earliest registered variant with that name that accepts them, and nothing iff no registered variant accepts them.", "quantifier": "every sequence of registrations and every query", "why_tests_cant": "Ranges over all registration histories.", "anchors": ["src/substrait/function/FunctionLookup.cpp:FunctionLookup::lookupFunction", "src/substrait/function/Extension.cpp:Extension::addScalarFunctionImpl"]}
{"id": "C17", "title": "A non-variadic function accepts exactly pointwise matching value arguments", "statement": "A function without variadic arguments accepts a list of actual types iff it has exactly as many as the declared value arguments and each matches in order, and the return types match whenever both are known; non-value arguments are ignored.", "quantifier": "every declaration and every list of actual types", "why_tests_cant": "Unbounded lists of recursive types.", "anchors": ["src/substrait/function/Function.cpp:FunctionImplementation::tryMatch"]}
{"id": "C18", "title": "A variadic function accepts exactly the argument counts within its bounds", "statement": "A function with variadic arguments accepts a list of actual types iff its length lies between the declared minimum and maximum (when given) and every actual type matches the declared argument, and it never reads a missing declared argument.", "quantifier": "every variadic declaration and every list of actual types", "why_tests_cant": "Unbounded list lengths and bounds.", "anchors": ["src/substrait/function/Function.cpp:FunctionImplementation::tryMatch"]}
{"id": "C19", "title": "Aggregate functions also accept their intermediate type, and only as a single argument", "statement": "An aggregate function accepts a call iff the ordinary rule accepts it or there is exactly one actual argument and it matches the declared intermediate type.", "quantifier": "every aggregate declaration and call", "why_tests_cant": "Unbounded declarations and calls.", "anchors": ["src/substrait/function/Function.cpp:AggregateFunctionImplementation::tryMatch"]}
{"id": "C20", "title": "Registering functions and types never disturbs earlier registrations", "statement": "After any sequence of registrations, a query that previously found a function or a type still finds the same one, and registrations under one name do not affect queries for another name.", "quantifier": "every sequence of registrations", "why_tests_cant": "Ranges over all histories.", "anchors": ["src/substrait/function/Extension.cpp:Extension::addScalarFunctionImpl", "src/substrait/function/Extension.cpp:Extension::addAggregateFunctionImpl", "src/substrait/function/Extension.cpp:Extension::addWindowFunctionImpl", "src/substrait/function/Extension.cpp:Extension::addTypeVariant", "src/substrait/function/Extension.cpp:Extension::lookupType"]}
{"id": "C21", "title": "A function signature lists the name and argument signatures in order", "statement": "The signature of every function is its name, followed, when there are arguments, by ':' and the argument signatures joined by '_' in declaration order.", "quantifier": "every function declaration", "why_tests_cant": "Unbounded argument lists.", "anchors": ["src/substrait/function/Function.cpp:FunctionImplementation::signature", "include/substrait/function/Function.h"]}
{"id": "C22", "title": "Symbol lookup by name returns the first definition, forever", "statement": "After any sequence of definitions, looking a name up returns the earliest symbol defined under that name (or the earliest alias), and later operations never change the answer for a name that already resolves.", "quantifier": "every sequence of symbol-table operations", "why_tests_cant": "Ranges over all histories.", "anchors": ["src/substrait/textplan/SymbolTable.cpp:SymbolTable::defineSymbol", "src/substrait/textplan/SymbolTable.cpp:SymbolTable::addAlias", "src/substrait/textplan/SymbolTable.cpp:SymbolTable::lookupSymbolByName"]}
{"id": "C23", "title": "Lookup by location returns every symbol recorded there in recording order", "statement": "After any sequence of definitions and permanent-location additions, looking up a location returns exactly the symbols recorded at it, in recording order, and the type-filtered lookup returns the first one of that type.", "quantifier": "every sequence of symbol-table operations, every location", "why_tests_cant": "Ranges over all histories.", "anchors": ["src/substrait/textplan/SymbolTable.cpp:SymbolTable::lookupSymbolsByLocation", "src/substrait/textplan/SymbolTable.cpp:SymbolTable::lookupSymbolByLocationAndType", "src/substrait/textplan/SymbolTable.cpp:SymbolTable::addPermanentLocation"]}
{"id": "C24", "title": "Generated unique names are unique", "statement": "Every name handed out by the unique-name generator differs from every name handed out before and every symbol already defined.", "quantifier": "every sequence of requests and definitions", "why_tests_cant": "Ranges over all histories, collisions appear only for particular name combinations.", "anchors": ["src/substrait/textplan/SymbolTable.cpp:SymbolTable::getUniqueName", "src/substrait/textplan/SymbolTable.cpp:SymbolTable::defineUniqueSymbol"]}
{"id": "C25", "title": "Subqueries of one parent are numbered consecutively", "statement": "When symbols are attached one after another to parent queries, the symbols attached to each parent are numbered 0,1,2,… in attachment order and can be found again by parent, number and kind.", "quantifier": "every sequence of attachments of distinct symbols to any parents", "why_tests_cant": "Ranges over all histories.", "anchors": ["src/substrait/textplan/SymbolTable.cpp:SymbolTable::setParentQueryLocation", "src/substrait/textplan/SymbolTable.cpp:SymbolTable::lookupSymbolByParentQueryAndType"]}
{"id": "C26", "title": "Iteration visits symbols in definition order and the n-th symbol of a kind is the n-th defined", "statement": "Iterating a symbol table yields every defined symbol exactly once in definition order; asking for the n-th symbol of a kind yields the n-th defined symbol of that kind or nothing if there are fewer.", "quantifier": "every sequence of definitions, every n and kind", "why_tests_cant": "Ranges over all histories.", "anchors": ["src/substrait/textplan/SymbolTable.cpp:SymbolTable::nthSymbolByType", "src/substrait/textplan/SymbolTable.cpp:SymbolTable::begin", "src/substrait/textplan/SymbolTable.h"]}
{"id": "C27", "title": "Every symbol kind has a printable name", "statement": "For every symbol kind the kind-to-name conversion returns a name without reading outside its table, and distinct kinds have distinct names.", "quantifier": "every symbol kind", "why_tests_cant": "Finite, but the out-of-range read is undefined behaviour that a passing test does not reveal.", "anchors": ["src/substrait/textplan/SymbolTable.cpp:symbolTypeName"]}
{"id": "C28", "title": "Locations are usable as keys", "statement": "Location equality is an equivalence relation, equal locations hash equally, and the location ordering is a strict weak order whose incomparability is exactly equality.", "quantifier": "all pairs and triples of locations", "why_tests_cant": "Universally quantified over pointers.", "anchors": ["src/substrait/textplan/Location.cpp:Location::operator==", "src/substrait/textplan/Location.cpp:std::hash<::io::substrait::textplan::Location>", "src/substrait/textplan/Location.cpp:std::less<::io::substrait::textplan::Location>"]}
{"id": "C29", "title": "Parse results report success exactly when no error was recorded, and report errors in order", "statement": "A parse result is successful iff no syntax or semantic error was recorded; all errors are listed, syntax errors first, each group in recording order; an error with a known position is rendered as line:column → message and one without a position as the bare message.", "quantifier": "every sequence of recorded errors", "why_tests_cant": "Ranges over all histories.", "anchors": ["src/substrait/textplan/ParseResult.h", "src/substrait/textplan/SubstraitErrorListener.cpp"]}
{"id": "C30", "title": "Normalising references preserves what every function call means", "statement": "For every plan with distinct anchors in which every function reference is declared, after normalisation every function call reached in the plan refers to a declaration with the same name in a space with the same URI as before.", "quantifier": "every plan: any declarations, relation tree and expression depth", "why_tests_cant": "Unbounded trees and anchor assignments.", "anchors": ["src/substrait/textplan/converter/ReferenceNormalizer.cpp:ReferenceNormalizer::normalizeSpaces", "src/substrait/textplan/converter/ReferenceNormalizer.cpp:ReferenceNormalizer::normalizeFunctions", "src/substrait/textplan/converter/ReferenceNormalizer.cpp:ReferenceNormalizer::normalize"]}
{"id": "C31", "title": "Normalised declarations are sorted and densely numbered", "statement": "After normalisation the extension spaces are sorted by URI and numbered from one upward without gaps, the functions are sorted by space and name and numbered from zero upward without gaps, and no declaration is lost or invented.", "quantifier": "every plan", "why_tests_cant": "Unbounded declaration lists.", "anchors": ["src/substrait/textplan/converter/ReferenceNormalizer.cpp:ReferenceNormalizer::normalizeSpaces", "src/substrait/textplan/converter/ReferenceNormalizer.cpp:ReferenceNormalizer::normalizeFunctions"]}
{"id": "C32", "title": "Normalisation is idempotent", "statement": "Normalising a plan a second time changes nothing.", "quantifier": "every plan on which normalisation succeeds", "why_tests_cant": "Unbounded plans.", "anchors": ["src/substrait/textplan/converter/ReferenceNormalizer.cpp:ReferenceNormalizer::normalize"]}
{"id": "C33", "title": "Plans that differ only in numbering normalise to the same plan", "statement": "If one plan is obtained from another by consistently renumbering its extension spaces and functions and reordering the declarations, both normalise to the identical plan.", "quantifier": "every plan and every renumbering and reordering", "why_tests_cant": "Unbounded plans and permutations.", "anchors": ["src/substrait/textplan/converter/ReferenceNormalizer.cpp:ReferenceNormalizer::normalize"]}
{"id": "C34", "title": "Normalisation fails exactly on dangling references", "statement": "Normalisation throws iff some function call it reaches refers to an undeclared anchor; otherwise it completes and leaves everything except reference numbers unchanged.", "quantifier": "every plan", "why_tests_cant": "Unbounded plans.", "anchors": ["src/substrait/textplan/converter/ReferenceNormalizer.cpp:normalizeFunctionsForExpression", "src/substrait/textplan/converter/ReferenceNormalizer.cpp:normalizeFunctionsForRelation"]}
{"id": "C35", "title": "Splitting a plan into pipelines and reassembling it gives the same relation tree", "statement": "For every relation tree, recording it as pipelines and then reassembling the plan from the symbol table yields the same tree, with every relation having the same inputs in the same order.", "quantifier": "every relation tree over the supported relation kinds", "why_tests_cant": "Unbounded trees.", "anchors": ["src/substrait/textplan/converter/PipelineVisitor.cpp:PipelineVisitor::visitRelation", "src/substrait/textplan/SymbolTablePrinter.cpp:addInputsToRelation"]}
{"id": "C36", "title": "Each subquery is reattached to the expression it came from", "statement": "For every relation with any number and nesting of subqueries in its expressions, reassembling the plan attaches to each subquery expression the relation tree that was recorded for it.", "quantifier": "every expression tree with subqueries", "why_tests_cant": "Unbounded nesting and order.", "anchors": ["src/substrait/textplan/converter/PipelineVisitor.cpp:PipelineVisitor::visitExpression", "src/substrait/textplan/SymbolTablePrinter.cpp:addInputsToExpression", "src/substrait/textplan/parser/SubstraitPlanPipelineVisitor.cpp:SubstraitPlanPipelineVisitor::visitExpressionInPredicateSubquery"]}
{"id": "C37", "title": "Accepted text pipelines describe a forest", "statement": "If a list of text pipelines is accepted without error then the recorded input relationships contain no cycle and no relation is used as a middle element of two pipelines.", "quantifier": "every list of pipelines", "why_tests_cant": "Unbounded lists and names.", "anchors": ["src/substrait/textplan/parser/SubstraitPlanPipelineVisitor.cpp:SubstraitPlanPipelineVisitor::visitPipeline"]}
{"id": "C38", "title": "The printed pipelines cover every relation", "statement": "Every relation of a converted plan appears in the printed pipelines section, each pipeline lists a relation followed by its inputs down to a leaf or a branching relation.", "quantifier": "every relation tree", "why_tests_cant": "Unbounded trees.", "anchors": ["src/substrait/textplan/SymbolTablePrinter.cpp:outputPipelinesSection", "src/substrait/textplan/SymbolTablePrinter.cpp:pipelineToPath"]}
{"id": "C39", "title": "Every function of the symbol table is emitted exactly once in the binary plan", "statement": "When a symbol table is written as a binary plan each function symbol becomes exactly one function declaration carrying its name and anchor, grouped by ascending space reference, functions without a space last.", "quantifier": "every symbol table", "why_tests_cant": "Unbounded tables.", "anchors": ["src/substrait/textplan/SymbolTablePrinter.cpp:outputFunctionsToBinaryPlan", "src/substrait/textplan/SymbolTablePrinter.cpp:outputExtensionSpacesToBinaryPlan"]}
{"id": "C40", "title": "Every function is listed in the printed text plan", "statement": "When a symbol table is printed as text every function symbol is listed exactly once under the extension space it belongs to.", "quantifier": "every symbol table", "why_tests_cant": "Unbounded tables; only particular combinations of spaces lose functions.", "anchors": ["src/substrait/textplan/SymbolTablePrinter.cpp:outputFunctionsSection"]}
{"id": "C41", "title": "A field name resolves to the last matching column", "statement": "When a column is referenced by name in a text plan, the recorded field number is that of the last generated column with that name or alias if there is one, otherwise of the last input column with that name, alias or schema-qualified name, and -1 otherwise.", "quantifier": "every list of columns and every name", "why_tests_cant": "Unbounded column lists.", "anchors": ["src/substrait/textplan/parser/SubstraitPlanRelationVisitor.cpp:SubstraitPlanRelationVisitor::findFieldReferenceByName"]}
{"id": "C42", "title": "Output mappings select columns in the listed order and reject missing columns", "statement": "Applying an output mapping produces the listed columns in the listed order with repetitions preserved; an error is reported for each listed column number that does not exist.", "quantifier": "every mapping and column list", "why_tests_cant": "Unbounded lists.", "anchors": ["src/substrait/textplan/parser/SubstraitPlanRelationVisitor.cpp:SubstraitPlanRelationVisitor::applyOutputMappingToSchema", "src/substrait/textplan/converter/InitialPlanProtoVisitor.cpp:InitialPlanProtoVisitor::updateLocalSchema"]}
{"id": "C43", "title": "Outer references resolve to the nearest enclosing query that has the column", "statement": "A column name inside nested subqueries resolves to the innermost enclosing query that has such a column, with a step count equal to the number of query boundaries crossed; an error is reported iff no enclosing query has it.", "quantifier": "every chain of nested queries and every name", "why_tests_cant": "Unbounded nesting depth.", "anchors": ["src/substrait/textplan/parser/SubstraitPlanSubqueryRelationVisitor.cpp:SubstraitPlanSubqueryRelationVisitor::findFieldReferenceByName"]}
{"id": "C44", "title": "Enumeration names are read case- and punctuation-insensitively", "statement": "For every join type, sort direction, aggregation phase and aggregation invocation, the printed name parses back to the same value, and so does every variant of it differing in letter case, digits or punctuation or carrying the protobuf prefix.", "quantifier": "every enumeration value and every such variant of its text", "why_tests_cant": "Infinitely many variants.", "anchors": ["src/substrait/textplan/parser/SubstraitPlanRelationVisitor.cpp:normalizeProtoEnum", "src/substrait/textplan/parser/SubstraitPlanRelationVisitor.cpp:SubstraitPlanRelationVisitor::visitRelationJoinType", "src/substrait/textplan/parser/SubstraitPlanRelationVisitor.cpp:SubstraitPlanRelationVisitor::visitSortDirection", "src/substrait/textplan/parser/SubstraitPlanRelationVisitor.cpp:SubstraitPlanRelationVisitor::visitAggregationPhase", "src/substrait/textplan/parser/SubstraitPlanRelationVisitor.cpp:SubstraitPlanRelationVisitor::visitAggregationInvocation"]}
{"id": "C45", "title": "File format detection follows the documented markers with fixed priority", "statement": "For every file content the detected format is JSON if it contains one of the quoted JSON field names, else protobuf text if some line starts with one of the field names followed by ' {', else text plan if some line starts with a text plan keyword after spaces, else binary.", "quantifier": "every byte string", "why_tests_cant": "Infinite domain.", "anchors": ["src/substrait/common/Io.cpp:detectFormat"]}
{"id": "C46", "title": "Output format names are recognised regardless of case, every other argument means text", "statement": "The format argument of the plan transformer tool selects the named format in any capitalisation, and every other argument selects the text format.", "quantifier": "every argument string", "why_tests_cant": "Infinite domain.", "anchors": ["src/substrait/common/PlanTransformerTool.cpp:planFileFormatFromText"]}
{"id": "C47", "title": "JSON loading ignores exactly one leading comment line", "statement": "When JSON content starts with '#', exactly the text up to the first newline is dropped before parsing and everything else is parsed unchanged; empty content is rejected.", "quantifier": "every content", "why_tests_cant": "Infinite domain.", "anchors": ["src/substrait/textplan/converter/LoadBinary.cpp:loadFromJson"]}
{"id": "C48", "title": "The C plan loader returns the whole serialized plan", "statement": "For every plan that loads, the buffer returned by the C loader contains the serialized plan and the reported size equals its length; on failure the error message is returned instead.", "quantifier": "every serialized plan length", "why_tests_cant": "Lengths of 2 GiB and more are not testable cheaply.", "anchors": ["export/planloader/planloader.cpp:load_substrait_plan", "export/planloader/planloader.cpp:free_substrait_plan", "export/planloader/planloader.cpp:save_substrait_plan"]}
{"id": "C49", "title": "Integer literals survive printing and parsing", "statement": "For every i8, i16, i32 and i64 literal value, nullable or not, the text printed for it parses back to a literal with the same type, value and nullability.", "quantifier": "every value in range", "why_tests_cant": "2^64 values.", "anchors": ["src/substrait/textplan/PlanPrinterVisitor.cpp:PlanPrinterVisitor::visitLiteral", "src/substrait/textplan/parser/SubstraitPlanRelationVisitor.cpp:SubstraitPlanRelationVisitor::visitNumber"]}
{"id": "C50", "title": "Relation kind names survive printing and parsing", "statement": "For every relation kind that can be printed, parsing the printed kind name gives the same kind.", "quantifier": "every relation kind", "why_tests_cant": "Needs agreement of two independently written tables for every kind.", "anchors": ["src/substrait/proto/ProtoUtils.cpp:relTypeCaseName", "src/substrait/textplan/parser/SubstraitPlanVisitor.cpp:SubstraitPlanVisitor::visitRelation_type"]}
{"id": "C51", "title": "Schema columns keep their types", "statement": "When a table schema is imported from a binary plan, each listed column is recorded with the type at the same position.", "quantifier": "every column list, including repeated names across schemas", "why_tests_cant": "Unbounded lists; only repeated names expose a shift.", "anchors": ["src/substrait/textplan/converter/InitialPlanProtoVisitor.cpp:InitialPlanProtoVisitor::visitNamedStruct"]}
{"id": "C52", "title": "Quoting a name or string is undone exactly", "statement": "Removing the quotation marks of a quoted name or raw string gives back exactly the quoted characters, for double quotes and for one, two or three backticks.", "quantifier": "every quoted text", "why_tests_cant": "Infinite domain; needs all contents including quotation characters.", "anchors": ["src/substrait/textplan/parser/SubstraitPlanVisitor.cpp:extractFromString", "src/substrait/textplan/parser/SubstraitPlanVisitor.cpp:SubstraitPlanVisitor::parseString", "src/substrait/textplan/parser/SubstraitPlanRelationVisitor.cpp:SubstraitPlanRelationVisitor::visitString"]}
{"id": "C53", "title": "Signatures identify concrete types up to nullability", "statement": "Two concrete types have the same signature text iff they are the same type when all nullability is ignored.", "quantifier": "every pair of concrete types of any nesting depth", "why_tests_cant": "Needs unique readability of the signature text for unbounded nesting.", "anchors": ["src/substrait/type/Type.cpp:signature", "include/substrait/type/Type.h:TypeTraits::kSignature"]}
{"id": "C54", "title": "Extension files register exactly the functions and types they list", "statement": "After loading any list of extension files, a lookup sees exactly the scalar, aggregate and window function variants and the types listed in the files, in file and document order, each with its name, the path of its file and the arguments, return type, bounds and intermediate type written there; and no lookup on the result is undefined.", "quantifier": "every list of parsed YAML documents", "why_tests_cant": "Unbounded documents; the order and completeness of the registrations cannot be sampled.", "anchors": ["src/substrait/function/Extension.cpp:Extension::load", "src/substrait/function/Extension.cpp:decodeFunctionImpl"]}
{"id": "C55", "title": "The return type of a function is the last line of its return expression", "statement": "For every function declaration whose return entry is a text, the declared return type is the type written on the last line of the text, with or without a final line break.", "quantifier": "every return text", "why_tests_cant": "Infinite domain.", "anchors": ["src/substrait/function/Extension.cpp:decodeFunctionImpl"]}
{"id": "C56", "title": "The C plan saver reports failures", "statement": "Saving a serialized plan through the C interface writes the plan made of the given bytes; bytes that are not a plan and failures to write are reported with a readable message, and a null pointer means success.", "quantifier": "every byte string, format and outcome of writing", "why_tests_cant": "Reading freed memory often appears to work; unbounded inputs.", "anchors": ["export/planloader/planloader.cpp:save_substrait_plan"]}
{"id": "C57", "title": "A plan file is loaded as the format it was written in", "statement": "A plan written in any format is loaded by the reader of that format, whatever names and values the plan contains.", "quantifier": "every plan and format", "why_tests_cant": "Depends on arbitrary user-chosen names in the file.", "anchors": ["src/substrait/common/Io.cpp:detectFormat", "src/substrait/common/Io.cpp:loadPlan"]}
{"id": "C58", "title": "A relation of a text plan sees the columns its inputs expose", "statement": "In a text plan the columns available inside a relation are the columns its inputs expose, in the order of the inputs, wherever in the text the inputs are written; a relation exposes its schema's columns, its emitted columns in the listed order, or, without an emit, all its input and generated columns (only the generated ones for an aggregate); a project generates one column per expression.", "quantifier": "every set of relations, in any textual order, and every list of details", "why_tests_cant": "Unbounded chains of relations and column lists.", "anchors": ["src/substrait/textplan/parser/SubstraitPlanRelationVisitor.cpp:SubstraitPlanRelationVisitor::addInputFieldsToSchema", "src/substrait/textplan/parser/SubstraitPlanRelationVisitor.cpp:SubstraitPlanRelationVisitor::visitRelation", "src/substrait/textplan/parser/SubstraitPlanRelationVisitor.cpp:SubstraitPlanRelationVisitor::addExpressionsToSchema"]}
{"id": "C59", "title": "A printed column name refers to the same column when read back", "statement": "When a binary plan is printed, the text of every field reference and emitted field, read back in the same relation, refers to the same column.", "quantifier": "every relation, column list and field number", "why_tests_cant": "Names may collide in arbitrarily many ways.", "anchors": ["src/substrait/textplan/PlanPrinterVisitor.cpp:PlanPrinterVisitor::lookupFieldReference", "src/substrait/textplan/PlanPrinterVisitor.cpp:PlanPrinterVisitor::lookupFieldReferenceForEmit", "src/substrait/textplan/parser/SubstraitPlanRelationVisitor.cpp:SubstraitPlanRelationVisitor::findFieldReferenceByName"]}
{"id": "C60", "title": "Names in groupings and measures refer to the columns of the aggregated input", "statement": "Inside an aggregate relation of a text plan, every column name in a grouping or a measure refers to a column of the input, and the relation produces one column per grouping column followed by one per measure.", "quantifier": "every aggregate relation", "why_tests_cant": "Unbounded details; out of bounds reads may appear to work.", "anchors": ["src/substrait/textplan/parser/SubstraitPlanRelationVisitor.cpp:SubstraitPlanRelationVisitor::visitRelationGrouping", "src/substrait/textplan/parser/SubstraitPlanRelationVisitor.cpp:SubstraitPlanRelationVisitor::visitMeasure_detail"]}
{"id": "C61", "title": "The columns computed for a binary plan are those of the Substrait specification", "statement": "For every valid relation of a binary plan, the columns that the converter passes to the next relation are the columns the Substrait specification gives to the relation, so that every field number is printed as the name of the column it denotes.", "quantifier": "every relation tree", "why_tests_cant": "Unbounded nesting of relations.", "anchors": ["src/substrait/textplan/converter/InitialPlanProtoVisitor.cpp:InitialPlanProtoVisitor::updateLocalSchema", "src/substrait/textplan/converter/InitialPlanProtoVisitor.cpp:InitialPlanProtoVisitor::addFieldsToRelation", "src/substrait/textplan/PlanPrinterVisitor.cpp:PlanPrinterVisitor::lookupFieldReference"]}
{"id": "C62", "title": "Function references survive conversion to text and back", "statement": "For every binary plan, each function reference is printed as a short name that, when the text is read, resolves to a declaration with the same extension URI and the same function name, and no two declarations are merged or lost.", "quantifier": "every list of extension URIs and function declarations", "why_tests_cant": "Unbounded lists; the anchors, the order and the short names all change on the way.", "anchors": ["src/substrait/textplan/converter/InitialPlanProtoVisitor.cpp:InitialPlanProtoVisitor::visitExtension", "src/substrait/textplan/SymbolTablePrinter.cpp:outputFunctionsSection", "src/substrait/textplan/parser/SubstraitPlanVisitor.cpp:SubstraitPlanVisitor::visitFunction", "src/substrait/textplan/SymbolTablePrinter.cpp:outputFunctionsToBinaryPlan"]}
{"id": "C63", "title": "Printed names can be read back as the same names", "statement": "Every name a plan text shows (columns, tables, relations, functions, schemas) is read back as the same name; numbering names to make them unique keeps them readable; exactly the names of a stated form can be read.", "quantifier": "every name, wherever it stands in a text", "why_tests_cant": "Names are unbounded and interact with two dozen keywords and the longest-match rule.", "anchors": ["src/substrait/textplan/parser/grammar/SubstraitPlanParser.g4:id,simple_id", "src/substrait/textplan/parser/grammar/SubstraitPlanLexer.g4:IDENTIFIER", "src/substrait/textplan/SymbolTable.cpp:SymbolTable::getUniqueName"]}
{"id": "C65", "title": "A text is cut into the longest tokens and nothing is lost", "statement": "Every plan text is divided into tokens, ignored characters and reported characters whose concatenation is the text; each token is the longest that any rule matches at its place, and the first rule in the grammar wins among equally long ones; only between extension_space and the next brace do URIs count.", "quantifier": "every text", "why_tests_cant": "All strings; the rules overlap (keywords, identifiers, comments, URIs).", "anchors": ["src/substrait/textplan/parser/grammar/SubstraitPlanLexer.g4:all rules"]}
{"id": "C66", "title": "Letter case never changes how a text is divided into tokens", "statement": "Two texts that differ only in the case of letters have the same kinds of tokens at the same places.", "quantifier": "every text", "why_tests_cant": "All strings and all choices of case.", "anchors": ["src/substrait/textplan/parser/grammar/SubstraitPlanLexer.g4:options caseInsensitive"]}
{"id": "C67", "title": "Changing white space and comments never changes the tokens of a text", "statement": "When every gap of white space and comments between tokens is replaced by any other gap (that starts with white space, with comments that have no quotes and no backticks), an accepted text keeps exactly the same tokens.", "quantifier": "every accepted text and every choice of white space", "why_tests_cant": "All strings and all choices of white space.", "anchors": ["src/substrait/textplan/parser/grammar/SubstraitPlanLexer.g4:SPACES"]}
{"id": "C69", "title": "The URI of an extension space can be read back", "statement": "The URI of every extension space, as printed after extension_space, is read back as the same URI; exactly the URIs of a stated form can be read.", "quantifier": "every URI", "why_tests_cant": "URIs are unbounded; unit tests use a handful.", "anchors": ["src/substrait/textplan/parser/grammar/SubstraitPlanLexer.g4:URI", "src/substrait/textplan/SymbolTablePrinter.cpp:outputFunctionsSection", "src/substrait/textplan/parser/SubstraitPlanVisitor.cpp:SubstraitPlanVisitor::visitExtensionspace"]}
{"id": "C71", "title": "Dates keep their meaning", "statement": "A date literal is printed as the day of the Gregorian calendar with that number, counted from 1 January 1970, and reading the printed text gives the same number.", "quantifier": "every date from the year 0 to the year 9999, and the calendar without bounds", "why_tests_cant": "Millions of dates; leap years and centuries make errors rare and far apart.", "anchors": ["src/substrait/textplan/PlanPrinterVisitor.cpp:PlanPrinterVisitor::visitLiteral", "src/substrait/textplan/parser/SubstraitPlanSubqueryRelationVisitor.cpp:visitDate"]}
{"id": "C64", "title": "Expressions survive printing and parsing", "statement": "Every expression of literals, columns, function calls, conditions, casts and subqueries, nested to any depth, is printed without errors as a text that is read back, without errors, as the same expression.", "quantifier": "every expression whose names and literals are readable, at any nesting depth and in any surrounding text", "why_tests_cant": "Expression trees are unbounded; unit tests read a few texts and never compare with what would be printed.", "anchors": ["src/substrait/textplan/PlanPrinterVisitor.cpp:PlanPrinterVisitor::visitExpression", "src/substrait/textplan/PlanPrinterVisitor.cpp:PlanPrinterVisitor::visitScalarFunction", "src/substrait/textplan/PlanPrinterVisitor.cpp:PlanPrinterVisitor::visitIfThen", "src/substrait/textplan/PlanPrinterVisitor.cpp:PlanPrinterVisitor::visitCast", "src/substrait/textplan/parser/SubstraitPlanSubqueryRelationVisitor.cpp:visitExpression"]}
{"id": "C68", "title": "Arguments keep their kind", "statement": "A function argument that is a value is read back as a value, one that is an enum as that enum, and one that is a type as that type.", "quantifier": "every argument list", "why_tests_cant": "Any column name may collide with the marker for enums.", "anchors": ["src/substrait/textplan/PlanPrinterVisitor.cpp:PlanPrinterVisitor::visitEnumArgument", "src/substrait/textplan/PlanPrinterVisitor.cpp:PlanPrinterVisitor::visitTypeArgument", "src/substrait/textplan/parser/SubstraitPlanSubqueryRelationVisitor.cpp:visitExpressionFunctionUse"]}
{"id": "C72", "title": "Literals other than integers survive printing and parsing", "statement": "Every literal that is printed without a report is read back as the same literal: kind, value and nullability.", "quantifier": "every literal", "why_tests_cant": "Unbounded strings and intervals of every kind, each with its own code for printing and for reading.", "anchors": ["src/substrait/textplan/PlanPrinterVisitor.cpp:PlanPrinterVisitor::visitLiteral", "src/substrait/textplan/parser/SubstraitPlanSubqueryRelationVisitor.cpp:visitConstant"]}
{"id": "C73", "title": "Numbers are read as written", "statement": "A number written with an integer type is read as a literal of exactly that value and within the range of its type, or an error is reported.", "quantifier": "every number the lexer accepts", "why_tests_cant": "Infinitely many number texts.", "anchors": ["src/substrait/textplan/parser/SubstraitPlanSubqueryRelationVisitor.cpp:visitNumber"]}
{"id": "C74", "title": "Relations survive printing and parsing", "statement": "A relation of a kind the text format has, with readable names, is printed without errors as a text that reads back, without errors, under the same name and as the same relation.", "quantifier": "every relation with any number of sources, schemas, filters, groupings, measures, sorts, expressions and emitted columns, and every expression in them", "why_tests_cant": "Relations contain unboundedly many details with unboundedly nested expressions, and every character and token of the text matters.", "anchors": ["src/substrait/textplan/PlanPrinterVisitor.cpp:printRelation,visitAggregateRelation,visitSortRelation,visitProjectRelation", "src/substrait/textplan/parser/SubstraitPlanSubqueryRelationVisitor.cpp:visitRelation,visitRelationDetail", "src/substrait/textplan/parser/grammar/SubstraitPlanParser.g4:relation,relation_detail,measure_detail"]}
{"id": "C75", "title": "Nothing about a relation is lost without a report", "statement": "Whatever part of a relation the text does not show, an error is reported; two relations that differ are not printed as the same text without an error.", "quantifier": "every relation", "why_tests_cant": "All pairs of different relations would have to be tried.", "anchors": ["src/substrait/textplan/PlanPrinterVisitor.cpp:visitReadRelation,visitAggregateRelation,visitSortRelation,visitRelationCommon", "src/substrait/textplan/parser/SubstraitPlanSubqueryRelationVisitor.cpp:visitRelationGrouping,visitRelationSourceReference,visitRelationUsesSchema"]}
{"id": "C76", "title": "The text of a relation that is printed without an error can be read without one", "statement": "If a relation is printed and no error is reported then the text can be parsed and is evaluated without errors.", "quantifier": "every relation", "why_tests_cant": "All relations would have to be tried.", "anchors": ["src/substrait/textplan/PlanPrinterVisitor.cpp:visitFetchRelation,visitJoinRelation,visitAggregateFunction,visitReadRelation", "src/substrait/textplan/parser/grammar/SubstraitPlanParser.g4:relation_detail"]}
{"id": "C77", "title": "Reading a relation is always defined", "statement": "Evaluating any relation the grammar accepts either succeeds or reports an error; it never reads outside of a list or through a null pointer.", "quantifier": "every text of a relation, every table of names", "why_tests_cant": "Infinitely many texts; undefined behaviour need not show in a test.", "anchors": ["src/substrait/textplan/parser/SubstraitPlanSubqueryRelationVisitor.cpp:visitRelationGrouping,visitMeasure_detail"]}
{"id": "C78", "title": "Schemas survive printing and parsing", "statement": "Every schema is printed as a text that is read back as the same columns in the same order with the same types, and whoever refers to a schema by its name gets that schema.", "quantifier": "every list of schemas with any number of columns", "why_tests_cant": "Unbounded lists; schemas and columns share one table of names, so the result depends on all names before.", "anchors": ["src/substrait/textplan/SymbolTablePrinter.cpp:outputSchemaSection", "src/substrait/textplan/parser/SubstraitPlanVisitor.cpp:visitSchema_definition,visitSchema_item", "src/substrait/textplan/parser/SubstraitPlanSubqueryRelationVisitor.cpp:visitRelationUsesSchema"]}
{"id": "C79", "title": "Sources survive printing and parsing", "statement": "Every named table and every list of files is printed as a text that is read back as the same names and the same files, and whoever refers to a source by its name gets that source.", "quantifier": "every list of sources, with any names, addresses, partitions, ranges and formats", "why_tests_cant": "Unbounded lists of arbitrary strings; files are identified by the text of their description.", "anchors": ["src/substrait/textplan/SymbolTablePrinter.cpp:outputSourcesSection,localFileToText", "src/substrait/textplan/parser/SubstraitPlanVisitor.cpp:visitNamed_table_detail,visitLocal_files_detail,visitFile", "src/substrait/textplan/parser/SubstraitPlanSubqueryRelationVisitor.cpp:visitRelationSourceReference"]}
{"id": "C80", "title": "Pipelines, roots and extension spaces survive printing and parsing", "statement": "The characters printed for pipelines, for the names of a root and for extension spaces are parsed as the same pipelines, names, URIs and function declarations.", "quantifier": "every list of pipelines, of names and of extension spaces", "why_tests_cant": "Unbounded lists of names, each of which may interact with keywords.", "anchors": ["src/substrait/textplan/SymbolTablePrinter.cpp:outputPipelinesSection,outputRootSection,outputFunctionsSection", "src/substrait/textplan/parser/grammar/SubstraitPlanParser.g4:pipelines,root_relation,extensionspace,function"]}
{"id": "C81", "title": "Whole plans survive printing and parsing", "statement": "A plan with any number of pipelines, relations, roots, schemas, sources and extension spaces is printed as one text that is parsed without errors and in which every part means what it did.", "quantifier": "every plan of readable parts", "why_tests_cant": "Plans are unbounded, and every section may change how the following ones are read.", "anchors": ["src/substrait/textplan/SymbolTablePrinter.cpp:SymbolTablePrinter::outputToText", "src/substrait/textplan/parser/grammar/SubstraitPlanParser.g4:plan", "src/substrait/textplan/parser/SubstraitPlanVisitor.cpp:SubstraitPlanVisitor"]}
{"id": "C82", "title": "Reading a text reports every problem", "statement": "A text gives a plan exactly if the lexer, the parser and all passes over the tree report nothing and throw nothing; otherwise everything that was reported or thrown is in the returned error, and no exception of a pass escapes.", "quantifier": "every behaviour of the passes", "why_tests_cant": "Needs all combinations of errors and exceptions of five stages.", "anchors": ["src/substrait/textplan/parser/ParseText.cpp:parseStream", "src/substrait/textplan/parser/LoadText.cpp:loadFromText"]}
{"id": "C83", "title": "Saving a plan replaces the file by the whole plan or leaves it alone", "statement": "If saving reports success, the file has exactly the text of the plan and nothing else has changed; if it reports an error, the file still has its old content and nothing is left open.", "quantifier": "every plan, format, previous content and answer of the operating system", "why_tests_cant": "Needs every way in which converting, printing and writing can fail.", "anchors": ["src/substrait/textplan/converter/SaveBinary.cpp:savePlanToBinary,savePlanToJson,savePlanToText,savePlanToProtoText", "src/substrait/common/Io.cpp:savePlan"]}
{"id": "C84", "title": "The command line tools say what went wrong", "statement": "The tools print a text plan only for input that was converted without an error, treat every file as if it were alone, and tell failure by their exit status.", "quantifier": "every list of files and every outcome for each", "why_tests_cant": "Unbounded lists; failures in the middle of a list are easily missed.", "anchors": ["src/substrait/textplan/converter/Tool.cpp:convertPlanToText,main", "src/substrait/textplan/parser/Tool.cpp:readText,main"]}
{"id": "C85", "title": "The file that is named is the file that is loaded", "statement": "Loading a plan reads the file whose name the caller gave, also if the name is part of a longer text, and reads what saving under the same name wrote.", "quantifier": "every name and every text it is part of", "why_tests_cant": "Names in tests are complete literals, which hides the difference.", "anchors": ["src/substrait/common/Io.cpp:loadPlan", "src/substrait/textplan/converter/LoadBinary.cpp:readFromFile"]}
{"id": "C86", "title": "Subqueries survive printing and parsing", "statement": "A scalar subquery, a membership test, a predicate or a comparison with the rows of a relation is printed without errors as a text that is read back as the same subquery of the same relation, wherever an expression may stand; what cannot be written is reported.", "quantifier": "every expression with subqueries of any kind and nesting, as a condition, projected expression, grouping, join condition or argument", "why_tests_cant": "The text is read in passes that treat subqueries differently; tests only read subqueries as arguments of functions.", "anchors": ["src/substrait/textplan/PlanPrinterVisitor.cpp:PlanPrinterVisitor::visitSubqueryScalar,visitSubqueryInPredicate,visitSubquerySetPredicate,visitSubquerySetComparison", "src/substrait/textplan/parser/SubstraitPlanRelationVisitor.cpp:visitExpression,hasSubquery,visitRelationFilter", "src/substrait/textplan/parser/SubstraitPlanSubqueryRelationVisitor.cpp:visitExpressionScalarSubquery,visitExpressionInPredicateSubquery,visitExpressionSetPredicateSubquery,visitExpressionSetComparisonSubquery"]}
{"id": "C87", "title": "What an expression refers to is there or is reported", "statement": "If a text is read as an expression without an error, every function, column and relation that it refers to is known, and no argument, operand or operation is missing.", "quantifier": "every text that is accepted as an expression", "why_tests_cant": "Accepted texts are infinitely many and nested without bounds.", "anchors": ["src/substrait/textplan/parser/SubstraitPlanSubqueryRelationVisitor.cpp:visitExpressionFunctionUse,visitExpressionColumn,visitExpressionScalarSubquery"]}
{"id": "C70", "title": "Floating point literals survive printing and parsing up to six digits", "statement": "A finite floating point literal is printed as the decimal number with at most six digits that is nearest to its value (ties to an even digit), with its sign. Reading a number with an fp32 or fp64 type gives the nearest number of that format, or an out-of-range error exactly when it is too large. Every finite literal of a plan can be read back, keeps its sign, is unchanged if it has at most six digits, and prints as the same text again if it is in the normal range.", "quantifier": "all finite numbers of both formats, all number texts", "why_tests_cant": "Rounding errors appear at ties, at powers of ten and two and at the largest numbers; no sample of the 2^64 values settles them.", "anchors": ["src/substrait/textplan/PlanPrinterVisitor.cpp: visitLiteral (fp32, fp64)", "src/substrait/textplan/parser/SubstraitPlanSubqueryRelationVisitor.cpp: visitNumber"]}
{"id": "C88", "title": "Timestamps and times of day in texts mean what they say", "statement": "A quoted date and time with the type timestamp is read as that point in time, a quoted time of day with the type time as that time; texts that name no point in time or no time of day are reported; a time zone shifts a timestamp by its offset.", "quantifier": "all quoted texts", "why_tests_cant": "The number of texts, dates and times is unbounded; the library that reads them stops at the first character it cannot use.", "anchors": ["src/substrait/textplan/parser/SubstraitPlanSubqueryRelationVisitor.cpp:visitTimestamp,visitTimestampTz,visitTime"]}
{"id": "C89", "title": "Literals written in a text mean what they say", "statement": "A constant with a type next to it, in braces or not and nested to any depth, is read as the value it spells for that type. What has no value of that type is reported. Without a type only booleans and strings are read.", "quantifier": "all constants and types of any nesting", "why_tests_cant": "Constants nest without bounds and every kind of constant meets every kind of type.", "anchors": ["src/substrait/textplan/parser/SubstraitPlanSubqueryRelationVisitor.cpp:visitConstant,visitNumber,visitString,visitConstantWithType,visitStructLiteralWithType,visitMapLiteralWithType,visitIntervalYear,visitIntervalDay", "src/substrait/textplan/parser/grammar/SubstraitPlanParser.g4:constant,map_literal,struct_literal,literal_complex_type"]}
{"id": "C90", "title": "What is printed without an error has no gaps", "statement": "An expression or a relation is printed without an error exactly if every function and column it refers to is known, every part it needs is there and everything in it has a text; what ends the printing by an exception is an expression without a kind or a selection of something else than a field, and nothing else.", "quantifier": "all expressions and relations of any nesting", "why_tests_cant": "Gaps can be at any depth of an expression; placeholders look like texts.", "anchors": ["src/substrait/textplan/PlanPrinterVisitor.cpp:visitExpression,visitScalarFunction,visitIfThen,visitCast,visitLiteral,visitFieldReference,lookupFunctionReference,lookupFieldReference,printRelation,visitAggregateRelation,visitSortRelation,visitProjectRelation"]}
{"id": "C91", "title": "A whole plan survives conversion to text and back", "statement": "A binary plan whose relations are reads, filters, fetches, aggregates, sorts, projects, joins and cross products, nested in any way, is converted to a text without errors, and the text is converted back without errors to a plan with the same trees of relations: the same sources and schemas, the same functions (by URI and name), types and literals, and expressions, groupings, measures and emits that use the same columns of the same reads or computations, whatever numbers they have.", "quantifier": "all plans of any size in which no name looks like one that the conversion makes up, and that avoid the listed findings", "why_tests_cant": "The number of relations, columns, functions and the depth of plans are unbounded, and names of one relation can meet names of any other; round trip tests cover a few plans.", "anchors": ["src/substrait/textplan/PlanPrinterVisitor.cpp:printRelation", "src/substrait/textplan/SymbolTablePrinter.cpp:outputToText,outputToBinaryPlan", "src/substrait/textplan/converter/InitialPlanProtoVisitor.cpp:visitRelation,visitReadRelation,visitPlanRelation", "src/substrait/textplan/converter/PipelineVisitor.cpp:visitRelation,visitFieldReference", "src/substrait/textplan/parser/SubstraitPlanRelationVisitor.cpp:visitRelation,findFieldReferenceByName,addExpressionsToSchema,applyOutputMappingToSchema", "src/substrait/textplan/converter/ParseBinary.cpp:parseBinaryPlan", "src/substrait/textplan/parser/ParseText.cpp:parseStream"]}
{"id": "C92", "title": "A plan that went through a text computes the same results", "statement": "Whatever the tables hold and the functions, literals, casts, orders, groups and joins mean, a binary plan and the plan it becomes by conversion to text and back have the same rows in the same order under the same names, for every relation of the plan. Two plans with the same text have the same results.", "quantifier": "all plans as for C91, all values, all tables and all meanings of functions", "why_tests_cant": "It is about every table and every meaning of every function; no execution engine is part of the project.", "anchors": ["src/substrait/textplan/PlanPrinterVisitor.cpp:printRelation", "src/substrait/textplan/SymbolTablePrinter.cpp:outputToText,outputToBinaryPlan", "src/substrait/textplan/converter/PipelineVisitor.cpp:visitRelation", "src/substrait/textplan/parser/SubstraitPlanRelationVisitor.cpp:visitRelation,findFieldReferenceByName,addExpressionsToSchema,applyOutputMappingToSchema"]}
{"id": "C93", "title": "A relation in a text means what its details say, and nothing is reported about it exactly if everything in it belongs there", "statement": "Reading a relation from a text reports nothing exactly if every detail belongs to relations of its kind, filters, join expressions and the function and filter of a measure are given at most once, and every expression, type, phase, invocation, direction, count, emitted column and join type in it can be read. The relation is then made of exactly these details, in their order; the sorts and the invocation of a measure are part of its function.", "quantifier": "all relations with any number of details in any order, all symbols around them", "why_tests_cant": "Details can be combined and repeated without bounds and every kind of detail meets every kind of relation.", "anchors": ["src/substrait/textplan/parser/SubstraitPlanSubqueryRelationVisitor.cpp:visitRelation,visitRelationDetail,visitRelationFilter,visitRelationUsesSchema,visitRelationExpression,visitRelationGrouping,visitRelationMeasure,visitMeasure_detail,visitRelationSort,visitRelationCount,visitRelationJoinType,visitRelationEmit,visitRelation_filter_behavior"]}
{"id": "C94", "title": "The definitions of a text are found under their names, and what is wrong with them is reported", "statement": "Reading a text defines exactly the schemas, columns, sources, files, tables, extension spaces and functions that are written in it, in their order; a name means the first definition of it. Reported are exactly what is wrong with the types of columns and functions without a signature; a number that does not fit is never read as another number.", "quantifier": "all texts with any number of definitions", "why_tests_cant": "The number of definitions is unbounded and any name can meet any other.", "anchors": ["src/substrait/textplan/parser/SubstraitPlanVisitor.cpp:visitPlan,visitSchema_definition,visitSchema_item,visitExtensionspace,visitFunction,visitLocalFiles,visitNamedTable,visitVirtualTable,visitExtensionTable,visitFile_detail"]}
{"id": "C95", "title": "Which binary plans are taken in without an exception", "statement": "The symbols and pipelines of a binary plan are found without an exception exactly if every message of it in which one of several kinds must be chosen has one that is supported (types, literals, expressions, arguments, references, sources, relations, at any depth), every declaration is one of a function, and every subquery has its relation; nothing ends the process otherwise.", "quantifier": "all plans, with all kinds of relations, expressions, literals and types of any nesting and size", "why_tests_cant": "A message that is not set can be at any depth, and there are over a hundred places for it.", "anchors": ["src/substrait/textplan/converter/BasePlanProtoVisitor.cpp:visitType,visitLiteral,visitExpression,visitRelation,visitPlanRelation,visitFunctionArgument,visitReferenceSegment,visitSelect,visitReadRelation", "src/substrait/textplan/converter/InitialPlanProtoVisitor.cpp:visitExpression,visitExtension,visitNamedStruct,visitReadRelation", "src/substrait/textplan/converter/PipelineVisitor.cpp:visitExpression", "src/substrait/textplan/converter/ParseBinary.cpp:parseBinaryPlan"]}
{"id": "C96", "title": "Plans can be converted to text and back again and again", "statement": "A plan that was converted to text and back can be converted again, any number of times: no errors are reported and the plan stays the same, with the same results. If no more than nine functions have the same name, all texts after the first are equal, and all plans after the second.", "quantifier": "all plans as for C91, any number of conversions, all meanings of functions and tables", "why_tests_cant": "It is about every number of conversions; names are given anew each time, so that an effect can show after many of them.", "anchors": ["src/substrait/textplan/PlanPrinterVisitor.cpp:printRelation,lookupFunctionReference", "src/substrait/textplan/SymbolTablePrinter.cpp:outputToText,outputFunctionsSection,outputToBinaryPlan", "src/substrait/textplan/converter/InitialPlanProtoVisitor.cpp:visitExtension,visitRelation", "src/substrait/textplan/parser/SubstraitPlanRelationVisitor.cpp:visitRelation", "src/substrait/textplan/SymbolTable.cpp:getUniqueName"]}
{"id": "C97", "title": "A plan made from a text without reports refers only to what is there", "statement": "If a text is converted to a binary plan and nothing is reported, every function that an expression or a measure calls is declared in the plan, every column that a relation uses is a column of its inputs, every column that it emits exists, and every relation has the inputs it needs. The order of the sections does not change the plan.", "quantifier": "all texts, with any number of sections, relations, pipelines and expressions of any nesting", "why_tests_cant": "Texts combine sections, names and orders without bounds; what refers to nothing looks like any other number in a plan.", "anchors": ["src/substrait/textplan/parser/SubstraitPlanRelationVisitor.cpp:visitRelation,findFieldReferenceByName,addExpressionsToSchema,applyOutputMappingToSchema", "src/substrait/textplan/parser/SubstraitPlanSubqueryRelationVisitor.cpp:visitRelation,visitExpressionFunctionUse,visitMeasure_detail", "src/substrait/textplan/SymbolTablePrinter.cpp:outputToBinaryPlan", "src/substrait/textplan/parser/ParseText.cpp:parseStream"]}
{"id": "C98", "title": "Reading a text of a plan is never undefined behaviour and always ends", "statement": "Converting any text to a binary plan either makes a plan or reports errors: it does not read past the end of a list, follow a null pointer, convert a number that is out of range, or recurse without end, whatever the types, constants, groupings, measures and pipelines of the text are.", "quantifier": "all texts", "why_tests_cant": "Any text can be given; what is undefined can go unnoticed in a test, and the places where it happens depend on combinations of names, orders and types.", "anchors": ["src/substrait/textplan/parser/SubstraitPlanSubqueryRelationVisitor.cpp:visitRelationGrouping,visitMeasure_detail,findFieldReferenceByName", "src/substrait/textplan/parser/SubstraitPlanRelationVisitor.cpp:visitRelationGrouping,visitConstant,visitTimestamp,visitIntervalYear,visitIntervalDay", "src/substrait/textplan/parser/SubstraitPlanPipelineVisitor.cpp:visitPipeline", "src/substrait/textplan/SymbolTablePrinter.cpp:outputToBinaryPlan", "src/substrait/type/Type.cpp:Type::decode"]}
{"id": "C99", "title": "The order of the sections of a text does not matter", "statement": "Two texts of a plan that have the same sections in another order convert to the same binary plan with the same reports. Definitions, pipelines, relations and roots may be mixed in any way; relations may come in any order in which each comes after its inputs; schemas, sources and extension spaces may come in any order in which the spaces, whose functions are numbered, stay in theirs.", "quantifier": "all texts of plans, and all ways of reordering their sections", "why_tests_cant": "The number of orders grows with the factorial of the number of sections, and the passes share one symbol table whose entries depend on where a section is.", "anchors": ["src/substrait/textplan/parser/SubstraitPlanVisitor.cpp:visitPlan,visitRelation,visitSchema_definition,visitSource_definition", "src/substrait/textplan/parser/SubstraitPlanPipelineVisitor.cpp:visitPipeline", "src/substrait/textplan/parser/SubstraitPlanRelationVisitor.cpp:visitRelation", "src/substrait/textplan/parser/SubstraitPlanSubqueryRelationVisitor.cpp:visitRelation,addInputFieldsToSchema", "src/substrait/textplan/SymbolTablePrinter.cpp:outputToBinaryPlan", "src/substrait/textplan/SymbolTable.cpp:lookupSymbolByName,lookupSymbolsByLocation"]}
{"id": "C100", "title": "Subqueries of a text are those of the plan", "statement": "When a text is read without a report, every relation of the plan, inside of subqueries or outside, is a relation of the text with its kind, its inputs and its subqueries: every subquery in its message has the relation that is named at its place in the text. A subquery is no root of the plan. A column that a subquery reads from outside is one of a relation around it, as many subqueries out as the plan says. Functions called in subqueries are declared. Texts without subqueries are read as if there were none. Reading ends.", "quantifier": "all texts of plans, with subqueries in any expressions and nested to any depth", "why_tests_cant": "Relations for subqueries are recorded in the order of one pass and put into the messages in the order of another; which of them meet depends on the whole text, on nesting, and on which details come first. Tests have one subquery per relation.", "anchors": ["src/substrait/textplan/parser/SubstraitPlanSubqueryRelationVisitor.cpp:visitRelation,findFieldReferenceByName,addInputFieldsToSchema", "src/substrait/textplan/SymbolTablePrinter.cpp:addInputsToRelation,addInputsToExpression,outputToBinaryPlan", "src/substrait/textplan/parser/SubstraitPlanRelationVisitor.cpp:visitRelation,isWithinSubquery,hasSubquery", "src/substrait/textplan/SymbolTable.cpp:lookupSymbolByParentQueryAndType"]}
{"id": "C101", "title": "The names of columns in a text stand for the columns that have those names", "statement": "If a text is converted to a binary plan and nothing is reported, each relation of the plan reads, groups by and emits the columns that are named in its section: the column of its inputs with that name, or with that schema and name, the last one if there are several; and a relation has the columns of its inputs, those of its schema, those that it computes, groups by and measures under the names that it gives them, or just those it emits, in that order.", "quantifier": "all texts, with any number of relations, schemas and columns, and expressions of any nesting", "why_tests_cant": "Whether a number in a plan is the column that was meant depends on everything below the relation; tests compare a few plans with numbers that were copied from the output.", "anchors": ["src/substrait/textplan/parser/SubstraitPlanRelationVisitor.cpp:visitRelation,findFieldReferenceByName,addExpressionsToSchema,applyOutputMappingToSchema,addInputFieldsToSchema", "src/substrait/textplan/parser/SubstraitPlanSubqueryRelationVisitor.cpp:visitRelation,findFieldReferenceByName", "src/substrait/textplan/SymbolTable.h:RelationData"]}
