ST.update({
 "C01": ("proved", "Exact for every value of 1..16 bytes; oversized values wrap (C01_oversized_refuted shows the bound is needed)."),
 "C02": ("proved", "As stated (below 2^127). Beyond: C02_high_refuted, C02_negative_rejected are findings."),
 "C03": ("proved", ""),
 "C04": ("partial", "Injectivity proved; rendering is defined for every scale except -2^31, where it is undefined behaviour (C04_total_refuted)."),
 "C07": ("partial", "Proved for all values without a backslash and any following text; false for values with a backslash (C07_value_refuted, C07_token_refuted)."),
 "C08": ("partial", "Termination, identity, documented escapes and error reporting proved; preservation is false for malformed \\u escapes (C08_preserved_refuted)."),
 "C52": ("partial", "Proved for double quotes, single, and triple backticks and for double backticks when the text does not start with a backtick; otherwise false (C52_double_backticks_refuted)."),
 "C09": ("partial", "Proved in full with parameter support (the mode the library uses) except that a brace in the name turns the library exception into a fmt error (C09_message_refuted); without parameter support termination holds but out-of-bounds and null accesses occur (C09_concrete_refuted)."),
 "C10": ("proved", ""),
 "C11": ("partial", "Proved for every type and every way of writing it unless a nullable compound type has a nullable part; those are rejected (C11_nested_nullable, C11_nested_nullable_refuted)."),
 "C12": ("partial", "Exact behaviour proved (C12_exact); the stated equivalence holds unless a required struct meets a nullable struct (C12_struct_refuted)."),
 "C13": ("partial", "Exact set of accepted instances proved; parameterised fixedbinary accepts nothing (C13_fixedbinary_refuted)."),
 "C15": ("proved", "Also C15_reading for every type text; reading fixedbinary loses its length (C15_fixedbinary_refuted, a type the printer cannot print)."),
 "C16": ("proved", "For declarations and queries with all parts present (ValidDecl, ValidQuery); C54_valid tells which loaded declarations are."),
 "C18": ("partial", "Proved for declarations whose only argument is a value argument, and exactly (C18_exact) for all others with non-negative bounds and at least one argument; false for several arguments, negative bounds, and undefined without arguments (C18_*_refuted)."),
 "C19": ("proved", "The requested return type is ignored in the intermediate case (C19_return_unchecked)."),
 "C21": ("partial", "Exact text proved; undefined for declared types with a non-literal length parameter (C21_parameter_refuted)."),
 "C54": ("partial", "Proved for scalar and aggregate functions and types; window functions are never loaded (C54_window_refuted) and some loadable declarations make lookups undefined (C54_lookup_refuted)."),
 "C55": ("partial", "Proved for texts without a final line break; with one the return type is lost (C55_trailing_newline_refuted)."),
})
ST.update({
 "C22": ("proved", "C22_defined: operations naming a symbol that is not in the table are out-of-bounds accesses, all others are defined. Counters are modelled as unbounded integers."),
 "C23": ("proved", "C23_unknown_refuted: recording a location for an unknown symbol is an out-of-bounds access."),
 "C24": ("partial", "Exact naming proved; uniqueness holds when no requested name is another one followed by digits and is false otherwise, and for names defined without asking (C24_collision_refuted, C24_defined_refuted)."),
 "C25": ("proved", "For symbols attached at most once and known parents; C25_again shows that attaching a symbol twice skips a number."),
 "C27": ("partial", "False for the root kind (out-of-bounds read) and for tables and measures (exception): C27_root_refuted."),
 "C28": ("proved", "Addresses are modelled as numbers ordered as std::less orders pointers."),
})
ST.update({
 "C30": ("partial", "Proved for every call the normaliser looks at. Refuted for calls in the places it skips (arguments, sorts and filters of measures, groupings, window functions, switch, or-lists, nested values, deprecated arguments, expand, write, window, exchange and nested loop relations) and for function zero next to a type declaration."),
 "C31": ("partial", "Proved for plans whose declarations are all functions (the permutation of meanings for well numbered plans). Refuted for type declarations, which are turned into unnamed functions."),
 "C32": ("partial", "Proved for any two valid sorting procedures when URIs and (space, name) pairs are distinct and there are no type declarations. Refuted with duplicates (std::sort is not stable) and with type declarations."),
 "C33": ("partial", "Proved for plans whose calls are all in places the normaliser looks at, with distinct URIs and distinct functions. Refuted otherwise."),
 "C34": ("partial", "Throwing is characterised exactly for plans whose declarations are all functions. Everything but references is unchanged up to absent inputs becoming empty ones (refuted without that), and a dangling space reference is not detected (refuted)."),
})
ST.update({
 "C44": ("partial", "Proved for all values but the unspecified join type (printed as a name that is rejected) and the explicitly unspecified sort direction (printed as no direction): C44_unspecified_refuted. Texts are ASCII, as the grammar guarantees."),
 "C45": ("proved", "Regular expressions are modelled with full backtracking semantics; ^ matches at the start of the content only."),
 "C48": ("proved", "For serialized plans under 2 GiB, the most protobuf can write; C48_size_bound is exact for all lengths."),
 "C56": ("partial", "The plan is saved and null is returned exactly on success; bytes that are no plan are not reported and error messages are dangling pointers (C56_*_refuted)."),
 "C57": ("partial", "Proved for contents without quotation marks; refuted by names in quotes, by 32 byte strings in binary plans and by plans with only a version (C57_*_refuted)."),
})

ST.update({
 "C41": ("partial", "Proved for all names except emits of an aggregate that name an input column; those get a meaningless number (refuted)."),
 "C58": ("partial", "Proved for inputs written earlier in the text; an input written later contributes no columns, and an emit of only unknown names exposes everything (refuted)."),
 "C59": ("partial", "Proved when no other column has the printed name; refuted for columns with the same alias and for grouping columns emitted by an aggregate."),
 "C60": ("partial", "Proved when no name is the plain name of a column added by an earlier grouping or measure; otherwise refuted, including an out of bounds read; unnamed measures produce no column (refuted)."),
 "C61": ("partial", "Proved for reads, filters, sorts, fetches, projects, full joins, cross products and aggregates grouped once by columns; refuted for sets, semi/anti joins, grouping by expressions, window relations and empty emits."),
})

ST.update({
 "C39": ("proved", "For declared spaces; a function of an undeclared space is written as one of space zero (C39_undeclared_refuted)."),
 "C40": ("partial", "Proved when every function has a space and used spaces have different URIs. Otherwise printing throws (no space) or functions are missing (equal or missing URIs): refuted."),
 "C62": ("partial", "Proved when anchors and URIs are distinct, every space is declared, no short name is another followed by digits and no schema, column, source, table or URI has the short name of a function; refuted otherwise. The text is modelled as the parsed declarations, not as characters."),
})

ST.update({
 "C37": ("partial", "Proved: when the text is accepted no relation is in the middle of two pipelines; acceptance and what is recorded are characterised exactly. Refuted: cycles and shared inputs are accepted, a schema hides a loop within one pipeline, names of other symbols are ignored or are null pointers."),
})

ST.update({
 "C35": ("partial", "Proved for every plan of read, filter, fetch, aggregate, sort, project, join and cross relations with all their inputs and with distinct names, through the text. Refuted for several named roots, a name that something else has, other kinds, missing inputs, texts with cycles or too many inputs, and for reassembling without the text. Expressions and bodies are opaque texts in this model."),
 "C36": ("partial", "Proved when no subquery has a subquery among its operands and no read filters by one; refuted otherwise (C36_*_refuted)."),
 "C38": ("partial", "Proved exactly for plans of relations that have a text, and for relations of every kind that every input stands directly before its relation; refuted for subqueries an IN looks for and for what a DDL relation defines its view by."),
})

ST.update({
 "C63": ("partial", "Proved: a name is readable exactly when it is of the form Name, numbering keeps it readable, all names the converter makes up are readable. Refuted for names with number words (col_1), reserved words and names starting like keywords with underscores, which are printed as they are."),
 "C65": ("proved", "The generated ANTLR lexer is modelled by its documented rule (longest match, first rule); proved equivalent to an independent specification of all rules as languages."),
 "C66": ("proved", "For letters of ASCII."),
 "C67": ("proved", "For gaps that start with a white space character; comments without quotes and backticks (a quote in a comment can lengthen a string that ends with a backslash, C67_quoted_comment_refuted); removing white space altogether can join tokens (C67_removal_refuted)."),
 "C69": ("partial", "Proved: a URI is read back exactly when it is of the form LUri. Refuted for ports, percent signs, queries, tildes, empty paths and double slashes."),
})

ST.update({
 "C71": ("partial", "Proved for the years 0 to 9999; later years are printed but not read (C71_late_refuted). The date library is modelled from its documentation."),
})

ST.update({
 "C49": ("proved", "For every value in the range of its type, nullable or not, wherever the literal stands (C64_in_context)."),
 "C64": ("partial", "Proved for all readable expressions (literals as in C72, readable names, printable types). Refuted: function options, cast failure behaviour, list elements, map values, fields of fields and fields of expressions are lost without a report; masked references stop the conversion; functions named ifthen are shadowed."),
 "C68": ("partial", "Proved for value and enum arguments whose texts are apart. Refuted: a column whose name ends in _enum is read as an enum, a type argument as a column."),
 "C72": ("partial", "Proved for strings, dates (years 0 to 9999), intervals, decimals, fixed and variable character strings and finite floating point numbers (up to the printed text, see C70). Refuted: nullability of strings, dates and intervals is lost; booleans are printed without a type."),
 "C73": ("partial", "Refuted: i8 and i16 are not checked, and the fraction and exponent of an integer are ignored without a report."),
})

ST.update({
 "C74": ("partial", "Proved for reads, filters, fetches without offset, aggregates, sorts, projects, joins and cross products as RelReads describes: emits only of projects and aggregates, grouping sets merged, deprecated arguments as arguments.  Expressions with subqueries as in C86."),
 "C75": ("partial", "Refuted: emits of most relations, grouping sets, best effort filters, sorts of measures, comparison functions of sorts, outer columns in groupings, unknown sources and schemas and unspecified directions are lost or changed without a report."),
 "C76": ("partial", "Refuted for fetches with an offset, reads with two filters, post join filters and options of measures. Proved: what the printer cannot print is reported."),
 "C77": ("partial", "Refuted: grouping by a column number that is too large and measures that are not function calls are undefined behaviour."),
})

ST.update({
 "C78": ("partial", "Proved for schemas of readable names and printable types, when no earlier schema or column has the name. Refuted: hidden names, surplus names or types, nullability of the struct, and errors of types are lost without a report."),
 "C79": ("partial", "Proved for tables of at least one name without stray quotes and for single parquet or orc files, when no earlier name hides them and no file is listed twice. Refuted: several files, none, arrow and dwrf, tables without names, quotes in names, addresses of folders, paths and globs, repeated files, hidden names; one source that cannot be printed stops the whole plan."),
 "C80": ("partial", "Proved for readable names and URIs and functions with a signature. Refuted for empty pipelines and functions without a colon in their name."),
 "C81": ("partial", "Proved for all plans of readable parts (PlanReads): one text with all sections; relations as in C74, functions as in C62. Advanced extensions are not printed and not modelled."),
})

ST.update({
 "C50": ("proved", "The numbers of the cases of Rel come with the generated protobuf code and are modelled from its definition."),
 "C51": ("partial", "Proved for schemas of new and different names; C51_exact describes every schema. Refuted: a name that is already in use shifts the types of the columns after it."),
 "C82": ("proved", "The passes are parameters: any function of the errors so far and the table."),
 "C83": ("partial", "Proved: what success means, when it is reported, and that other files are never touched. Refuted: a failed conversion or printing has already destroyed the old content, and failed serialization leaves a descriptor open. Converters and the operating system are parameters."),
 "C84": ("partial", "Proved for the output of the parser and for lists of files. Refuted: exit status, text printed by the converter for plans with errors, exceptions ending the run."),
 "C85": ("partial", "Proved for names followed by a zero. Refuted for names that are the beginning of a longer text or have no zero after them."),
})

ST.update({
 "C86": ("partial", "Proved for subqueries as arguments of functions and for comparisons. Refuted: scalar subqueries, memberships and predicates that stand by themselves are refused by the first pass in filters, projects, groupings and joins; relations named like enum arguments become enum arguments."),
 "C87": ("partial", "Proved for all texts except that a condition without parts is read as nothing, which is refuted."),
})

ST.update({
 "C70": ("proved", "Printing and stof/stod are library functions, modelled by their contracts (%g with six digits; nearest number; whether a number that is too small is reported is left to the library and not modelled). Findings beside it: digits after the sixth are lost silently, infinities and NaN are printed as words that are not literals."),
})

ST.update({
 "C88": ("partial", "Proved for all texts in range, and that texts without a meaning are reported. Refuted: timestamps are seconds where the message has microseconds, points in time outside 1677 to 2262 are undefined behaviour, text after the part that is read is ignored, unreadable seconds are ignored. The date library is modelled by its documentation."),
 "C89": ("partial", "Proved: what a constant means is read, and what is read is what the constant means or one of the listed oddities. Refuted: numbers with types that are none of numbers, lengths of strings, pairs with struct types, intervals of nothing or of nulls, and types inside braces are not checked. Types are those that the parser reads as basic types, lists, maps and structs of them; timestamps with time zones are not part of it."),
 "C90": ("partial", "Proved for all expressions and relations. Refuted: an aggregate argument without a value is not reported, and a comparison function replaces the text of a sort relation."),
})

ST.update({
 "C91": ("partial", "Proved for every plan of the class Convertible, without a bound on its size. Not in the class: subqueries, offsets of fetches, filters of reads that use columns, several grouping sets, grouping by computed expressions, semi and anti joins, literals and types whose own round trip is refuted, set and extension relations, and names that the conversion could make up itself. Refuted: a computed column that is grouped by and used in a measure comes back as a column that is not there; columns in the filter of a read are not found."),
})

ST.update({
 "C92": ("partial", "Proved for the class of plans of C91 and every meaning that gives values to literals, functions, casts, conditions, tables, orders, groups and joins by what they are given. Refuted for the plans outside it that C91 names: a computed column that is grouped by and used in a measure is replaced by nothing, so the results differ."),
})

ST.update({
 "C93": ("partial", "Proved for every relation, as an equivalence. Refuted: the last of several counts (and in the same way types of joins and invocations of measures) is taken without a report; sources and schemas that are not known are left out without a report (C75)."),
 "C94": ("partial", "Proved for every text. Refuted: virtual and extension tables can be defined, but relations that use them have no source and nothing is reported; negative numbers in files become large ones."),
})

ST.update({
 "C95": ("partial", "Proved as an equivalence for the first two of the three passes of reading a binary plan, all messages, without a bound; the third pass is the printing of relations (C90). Refuted: a subquery without its relation is undefined behaviour (a symbol that was not found is used); the needles of an IN are not looked at; a missing input of any relation but a root is not noticed."),
})

ST.update({
 "C96": ("partial", "Proved for the class of plans of C91, any number of conversions and every meaning. Refuted without the bound on functions of one name: with ten of them the text changes with every conversion, since f10 is written before f2 and gets the name f2 the next time."),
})

ST.update({
 "C97": ("partial", "Functions: proved for every text. Columns: proved for every text in which each relation comes after its inputs, has as many as it needs, and each aggregation names a measure, except for the columns inside of aggregations. Refuted for all others: another order of sections makes another plan; a filter with two inputs, aggregations without named measures and columns that are grouped by and measured lead to columns that are not there; a join of one input has none; a measure without a call calls the first function. About texts without subqueries (C100_same); functions in subqueries: C100_functions. The names of a tree of the plan are those of the text's only root, or there are none (C97_names); if a pipeline ends in the root and none goes on from there, there is a tree with these names (C97_root)."),
 "C98": ("partial", "Proved: every text whose behaviour is undefined has one of the listed traps (for constants exactly those that are listed), the types of accepted texts are always read, and recursion ends unless pipelines go round in a circle. Refuted otherwise, with a text for each trap: grouping twice by one column, a measure that is no call, an interval with too few parts, a timestamp out of range, a pipeline through something that is no relation, relations that feed each other. About texts without subqueries (C100_same), where looking for a column that is nowhere does not end either if pipelines go round in a circle (C100_ends_refuted)."),
 "C100": ("partial", "Proved for every text: every relation of the plan is made of the relation of the text with its name, of its kind, with inputs that feed it; the subqueries in its message are exactly those that are attached to it, each is one of the text's, and all of them are there unless some are in sorts of measures or in arguments that are read as enumerations; no root is a subquery; all called functions are declared; a column that is read k steps outwards belongs to a relation k subqueries around the reading one, and relations outside of subqueries read their own columns only; given the columns of a relation and of those around it, a name in it (no aggregation) stands for the nearest column that has it (C100_columns_partial, C100_section); texts without subqueries are read as in C91 to C99; reading ends unless a relation supplies itself over pipelines and subqueries; it is defined unless the text has one of the traps of C98 or groups, within a subquery, by a column from outside. Refuted: that each subquery is at its place, if there are several (a join whose filter comes before its expression, a subquery among the operands of another, a subquery in a sort of a measure); that a subquery used twice reads the right columns; that a name may end in _enum; that reading ends; that an aggregation may group by a column from outside; that a column from outside is a column of the inputs of the relation around (it can be one that a project makes). Missing: that the columns of the relations around, when a relation is read, are those they have in the plan; names in aggregations within subqueries. The names of the plan's trees are those of the root (C100_names), and one of them has these names (C100_root)."),
 "C101": ("partial", "Proved for accepted texts in which each relation comes after its inputs, has as many as it needs, uses schemas that are there, and in which no column is renamed and aggregations group by columns before they measure, with one name for each measure (C101_columns_partial). Names in measures that are also columns of the aggregation may stand for columns that are not there (C97_grouped_refuted). About texts without subqueries (C100_same). Refuted for other texts: a new name for a column is ignored, grouping by an expression shifts the columns after it, and so does a measure before a grouping."),
 "C99": ("partial", "Proved: sections of different kinds may be mixed in any way, for every text, valid or not (C99_kinds); relations may come in any order in which each comes after its inputs, for accepted texts whose pipelines name relations and whose project expressions have names (C99_relations, C99_same); schemas, sources and extension spaces may come in any order in which the spaces stay in theirs, for accepted texts in which no other definition has the name of a function and names that relations use and those of files are defined once (C99_definitions); all of it at once (C99_any). False if a relation comes before its inputs (C97_order_refuted) and, without a report, if two schemas have the same name (C99_hidden_refuted). For texts with subqueries the kinds may be mixed as well (C99_subqueries), and the definitions moved (C99_subquery_definitions); relations may be moved there if each comes after its inputs and after the relations it is inside of, and no two relations have the same subquery (C99_subquery_relations), also together with definitions (C99_subquery_any), but not otherwise: with nested subqueries the order of two relations that do not feed each other counts, without a report (C99_subquery_relations_refuted). Spaces in another order number the functions differently."),
})
