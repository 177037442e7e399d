## Findings

What the model says is wrong with the code. Each line is backed by the theorem named.

Crashes and undefined behaviour:

* Decoding a type name without parameter support reads out of bounds or through null for malformed parameter lists (`C09_concrete_refuted`).
* A function declaration without arguments and a variadic bound: lookups read an empty list (`C18_no_arguments_refuted`); declarations that load but make lookups undefined (`C54_lookup_refuted`).
* The signature of a type with a non-literal length is a bad cast (`C21_parameter_refuted`).
* `symbolTypeName` reads outside of its table for the root kind (`C27_root_refuted`).
* A scale of -2^31 in a decimal negates the least integer (`C04_total_refuted`).
* Texts that name something other than a relation in a pipeline, or that give a relation the name of another symbol (`C37_other_name_refuted`, `C35_name_taken_refuted`).
* A missing input of a join in a binary plan (`C35_missing_input_refuted`); cyclic pipelines never finish (`C35_endless_refuted`).
* Grouping by a column number that is too large (`C77_grouping_refuted`, `C60_twice_refuted`); a measure that is not a function call (`C77_measure_refuted`).
* Error messages returned by the plan loader are dangling pointers (`C56_dangling_message_refuted`).
* A source named like a schema, a column or a table is a bad cast (`C79_hidden_refuted`); a virtual table, an extension table or an unset file format stops the printing of a whole plan (`C79_stops_refuted`).
* A masked reference in an expression is a bad cast that stops the conversion (`C64_masked_refuted`).

Meaning changed without a report:

* Decimals of 2^127 and more become negative (`C02_high_refuted`); oversized decimal values wrap (`C01_oversized_refuted`).
* String values with a backslash come back changed (`C07_value_refuted`); malformed `\u` escapes are dropped (`C08_preserved_refuted`).
* The normaliser misses calls in many places and renumbers functions under them, and turns type declarations into functions (`C30_missed_calls_refuted`, `C31_type_declaration_refuted`); its result depends on the order of equal entries (`C32_duplicates_refuted`).
* Function options, cast failure behaviour, inner fields, fields of expressions (`C64_*_refuted`); enum-like column names (`C68_enum_refuted`); nullability of some literals (`C72_nullable_refuted`); digits of floating point numbers after the sixth (`C70_precision_refuted`, `C70_changed_refuted`); i8/i16 ranges and fractions of integers (`C73_*_refuted`).
* Emits, grouping sets, best effort filters, sorts of measures, comparison functions of sorts (`C75_*_refuted`).
* Schemas: surplus names or types, nullability, schemas hidden by columns (`C78_*_refuted`); sources: addresses other than of single files, repeated files, names with quotes (`C79_location_refuted`, `C79_file_again_refuted`, `C79_quotes_refuted`).
* Columns of a schema get the types of their neighbours if a name is already in use (`C51_shift_refuted`).
* Subqueries that are operands of subqueries change places (`C36_swapped_refuted`).
* Names: two symbols can get one name (`C24_collision_refuted`), functions can be hidden (`C62_hidden_refuted`), a column can be resolved to another one (`C59_same_alias_refuted`, `C60_shadowed_refuted`), columns of sets, semi joins and window relations are miscounted (`C61_*_refuted`).
* Functions of undeclared spaces become functions of space zero (`C39_undeclared_refuted`); functions of spaces with equal URIs are lost (`C40_lost_refuted`).

What is printed cannot be read, or is refused:

* Names with number words, keywords and compound keywords (`C63_*_refuted`); URIs with ports, queries and the like (`C69_uris_refuted`).
* Infinities and NaN (`C70_infinite_refuted`).
* Dates after the year 9999 (`C71_late_refuted`); booleans (`C72_boolean_refuted`); nested nullable types (`C11_nested_nullable_refuted`).
* Sources with several files or none, arrow and dwrf files, tables without names (`C79_files_refuted`, `C79_no_names_refuted`); empty pipelines, functions without a signature (`C80_*_refuted`).
* Scalar subqueries, memberships and predicates that are not arguments of functions (`C86_*_refuted`).
* Fetches with an offset, post join filters, options of measures, reads with two filters (`C76_*_refuted`); two named roots (`C35_two_roots_refuted`).

Files and tools:

* Saving as text empties the file before converting: a plan that cannot be converted destroys what the file held (`C83_lost_refuted`), one that cannot be printed replaces it by an incomplete text (`C83_incomplete_refuted`); failed serialization leaks a descriptor (`C83_leak_refuted`).
* The tools exit with success whatever happened (`C84_status_refuted`), the converter prints a text for plans with errors (`C84_converter_refuted`), and one plan that throws ends the run (`C84_stops_refuted`).
* `loadPlan` takes a string_view and reads on to the next zero byte (`C85_longer_refuted`, `C85_unterminated_refuted`).

* A computed column that is grouped by and also used in a measure comes back as a column that does not exist, without a report (`C91_grouped_refuted`); the results of such a plan change (`C92_grouped_refuted`). Columns in the filter of a read relation cannot be read back at all (`C91_read_filter_refuted`).
* With ten functions of the same name (before the colon) the text of a plan changes with every conversion to text and back: the functions are written in the order of their names as strings, f10 before f2, and are numbered anew in that order when the plan is read (`C96_text_refuted`). With nine or fewer the text stays from the second on (`C96_stable`).
* Of several `count` details of a fetch relation the last one counts, and nothing is reported (`C93_counts_refuted`); the same holds for the type of a join and the invocation of a measure, where second filters, expressions and functions are reported.
* Virtual tables and extension tables can be defined in a text, but a relation that uses one has no source, without a report (`C94_virtual_refuted`). A negative `start`, `length` or `partition_index` of a file wraps around to a large number (`C94_negative_refuted`).
* Reading a binary plan whose subquery has no relation dereferences a null pointer (`C95_subquery_refuted`).

Accepted though wrong:

* The order of relation sections in a text matters: a relation before its inputs counts columns as if these had none, so that the same sections in another order make another plan, without a report (`C97_order_refuted`).
* Of two schemas (or sources) with the same name the first one of the text is taken and nothing is reported, so that exchanging them makes another plan (`C99_hidden_refuted`).
* Which columns a relation within a subquery has is only known when the second pass has come to it.  A relation in a subquery of that relation which comes earlier in the text looks for its outer columns among those of the first pass, in which columns of subqueries are not evaluated (SubstraitPlanRelationVisitor.cpp 1220-1229), so that exchanging two relations that do not feed each other makes another plan without a report (`C99_subquery_relations_refuted`).  If each relation comes after those it is inside of, the order does not matter (`C99_subquery_relations`).
* A relation with more inputs than it can have counts the columns of all of them (`C97_inputs_refuted`); an aggregation without named measures passes on the columns of its input (`C97_unnamed_refuted`); a column that is grouped by and also measured, written without its schema, is read as one that does not exist (`C97_grouped_refuted`). All become columns that are not there.
* A join with one input has none in the plan (`C97_join_refuted`); a measure that calls nothing calls the first function of the plan (`C97_no_call_refuted`).
* A new name for a column of the inputs is ignored: the name stands for another column or none (`C101_renamed_refuted`). An aggregation that groups by an expression, or that has a measure before a grouping, counts its columns in another way than the message has them, so that names stand for other columns in the relations after it, without a report (`C101_shifted_refuted`, `C101_measured_first_refuted`).
* Grouping twice by one column reads past the end of the list of fields (`C98_grouped_twice_refuted`, `C98_grouped_same_refuted`); a measure that is a column follows a null pointer (`C98_measure_refuted`). With intervals of too few parts, timestamps out of range and pipelines through names of other things these are all ways in which reading a text is undefined, except for relations with 2^31 columns (`C98_defined`).
* Subqueries are recorded in the order in which the parser meets them and put into the message in the order of its fields. If a relation has several, they are swapped without a report: a join whose post-join filter is written before its expression (`C100_swapped_refuted`), a subquery among the operands of another (`C100_operand_refuted`), a subquery in a sort of a measure (`C100_hidden_refuted`).
* A relation that is a subquery of two relations is read with the columns around the last of them, in both places (`C100_shared_refuted`). A subquery whose relation has a name that ends in _enum is read as an enumeration (`C100_enum_refuted`). A relation that is its own subquery, and a column that is nowhere while pipelines go round in a circle, make reading never end (`C100_ends_refuted`). An aggregation within a subquery that groups by a column from outside groups by its own column with that number, which need not be there (`C100_grouping_refuted`).
* A subquery may name a column that the project around it makes. The plan then has an outer reference to a column that the project's input does not have, and there is no report (`C100_new_refuted`).
* Messages that are not set in the needles of an IN (`C95_needles_refuted`) and missing inputs of relations in binary plans (`C95_inputs_refuted`).
* Pipelines with cycles, shared inputs and too many inputs (`C37_*_refuted`, `C35_dropped_refuted`); unknown sources and schemas (`C75_unknown_refuted`).
* A condition without parts, which is read as no expression at all (`C87_empty_condition_refuted`).
* Numbers with types such as `bool` are read as literals without a value (`C89_number_refuted`); strings of any length as `fixedchar` and `varchar` (`C89_length_refuted`); pairs with a struct type as an empty struct (`C89_pairs_refuted`); `{}_interval_year` is undefined behaviour and null in an interval is zero (`C89_interval_refuted`, `C89_interval_null_refuted`); types inside braces are ignored (`C89_inner_refuted`).
* Text after a date, a timestamp or a time of day, and seconds that cannot be read (`C71_rest_refuted`, `C88_rest_refuted`, `C88_seconds_refuted`).
* Timestamps are read as seconds, but the message has microseconds (`C88_unit_refuted`); outside 1677 to 2262 the conversion overflows (`C88_range_refuted`).
* An argument of an aggregate function without a value is printed as a word (`C90_argument_refuted`); a comparison function in a sort relation replaces all other text of the relation (`C90_sorts_refuted`).
* Bytes that are not a plan (`C56_bad_bytes_refuted`); format detection is fooled by names in quotes and by binary plans (`C57_*_refuted`).
* Window functions are silently not loaded (`C54_window_refuted`); a trailing newline loses a return type (`C55_trailing_newline_refuted`).

## Testing the theorems

`tools/mutate.py` applies an edit to a scratch copy of the theories, rebuilds every file that depends on it and records which theorems no longer hold.
`seeded/LOG.jsonl` has one line per attempt: the definition, the edit, the claim it breaks, what failed, and what was tightened.
