{
 "claims": [
  {
   "property": "C01",
   "status": "proved",
   "theorems": [
    "C01_base_string",
    "C01_numeral_unique",
    "C01_empty",
    "C01_total",
    "C01_oversized_refuted"
   ],
   "note": "Exact for every value of 1..16 bytes; oversized values wrap (C01_oversized_refuted shows the bound is needed)."
  },
  {
   "property": "C02",
   "status": "proved",
   "theorems": [
    "C02_roundtrip",
    "C02_spelling",
    "C02_valid",
    "C02_reject",
    "C02_high_refuted",
    "C02_high",
    "C02_negative_rejected"
   ],
   "note": "As stated (below 2^127). Beyond: C02_high_refuted, C02_negative_rejected are findings."
  },
  {
   "property": "C03",
   "status": "proved",
   "theorems": [
    "C03_proto_roundtrip",
    "C03_literal_roundtrip"
   ],
   "note": ""
  },
  {
   "property": "C04",
   "status": "partial",
   "theorems": [
    "C04_injective",
    "C04_defined",
    "C04_total_refuted"
   ],
   "note": "Injectivity proved; rendering is defined for every scale except -2^31, where it is undefined behaviour (C04_total_refuted)."
  },
  {
   "property": "C05",
   "status": "proved",
   "theorems": [
    "C05_trim_exact",
    "C05_trim_idempotent",
    "C05_trim_margins"
   ],
   "note": ""
  },
  {
   "property": "C06",
   "status": "proved",
   "theorems": [
    "C06_nonnegative",
    "C06_negative",
    "C06_integer",
    "C06_disjoint"
   ],
   "note": ""
  },
  {
   "property": "C07",
   "status": "partial",
   "theorems": [
    "C07_lexer_is_longest_match",
    "C07_lexer_complete",
    "C07_string_roundtrip_partial",
    "C07_value_refuted",
    "C07_token_refuted"
   ],
   "note": "Proved for all values without a backslash and any following text; false for values with a backslash (C07_value_refuted, C07_token_refuted)."
  },
  {
   "property": "C08",
   "status": "partial",
   "theorems": [
    "C08_total",
    "C08_identity",
    "C08_elements",
    "C08_preserved_refuted"
   ],
   "note": "Termination, identity, documented escapes and error reporting proved; preservation is false for malformed \\u escapes (C08_preserved_refuted)."
  },
  {
   "property": "C09",
   "status": "partial",
   "theorems": [
    "C09_terminates",
    "C09_parameterised",
    "C09_concrete_refuted",
    "C09_message_refuted"
   ],
   "note": "Proved in full with parameter support (the mode the library uses) except that a brace in the name turns the library exception into a fmt error (C09_message_refuted); without parameter support termination holds but out-of-bounds and null accesses occur (C09_concrete_refuted)."
  },
  {
   "property": "C10",
   "status": "proved",
   "theorems": [
    "C10_margins",
    "C10_case",
    "C10_case_parameterised",
    "C10_case_general"
   ],
   "note": ""
  },
  {
   "property": "C11",
   "status": "partial",
   "theorems": [
    "C11_text_partial",
    "C11_text_parameterised_partial",
    "C11_nested_nullable",
    "C11_nested_nullable_refuted",
    "C11_trailing_refuted"
   ],
   "note": "Proved for every type and every way of writing it unless a nullable compound type has a nullable part; those are rejected (C11_nested_nullable, C11_nested_nullable_refuted)."
  },
  {
   "property": "C12",
   "status": "partial",
   "theorems": [
    "C12_exact",
    "C12_match_iff_partial",
    "C12_accepts",
    "C12_struct_refuted"
   ],
   "note": "Exact behaviour proved (C12_exact); the stated equivalence holds unless a required struct meets a nullable struct (C12_struct_refuted)."
  },
  {
   "property": "C13",
   "status": "partial",
   "theorems": [
    "C13_any",
    "C13_instances_partial",
    "C13_fixedbinary_refuted"
   ],
   "note": "Exact set of accepted instances proved; parameterised fixedbinary accepts nothing (C13_fixedbinary_refuted)."
  },
  {
   "property": "C14",
   "status": "proved",
   "theorems": [
    "C14_signature"
   ],
   "note": ""
  },
  {
   "property": "C15",
   "status": "proved",
   "theorems": [
    "C15_roundtrip",
    "C15_unprintable_reported",
    "C15_reading",
    "C15_unknown_reported",
    "C15_fixedbinary_refuted",
    "C15_reading_refuted"
   ],
   "note": "Also C15_reading for every type text; reading fixedbinary loses its length (C15_fixedbinary_refuted, a type the printer cannot print)."
  },
  {
   "property": "C16",
   "status": "proved",
   "theorems": [
    "C16_first_match",
    "C16_unique"
   ],
   "note": "For declarations and queries with all parts present (ValidDecl, ValidQuery); C54_valid tells which loaded declarations are."
  },
  {
   "property": "C17",
   "status": "proved",
   "theorems": [
    "C17_fixed"
   ],
   "note": ""
  },
  {
   "property": "C18",
   "status": "partial",
   "theorems": [
    "C18_exact",
    "C18_variadic_partial",
    "C18_no_arguments_refuted",
    "C18_negative_refuted",
    "C18_later_arguments_refuted"
   ],
   "note": "Proved for declarations whose only argument is a value argument, and exactly (C18_exact) for all others with non-negative bounds and at least one argument; false for several arguments, negative bounds, and undefined without arguments (C18_*_refuted)."
  },
  {
   "property": "C19",
   "status": "proved",
   "theorems": [
    "C19_aggregate",
    "C19_return_unchecked"
   ],
   "note": "The requested return type is ignored in the intermediate case (C19_return_unchecked)."
  },
  {
   "property": "C20",
   "status": "proved",
   "theorems": [
    "C20_functions_stable",
    "C20_functions_independent",
    "C20_types",
    "C20_types_stable",
    "C20_types_independent"
   ],
   "note": ""
  },
  {
   "property": "C21",
   "status": "partial",
   "theorems": [
    "C21_signature",
    "C21_defined",
    "C21_defined_concrete",
    "C21_parameter_refuted"
   ],
   "note": "Exact text proved; undefined for declared types with a non-literal length parameter (C21_parameter_refuted)."
  },
  {
   "property": "C22",
   "status": "proved",
   "theorems": [
    "C22_first",
    "C22_stable",
    "C22_defined"
   ],
   "note": "C22_defined: operations naming a symbol that is not in the table are out-of-bounds accesses, all others are defined. Counters are modelled as unbounded integers."
  },
  {
   "property": "C23",
   "status": "proved",
   "theorems": [
    "C23_locations",
    "C23_types",
    "C23_type",
    "C23_unknown_refuted"
   ],
   "note": "C23_unknown_refuted: recording a location for an unknown symbol is an out-of-bounds access."
  },
  {
   "property": "C24",
   "status": "partial",
   "theorems": [
    "C24_exact",
    "C24_unique_partial",
    "C24_no_final_digit",
    "C24_found_partial",
    "C24_collision_refuted",
    "C24_defined_refuted"
   ],
   "note": "Exact naming proved; uniqueness holds when no requested name is another one followed by digits and is false otherwise, and for names defined without asking (C24_collision_refuted, C24_defined_refuted)."
  },
  {
   "property": "C25",
   "status": "proved",
   "theorems": [
    "C25_numbered",
    "C25_found",
    "C25_again"
   ],
   "note": "For symbols attached at most once and known parents; C25_again shows that attaching a symbol twice skips a number."
  },
  {
   "property": "C26",
   "status": "proved",
   "theorems": [
    "C26_iteration",
    "C26_nth"
   ],
   "note": ""
  },
  {
   "property": "C27",
   "status": "partial",
   "theorems": [
    "C27_names_partial",
    "C27_distinct",
    "C27_root_refuted"
   ],
   "note": "False for the root kind (out-of-bounds read) and for tables and measures (exception): C27_root_refuted."
  },
  {
   "property": "C28",
   "status": "proved",
   "theorems": [
    "C28_equality",
    "C28_hash",
    "C28_order"
   ],
   "note": "Addresses are modelled as numbers ordered as std::less orders pointers."
  },
  {
   "property": "C29",
   "status": "proved",
   "theorems": [
    "C29_success",
    "C29_all_errors",
    "C29_messages",
    "C29_has_errors"
   ],
   "note": ""
  },
  {
   "property": "C30",
   "status": "partial",
   "theorems": [
    "C30_meaning_preserved_partial",
    "C30_missed_calls_refuted",
    "C30_type_declaration_refuted"
   ],
   "note": "Proved for every call the normaliser looks at. Refuted for calls in the places it skips (arguments, sorts and filters of measures, groupings, window functions, switch, or-lists, nested values, deprecated arguments, expand, write, window, exchange and nested loop relations) and for function zero next to a type declaration."
  },
  {
   "property": "C31",
   "status": "partial",
   "theorems": [
    "C31_spaces_numbered",
    "C31_functions_numbered",
    "C31_declarations_kept",
    "C31_type_declaration_refuted"
   ],
   "note": "Proved for plans whose declarations are all functions (the permutation of meanings for well numbered plans). Refuted for type declarations, which are turned into unnamed functions."
  },
  {
   "property": "C32",
   "status": "partial",
   "theorems": [
    "C32_idempotent_partial",
    "C32_idempotent_well_numbered",
    "C32_duplicates_refuted",
    "C32_type_declaration_refuted"
   ],
   "note": "Proved for any two valid sorting procedures when URIs and (space, name) pairs are distinct and there are no type declarations. Refuted with duplicates (std::sort is not stable) and with type declarations."
  },
  {
   "property": "C33",
   "status": "partial",
   "theorems": [
    "C33_canonical_partial",
    "C33_missed_calls_refuted"
   ],
   "note": "Proved for plans whose calls are all in places the normaliser looks at, with distinct URIs and distinct functions. Refuted otherwise."
  },
  {
   "property": "C34",
   "status": "partial",
   "theorems": [
    "C34_throws_iff_dangling",
    "C34_no_other_outcome",
    "C34_only_references_partial",
    "C34_absent_input_refuted",
    "C34_dangling_space_refuted",
    "C34_type_declaration_refuted"
   ],
   "note": "Throwing is characterised exactly for plans whose declarations are all functions. Everything but references is unchanged up to absent inputs becoming empty ones (refuted without that), and a dangling space reference is not detected (refuted)."
  },
  {
   "property": "C35",
   "status": "partial",
   "theorems": [
    "C35_round_trip_partial",
    "C35_unique_names_partial",
    "C35_defined_twice",
    "C35_two_roots_refuted",
    "C35_one_named_refuted",
    "C35_root_column_refuted",
    "C35_name_taken_refuted",
    "C35_other_kinds_refuted",
    "C35_missing_input_refuted",
    "C35_direct_refuted",
    "C35_endless_refuted",
    "C35_nothing_refuted",
    "C35_dropped_refuted"
   ],
   "note": "Proved for every plan of read, filter, fetch, aggregate, sort, project, join and cross relations with all their inputs and with distinct names, through the text. Refuted for several named roots, a name that something else has, other kinds, missing inputs, texts with cycles or too many inputs, and for reassembling without the text. Expressions and bodies are opaque texts in this model."
  },
  {
   "property": "C36",
   "status": "partial",
   "theorems": [
    "C36_attached_partial",
    "C36_swapped_refuted",
    "C36_needle_refuted",
    "C36_read_refuted"
   ],
   "note": "Proved when no subquery has a subquery among its operands and no read filters by one; refuted otherwise (C36_*_refuted)."
  },
  {
   "property": "C37",
   "status": "partial",
   "theorems": [
    "C37_accepted",
    "C37_recorded",
    "C37_middle_partial",
    "C37_cycle_refuted",
    "C37_shared_refuted",
    "C37_schema_loop_refuted",
    "C37_other_name_refuted"
   ],
   "note": "Proved: when the text is accepted no relation is in the middle of two pipelines; acceptance and what is recorded are characterised exactly. Refuted: cycles and shared inputs are accepted, a schema hides a loop within one pipeline, names of other symbols are ignored or are null pointers."
  },
  {
   "property": "C38",
   "status": "partial",
   "theorems": [
    "C38_pipelines_partial",
    "C38_every_kind",
    "C38_needle_refuted",
    "C38_below_refuted"
   ],
   "note": "Proved exactly for plans of relations that have a text, and for relations of every kind that every input stands directly before its relation; refuted for subqueries an IN looks for and for what a DDL relation defines its view by."
  },
  {
   "property": "C39",
   "status": "proved",
   "theorems": [
    "C39_declarations",
    "C39_undeclared_refuted"
   ],
   "note": "For declared spaces; a function of an undeclared space is written as one of space zero (C39_undeclared_refuted)."
  },
  {
   "property": "C40",
   "status": "partial",
   "theorems": [
    "C40_listed_partial",
    "C40_no_space_refuted",
    "C40_lost_refuted"
   ],
   "note": "Proved when every function has a space and used spaces have different URIs. Otherwise printing throws (no space) or functions are missing (equal or missing URIs): refuted."
  },
  {
   "property": "C41",
   "status": "partial",
   "theorems": [
    "C41_field_number",
    "C41_unique",
    "C41_aggregate_emit",
    "C41_aggregate_emit_refuted"
   ],
   "note": "Proved for all names except emits of an aggregate that name an input column; those get a meaningless number (refuted)."
  },
  {
   "property": "C42",
   "status": "proved",
   "theorems": [
    "C42_mapping",
    "C42_all_present",
    "C42_reported",
    "C42_converter"
   ],
   "note": ""
  },
  {
   "property": "C43",
   "status": "proved",
   "theorems": [
    "C43_nearest",
    "C43_not_found",
    "C43_in_one_query"
   ],
   "note": ""
  },
  {
   "property": "C44",
   "status": "partial",
   "theorems": [
    "C44_names_partial",
    "C44_errors",
    "C44_round_trip_partial",
    "C44_comparisons",
    "C44_unspecified_refuted"
   ],
   "note": "Proved for all values but the unspecified join type (printed as a name that is rejected) and the explicitly unspecified sort direction (printed as no direction): C44_unspecified_refuted. Texts are ASCII, as the grammar guarantees."
  },
  {
   "property": "C45",
   "status": "proved",
   "theorems": [
    "C45_detected_format"
   ],
   "note": "Regular expressions are modelled with full backtracking semantics; ^ matches at the start of the content only."
  },
  {
   "property": "C46",
   "status": "proved",
   "theorems": [
    "C46_named_format",
    "C46_other_argument"
   ],
   "note": ""
  },
  {
   "property": "C47",
   "status": "proved",
   "theorems": [
    "C47_usable_json",
    "C47_parsed_text"
   ],
   "note": ""
  },
  {
   "property": "C48",
   "status": "proved",
   "theorems": [
    "C48_whole_plan",
    "C48_error_message",
    "C48_unreadable",
    "C48_freed",
    "C48_size_bound"
   ],
   "note": "For serialized plans under 2 GiB, the most protobuf can write; C48_size_bound is exact for all lengths."
  },
  {
   "property": "C49",
   "status": "proved",
   "theorems": [
    "C49_round_trip"
   ],
   "note": "For every value in the range of its type, nullable or not, wherever the literal stands (C64_in_context)."
  },
  {
   "property": "C50",
   "status": "proved",
   "theorems": [
    "C50_reads",
    "C50_survives",
    "C50_distinct",
    "C50_others",
    "C50_relations"
   ],
   "note": "The numbers of the cases of Rel come with the generated protobuf code and are modelled from its definition."
  },
  {
   "property": "C51",
   "status": "partial",
   "theorems": [
    "C51_columns_partial",
    "C51_exact",
    "C51_shift_refuted"
   ],
   "note": "Proved for schemas of new and different names; C51_exact describes every schema. Refuted: a name that is already in use shifts the types of the columns after it."
  },
  {
   "property": "C52",
   "status": "partial",
   "theorems": [
    "C52_double_quotes",
    "C52_single_backticks",
    "C52_double_backticks",
    "C52_triple_backticks",
    "C52_unquoted",
    "C52_double_backticks_refuted"
   ],
   "note": "Proved for double quotes, single, and triple backticks and for double backticks when the text does not start with a backtick; otherwise false (C52_double_backticks_refuted)."
  },
  {
   "property": "C53",
   "status": "proved",
   "theorems": [
    "C53_signature_identifies"
   ],
   "note": ""
  },
  {
   "property": "C54",
   "status": "partial",
   "theorems": [
    "C54_functions",
    "C54_types",
    "C54_valid",
    "C54_window_refuted",
    "C54_lookup_refuted"
   ],
   "note": "Proved for scalar and aggregate functions and types; window functions are never loaded (C54_window_refuted) and some loadable declarations make lookups undefined (C54_lookup_refuted)."
  },
  {
   "property": "C55",
   "status": "partial",
   "theorems": [
    "C55_last_line",
    "C55_trailing_newline_refuted"
   ],
   "note": "Proved for texts without a final line break; with one the return type is lost (C55_trailing_newline_refuted)."
  },
  {
   "property": "C56",
   "status": "partial",
   "theorems": [
    "C56_saves_partial",
    "C56_bad_bytes_refuted",
    "C56_dangling_message_refuted"
   ],
   "note": "The plan is saved and null is returned exactly on success; bytes that are no plan are not reported and error messages are dangling pointers (C56_*_refuted)."
  },
  {
   "property": "C57",
   "status": "partial",
   "theorems": [
    "C57_loaded_as_partial",
    "C57_quoted_name_refuted",
    "C57_binary_refuted",
    "C57_version_only_refuted"
   ],
   "note": "Proved for contents without quotation marks; refuted by names in quotes, by 32 byte strings in binary plans and by plans with only a version (C57_*_refuted)."
  },
  {
   "property": "C58",
   "status": "partial",
   "theorems": [
    "C58_inputs_partial",
    "C58_outputs",
    "C58_project",
    "C58_order_refuted",
    "C58_unknown_emit_refuted"
   ],
   "note": "Proved for inputs written earlier in the text; an input written later contributes no columns, and an emit of only unknown names exposes everything (refuted)."
  },
  {
   "property": "C59",
   "status": "partial",
   "theorems": [
    "C59_found_again_partial",
    "C59_printed",
    "C59_emit_printed",
    "C59_aggregate_emit_refuted",
    "C59_same_alias_refuted"
   ],
   "note": "Proved when no other column has the printed name; refuted for columns with the same alias and for grouping columns emitted by an aggregate."
  },
  {
   "property": "C60",
   "status": "partial",
   "theorems": [
    "C60_names_partial",
    "C60_shadowed_refuted",
    "C60_twice_refuted",
    "C60_unnamed_refuted"
   ],
   "note": "Proved when no name is the plain name of a column added by an earlier grouping or measure; otherwise refuted, including an out of bounds read; unnamed measures produce no column (refuted)."
  },
  {
   "property": "C61",
   "status": "partial",
   "theorems": [
    "C61_columns_partial",
    "C61_missing_reported",
    "C61_printed_partial",
    "C61_set_refuted",
    "C61_semi_join_refuted",
    "C61_group_expression_refuted",
    "C61_window_refuted",
    "C61_empty_emit_refuted"
   ],
   "note": "Proved for reads, filters, sorts, fetches, projects, full joins, cross products and aggregates grouped once by columns; refuted for sets, semi/anti joins, grouping by expressions, window relations and empty emits."
  },
  {
   "property": "C62",
   "status": "partial",
   "theorems": [
    "C62_round_trip_partial",
    "C62_printed",
    "C62_hidden_refuted",
    "C62_collision_refuted"
   ],
   "note": "Proved when anchors and URIs are distinct, every space is declared, no short name is another followed by digits and no schema, column, source, table or URI has the short name of a function; refuted otherwise. The text is modelled as the parsed declarations, not as characters."
  },
  {
   "property": "C63",
   "status": "partial",
   "theorems": [
    "C63_characters",
    "C63_readable_iff",
    "C63_in_text",
    "C63_numbered",
    "C63_unique_names",
    "C63_given_names",
    "C63_number_word_refuted",
    "C63_keyword_refuted",
    "C63_compound_refuted"
   ],
   "note": "Proved: a name is readable exactly when it is of the form Name, numbering keeps it readable, all names the converter makes up are readable. Refuted for names with number words (col_1), reserved words and names starting like keywords with underscores, which are printed as they are."
  },
  {
   "property": "C65",
   "status": "proved",
   "theorems": [
    "C65_longest_match",
    "C65_nothing_lost",
    "C65_modes",
    "C65_words",
    "C65_only_words",
    "C65_seen",
    "C65_reported"
   ],
   "note": "The generated ANTLR lexer is modelled by its documented rule (longest match, first rule); proved equivalent to an independent specification of all rules as languages."
  },
  {
   "property": "C66",
   "status": "proved",
   "theorems": [
    "C66_case_insensitive",
    "C66_same_cuts"
   ],
   "note": "For letters of ASCII."
  },
  {
   "property": "C67",
   "status": "proved",
   "theorems": [
    "C67_white_space",
    "C67_comment",
    "C67_quoted_comment_refuted",
    "C67_removal_refuted"
   ],
   "note": "For gaps that start with a white space character; comments without quotes and backticks (a quote in a comment can lengthen a string that ends with a backslash, C67_quoted_comment_refuted); removing white space altogether can join tokens (C67_removal_refuted)."
  },
  {
   "property": "C69",
   "status": "partial",
   "theorems": [
    "C69_uri_iff",
    "C69_characters",
    "C69_uris_refuted"
   ],
   "note": "Proved: a URI is read back exactly when it is of the form LUri. Refuted for ports, percent signs, queries, tildes, empty paths and double slashes."
  },
  {
   "property": "C71",
   "status": "partial",
   "theorems": [
    "C71_calendar",
    "C71_one_to_one",
    "C71_round_trip_partial",
    "C71_late_refuted",
    "C71_read",
    "C71_rest_refuted"
   ],
   "note": "Proved for the years 0 to 9999; later years are printed but not read (C71_late_refuted). The date library is modelled from its documentation."
  },
  {
   "property": "C64",
   "status": "partial",
   "theorems": [
    "C64_round_trip",
    "C64_in_context",
    "C64_injective",
    "C64_options_refuted",
    "C64_failure_refuted",
    "C64_inner_refuted",
    "C64_root_refuted",
    "C64_masked_refuted",
    "C64_ifthen_refuted"
   ],
   "note": "Proved for all readable expressions (literals as in C72, readable names, printable types). Refuted: function options, cast failure behaviour, list elements, map values, fields of fields and fields of expressions are lost without a report; masked references stop the conversion; functions named ifthen are shadowed."
  },
  {
   "property": "C68",
   "status": "partial",
   "theorems": [
    "C68_enum_refuted",
    "C68_read_refuted",
    "C68_type_refuted",
    "C68_kept"
   ],
   "note": "Proved for value and enum arguments whose texts are apart. Refuted: a column whose name ends in _enum is read as an enum, a type argument as a column."
  },
  {
   "property": "C72",
   "status": "partial",
   "theorems": [
    "C72_round_trip_partial",
    "C72_nullable_refuted",
    "C72_boolean_refuted",
    "C72_unprinted"
   ],
   "note": "Proved for strings, dates (years 0 to 9999), intervals, decimals, fixed and variable character strings and finite floating point numbers (up to the printed text, see C70). Refuted: nullability of strings, dates and intervals is lost; booleans are printed without a type."
  },
  {
   "property": "C73",
   "status": "partial",
   "theorems": [
    "C73_range_refuted",
    "C73_fraction_refuted",
    "C73_overflow"
   ],
   "note": "Refuted: i8 and i16 are not checked, and the fraction and exponent of an integer are ignored without a report."
  },
  {
   "property": "C74",
   "status": "partial",
   "theorems": [
    "C74_round_trip_partial",
    "C74_in_context",
    "C74_injective"
   ],
   "note": "Proved for reads, filters, fetches without offset, aggregates, sorts, projects, joins and cross products as RelReads describes: emits only of projects and aggregates, grouping sets merged, deprecated arguments as arguments.  Expressions with subqueries as in C86."
  },
  {
   "property": "C75",
   "status": "partial",
   "theorems": [
    "C75_emit_refuted",
    "C75_grouping_sets_refuted",
    "C75_best_effort_refuted",
    "C75_measure_sorts_refuted",
    "C75_sort_function_refuted",
    "C75_outer_refuted",
    "C75_unknown_refuted",
    "C75_unspecified_refuted"
   ],
   "note": "Refuted: emits of most relations, grouping sets, best effort filters, sorts of measures, comparison functions of sorts, outer columns in groupings, unknown sources and schemas and unspecified directions are lost or changed without a report."
  },
  {
   "property": "C76",
   "status": "partial",
   "theorems": [
    "C76_offset_refuted",
    "C76_two_filters_refuted",
    "C76_post_join_refuted",
    "C76_measure_options_refuted",
    "C76_unprinted"
   ],
   "note": "Refuted for fetches with an offset, reads with two filters, post join filters and options of measures. Proved: what the printer cannot print is reported."
  },
  {
   "property": "C77",
   "status": "partial",
   "theorems": [
    "C77_grouping_refuted",
    "C77_measure_refuted"
   ],
   "note": "Refuted: grouping by a column number that is too large and measures that are not function calls are undefined behaviour."
  },
  {
   "property": "C78",
   "status": "partial",
   "theorems": [
    "C78_round_trip_partial",
    "C78_hidden_refuted",
    "C78_truncated_refuted",
    "C78_nullability_refuted",
    "C78_error_refuted"
   ],
   "note": "Proved for schemas of readable names and printable types, when no earlier schema or column has the name. Refuted: hidden names, surplus names or types, nullability of the struct, and errors of types are lost without a report."
  },
  {
   "property": "C79",
   "status": "partial",
   "theorems": [
    "C79_round_trip_partial",
    "C79_file_again_refuted",
    "C79_hidden_refuted",
    "C79_files_refuted",
    "C79_no_names_refuted",
    "C79_quotes_refuted",
    "C79_location_refuted",
    "C79_stops_refuted"
   ],
   "note": "Proved for tables of at least one name without stray quotes and for single parquet or orc files, when no earlier name hides them and no file is listed twice. Refuted: several files, none, arrow and dwrf, tables without names, quotes in names, addresses of folders, paths and globs, repeated files, hidden names; one source that cannot be printed stops the whole plan."
  },
  {
   "property": "C80",
   "status": "partial",
   "theorems": [
    "C80_pipelines_partial",
    "C80_roots_partial",
    "C80_spaces_partial",
    "C80_no_pipeline_refuted",
    "C80_no_colon_refuted"
   ],
   "note": "Proved for readable names and URIs and functions with a signature. Refuted for empty pipelines and functions without a colon in their name."
  },
  {
   "property": "C81",
   "status": "partial",
   "theorems": [
    "C81_round_trip_partial",
    "C81_injective",
    "C81_functions"
   ],
   "note": "Proved for all plans of readable parts (PlanReads): one text with all sections; relations as in C74, functions as in C62. Advanced extensions are not printed and not modelled."
  },
  {
   "property": "C82",
   "status": "proved",
   "theorems": [
    "C82_success",
    "C82_reports",
    "C82_contained"
   ],
   "note": "The passes are parameters: any function of the errors so far and the table."
  },
  {
   "property": "C83",
   "status": "partial",
   "theorems": [
    "C83_saved",
    "C83_succeeds",
    "C83_others",
    "C83_lost_refuted",
    "C83_incomplete_refuted",
    "C83_leak_refuted"
   ],
   "note": "Proved: what success means, when it is reported, and that other files are never touched. Refuted: a failed conversion or printing has already destroyed the old content, and failed serialization leaves a descriptor open. Converters and the operating system are parameters."
  },
  {
   "property": "C84",
   "status": "partial",
   "theorems": [
    "C84_parser",
    "C84_unread",
    "C84_each_file",
    "C84_status_refuted",
    "C84_converter_refuted",
    "C84_stops_refuted"
   ],
   "note": "Proved for the output of the parser and for lists of files. Refuted: exit status, text printed by the converter for plans with errors, exceptions ending the run."
  },
  {
   "property": "C85",
   "status": "partial",
   "theorems": [
    "C85_named_partial",
    "C85_missing",
    "C85_longer_refuted",
    "C85_unterminated_refuted"
   ],
   "note": "Proved for names followed by a zero. Refuted for names that are the beginning of a longer text or have no zero after them."
  },
  {
   "property": "C86",
   "status": "partial",
   "theorems": [
    "C86_passes_agree",
    "C86_first_pass",
    "C86_argument",
    "C86_comparison",
    "C86_filter_refuted",
    "C86_project_refuted",
    "C86_grouping_refuted",
    "C86_join_refuted",
    "C86_enum_refuted",
    "C86_reported"
   ],
   "note": "Proved for subqueries as arguments of functions and for comparisons. Refuted: scalar subqueries, memberships and predicates that stand by themselves are refused by the first pass in filters, projects, groupings and joins; relations named like enum arguments become enum arguments."
  },
  {
   "property": "C87",
   "status": "partial",
   "theorems": [
    "C87_resolved",
    "C87_empty_condition_refuted"
   ],
   "note": "Proved for all texts except that a condition without parts is read as nothing, which is refuted."
  },
  {
   "property": "C70",
   "status": "proved",
   "theorems": [
    "C70_printed",
    "C70_read",
    "C70_always_read",
    "C70_exact",
    "C70_again",
    "C70_literal",
    "C70_literal_single",
    "C70_precision_refuted",
    "C70_changed_refuted",
    "C70_infinite_refuted",
    "C70_subnormal_refuted"
   ],
   "note": "Printing and stof/stod are library functions, modelled by their contracts (%g with six digits; nearest number; whether a number that is too small is reported is left to the library and not modelled). Findings beside it: digits after the sixth are lost silently, infinities and NaN are printed as words that are not literals."
  },
  {
   "property": "C88",
   "status": "partial",
   "theorems": [
    "C88_timestamp",
    "C88_timestamp_only",
    "C88_timestamp_reported",
    "C88_unit_refuted",
    "C88_range_refuted",
    "C88_rest_refuted",
    "C88_time",
    "C88_time_only",
    "C88_seconds_refuted",
    "C88_time_reported",
    "C88_zoned",
    "C88_zoned_only",
    "C88_zone_reported"
   ],
   "note": "Proved for all texts in range, and that texts without a meaning are reported. Refuted: timestamps are seconds where the message has microseconds, points in time outside 1677 to 2262 are undefined behaviour, text after the part that is read is ignored, unreadable seconds are ignored. The date library is modelled by its documentation."
  },
  {
   "property": "C89",
   "status": "partial",
   "theorems": [
    "C89_text",
    "C89_sound",
    "C89_reported",
    "C89_untyped",
    "C89_number_refuted",
    "C89_length_refuted",
    "C89_pairs_refuted",
    "C89_interval_refuted",
    "C89_interval_null_refuted",
    "C89_inner_refuted"
   ],
   "note": "Proved: what a constant means is read, and what is read is what the constant means or one of the listed oddities. Refuted: numbers with types that are none of numbers, lengths of strings, pairs with struct types, intervals of nothing or of nulls, and types inside braces are not checked. Types are those that the parser reads as basic types, lists, maps and structs of them; timestamps with time zones are not part of it."
  },
  {
   "property": "C90",
   "status": "partial",
   "theorems": [
    "C90_clean",
    "C90_reported",
    "C90_stuck",
    "C90_defined",
    "C90_relation",
    "C90_argument_refuted",
    "C90_sorts_refuted"
   ],
   "note": "Proved for all expressions and relations. Refuted: an aggregate argument without a value is not reported, and a comparison function replaces the text of a sort relation."
  },
  {
   "property": "C91",
   "status": "partial",
   "theorems": [
    "C91_round_trip_partial",
    "C91_injective",
    "C91_grouped_refuted",
    "C91_read_filter_refuted"
   ],
   "note": "Proved for every plan of the class Convertible, without a bound on its size. Not in the class: subqueries, offsets of fetches, filters of reads that use columns, several grouping sets, grouping by computed expressions, semi and anti joins, literals and types whose own round trip is refuted, set and extension relations, and names that the conversion could make up itself. Refuted: a computed column that is grouped by and used in a measure comes back as a column that is not there; columns in the filter of a read are not found."
  },
  {
   "property": "C92",
   "status": "partial",
   "theorems": [
    "C92_results_partial",
    "C92_text_partial",
    "C92_grouped_refuted"
   ],
   "note": "Proved for the class of plans of C91 and every meaning that gives values to literals, functions, casts, conditions, tables, orders, groups and joins by what they are given. Refuted for the plans outside it that C91 names: a computed column that is grouped by and used in a measure is replaced by nothing, so the results differ."
  },
  {
   "property": "C93",
   "status": "partial",
   "theorems": [
    "C93_exact_partial",
    "C93_misplaced",
    "C93_kind",
    "C93_emit",
    "C93_counts_refuted"
   ],
   "note": "Proved for every relation, as an equivalence. Refuted: the last of several counts (and in the same way types of joins and invocations of measures) is taken without a report; sources and schemas that are not known are left out without a report (C75)."
  },
  {
   "property": "C94",
   "status": "partial",
   "theorems": [
    "C94_symbols",
    "C94_first",
    "C94_numbers",
    "C94_virtual_refuted",
    "C94_negative_refuted"
   ],
   "note": "Proved for every text. Refuted: virtual and extension tables can be defined, but relations that use them have no source and nothing is reported; negative numbers in files become large ones."
  },
  {
   "property": "C95",
   "status": "partial",
   "theorems": [
    "C95_exact",
    "C95_exception",
    "C95_crash_only",
    "C95_subquery_refuted",
    "C95_needles_refuted",
    "C95_inputs_refuted",
    "C95_root"
   ],
   "note": "Proved as an equivalence for the first two of the three passes of reading a binary plan, all messages, without a bound; the third pass is the printing of relations (C90). Refuted: a subquery without its relation is undefined behaviour (a symbol that was not found is used); the needles of an IN are not looked at; a missing input of any relation but a root is not noticed."
  },
  {
   "property": "C96",
   "status": "partial",
   "theorems": [
    "C96_again",
    "C96_stable",
    "C96_text_refuted"
   ],
   "note": "Proved for the class of plans of C91, any number of conversions and every meaning. Refuted without the bound on functions of one name: with ten of them the text changes with every conversion, since f10 is written before f2 and gets the name f2 the next time."
  },
  {
   "property": "C97",
   "status": "partial",
   "theorems": [
    "C97_names",
    "C97_root",
    "C97_functions",
    "C97_columns_partial",
    "C97_order_refuted",
    "C97_inputs_refuted",
    "C97_unnamed_refuted",
    "C97_grouped_refuted",
    "C97_join_refuted",
    "C97_no_call_refuted"
   ],
   "note": "Functions: proved for every text. Columns: proved for every text in which each relation comes after its inputs, has as many as it needs, and each aggregation names a measure, except for the columns inside of aggregations. Refuted for all others: another order of sections makes another plan; a filter with two inputs, aggregations without named measures and columns that are grouped by and measured lead to columns that are not there; a join of one input has none; a measure without a call calls the first function. About texts without subqueries (C100_same); functions in subqueries: C100_functions. The names of a tree of the plan are those of the text's only root, or there are none (C97_names); if a pipeline ends in the root and none goes on from there, there is a tree with these names (C97_root)."
  },
  {
   "property": "C98",
   "status": "partial",
   "theorems": [
    "C98_defined",
    "C98_constants",
    "C98_types",
    "C98_ends",
    "C98_grouped_twice_refuted",
    "C98_grouped_same_refuted",
    "C98_measure_refuted",
    "C98_interval_refuted",
    "C98_timestamp_refuted",
    "C98_pipeline_refuted",
    "C98_endless_refuted"
   ],
   "note": "Proved: every text whose behaviour is undefined has one of the listed traps (for constants exactly those that are listed), the types of accepted texts are always read, and recursion ends unless pipelines go round in a circle. Refuted otherwise, with a text for each trap: grouping twice by one column, a measure that is no call, an interval with too few parts, a timestamp out of range, a pipeline through something that is no relation, relations that feed each other. About texts without subqueries (C100_same), where looking for a column that is nowhere does not end either if pipelines go round in a circle (C100_ends_refuted)."
  },
  {
   "property": "C99",
   "status": "partial",
   "theorems": [
    "C99_kinds",
    "C99_relations",
    "C99_same",
    "C99_definitions",
    "C99_any",
    "C99_hidden_refuted",
    "C99_subqueries",
    "C99_subquery_definitions",
    "C99_subquery_relations_refuted",
    "C99_subquery_relations",
    "C99_subquery_any"
   ],
   "note": "Proved: sections of different kinds may be mixed in any way, for every text, valid or not (C99_kinds); relations may come in any order in which each comes after its inputs, for accepted texts whose pipelines name relations and whose project expressions have names (C99_relations, C99_same); schemas, sources and extension spaces may come in any order in which the spaces stay in theirs, for accepted texts in which no other definition has the name of a function and names that relations use and those of files are defined once (C99_definitions); all of it at once (C99_any). False if a relation comes before its inputs (C97_order_refuted) and, without a report, if two schemas have the same name (C99_hidden_refuted). For texts with subqueries the kinds may be mixed as well (C99_subqueries), and the definitions moved (C99_subquery_definitions); relations may be moved there if each comes after its inputs and after the relations it is inside of, and no two relations have the same subquery (C99_subquery_relations), also together with definitions (C99_subquery_any), but not otherwise: with nested subqueries the order of two relations that do not feed each other counts, without a report (C99_subquery_relations_refuted). Spaces in another order number the functions differently."
  },
  {
   "property": "C100",
   "status": "partial",
   "theorems": [
    "C100_names",
    "C100_root",
    "C100_same",
    "C100_same_accepted",
    "C100_functions",
    "C100_subqueries",
    "C100_all_subqueries",
    "C100_around",
    "C100_own",
    "C100_columns_partial",
    "C100_section",
    "C100_ends",
    "C100_defined",
    "C100_new_refuted",
    "C100_swapped_refuted",
    "C100_operand_refuted",
    "C100_hidden_refuted",
    "C100_shared_refuted",
    "C100_enum_refuted",
    "C100_ends_refuted",
    "C100_grouping_refuted"
   ],
   "note": "Proved for every text: every relation of the plan is made of the relation of the text with its name, of its kind, with inputs that feed it; the subqueries in its message are exactly those that are attached to it, each is one of the text's, and all of them are there unless some are in sorts of measures or in arguments that are read as enumerations; no root is a subquery; all called functions are declared; a column that is read k steps outwards belongs to a relation k subqueries around the reading one, and relations outside of subqueries read their own columns only; given the columns of a relation and of those around it, a name in it (no aggregation) stands for the nearest column that has it (C100_columns_partial, C100_section); texts without subqueries are read as in C91 to C99; reading ends unless a relation supplies itself over pipelines and subqueries; it is defined unless the text has one of the traps of C98 or groups, within a subquery, by a column from outside. Refuted: that each subquery is at its place, if there are several (a join whose filter comes before its expression, a subquery among the operands of another, a subquery in a sort of a measure); that a subquery used twice reads the right columns; that a name may end in _enum; that reading ends; that an aggregation may group by a column from outside; that a column from outside is a column of the inputs of the relation around (it can be one that a project makes). Missing: that the columns of the relations around, when a relation is read, are those they have in the plan; names in aggregations within subqueries. The names of the plan's trees are those of the root (C100_names), and one of them has these names (C100_root)."
  },
  {
   "property": "C101",
   "status": "partial",
   "theorems": [
    "C101_columns_partial",
    "C101_one",
    "C101_one_emitted",
    "C101_renamed_refuted",
    "C101_shifted_refuted",
    "C101_measured_first_refuted"
   ],
   "note": "Proved for accepted texts in which each relation comes after its inputs, has as many as it needs, uses schemas that are there, and in which no column is renamed and aggregations group by columns before they measure, with one name for each measure (C101_columns_partial). Names in measures that are also columns of the aggregation may stand for columns that are not there (C97_grouped_refuted). About texts without subqueries (C100_same). Refuted for other texts: a new name for a column is ignored, grouping by an expression shifts the columns after it, and so does a measure before a grouping."
  }
 ]
}