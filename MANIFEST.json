{"claims": [
 {"property": "C01", "status": "proved", "theorems": ["C01_query_stmt_terminates", "C01_query_terminates", "C01_query_forms_terminate", "C01_update_terminates", "C01_recursive_equations", "C01_depth_bounded_by_length"], "note": "no OutOfFuel for any text; recursive equations of the Rust functions; depth bounded by text length"},
 {"property": "C02", "status": "proved", "theorems": ["C02_query_stmt_suffix", "C02_query_suffix", "C02_ask_suffix", "C02_select_suffix", "C02_describe_suffix", "C02_construct_suffix", "C02_update_suffix", "C02_update_stmt_suffix"], "note": ""},
 {"property": "C03", "status": "proved", "theorems": ["C03_query_stmt_error_position", "C03_query_error_position", "C03_query_forms_error_position", "C03_update_error_position"], "note": ""},
 {"property": "C04", "status": "partial", "theorems": ["C04_refuted", "C04_kelvin_refuted", "C04_query_stmt_partial", "C04_update_partial", "C04_ascii_never_panics", "C04_path_free_never_panics"], "note": "the property is false of the code (witnesses); proved: panics need U+212A or a non-ASCII character right after a blank, ASCII text never panics"},
 {"property": "C05", "status": "partial", "theorems": ["C05_refuted", "C05_path_refuted", "C05_query_stmt_partial", "C05_update_partial", "C05_path_free_never_incomplete"], "note": "the property is false of the code (witnesses); proved: Incomplete needs an opening bracket or brace, and never occurs in path- and expression-free parsers"},
 {"property": "C06", "status": "proved", "theorems": ["C06_in_range", "C06_never_another_integer", "C06_out_of_range"], "note": "in both directions; out of range the nearest double"},
 {"property": "C07", "status": "partial", "theorems": ["C07_double_partial", "C07_decimal", "C07_longest_mantissa", "C07_rounded", "C07_decimals_refuted", "C07_exponent_refuted", "C07_bare_exponent_fails"], "note": "exponents outside i64 are left unread (refuted, with the general behaviour); mantissas are rounded to binary64 (nearest, ties to even), so two different decimals can give the same tree (refuted); the rest proved"},
 {"property": "C08", "status": "proved", "theorems": ["C08_read_back", "C08_nothing_else", "C08_limit_too_large", "C08_offset_too_large", "C08_second_too_large"], "note": "for every order, case and layout"},
 {"property": "C09", "status": "partial", "theorems": ["C09_accepted_iff_partial", "C09_empty_refuted", "C09_line_end_refuted"], "note": "exact description proved; the empty literal is rejected and raw line ends are accepted (refuted)"},
 {"property": "C10", "status": "partial", "theorems": ["C10_accepted_iff", "C10_only_permitted", "C10_permitted_accepted_partial", "C10_refuted"], "note": "exact description proved; permitted characters with low byte up to 0x20 are rejected (refuted)"},
 {"property": "C11", "status": "partial", "theorems": ["C11_read_iff", "C11_question_mark", "C11_dollar", "C11_name_characters_partial", "C11_low_byte_refuted", "C11_planes_refuted", "C11_more_refuted", "C11_blank_refuted"], "note": "exact description proved; name characters differ from the W3C ones (refuted both ways), blanks are accepted after the sigil"},
 {"property": "C12", "status": "partial", "theorems": ["C12_with_local_iff", "C12_without_local_iff", "C12_split_at_colon_partial", "C12_empty_prefix_partial", "C12_refuted", "C12_trailing_dot_refuted", "C12_blanks_refuted", "C12_never_single"], "note": "exact description proved; single-character local names, trailing dots and blanks are wrong (refuted)"},
 {"property": "C13", "status": "proved", "theorems": ["C13_read_iff", "C13_datatype_iri", "C13_language_tag", "C13_datatype", "C13_plain"], "note": "exact description"},
 {"property": "C14", "status": "proved", "theorems": ["C14_longest_blank_prefix", "C14_always_succeeds", "C14_idempotent", "C14_interchangeable", "C14_at_least_one"], "note": "blank skipping exactly; interchangeability in whole queries is part of C18"},
 {"property": "C15", "status": "proved", "theorems": ["C15_recognised", "C15_only", "C15_introduces", "C15_queries", "C15_updates", "C15_same_tree", "C15_canonical"], "note": "keywords in every case at the level of the keyword parsers (only U+212A next to a k aside, C04); for whole queries and updates, every text and every change of case of its ASCII letters, but for a letter after a backslash and the verb a standing alone: same verdict, same part read, and trees equal but for the case of letters in names and literals; canonical texts in every casing read as the same tree"},
 {"property": "C16", "status": "proved", "theorems": ["C16_query_stmt_sound", "C16_query_sound", "C16_select_sound", "C16_ask_sound", "C16_describe_sound", "C16_construct_sound", "C16_sub_construct_sound", "C16_sub_triples_sound", "C16_expression_sound", "C16_group_graph_pattern_sound", "C16_update_sound", "C16_update_stmt_sound", "C16_grammar_of_expressions", "C16_grammar_of_patterns"], "note": "grammar in Spec.v, independent of the parsers; also for expressions, patterns and updates"},
 {"property": "C17", "status": "proved", "theorems": ["C17_form_by_keyword", "C17_no_keyword_rejected", "C17_keyword_decides", "C17_statement"], "note": ""},
 {"property": "C18", "status": "partial", "theorems": ["C18_statement_partial", "C18_whole_text_partial", "C18_query_partial", "C18_pattern_partial", "C18_one_tree", "C18_round_trip_partial", "C18_injective", "C18_object_refuted", "C18_dot_refuted", "C18_brace_refuted"], "note": "printing a query in canonical form and parsing it gives the query back, for every printable tree of any depth (decimals, doubles and infinities included), every casing of the keywords and every text for the blanks; safe concrete forms of whole statements of any depth are read as their tree; usual forms the code does not read are refuted"},
 {"property": "C19", "status": "proved", "theorems": ["C19_block", "C19_inline_data", "C19_value", "C19_only"], "note": "row arity is not checked by the code, as described by C19_block"},
 {"property": "C20", "status": "partial", "theorems": ["C20_path_partial", "C20_only", "C20_alternatives_refuted", "C20_slash_refuted", "C20_query_refuted"], "note": "paths as the code accepts them are read with their own tree at any depth; alternatives are never produced and '/' is never read (refuted for all inputs)"},
 {"property": "C21", "status": "partial", "theorems": ["C21_unary_partial", "C21_binary_partial", "C21_call_partial", "C21_only", "C21_rounding_refuted", "C21_contains_refuted", "C21_unknown_refuted", "C21_strlen_refuted", "C21_nullary_refuted", "C21_blank_refuted"], "note": "each built-in in the table yields its own node for every argument, layout and keyword case; refuted in general for ABS/CEIL/FLOOR/ROUND (node of URI), CONTAINS, STRLEN, nullary calls, REGEX/COALESCE/CONCAT without a blank"},
 {"property": "C22", "status": "partial", "theorems": ["C22_expression_partial", "C22_only", "C22_sum_refuted", "C22_blank_refuted", "C22_query_refuted"], "note": "every safely laid out expression of any depth is read as its tree; soundness for every input; refuted in general: a + b is never read, a blank must follow products and sums"},
 {"property": "C23", "status": "partial", "theorems": ["C23_read_partial", "C23_only", "C23_keyword_decides", "C23_keyword_needed", "C23_round_trip_partial", "C23_add_move_refuted", "C23_using_refuted", "C23_delete_refuted", "C23_with_refuted"], "note": "reading, soundness, kind decided by keyword; statements printed in canonical form are read back exactly, with any casing and any text for the blanks; ADD/MOVE, DELETE..WHERE and updates without USING refuted in general"},
 {"property": "C24", "status": "partial", "theorems": ["C24_partial", "C24_simple_refuted"], "note": "false of the code in both directions; exact relation to the documented table proved"},
 {"property": "C25", "status": "proved", "theorems": ["C25_sign_roundtrip", "C25_sign_texts", "C25_path_mod_texts", "C25_path_mod_parser", "C25_sign_parser"], "note": ""},
 {"property": "C26", "status": "proved", "theorems": ["C26_distinct_iff_written"], "note": ""},
 {"property": "C27", "status": "proved", "theorems": ["C27_declarations"], "note": "for every sequence of declarations and every layout"},
 {"property": "C28", "status": "proved", "theorems": ["C28_clause", "C28_clauses", "C28_only"], "note": "each clause followed by a blank, as the code requires"},
 {"property": "C29", "status": "partial", "theorems": ["C29_template_subject_partial", "C29_collection_refuted", "C29_property_list_refuted", "C29_never_object_refuted", "C29_never_where_object_refuted", "C29_never_where_subject_refuted", "C29_query_subject_refuted", "C29_query_object_refuted"], "note": "accepted as template subjects; as objects, members and WHERE subjects every non-empty bracket is a hard failure (refuted for all inputs)"},
 {"property": "C30", "status": "partial", "theorems": ["C30_construct_template_partial", "C30_template_partial", "C30_subject_partial", "C30_only", "C30_only_construct"], "note": "terms as objects; nested collections and property lists as objects are rejected by the code (C29)"},
 {"property": "C31", "status": "partial", "theorems": ["C31_limit_kept", "C31_order_kept_partial", "C31_having_kept_partial", "C31_group_kept_partial", "C31_read_partial", "C31_last_refuted", "C31_dropped_refuted"], "note": "LIMIT/OFFSET never dropped; other clauses never dropped when safely laid out; refuted in general for a last clause at the end of the text"},
 {"property": "C32", "status": "partial", "theorems": ["C32_attached_partial", "C32_where_refuted", "C32_dropped_refuted", "C32_only"], "note": "attached where the query text is followed by a blank; refuted in general after a WHERE group or a single LIMIT"},
 {"property": "C33", "status": "partial", "theorems": ["C33_quads_partial", "C33_only", "C33_blank_between_refuted"], "note": "proved for the layouts the code accepts; a blank between two GRAPH blocks is rejected (refuted)"},
 {"property": "C34", "status": "partial", "theorems": ["C34_in_order_partial", "C34_request_partial", "C34_round_trip_partial", "C34_injective", "C34_only", "C34_dropped_refuted", "C34_empty_refuted"], "note": "sequences of any length in order; printing a request in canonical form and parsing it gives the request back, with any casing and any text for the blanks; requests are silently cut at a statement that is not read (refuted)"},
 {"property": "C35", "status": "partial", "theorems": ["C35_query", "C35_update", "C35_query_refuted", "C35_update_refuted"], "note": "proved without declarations; refuted in general before PREFIX and BASE (query rejected, request returned empty)"},
 {"property": "C36", "status": "proved", "theorems": ["C36_statements", "C36_service"], "note": "the flag is true iff SILENT and a blank follow the keyword; ADD and MOVE are never read (C23)"},
 {"property": "C37", "status": "proved", "theorems": ["C37_clause", "C37_query", "C37_sub_select"], "note": "clause, query and sub-select"},
 {"property": "C38", "status": "partial", "theorems": ["C38_says", "C38_decides", "C38_glued_refuted"], "note": "the keyword decides when a blank follows it; the form without a blank is never read (refuted)"},
 {"property": "C39", "status": "partial", "theorems": ["C39_verb", "C39_path", "C39_path_only", "C39_upper_case_refuted", "C39_empty_prefix_refuted"], "note": "read when followed by a blank and no colon; refuted before a name with the empty prefix and for the upper case letter in templates"},
 {"property": "C40", "status": "partial", "theorems": ["C40_run_together_refuted"], "note": "refuted for every sequence of true, false and undef"},
 {"property": "C41", "status": "partial", "theorems": ["C41_widths_refuted", "C41_any_rows_refuted"], "note": "refuted for all widths"},
 {"property": "C42", "status": "partial", "theorems": ["C42_blank", "C42_end_refuted", "C42_all_refuted"], "note": "read when a blank follows; refuted at the end of the text"},
 {"property": "C43", "status": "proved", "theorems": ["C43_form"], "note": "both directions"},
 {"property": "C44", "status": "partial", "theorems": ["C44_says", "C44_decides_partial", "C44_colon_refuted"], "note": "both directions; the converse needs that the word is not the prefix of a name, and is refuted without that"},
 {"property": "C45", "status": "partial", "theorems": ["C45_clauses_refuted", "C45_ask_refuted"], "note": "refuted in general"},
 {"property": "C46", "status": "partial", "theorems": ["C46_name_partial", "C46_name_refuted"], "note": "names not starting with default are read; all others are refuted"},
 {"property": "C47", "status": "proved", "theorems": ["C47_kind", "C47_keyword_decides", "C47_brace_decides"], "note": "both directions"},
 {"property": "C48", "status": "partial", "theorems": ["C48_ask_refuted", "C48_where_refuted", "C48_pattern_refuted", "C48_group_refuted"], "note": "refuted for every keyword of a pattern, ASK and WHERE; the forms with a blank are covered by C18"},
 {"property": "C49", "status": "partial", "theorems": ["C49_prologue_refuted", "C49_query_refuted", "C49_update_refuted"], "note": "refuted for every list of declarations; the forms with blanks are covered by C27 and C18"},
 {"property": "C50", "status": "partial", "theorems": ["C50_name_refuted"], "note": "refuted for every expression that does not end in a sum or an IN list"},
 {"property": "C51", "status": "partial", "theorems": ["C51_literal_partial", "C51_literal_refuted"], "note": "proved when no colon follows; refuted before a name with the empty prefix"},
 {"property": "C52", "status": "partial", "theorems": ["C52_object_refuted", "C52_group_refuted", "C52_dollar_partial", "C52_variable_partial", "C52_modifier_partial"], "note": "refuted for every predicate that is an IRI and every object written with a question mark; proved for objects written with a dollar sign, after a predicate that is a variable, and after a path modifier"},
 {"property": "C53", "status": "partial", "theorems": ["C53_last_dot_refuted", "C53_pattern_dot_refuted", "C53_question_refuted"], "note": "refuted for the dot after the triples at the start of a group and after its first pattern; dots between triples are covered by C18"},
 {"property": "C54", "status": "partial", "theorems": ["C54_empty_partial", "C54_members_refuted", "C54_hard_refuted", "C54_in_refuted", "C54_call_refuted"], "note": "empty lists are read; refuted in general for every list with members: an opening parenthesis not closed at once is a hard failure, so groups with such a FILTER are rejected"},
 {"property": "C55", "status": "partial", "theorems": ["C55_glued_partial", "C55_query_refuted", "C55_sub_select_refuted"], "note": "read when written without blanks between the variables; refuted in general with a blank between two of them, in queries and sub-selects"},
 {"property": "C56", "status": "partial", "theorems": ["C56_blank_partial", "C56_refuted"], "note": "read with a blank before the brace; refuted in general without it"},
 {"property": "C57", "status": "proved", "theorems": ["C57_query", "C57_update", "C57_pattern", "C57_expression", "C57_occurs", "C57_length"], "note": "pieces at every depth of nesting; also that each name occurs in the text and that all names together are no longer than it; each name with its kind (IRI, prefix, local name, variable, label, string, language tag)"},
 {"property": "C58", "status": "proved", "theorems": ["C58_queries", "C58_updates", "C58_same_query", "C58_same_update", "C58_normal_form", "C58_comments", "C58_update_comments"], "note": "every text, accepted or not: runs of spaces, tabs and line ends exchanged for other such runs (the end of a line with a # on it left alone) give the same verdict and trees equal but for blanks inside string literals, and equal outright when there are no quotes; canonical texts also with comments for blanks. Blanks left out are not covered (partly refuted in C40, C48, C49, C56)"},
 {"property": "C59", "status": "proved", "theorems": ["C59_query", "C59_expression", "C59_group_graph_pattern", "C59_path", "C59_node", "C59_node_path", "C59_update", "C59_constant_depth_refuted", "C59_update_depth_refuted"], "note": "the recursive parsers with a limit on their nested calls (SpecDepth.v) agree with the unlimited ones as soon as the limit reaches the bound, for every text; for every limit an accepted text exceeds it. The calls of the functions in between (a fixed number per level) and the size of a stack frame are not modelled; group_graph_pattern inside modify_stmt is covered by C59_group_graph_pattern"},
 {"property": "C60", "status": "proved", "theorems": ["C60_counts", "C60_accepted", "C60_rejected", "C60_polynomial_accepted_refuted", "C60_polynomial_rejected_refuted", "C60_update_counts", "C60_update_accepted", "C60_update_polynomial_refuted"], "note": "the counting parsers of SpecCost.v are the functions of the model, word for word, over combinators that add up calls; C60_counts shows that they answer as the parser does. Only calls of the recursive functions are counted, in the model; wall-clock time and memory are not modelled. The expectation of a polynomial bound is refuted for every polynomial"},
 {"property": "C61", "status": "proved", "theorems": ["C61_query", "C61_update", "C61_pattern", "C61_expression", "C61_iri_again", "C61_string_again", "C61_var_again"], "note": "from C57 with kinds: the leaves of every tree are lexical, and lexical pieces are safe. The IRI claim is about the IRI between angle brackets; local names may hold the escapable marks, after a backslash"},
 {"property": "C62", "status": "proved", "theorems": ["C62_query", "C62_update", "C62_pattern", "C62_expression"], "note": "from C16: every rule of the grammar reads characters enough for the values it makes. 16 is a bound, not the best one. Numbers are counted as part of the value that holds them (they are of fixed size)"},
 {"property": "C63", "status": "proved", "theorems": ["C63_query", "C63_update", "C63_pattern", "C63_expression", "C63_path"], "note": "by the structure of the program, from the facts behind C20, C22, C23, C52 and C54 about single parsers; the shape is necessary for being a result, not sufficient"},
 {"property": "C64", "status": "proved", "theorems": ["C64_query", "C64_update", "C64_pattern", "C64_expression", "C64_path", "C64_query_soft", "C64_update_soft"], "note": "by the structure of the program: every combinator carries the place of a failure along; the three uses of cut give the places"},
 {"property": "C65", "status": "proved", "theorems": ["C65_bound", "C65_polynomial", "C65_requests"], "note": "calls of the recursive functions are counted by the parsers of SpecCost.v, which answer as the parsers of the model do (C60_counts, C60_update_counts); the constants are not tight. Wall-clock time, and the steps of the functions that are not recursive, are not counted"},
 {"property": "C66", "status": "partial", "theorems": ["C66_query_partial", "C66_update_partial", "C66_same_partial", "C66_printable_partial"], "note": "for every tree that is docile (SpecTame.v), which leaves out the trees the writer of Print.v does not write: prefixed names without a local part, a last argument that ends in an IN list, a name with an empty prefix right after HAVING or right after the FROM of DESCRIBE, U+212A in expressions, collections and property lists as subjects without properties. All other conditions of printable (spelling, number ranges, non-empty lists, constructors that are never returned, blanks kept before VALUES, no sign on a number that is an operand, no name with an empty prefix after TRUE, FALSE, UNDEF and a, no object that a path would take as its modifier) are proved for every accepted text"},
 {"property": "C67", "status": "proved", "theorems": ["C67_alone", "C67_error", "C67_failure", "C67_nested", "C67_in_expression", "C67_ask", "C67_query", "C67_quads", "C67_quads_error", "C67_template", "C67_template_error", "C67_construct_where", "C67_describe"], "note": "block (SpecBlock.v) finds the closing brace without the parsers; a < is read both as the start of an IRI and as an operator and has to lead to the same brace, a backslash outside strings has to be followed by one of the characters names may escape"},
 {"property": "C68", "status": "proved", "theorems": ["C68_query", "C68_update", "C68_group", "C68_expression", "C68_stack", "C68_update_stack", "C68_count", "C68_update_count"], "note": "nested (SpecNest.v) is an inductive definition of texts whose brackets match; a < may start an IRI or stand for itself, so the stack check and the counts are stated for texts without <"},
 {"property": "C69", "status": "proved", "theorems": ["C69_query_as_update", "C69_query_not_update", "C69_update_not_query"], "note": "the update parser accepts every text without a statement, so the claim is about requests with statements and about texts read to their end"},
 {"property": "C70", "status": "proved", "theorems": ["C70_query", "C70_update", "C70_undeclared", "C70_update_undeclared"], "note": "declarations in the layouts of W_prologue (Layout.v) are added; removing them holds for every accepted text. A query with an undeclared prefix is accepted"},
 {"property": "C71", "status": "proved", "theorems": ["C71_agree", "C71_sub_as_query", "C71_query_as_sub"], "note": "the exception without a blank is a difference of the code (sp1 against sp_enc), shown by an example"},
 {"property": "C72", "status": "partial", "theorems": ["C72_construct_elsewhere", "C72_elsewhere_construct", "C72_dot", "C72_construct_dot_refuted"], "note": "refuted for the dot at the end of a CONSTRUCT template; the rest is proved"},
 {"property": "C73", "status": "proved", "theorems": ["C73_clear_drop", "C73_add_copy", "C73_move_copy", "C73_insert_delete", "C73_insert_delete_where"], "note": "ADD and MOVE through their own parsers, as no request contains them (C23)"},
 {"property": "C74", "status": "proved", "theorems": ["C74_select", "C74_describe", "C74_construct"], "note": "DESCRIBE with a WHERE clause; CONSTRUCT with a template"},
 {"property": "C75", "status": "proved", "theorems": ["C75_where", "C75_no_where", "C75_where_only", "C75_optional", "C75_minus", "C75_graph", "C75_service", "C75_exists", "C75_not_exists", "C75_pattern", "C75_as_pattern"], "note": "for the word directly followed by the group see C48"},
 {"property": "C76", "status": "proved", "theorems": ["C76_bracket_primary", "C76_bracket_constraint", "C76_bracket_order", "C76_call_primary", "C76_call_constraint", "C76_call_group", "C76_filter", "C76_order", "C76_having", "C76_having_one"], "note": "HAVING: the first constraint; with the clause of one constraint if a blank and no further constraint follow"},
 {"property": "C77", "status": "proved", "theorems": ["C77_group", "C77_sub_select", "C77_query"], "note": ""},
 {"property": "C78", "status": "partial", "theorems": ["C78_semicolon_refuted", "C78_second_refuted", "C78_comma_refuted", "C78_double_partial", "C78_read_partial", "C78_only"], "note": "refuted for all terms: what stands between semicolons is returned as objects of one predicate, a semicolon with predicate and object is never read, a comma after the first objects is never read; proved: predicates after two semicolons, and every accepted second predicate stands there or starts with a, ! or ^"},
 {"property": "C79", "status": "proved", "theorems": ["C79_unary", "C79_binary", "C79_aggregate"], "note": "for the functions of the tables marked as read in C21; ABS, CEIL, FLOOR, ROUND, CONTAINS are refuted in C21"},
 {"property": "C80", "status": "proved", "theorems": ["C80_modifiers", "C80_without", "C80_from_using", "C80_orders", "C80_numbers", "C80_alone"], "note": "LIMIT and OFFSET need no blank before the number, the other keywords do"},
 {"property": "C81", "status": "proved", "theorems": ["C81_bind_select", "C81_group_bind"], "note": "the converse for GROUP BY is refuted in C50"},
 {"property": "C82", "status": "proved", "theorems": ["C82_from", "C82_clear", "C82_graph", "C82_datatype", "C82_terms"], "note": "places where a keyword may come first (GRAPH left out after ADD, COPY, MOVE; SERVICE; LOAD) are treated in C46 and C73"},
 {"property": "C83", "status": "proved", "theorems": ["C83_strings", "C83_numbers", "C83_booleans", "C83_variables"], "note": "no hypotheses; C51 says where the words true and false are not read as literals, here the places agree on it"},
 {"property": "C84", "status": "proved", "theorems": ["C84_nested", "C84_filter", "C84_inside"], "note": "blanks before the closing brackets are the business of the expression itself"},
 {"property": "C85", "status": "proved", "theorems": ["C85_nested"], "note": "the blank before a closing brace is needed (C56)"},
 {"property": "C86", "status": "proved", "theorems": ["C86_chain"], "note": "the blanks around the word are needed, see sp_enc1"},
 {"property": "C87", "status": "proved", "theorems": ["C87_nested", "C87_verb", "C87_inside"], "note": "no blanks stand inside the brackets: the code takes none"},
 {"property": "C88", "status": "proved", "theorems": ["C88_group"], "note": "names of GRAPH and SERVICE that start with a colon are left out; other FILTERs, BIND and VALUES as members, and triples between the members, are the business of C18 and C67"},
 {"property": "C89", "status": "proved", "theorems": ["C89_statement", "C89_request", "C89_whole"], "note": "requests that start without declarations; C70 adds declarations. The other statements are the business of C01 and C73"},
 {"property": "C90", "status": "proved", "theorems": ["C90_statement", "C90_whole", "C90_using"], "note": "only INSERT without a DELETE part and without a WITH part: DELETE and WITH are not read in front of a block (C23). C23_using_refuted shows that a statement without USING clauses is never read"},
 {"property": "C91", "status": "proved", "theorems": ["C91_alone", "C91_columns", "C91_one_name", "C91_names"], "note": "blocks are those of SpecBlock.v, as in C67"}
]}
