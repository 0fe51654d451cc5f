{"id": "C01", "title": "Parsing any text terminates", "statement": "Every public parsing entry point (query statement, query, ASK, DESCRIBE, CONSTRUCT) and the update parser returns a verdict on every input: the mutual recursion and every repetition loop ends, and recursion never goes deeper than the input is long.", "quantifier": "every finite sequence of characters, of any length and nesting", "why_tests_cant": "tests run finitely many inputs; a repetition or recursion that fails to consume shows up only on the input that triggers it", "anchors": ["src/parser.rs::sparql_query_stmt", "src/parser.rs::sparql_query", "src/update.rs::update", "src/expression/mod.rs::expression", "src/graph.rs::group_graph_pattern", "src/triple.rs::triples_node", "src/path.rs::path_alternative"]}
{"id": "C02", "title": "The unconsumed remainder is a suffix of the input and a success consumes text", "statement": "When a query is accepted, the returned remainder is exactly what is left of the input after a non-empty consumed prefix; nothing is skipped, reordered or invented.", "quantifier": "every input text and every accepted result", "why_tests_cant": "needs all inputs; callers slice the source by the remainder", "anchors": ["src/parser.rs::sparql_query_stmt", "src/update.rs::update"]}
{"id": "C03", "title": "Reported error locations point into the input", "statement": "Whenever parsing answers a (recoverable or fatal) error, the location it reports is a suffix of the input text.", "quantifier": "every input text and every error result", "why_tests_cant": "error paths are too numerous to enumerate by example", "anchors": ["src/parser.rs::sparql_query_stmt", "src/path.rs::path_mod", "src/literal.rs::sparql_int"]}
{"id": "C04", "title": "Parsing never panics", "statement": "No input text makes the query parser panic (slice inside a character, index out of range).", "quantifier": "every input text, including non-ASCII text", "why_tests_cant": "the panicking inputs are specific multi-byte characters at specific places", "anchors": ["src/path.rs::path_mod", "src/parser.rs::sparql_query_stmt", "src/query/ask.rs::ask_query", "src/call.rs::built_in_call"]}
{"id": "C05", "title": "A complete text is never answered with Incomplete", "statement": "Since the whole query text is supplied, the answer is acceptance or an error, never the streaming verdict 'Incomplete'.", "quantifier": "every input text", "why_tests_cant": "depends on where the text ends relative to every operator and path position", "anchors": ["src/arithmetic.rs::op_expression", "src/path.rs::path_mod", "src/parser.rs::sparql_query_stmt"]}
{"id": "C06", "title": "Integer literals denote their value, exactly the 64-bit range", "statement": "A numeric literal written as an optional sign and decimal digits (not followed by '.', 'e' or 'E') is returned as the integer with that mathematical value if it lies in -2^63 .. 2^63-1, and is never returned as any other integer.", "quantifier": "every sign, digit string and following text", "why_tests_cant": "the boundary and overflow cases range over unboundedly many digit strings", "anchors": ["src/literal.rs::sparql_int", "src/literal.rs::numeric_literal"]}
{"id": "C07", "title": "Decimal and double literals denote their value and exponent", "statement": "A decimal or double literal is returned with the value of its mantissa -- the binary64 number nearest to the fraction written, ties to even, with the sign written -- and, separately, its exponent; the mantissa is the longest prefix of the form sign? digits[.digits?] or sign? .digits. Different decimals give different values.", "quantifier": "every mantissa, exponent and following text", "why_tests_cant": "all lexemes and all following characters", "anchors": ["src/literal.rs::sparql_decimal", "src/literal.rs::exponent", "src/literal.rs::sparql_double"]}
{"id": "C08", "title": "LIMIT/OFFSET clauses carry exactly the written numbers", "statement": "LIMIT n / OFFSET m in either order, any keyword case and any blank text between, are returned with exactly the values written when they fit in 64 unsigned bits, in the order written; a number that does not fit is rejected.", "quantifier": "every n, m, keyword case, blank text and following text", "why_tests_cant": "all numbers and layouts", "anchors": ["src/clauses.rs::limit_offset_clause", "src/clauses.rs::int_clause"]}
{"id": "C09", "title": "String literals are returned verbatim", "statement": "A single- or double-quoted literal is accepted exactly when its body is a sequence of ordinary characters and permitted escapes, and the body is returned verbatim (escapes untouched), leaving exactly the text after the closing quote.", "quantifier": "every body text (including the empty one) and following text", "why_tests_cant": "all bodies, escapes, quotes", "anchors": ["src/terminals.rs::string_literal", "src/terminals.rs::string_content", "src/terminals.rs::echar"]}
{"id": "C10", "title": "IRI references: accepted iff permitted characters, returned verbatim", "statement": "<...> is accepted as an IRI reference exactly when every character between the brackets is permitted by the SPARQL IRIREF production (not control/space, not one of <>\"{}|^`\\), and the text between is returned verbatim.", "quantifier": "every bracketed text over all Unicode characters", "why_tests_cant": "all Unicode characters", "anchors": ["src/terminals.rs::iri_ref"]}
{"id": "C11", "title": "Variables: longest name, sigil kept", "statement": "A variable is ?name or $name; the name is the longest run of name characters, which are the SPARQL VARNAME characters; the sigil is preserved in the result.", "quantifier": "every text and every Unicode character", "why_tests_cant": "all names / all characters", "anchors": ["src/var.rs::var", "src/var.rs::var_name", "src/terminals.rs::is_pn_chars_u"]}
{"id": "C12", "title": "Prefixed names: prefix and local part are split at the colon", "statement": "prefix:local is returned with exactly that prefix and that local part; local names follow the PN_LOCAL rules (single-character names allowed, no trailing dot swallowed, escapes kept verbatim).", "quantifier": "every prefix, local part and following text", "why_tests_cant": "all names", "anchors": ["src/terminals.rs::prefixed_name", "src/terminals.rs::pn_local", "src/terminals.rs::pn_prefix", "src/terminals.rs::pname_ln"]}
{"id": "C13", "title": "RDF literals: language tags and datatypes attach to their string", "statement": "\"text\"@tag and \"text\"^^iri are returned with exactly that text, tag (alpha+ ('-' alnum+)*, longest) or datatype; a plain literal has no descriptor.", "quantifier": "every text, tag, datatype and following text", "why_tests_cant": "all tags", "anchors": ["src/terminals.rs::rdf_literal", "src/terminals.rs::language_tag"]}
{"id": "C14", "title": "Blank text and comments are interchangeable separators", "statement": "Blank-skipping removes exactly the longest prefix made of spaces, tabs, line ends and '#' comments closed by a line end, always succeeds, and is idempotent; wherever blanks are allowed any blank text gives the same result.", "quantifier": "every text", "why_tests_cant": "all layouts and comments", "anchors": ["src/terminals.rs::sp", "src/terminals.rs::sp1", "src/terminals.rs::new_line"]}
{"id": "C15", "title": "Keywords are case-insensitive", "statement": "A keyword is recognised whatever the case of its letters, and changing the case of keyword letters does not change the result.", "quantifier": "every keyword and every choice of case for each letter", "why_tests_cant": "2^n casings per keyword, all keywords", "anchors": ["src/terminals.rs::preceded_tag", "src/terminals.rs::preceded_tag1", "src/parser.rs::sparql_query"]}
{"id": "C16", "title": "Soundness of query parsing: accepted text is a rendering of the returned tree", "statement": "If the query statement parser accepts, the consumed text is a rendering of the returned syntax tree according to the concrete grammar: each keyword, name, literal, clause and bracket in the tree appears in the text in order and vice versa, nothing is dropped or invented.", "quantifier": "every input text and accepted tree, at any nesting depth", "why_tests_cant": "unbounded nesting and combinations", "anchors": ["src/parser.rs::sparql_query_stmt", "src/parser.rs::sparql_query", "src/graph.rs::group_graph_pattern", "src/expression/mod.rs::expression"]}
{"id": "C17", "title": "The query form follows the leading keyword", "statement": "The result is a SELECT / CONSTRUCT / DESCRIBE / ASK query only if the text begins with that keyword (any case); text not beginning with one of the four keywords is rejected.", "quantifier": "every input text", "why_tests_cant": "all texts", "anchors": ["src/parser.rs::sparql_query"]}
{"id": "C18", "title": "Well-formed queries are accepted with their own tree", "statement": "Writing out a query in the canonical concrete form (any nesting of groups, unions, optional, minus, graph, filters) and parsing it gives back exactly that query with the whole text consumed.", "quantifier": "every query tree of the stated fragment, at any depth", "why_tests_cant": "unbounded trees", "anchors": ["src/parser.rs::sparql_query_stmt", "src/graph.rs::group_graph_pattern", "src/query/select.rs::select_query"]}
{"id": "C19", "title": "Inline data blocks: every value in its row and order", "statement": "VALUES blocks are returned with exactly the variables and the rows of values written, in order, for every number of rows and columns.", "quantifier": "every list of variables, every table of values, every layout", "why_tests_cant": "all table sizes", "anchors": ["src/data.rs::datablock", "src/data.rs::inline_data_full", "src/data.rs::inline_data_one_var"]}
{"id": "C20", "title": "Property paths: '|' builds alternatives, '/' builds sequences", "statement": "a|b parses to two alternatives, a/b to one sequence of two steps, and nesting by parentheses is respected.", "quantifier": "every path expression", "why_tests_cant": "all path expressions", "anchors": ["src/path.rs::path_alternative", "src/path.rs::path_sequence", "src/path.rs::path_primary"]}
{"id": "C21", "title": "Built-in calls are tagged with the function that was written", "statement": "NAME(args) for each SPARQL built-in yields the tree node of that same function.", "quantifier": "every built-in name, keyword case and argument expressions", "why_tests_cant": "52 functions times all arguments", "anchors": ["src/call.rs::built_in_call"]}
{"id": "C22", "title": "Operators keep their meaning and precedence", "statement": "Comparison, arithmetic and logical operators yield the node of the operator written; || binds weaker than &&, which binds weaker than comparisons, then + -, then * /.", "quantifier": "every expression tree", "why_tests_cant": "all expressions", "anchors": ["src/arithmetic.rs::op_expression", "src/arithmetic.rs::additive_expression", "src/arithmetic.rs::multiplicative_expression", "src/expression/mod.rs::expression"]}
{"id": "C23", "title": "Update statements are recognised and tagged by their keyword", "statement": "LOAD, CLEAR, DROP, CREATE, ADD, MOVE, COPY, INSERT DATA, DELETE DATA, DELETE WHERE and DELETE/INSERT ... WHERE are each accepted and yield the statement of that kind with the written graphs and flags.", "quantifier": "every statement, graph, SILENT flag, layout", "why_tests_cant": "all graphs and layouts", "anchors": ["src/update.rs::update_stmt", "src/operations.rs"]}
{"id": "C24", "title": "Argument compatibility of string literals follows the documented table", "statement": "Two literals are compatible iff both are simple or xsd:string typed, or both carry the same language tag, or the first has a language tag and the second is simple or typed.", "quantifier": "every pair of string literals", "why_tests_cant": "all pairs of literals and tags", "anchors": ["src/literal.rs::StringLiteral::compatible_arg"]}
{"id": "C25", "title": "Sign and path-modifier text conversions", "statement": "Converting a sign to text and back is the identity; only '+', '-' and the empty text are signs, the empty text being '+'; a path modifier is read from exactly '?', '*', '+'.", "quantifier": "every text", "why_tests_cant": "all texts", "anchors": ["src/arithmetic.rs::Sign", "src/path.rs::PathMod"]}
{"id": "C26", "title": "Aggregates report DISTINCT iff it was written", "statement": "An aggregate call reports is_distinct exactly when its argument list started with DISTINCT.", "quantifier": "every aggregate, keyword case and argument", "why_tests_cant": "all aggregates", "anchors": ["src/aggregate.rs::Aggregate::is_distinct", "src/aggregate.rs::aggregate"]}
{"id": "C27", "title": "The prologue keeps all declarations in order", "statement": "Any sequence of BASE and PREFIX declarations separated by blank text is returned as the list of exactly those declarations in order.", "quantifier": "every list of declarations, of any length", "why_tests_cant": "all lists", "anchors": ["src/terminals.rs::prologue", "src/terminals.rs::prefix_decl", "src/terminals.rs::base_decl"]}
{"id": "C28", "title": "Dataset clauses: default versus named", "statement": "FROM iri gives a default-graph source, FROM NAMED iri a named one, in the order written, any number of them.", "quantifier": "every list of dataset clauses", "why_tests_cant": "all lists", "anchors": ["src/data.rs::data_set_clause", "src/terminals.rs::default_or_named_iri", "src/clauses.rs::using_clause"]}
{"id": "C29", "title": "Collections and blank node property lists are accepted wherever terms are", "statement": "( ... ) and [ ... ] may be used as subjects and objects in WHERE patterns and templates, at any nesting.", "quantifier": "every collection and property list", "why_tests_cant": "all nestings", "anchors": ["src/triple.rs::triples_node", "src/path.rs::triples_node_path", "src/terminals.rs::nil", "src/terminals.rs::anon"]}
{"id": "C30", "title": "Triples templates: subjects, verbs and objects keep their grouping", "statement": "A template s v1 o1,o2 ; v2 o3 . ... is returned with the objects grouped under their verbs and the verbs under their subject in the order written, for any number of each.", "quantifier": "every template of the stated fragment", "why_tests_cant": "all list lengths", "anchors": ["src/triple.rs::triples_template", "src/triple.rs::property_list_not_empty", "src/triple.rs::object_list"]}
{"id": "C31", "title": "Solution modifiers are not silently dropped", "statement": "If a query is accepted and the text after the WHERE group is a GROUP BY / HAVING / ORDER BY / LIMIT clause, the clause is part of the returned query.", "quantifier": "every modifier clause and following text", "why_tests_cant": "acceptance with leftover text looks like success", "anchors": ["src/clauses.rs::solution_modifier", "src/clauses.rs::order_clause", "src/group.rs::group_clause"]}
{"id": "C32", "title": "A trailing VALUES block is attached to the query", "statement": "If a query is followed by blank text and a VALUES block, the block is returned with the query.", "quantifier": "every query and data block", "why_tests_cant": "whitespace handling of every preceding clause", "anchors": ["src/parser.rs::sparql_query_stmt"]}
{"id": "C33", "title": "Quad patterns: default-graph triples and GRAPH blocks in order", "statement": "{ triples GRAPH g { triples } ... } is returned with the leading triples and each GRAPH block's graph and triples in order.", "quantifier": "every quads block of the stated fragment", "why_tests_cant": "all lists", "anchors": ["src/quads.rs::quads_pattern", "src/quads.rs::quads_entry"]}
{"id": "C34", "title": "Update sequences: statements separated by ';' are kept in order", "statement": "A request of statements separated by ';' is returned as the chain of exactly those statements in order.", "quantifier": "every list of statements", "why_tests_cant": "all lengths", "anchors": ["src/update.rs::update"]}
{"id": "C35", "title": "Blank text in front of the input does not matter", "statement": "Blanks and comments before a query or an update request do not change the result.", "quantifier": "every blank text and every input", "why_tests_cant": "all inputs", "anchors": ["src/parser.rs::sparql_query_stmt", "src/terminals.rs::prologue", "src/update.rs::update"]}
{"id": "C36", "title": "SILENT is reported exactly when written", "statement": "For LOAD, CLEAR, DROP, CREATE, COPY and SERVICE the silent flag of the result is true exactly when the keyword SILENT follows the operation's keyword.", "quantifier": "every input that is read", "why_tests_cant": "both directions over all texts, including names that start with silent", "anchors": ["src/operations.rs::load_stmt", "src/operations.rs::clear_stmt", "src/operations.rs::drop_stmt", "src/operations.rs::create_stmt", "src/operations.rs::copy_stmt", "src/graph.rs::service_graph_pattern"]}
{"id": "C37", "title": "SELECT DISTINCT and REDUCED are reported exactly when written", "statement": "The modifier of a SELECT clause is DISTINCT or REDUCED exactly when that keyword follows SELECT, and none otherwise.", "quantifier": "every SELECT clause that is read", "why_tests_cant": "both directions over all texts", "anchors": ["src/query/select.rs::select_clause", "src/query/select.rs::select_modifier"]}
{"id": "C38", "title": "ORDER BY directions are the written ones", "statement": "A condition is returned as ascending or descending exactly according to ASC or DESC before the bracketted expression.", "quantifier": "every condition", "why_tests_cant": "both directions over all texts", "anchors": ["src/order.rs::order", "src/order.rs::order_expression", "src/order.rs::order_condition"]}
{"id": "C39", "title": "The verb a", "statement": "The lower case letter a as a verb is rdf:type; no other text is.", "quantifier": "every text after the letter", "why_tests_cant": "all continuations, including a name with the empty prefix", "anchors": ["src/var.rs::verb", "src/path.rs::path_primary"]}
{"id": "C40", "title": "Adjacent words have to be separated", "statement": "Two literals or keywords written without anything in between are not read as two.", "quantifier": "every sequence of words", "why_tests_cant": "all lengths", "anchors": ["src/data.rs::datablock_value", "src/literal.rs::boolean"]}
{"id": "C41", "title": "Rows of VALUES have the width of the variable list", "statement": "A full VALUES block is accepted only if each row has as many values as there are variables.", "quantifier": "every number of variables and values", "why_tests_cant": "all widths", "anchors": ["src/data.rs::inline_data_full"]}
{"id": "C42", "title": "DESCRIBE with only targets is read", "statement": "DESCRIBE followed by targets is read as that query.", "quantifier": "every list of targets", "why_tests_cant": "all targets", "anchors": ["src/query/describe.rs::describe_query", "src/var.rs::var_or_iris_or_all"]}
{"id": "C43", "title": "The form of CONSTRUCT follows from the brace", "statement": "A CONSTRUCT query is returned with a template exactly when a brace follows the keyword.", "quantifier": "every CONSTRUCT query that is read", "why_tests_cant": "both directions over all texts", "anchors": ["src/query/construct.rs::construct_query"]}
{"id": "C44", "title": "A group is a sub-select exactly when it starts with SELECT", "statement": "A group graph pattern is returned as a sub-select exactly when SELECT and a blank follow the opening brace.", "quantifier": "every group that is read", "why_tests_cant": "both directions over all texts", "anchors": ["src/graph.rs::group_graph_pattern", "src/query/select.rs::sub_select"]}
{"id": "C45", "title": "The group may directly follow a dataset clause", "statement": "FROM <g>{...} is read like FROM <g> {...}.", "quantifier": "every dataset clause", "why_tests_cant": "all clauses and continuations", "anchors": ["src/data.rs::data_set_clause", "src/query/ask.rs::ask_query"]}
{"id": "C46", "title": "Graph names that start like a keyword are names", "statement": "In COPY, CLEAR and DROP a prefixed name whose prefix starts with default is read as a graph name.", "quantifier": "every name", "why_tests_cant": "all names", "anchors": ["src/graph.rs::graph_or_default", "src/graph.rs::graph_ref_all"]}
{"id": "C47", "title": "The kind of a graph pattern follows its keyword", "statement": "OPTIONAL, MINUS, GRAPH, SERVICE, FILTER, BIND, VALUES and braces each give their own kind of pattern and no other.", "quantifier": "every graph pattern that is read", "why_tests_cant": "both directions over all texts", "anchors": ["src/graph.rs::graph_pattern_not_triples"]}
{"id": "C48", "title": "A brace or parenthesis may directly follow a keyword", "statement": "ASK{...}, WHERE{...}, OPTIONAL{...}, MINUS{...}, FILTER(...), BIND(...) and VALUES(...) are read like the same text with a blank after the keyword.", "quantifier": "every such keyword in every letter case and every continuation", "why_tests_cant": "all continuations and cases", "anchors": ["src/query/ask.rs::ask_query", "src/clauses.rs::where_clause", "src/graph.rs::graph_pattern_not_triples", "src/graph.rs::group_graph_pattern"]}
{"id": "C49", "title": "Declarations need no blank between them", "statement": "PREFIX a:<u>PREFIX b:<v> ASK {} is read like the text with a blank between the declarations, for queries and requests.", "quantifier": "every list of declarations and every continuation", "why_tests_cant": "all lists and texts", "anchors": ["src/terminals.rs::prologue", "src/parser.rs::sparql_query_stmt", "src/update.rs::update"]}
{"id": "C50", "title": "GROUP BY may name any expression", "statement": "GROUP BY (expr AS ?v) is read for every expression, and the name is returned with it.", "quantifier": "every group condition", "why_tests_cant": "all expressions", "anchors": ["src/group.rs::group_condition"]}
{"id": "C51", "title": "true and false are boolean literals", "statement": "The words true and false in term position are the literals, in any letter case, whatever follows them.", "quantifier": "both words, all cases, all blanks and continuations", "why_tests_cant": "all continuations", "anchors": ["src/literal.rs::boolean", "src/var.rs::var_or_term"]}
{"id": "C52", "title": "The object of a triple may be a variable", "statement": "{ ?s <p> ?o } is read as the triple with predicate <p> and object ?o.", "quantifier": "every subject variable, predicate IRI, object variable, all blanks", "why_tests_cant": "all names and continuations", "anchors": ["src/path.rs::path_elt", "src/path.rs::property_list_path_not_empty", "src/triple.rs::triples_block"]}
{"id": "C53", "title": "Dots may end triples and patterns in a group", "statement": "In a group a dot may follow the last triple of a block and a nested pattern; triples may follow a pattern.", "quantifier": "every block of triples, every pattern, every continuation", "why_tests_cant": "all blocks and continuations", "anchors": ["src/triple.rs::triples_block", "src/graph.rs::group_graph_pattern_sub"]}
{"id": "C54", "title": "Argument and expression lists have members", "statement": "The lists of IN and NOT IN, the arguments of function calls and of COALESCE and CONCAT are read with their members.", "quantifier": "every list, empty or not, every member, every expression or function name in front, every continuation", "why_tests_cant": "all members and continuations; the existing tests use few lists", "anchors": ["src/terminals.rs::nil", "src/expression/mod.rs::expression_list", "src/call.rs::arg_list", "src/arithmetic.rs::op_expression"]}
{"id": "C55", "title": "SELECT projects several variables", "statement": "Several variables and (expression AS variable) forms after SELECT are all projected, in order, with blanks between them or not.", "quantifier": "every list of variables and expressions, every blank, every continuation, queries and sub-selects", "why_tests_cant": "all names, expressions, blanks and continuations", "anchors": ["src/query/select.rs::select_vars", "src/query/select.rs::select_clause", "src/query/select.rs::select_query", "src/query/select.rs::sub_select"]}
{"id": "C56", "title": "The closing brace may directly follow a pattern", "statement": "A group whose last pattern (OPTIONAL, FILTER, a nested group, ...) ends directly before the closing brace is read.", "quantifier": "every group: any triples, any list of patterns, any layout", "why_tests_cant": "patterns nest without bound", "anchors": ["src/graph.rs::group_graph_pattern_sub", "src/graph.rs::group_graph_pattern"]}
{"id": "C57", "title": "Names and literals of the tree stand in the text, in order", "statement": "The names, IRIs, literals, labels, numbers and booleans of an accepted tree stand in the text that was read, in the order of the tree's clauses and without overlap: nothing is invented, repeated or exchanged.", "quantifier": "every text accepted as a query, an update request, a group or an expression", "why_tests_cant": "all texts and trees of any depth", "anchors": ["src/parser.rs::sparql_query_stmt", "src/update.rs::update", "src/graph.rs::group_graph_pattern", "src/expression/mod.rs::expression"]}
{"id": "C58", "title": "The layout of a text does not matter", "statement": "Exchanging the blanks between the parts of a query or an update request for other blanks - any non-empty run of spaces, tabs and line ends for any other - changes neither the verdict nor the tree, apart from the blanks inside string literals; for canonical texts the new blanks may be comments as well.", "quantifier": "every two texts that differ in runs of blanks only (the end of a line with a # on it left alone); every printable query and update request, every two non-empty blank texts", "why_tests_cant": "all texts, accepted or not, and all ways of laying them out", "anchors": ["src/parser.rs::sparql_query_stmt", "src/update.rs::update", "src/terminals.rs::sp", "src/terminals.rs::sp1"]}
{"id": "C59", "title": "The recursion is as deep as the text is bracketed, and no deeper", "statement": "While a query is parsed, the calls of the recursive parsers for expressions and group graph patterns that wait for one another are at most twice the opening brackets of the text plus two (paths and nodes: the opening brackets plus one; update requests: the semicolons plus one), whatever the text. No constant bounds them: for every depth there is an accepted query, and an accepted update request, that needs more, so a stack of any size is exhausted by some accepted text whose length is proportional to it.", "quantifier": "every text, every depth", "why_tests_cant": "a bound for all texts, and a need for unbounded depth; tests show neither", "anchors": ["src/expression/mod.rs::expression", "src/graph.rs::group_graph_pattern", "src/path.rs::path_alternative", "src/graph.rs::graph_node", "src/path.rs::graph_node_path", "src/update.rs::update", "src/parser.rs::sparql_query_stmt"]}
{"id": "C60", "title": "The work grows exponentially with the nesting, and is bounded by no polynomial in the length", "statement": "Counting only the calls of the recursive parsers (expression, group_graph_pattern, path_alternative, graph_node_path), so that the count is a lower bound of the work: there are accepted queries of 11k+18 characters (nested two-argument STRLEN calls) and rejected texts of 5k+9 characters (alternatives of a path in brackets that are never closed) that cost at least 2^k calls. Hence for every polynomial there is an accepted query, and a rejected text, whose cost exceeds the polynomial of its length. The same holds for update requests, with requests of 11k+41 characters.", "quantifier": "every nesting depth, every polynomial", "why_tests_cant": "asymptotic cost; a test only measures single texts and times out on the telling ones", "anchors": ["src/call.rs::built_in_call_1", "src/path.rs::path_alternative", "src/path.rs::path_sequence", "src/expression/mod.rs::expression", "src/parser.rs::sparql_query_stmt"]}
{"id": "C61", "title": "Names, literals and numbers of a tree are well-formed, whatever the text", "statement": "Whatever text was accepted, the pieces of the tree are safe to reuse: an IRI holds no blank, control character, quote, bracket, brace or backslash; variables, prefixes and labels hold no ASCII characters but letters, digits, underscore (and - . for prefixes and labels); a string holds no quote of one of the two kinds except after a backslash; language tags hold letters, digits and hyphens; integers are in the range of i64, fractions are binary64 numbers, LIMIT and OFFSET are in the range of u64. An IRI, string or variable name of any tree is read as itself when put back between its delimiters, so such a piece, put into a new text, cannot end early and become other syntax.", "quantifier": "every text, every tree, every piece at every depth", "why_tests_cant": "an absence of characters for all texts and all places of the tree; a test shows it for one text", "anchors": ["src/terminals.rs::iri_ref", "src/terminals.rs::string_literal", "src/var.rs::var_name", "src/terminals.rs::pn_prefix", "src/terminals.rs::pn_local", "src/literal.rs::numeric_literal", "src/parser.rs::sparql_query_stmt", "src/update.rs::update"]}
{"id": "C62", "title": "A tree is at most 16 times as large as the text it was read from", "statement": "Counting one for every value of a struct or enum, every element of a list and every character of a name or literal, the tree of an accepted query, graph pattern or expression has at most 16 for every character that was read, and that of an update at most two more (the values of the empty request). No expression or group of the tree is nested deeper than the number of characters read. Though parsing may take exponentially many calls (C60), what it returns is linear in the text: a limit on the length of the text is a limit on the memory of the tree and on the depth of a traversal.", "quantifier": "every text, every tree", "why_tests_cant": "a bound over all texts and all trees; a test measures single texts", "anchors": ["src/parser.rs::sparql_query_stmt", "src/update.rs::update", "src/graph.rs::group_graph_pattern", "src/expression/mod.rs::expression"]}
{"id": "C63", "title": "No list of a tree is empty where the grammar wants members, and some nodes occur in no tree", "statement": "At every depth of every tree that is returned: triples blocks, templates, object and property lists, path sequences, negated sets, conjunctions, disjunctions, unions, projections, DESCRIBE targets and GROUP BY, HAVING and ORDER BY clauses have a first element; and these nodes do not occur, though the types have them and the standard asks for them: argument or expression lists with members, bracketed nodes as objects or as subjects of a group, paths with more than one alternative, ABS, CEIL, FLOOR and ROUND, a later operand of a sum without a factor, a number below zero as an operand (its minus sign is an operator of its own), ADD and MOVE, a modification without USING, a request that goes on without a statement. A program that uses the trees may take first elements, and need not handle those nodes.", "quantifier": "every text, every tree, every depth", "why_tests_cant": "absence of nodes in all trees; a test shows single trees", "anchors": ["src/parser.rs::sparql_query_stmt", "src/update.rs::update", "src/graph.rs::group_graph_pattern", "src/expression/mod.rs::expression", "src/path.rs::path_alternative", "src/call.rs::built_in_call_1", "src/arithmetic.rs::additive_expression"]}
{"id": "C64", "title": "A hard failure points behind an unexpected opening bracket or behind an exponent letter", "statement": "If a text is answered with Failure(pos, kind), the answer after which no alternative is tried, then the text holds, right in front of pos, either an opening parenthesis or bracket and perhaps blanks, where pos does not start with the closing one and the kind is Char; or a digit or dot, the letter e or E and perhaps a sign, where pos does not start with a digit and the kind is Digit. A text without ( and [ and without an exponent letter behind a digit or dot is therefore never answered with Failure: what cannot be read in it is a recoverable error.", "quantifier": "every text, every entry point (queries, updates, group patterns, expressions, paths)", "why_tests_cant": "a hard failure may come from any alternative at any depth; a test shows single failures, not that there are no other sources", "anchors": ["src/terminals.rs::anon", "src/terminals.rs::nil", "src/literal.rs::exponent", "src/parser.rs::sparql_query_stmt", "src/update.rs::update"]}
{"id": "C65", "title": "For a bounded number of brackets the work is polynomial in the length", "statement": "Let n be the length of a text and b the number of its opening brackets ( [ {. Reading the text as a query makes at most 1150 (n+2)^2 (7397876 (n+2)^7)^(b+1) calls of the functions that call themselves (groups, expressions, paths, nodes); reading it as a request makes at most (n+1) ((7397876 (n+2)^7)^(b+1) + 1). So for every b the work for texts with at most b opening brackets is bounded by a polynomial in n: a long flat query, with thousands of triples, patterns or prefixes, is not a way to make the parser slow; only nesting is (C60).", "quantifier": "every text, accepted or not; every number of brackets", "why_tests_cant": "a bound on the work for all texts; measured times say nothing about the texts that were not measured", "anchors": ["src/parser.rs::sparql_query_stmt", "src/update.rs::update", "src/expression/mod.rs::expression", "src/graph.rs::group_graph_pattern", "src/path.rs::path_alternative"]}
{"id": "C66", "title": "What was read can be written out and read again", "statement": "Take any text that is accepted as a query (or as an update request), and write the tree it is read as out again in a canonical form: keywords in any case, any blank (spaces, line ends, comments) between the tokens. That text is accepted, with the same tree, and at most a blank is left unread. Hence two accepted texts have the same tree exactly if they are written out alike, and a formatter built on the parser never changes a query.", "quantifier": "every accepted text; every casing of the keywords; every blank; every number of levels at least twice the number of opening brackets plus two", "why_tests_cant": "it is a statement about the trees returned for all accepted texts; a sample of texts says nothing about the trees that no sample produced", "anchors": ["src/parser.rs::sparql_query_stmt", "src/parser.rs::sparql_query", "src/update.rs::update", "src/expression/mod.rs::expression", "src/graph.rs::group_graph_pattern"]}
{"id": "C67", "title": "A group is read alone: what follows its closing brace does not matter", "statement": "Take a text t that runs from an opening brace to the brace closing it, where braces in strings, comments and IRIs do not count. Followed by any text x, it is read as a group exactly as it is read alone: it is accepted with the same tree and all of x is left, or it is refused with the same kind of error at the same place. So groups that are accepted can be put under OPTIONAL, MINUS, GRAPH, SERVICE, UNION, EXISTS or into another group and keep their trees, and a SELECT, a CONSTRUCT with a template or an ASK, with its declarations and dataset clauses, before such a text is accepted exactly if the group is. A DESCRIBE before it is read to its end exactly if the group is accepted. The quads of an update and the braces of CONSTRUCT WHERE are read alone in the same way.", "quantifier": "every text between matching braces, accepted or not; every text that follows; every group or expression built from such texts", "why_tests_cant": "the parsers look ahead and go back at every choice; that none of them looks past the closing brace is a statement about all texts and everything that may follow them", "anchors": ["src/graph.rs::group_graph_pattern", "src/expression/mod.rs::expression", "src/query/ask.rs::ask_query", "src/terminals.rs::new_line", "src/terminals.rs::string_literal", "src/terminals.rs::iri_ref", "src/query/select.rs::select_query", "src/quads.rs::quads_pattern", "src/query/describe.rs::describe_query", "src/query/construct.rs::sub_triples"]}
{"id": "C68", "title": "What was read has matching brackets", "statement": "Whenever the query parser, the update parser, the group parser or the expression parser accepts a text, the brackets (), [] and {} of the part it read match and nest; brackets in strings, comments and IRIs and characters behind a backslash do not count. In particular a text without strings, comments, IRIs and backslashes that is read to its end passes a stack check, and what was read has as many closing as opening brackets of each kind. So a query with a missing, surplus or crossed bracket is never read to its end.", "quantifier": "every text, every rest left and every tree returned", "why_tests_cant": "tests can try a few texts with wrong brackets; that no choice, option or list of the grammar drops or adds a bracket is a statement about all texts", "anchors": ["src/parser.rs::sparql_query_stmt", "src/update.rs::update", "src/graph.rs::group_graph_pattern", "src/expression/mod.rs::expression", "src/terminals.rs::bracketted", "src/terminals.rs::string_literal"]}
{"id": "C69", "title": "A text is a query or a request with statements, never both", "statement": "If the query parser accepts a text, the update parser returns its declarations, no statement, and leaves everything from the query form on, so it never reads that text to its end. If the update parser returns a statement for a text, the query parser does not accept that text.", "quantifier": "every text and every result of the two parsers", "why_tests_cant": "a program that decides between the two parsers relies on no text at all being accepted by both", "anchors": ["src/parser.rs::sparql_query_stmt", "src/update.rs::update"]}
{"id": "C70", "title": "Declarations do not change how the rest of a text is read", "statement": "BASE and PREFIX declarations in front of a text are added to its tree and change nothing else: with them the text is accepted with the same query, the same rest and the same errors as without them. Every accepted query or request is also accepted with its declarations removed, with the same tree otherwise; names are kept as written and prefixes need not be declared.", "quantifier": "every list of declarations in every layout that is read; every text after them; every accepted text", "why_tests_cant": "tests use a few prefixes; that no declaration influences how any later text is read is a statement about all of them", "anchors": ["src/parser.rs::sparql_query_stmt", "src/update.rs::update", "src/terminals.rs::prefixed_name"]}
{"id": "C71", "title": "SELECT is read in the same way as a query and inside a group", "statement": "A text that is read both as a SELECT query and as a sub-select gives the same SELECT clause, the same WHERE group and the same solution modifiers in both trees, and no dataset clause. Every sub-select is read as a query with the same parts unless no blank stands behind its SELECT clause, and every SELECT query without dataset clauses is read as a sub-select with the same parts if no VALUES follows it.", "quantifier": "every text accepted by one of the two parsers, or by both", "why_tests_cant": "the two forms are written down separately in the code; that they never disagree on any text is a statement about all SELECT texts", "anchors": ["src/query/select.rs::select_query", "src/query/select.rs::sub_select", "src/query/select.rs::select_clause"]}
{"id": "C72", "title": "A dot may end a template, and templates are read alike in all places", "statement": "The triples between braces are read alike after CONSTRUCT, after CONSTRUCT WHERE and after GRAPH in data: the same triples, up to the same place, whether or not a dot stands behind the last triple. (Refuted for the dot: after CONSTRUCT WHERE and GRAPH it is read, but no query whose CONSTRUCT template ends with a dot is read. Without that dot the places agree on every text.)", "quantifier": "every text accepted as a template in one of the places; every list of triples with a dot behind it in every layout, whatever follows", "why_tests_cant": "the two readers are written down separately; that they differ only in the last dot is a statement about all templates", "anchors": ["src/query/construct.rs::construct_template", "src/query/construct.rs::sub_triples", "src/triple.rs::triples_template", "src/quads.rs::quads_not_triples"]}
{"id": "C73", "title": "Statements with the same arguments are read alike", "statement": "Behind the keyword, CLEAR and DROP accept the same texts with the same SILENT flag and target; ADD, MOVE and COPY the same flag, source and target; INSERT DATA, DELETE DATA and DELETE WHERE the same quads, always up to the same place.", "quantifier": "every text behind the keyword, every spelling of the keyword, every blank text after it", "why_tests_cant": "the statements have parsers of their own; that no text tells them apart is a statement about all texts", "anchors": ["src/operations.rs::clear_stmt", "src/operations.rs::drop_stmt", "src/operations.rs::copy_stmt", "src/operations.rs::add_stmt", "src/operations.rs::move_stmt", "src/operations.rs::insert_data", "src/operations.rs::delete_data", "src/operations.rs::delete_where_data"]}
{"id": "C74", "title": "Datasets, WHERE group and modifiers are read alike in all query forms", "statement": "Exchange the head of an ASK query (the keyword) for the head of a SELECT query, of a DESCRIBE query or of a CONSTRUCT query with a template: one text is read exactly if the other is, up to the same place, with the same dataset clauses, the same WHERE group, the same solution modifiers and the same trailing VALUES block.", "quantifier": "every text behind the head; every select clause, list of targets or template in every layout", "why_tests_cant": "each form has a parser of its own with its own use of blanks; that they agree on all that follows the head is a statement about all texts", "anchors": ["src/query/ask.rs::ask_query", "src/query/select.rs::select_query", "src/query/describe.rs::describe_query", "src/query/construct.rs::sub_construct"]}
{"id": "C75", "title": "A group is read alike wherever it stands", "statement": "A text is read as the group of WHERE, OPTIONAL, MINUS, GRAPH, SERVICE, EXISTS or NOT EXISTS exactly if it is read as a group by itself, with the same tree and up to the same place; the same holds for a group among the patterns of a group unless UNION follows it, and for a query without the word WHERE.", "quantifier": "every text; every spelling of the keywords and of the blank text after them; every graph or service name in every layout", "why_tests_cant": "the keyword decides which alternative is tried, and every clause has its own code for the blanks; that none of this changes the group is a statement about all texts", "anchors": ["src/graph.rs::graph_pattern_not_triples", "src/graph.rs::group_graph_pattern", "src/clauses.rs::where_clause", "src/call.rs::built_in_call"]}
{"id": "C76", "title": "Bracketed expressions, built-in calls and constraints are read alike wherever they stand", "statement": "A text is read as an expression in brackets with the same tree and up to the same place inside an expression, as a constraint and after ASC or DESC; as a built-in call inside an expression, as a constraint and as a condition of GROUP BY; as a constraint after FILTER, as a condition of ORDER BY and as the (first) constraint of HAVING.", "quantifier": "every text", "why_tests_cant": "each place tries its own list of alternatives in its own order; that no other alternative gets in between is a statement about all texts", "anchors": ["src/expression/mod.rs::primary_expression", "src/expression/functions.rs::constraint", "src/expression/functions.rs::filter", "src/order.rs::order_condition", "src/group.rs::group_condition", "src/clauses.rs::having_clause"]}
{"id": "C77", "title": "A VALUES block is read alike wherever it stands", "statement": "Whatever follows the word VALUES and a blank is read as the block of a VALUES pattern in a group, of a sub-select and of a whole query exactly if it is read as a block by itself, with the same variables and rows and up to the same place.", "quantifier": "every text; for the whole query every query that leaves a blank in front of VALUES (see C32 for those that do not)", "why_tests_cant": "three places in the code read VALUES; that no text tells them apart is a statement about all texts", "anchors": ["src/clauses.rs::values_clause", "src/data.rs::inline_data", "src/parser.rs::sparql_query_stmt", "src/graph.rs::graph_pattern_not_triples"]}
{"id": "C78", "title": "In a group a semicolon starts a further predicate and a comma a further object", "statement": "In { s p o1 , o2 ; q o3 } the objects o1 and o2 are returned under the predicate p and o3 under q, as in templates (C30).", "quantifier": "every subject variable, every predicate, all terms and blanks", "why_tests_cant": "all lists, all terms; the shipped tests have no second predicate and no second object in a group", "anchors": ["src/path.rs::object_list_path", "src/path.rs::property_list_path_not_empty", "src/path.rs::property_list_path_entry"]}
{"id": "C79", "title": "Functions with the same number of arguments accept the same arguments", "statement": "Exchange the name of a built-in function of one expression (STR, LANG, UCASE, isIRI, ...) in a call for the name of another one, a function of two expressions for another one, or SUM, MIN, MAX, AVG and SAMPLE for one another: the call is accepted as before, up to the same place and with the same arguments in the tree, and rejected as before otherwise.", "quantifier": "all pairs of functions of the tables, every text from the opening parenthesis on, all letter cases and blanks", "why_tests_cant": "all pairs of functions and all arguments; a copy-and-paste slip in one entry goes unseen", "anchors": ["src/call.rs::built_in_call", "src/aggregate.rs::aggregate"]}
{"id": "C80", "title": "Clauses that differ in a keyword only are read alike", "statement": "Exchange DISTINCT and REDUCED after SELECT, FROM and USING, ASC and DESC, or LIMIT and OFFSET (where one of the two stands alone): the clause is accepted as before, up to the same place and with the same contents in the tree, and rejected as before otherwise. A SELECT clause with DISTINCT or REDUCED is read with the word left out as well, with the same items.", "quantifier": "every text after the keyword, all letter cases and blanks", "why_tests_cant": "all contents of the clauses, in both directions", "anchors": ["src/query/select.rs::select_clause", "src/query/select.rs::select_modifier", "src/data.rs::data_set_clause", "src/clauses.rs::using_clause", "src/order.rs::order_condition", "src/clauses.rs::limit_offset_clause"]}
{"id": "C81", "title": "A named expression is read alike in BIND and in SELECT", "statement": "(expression AS variable) is accepted after BIND exactly when it is accepted as a single item of SELECT, up to the same place and with the same expression and variable in the tree; and whatever GROUP BY reads under a name, BIND reads with the same expression and variable.", "quantifier": "every text after the keyword, all letter cases and blanks; for SELECT every rest that does not start another item", "why_tests_cant": "all expressions and all texts", "anchors": ["src/expression/mod.rs::expression_as_var", "src/expression/mod.rs::bind", "src/query/select.rs::select_clause", "src/group.rs::group_condition"]}
{"id": "C82", "title": "An IRI or prefixed name is read alike wherever it stands", "statement": "A text is accepted as an IRI or prefixed name after FROM NAMED exactly when it is accepted after FROM, after CLEAR GRAPH, as the name of a GRAPH pattern (with a group behind it), as the datatype of a literal, as a subject or object, as a verb, and as a value of VALUES; it is read up to the same place and stands in the tree with the same value.", "quantifier": "every text after the keyword that does not start with a blank, all letter cases and blanks; after FROM alone every text that does not start with the word NAMED and a blank", "why_tests_cant": "all names and all texts after them; each place has its own list of alternatives, and one tried too early would take some names", "anchors": ["src/terminals.rs::iri", "src/terminals.rs::named_iri", "src/terminals.rs::default_or_named_iri", "src/graph.rs::graph_ref", "src/graph.rs::graph_graph_pattern", "src/graph.rs::graph_term", "src/var.rs::verb", "src/var.rs::var_or_iri", "src/data.rs::datablock_value", "src/terminals.rs::rdf_literal"]}
{"id": "C83", "title": "Literals and variables are read alike wherever they stand", "statement": "A text is accepted as a string, numeric or boolean literal in a triple exactly when it is accepted as such a literal in VALUES and as an operand of an expression; a variable is accepted as a subject or object exactly when it is accepted as a verb, as an operand, after GROUP BY and after ORDER BY. Each time it is read up to the same place and stands in the tree with the same value.", "quantifier": "every text", "why_tests_cant": "all texts, accepted or not; each place has its own list of alternatives in its own order", "anchors": ["src/graph.rs::graph_term", "src/data.rs::datablock_value", "src/expression/mod.rs::primary_expression", "src/var.rs::var_or_term", "src/var.rs::verb", "src/group.rs::group_condition", "src/order.rs::order_condition"]}
{"id": "C84", "title": "Brackets may be added around an expression", "statement": "An expression that is read up to a closing bracket is also read when any number of brackets is put around it, with any blanks after the opening ones; the tree then has one bracketed operand for each pair and the same expression inside. So FILTER takes an expression in any number of brackets. Conversely, an expression that starts with a bracket has inside it an expression that is read by itself up to the closing bracket, and its tree starts with that operand.", "quantifier": "every expression, every number of brackets, all blanks, every continuation", "why_tests_cant": "unbounded nesting, all expressions", "anchors": ["src/expression/mod.rs::bracketted_expression", "src/expression/mod.rs::primary_expression", "src/expression/mod.rs::expression", "src/expression/functions.rs::filter"]}
{"id": "C85", "title": "Braces may be added around a group", "statement": "A group, from its opening brace to the brace closing it, is accepted exactly if it is accepted in any number of further braces, with any blanks after the opening braces and some blank before the closing ones, and whatever follows; the tree then has a group of one group for each pair and the tree of the inner group inside.", "quantifier": "every block, accepted or not; every number of braces; all blanks; every continuation", "why_tests_cant": "unbounded nesting, all groups, in both directions", "anchors": ["src/graph.rs::group_graph_pattern", "src/graph.rs::group_graph_pattern_sub", "src/graph.rs::group_or_union_graph_pattern"]}
{"id": "C86", "title": "Groups joined with UNION are read in order, each as it is read alone", "statement": "Groups, each from its opening brace to the brace closing it, joined with the word UNION between blanks, are read as one pattern. Its members are the trees that the groups have when read alone, in the order they were written, none missing. If some group is rejected, the pattern ends in front of the UNION before it.", "quantifier": "every number of blocks, accepted or not; all blanks and cases of the word; every continuation that does not start with UNION", "why_tests_cant": "chains of any length, all groups, in both directions", "anchors": ["src/graph.rs::group_or_union_graph_pattern", "src/graph.rs::graph_pattern_not_triples", "src/graph.rs::group_graph_pattern"]}
{"id": "C87", "title": "Brackets may be added around a path", "statement": "A property path in any number of brackets is read, with one bracketed element in the tree for each pair, exactly if the path inside is read up to the first closing bracket, and can then be the verb of a triple. A path that starts with a bracket has inside it a path that is read by itself up to the closing bracket.", "quantifier": "every path text, read or not; every number of brackets; every continuation that does not go on with the path", "why_tests_cant": "unbounded nesting, all paths, in both directions", "anchors": ["src/path.rs::path_alternative", "src/path.rs::path_primary", "src/path.rs::path_elt", "src/path.rs::verb_path_or_simple"]}
{"id": "C88", "title": "A group of groups is read group by group", "statement": "A group that consists of groups, each of them plain, a chain of groups joined with UNION, or behind OPTIONAL, MINUS, GRAPH, SERVICE, FILTER EXISTS or FILTER NOT EXISTS and followed by a blank, is accepted exactly if each of the inner groups is accepted by itself, whatever follows. Its tree has one pattern for each inner group or chain, of the kind that was written, with the name and the SILENT that were written, and with the trees the inner groups have by themselves, in the order written, none missing and none added.", "quantifier": "every list of blocks, accepted or not; all blanks and cases of the words; every continuation", "why_tests_cant": "lists of any length, all groups, in both directions", "anchors": ["src/graph.rs::group_graph_pattern", "src/graph.rs::group_graph_pattern_sub", "src/graph.rs::graph_pattern_not_triples", "src/graph.rs::optional_group_graph_pattern", "src/graph.rs::minus_graph_pattern", "src/graph.rs::graph_graph_pattern", "src/graph.rs::service_graph_pattern", "src/expression/functions.rs::filter", "src/expression/functions.rs::constraint"]}
{"id": "C89", "title": "A request of data statements is read statement by statement", "statement": "INSERT DATA, DELETE DATA or DELETE WHERE in front of a block is read exactly if the block is read by itself, as the statement its words name, and reading stops behind the block whatever follows. A request of such statements joined with semicolons is read to its end exactly if every block is; its tree then has one statement for each that was written, of that kind, with the quads its block has by itself, in order. If some block is refused, reading stops in front of the first statement with such a block and the tree ends with an empty request there.", "quantifier": "every non-empty list of statements, accepted or not; all blanks and cases of the words; every continuation that does not go on with a semicolon", "why_tests_cant": "requests of any length with all blocks, in both directions", "anchors": ["src/update.rs::update", "src/update.rs::update_stmt", "src/operations.rs::insert_data", "src/operations.rs::delete_data", "src/operations.rs::delete_where_data", "src/quads.rs::quads_pattern"]}
{"id": "C90", "title": "INSERT with USING and WHERE is read if its two blocks are", "statement": "INSERT in front of a block of quads, then USING clauses, WHERE and a group, is read exactly if the quads and the group are each read by themselves. The tree then has the quads and the group the blocks have by themselves and the graphs of the USING clauses in order, default or named as written, and reading stops behind the group whatever follows. As a request of its own, such a statement is read to its end exactly if both blocks are.", "quantifier": "all pairs of blocks, accepted or not; every non-empty list of USING clauses; all blanks and cases of the words; every continuation", "why_tests_cant": "blocks of any size and depth and any number of clauses, in both directions", "anchors": ["src/operations.rs::modify_stmt", "src/operations.rs::delete_insert", "src/update.rs::update_stmt", "src/update.rs::update", "src/quads.rs::quads_pattern", "src/graph.rs::group_graph_pattern"]}
{"id": "C91", "title": "The braces of VALUES are read alone", "statement": "A VALUES clause with one variable, or a list of variables in brackets, and its braces is accepted in front of anything exactly if it is accepted by itself; the tree is the same and reading stops behind the braces. The tree has the variables as written, in order, and is of their kind. The rows in it depend on the braces alone: other names, or with brackets another number of names, give the same rows or the same refusal.", "quantifier": "all variables and lists of variables; all texts between balanced braces, accepted or not; all blanks and cases of the word; every continuation", "why_tests_cant": "braces of any size, all continuations, in both directions", "anchors": ["src/data.rs::inline_data", "src/data.rs::datablock", "src/data.rs::inline_data_one_var", "src/data.rs::inline_data_full"]}
