(** Model of the parsers that are mutually recursive through [expression] and
    [group_graph_pattern]: src/expression/{mod,functions}.rs, src/arithmetic.rs, src/call.rs,
    src/aggregate.rs, src/order.rs, src/group.rs, src/clauses.rs, src/query/select.rs and the graph
    patterns of src/graph.rs.  Each Rust function [f] of the cycle is written [f_of] and takes the
    two recursive parsers [e] (for [expression]) and/or [g] (for [group_graph_pattern]); the knot
    is tied at the end of the file. *)
From Verif Require Export MPath.

(** ** src/expression/mod.rs *)

(** the recurring [sp_enc(char(','))] *)
Definition comma : parser char := sp_enc (chr (c_ ",")).
(** the recurring [separated_pair(expression, sp_enc(char(',')), expression)] *)
Definition expr2_of {E} (e : parser E) : parser (E * E) := separated_pair e comma e.

(** expression/mod.rs:108-117 [bracketted3], 119-123 [bracketted_expr3] *)
Definition bracketted_expr3_of {E} (e : parser E) : parser (E * (E * option E)) :=
  bracketted (tuple3 e (preceded comma e) (opt (preceded comma e))).

(** expression/mod.rs:125-137 [expression_as_var_opt] *)
Definition expression_as_var_opt_of {E} (e : parser E) : parser (ExpressionAsVarOpt E) :=
  delimited (chr (c_ "("))
    (sp_enc (map (pair e (opt (preceded (sp_enc1 (tag_no_case (s_ "as"))) var)))
               (fun '(x, v) => MkExpressionAsVarOpt x v)))
    (chr (c_ ")")).

(** expression/mod.rs:139-151 [expression_as_var] *)
Definition expression_as_var_of {E} (e : parser E) : parser (ExpressionAsVar E) :=
  delimited (chr (c_ "("))
    (sp_enc (map (separated_pair e (sp_enc (tag_no_case (s_ "as"))) var)
               (fun '(x, v) => MkExpressionAsVar x v)))
    (chr (c_ ")")).

(** expression/mod.rs:167-179 [expression_list] *)
Definition expression_list_of {E} (e : parser E) : parser (ExpressionList E) :=
  alt [ map nil_ (fun _ => ElNil);
        map (delimited (chr (c_ "(")) (separated_nonempty_list comma e) (chr (c_ ")"))) ElList ].

(** expression/mod.rs:181-192 [distinct_expression] *)
Definition distinct_expression_of {E} (e : parser E) : parser (DistinctExpression E) :=
  map (pair opt_distinct e) (fun '(d, x) => MkDistinctExpression d x).

(** expression/mod.rs:194-196 [bracketted_expression] *)
Definition bracketted_expression_of {E} (e : parser E) : parser E := bracketted (sp_enc e).

(** expression/mod.rs:198-200 [bind] *)
Definition bind_of {E} (e : parser E) : parser (ExpressionAsVar E) :=
  preceded_tag1 (s_ "bind") (expression_as_var_of e).

(** ** src/call.rs: arguments *)

(** call.rs:296-314 [arg_list] *)
Definition arg_list_of {E} (e : parser E) : parser (ArgList E) :=
  alt [ map nil_ (fun _ => AlNil);
        map (delimited (terminated (chr (c_ "(")) sp)
               (pair opt_distinct (separated_nonempty_list comma e))
               (chr (c_ ")")))
          (fun '(d, es) => AlExpression d es) ].

(** call.rs:90-94 [function_call] *)
Definition function_call_of {E} (e : parser E) : parser (FunctionCall E) :=
  map (separated_pair iri sp (arg_list_of e)) (fun '(i, a) => MkFunctionCall i a).

(** terminals.rs:259-264 [iri_or_fun] *)
Definition iri_or_fun_of {E} (e : parser E) : parser (IriOrFunction E) :=
  map (pair iri (opt (preceded sp1 (arg_list_of e)))) (fun '(i, a) => MkIriOrFunction i a).

(** ** src/expression/functions.rs *)

(** functions.rs:35-44 [regex_expression] *)
Definition regex_expression_of {E} (e : parser E) : parser (RegexExpression E) :=
  map (preceded_tag1 (s_ "regex") (bracketted_expr3_of e)) (fun '(a, (b, c)) => MkRegex a b c).

(** functions.rs:46-55 [substring_expression] *)
Definition substring_expression_of {E} (e : parser E) : parser (RegexExpression E) :=
  map (preceded_tag1 (s_ "substr") (bracketted_expr3_of e)) (fun '(a, (b, c)) => MkRegex a b c).

(** functions.rs:57-72 [str_replace_expression] *)
Definition str_replace_expression_of {E} (e : parser E) : parser (StrReplaceExpression E) :=
  map (bracketted (tuple4 e (preceded comma e) (preceded comma e) (opt (preceded comma e))))
    (fun '(a, (b, (c, d))) => MkStrReplace a b c d).

(** ** src/aggregate.rs *)

(** aggregate.rs:26-38 [Aggregate::is_distinct] *)
Definition is_distinct {E} (a : Aggregate E) : bool :=
  match a with
  | AgSum (MkDistinctExpression d _) | AgMin (MkDistinctExpression d _)
  | AgMax (MkDistinctExpression d _) | AgAvg (MkDistinctExpression d _)
  | AgSample (MkDistinctExpression d _) => d
  | AgCount (MkCount d _) => d
  | AgGroupConcat (MkGroupConcat (MkDistinctExpression d _) _) => d
  end.

(** aggregate.rs:85-90 [count_target] *)
Definition count_target_of {E} (e : parser E) : parser (CountTarget E) :=
  alt [ map (chr (c_ "*")) (fun _ => CtAll); map e CtExpr ].

(** aggregate.rs:92-103 [count] *)
Definition count_of {E} (e : parser E) : parser (Count E) :=
  map (preceded_tag (s_ "count") (bracketted (pair opt_distinct (count_target_of e))))
    (fun '(d, t) => MkCount d t).

(** aggregate.rs:105-129 [group_concat] *)
Definition group_concat_of {E} (e : parser E) : parser (GroupConcat E) :=
  map (preceded_tag (s_ "group_concat")
         (bracketted
            (pair (distinct_expression_of e)
               (opt (preceded sp
                       (preceded
                          (tuple3 (chr (c_ ";")) (sp_enc (tag_no_case (s_ "separator")))
                             (terminated (chr (c_ "=")) sp))
                          string_literal))))))
    (fun '(x, s) => MkGroupConcat x s).

(** aggregate.rs:58-83 [aggregate] *)
Definition aggregate_of {E} (e : parser E) : parser (Aggregate E) :=
  alt [ map (count_of e) AgCount;
        map (preceded_bracketted (s_ "sum") (distinct_expression_of e)) AgSum;
        map (preceded_bracketted (s_ "min") (distinct_expression_of e)) AgMin;
        map (preceded_bracketted (s_ "max") (distinct_expression_of e)) AgMax;
        map (preceded_bracketted (s_ "avg") (distinct_expression_of e)) AgAvg;
        map (preceded_bracketted (s_ "sample") (distinct_expression_of e)) AgSample;
        map (group_concat_of e) AgGroupConcat ].

(** ** src/call.rs: built-in calls *)

(** [map(preceded_bracketted(name, expression), ctor)] *)
Definition call1 {E G} (e : parser E) (name : str) (k : E -> BuiltInCall E G)
  : parser (BuiltInCall E G) := map (preceded_bracketted name e) k.
(** [map(preceded_bracketted(name, separated_pair(expression, sp_enc(char(',')), expression)),
    ctor)] *)
Definition call2 {E G} (e : parser E) (name : str) (k : E -> E -> BuiltInCall E G)
  : parser (BuiltInCall E G) := map (preceded_bracketted name (expr2_of e)) (fun '(a, b) => k a b).
(** [map(preceded_bracketted(name, nil), |_| ctor)] *)
Definition call0 {E G} (name : str) (k : BuiltInCall E G) : parser (BuiltInCall E G) :=
  map (preceded_bracketted name nil_) (fun _ => k).

(** call.rs:96-162 [built_in_call_1] *)
Definition built_in_call_1_of {E G} (e : parser E) : parser (BuiltInCall E G) :=
  alt [ map (aggregate_of e) BiAggregate;
        call1 e (s_ "str") BiStr;
        call1 e (s_ "lang") BiLang;
        call2 e (s_ "langmatches") BiLangMatches;
        call1 e (s_ "datatype") BiDatatype;
        map (preceded_bracketted (s_ "bound") var) BiBound;
        call1 e (s_ "iri") BiIri;
        call1 e (s_ "uri") BiUri;
        map (preceded_bracketted (s_ "bnode") (alt [ map e Some; map nil_ (fun _ => None) ])) BiBnode;
        call0 (s_ "rand") BiRand;
        call1 e (s_ "abs") BiUri;
        call1 e (s_ "ceil") BiUri;
        call1 e (s_ "floor") BiUri;
        call1 e (s_ "round") BiUri;
        map (preceded_tag1 (s_ "concat")
               (separated_pair (expression_list_of e) sp (substring_expression_of e)))
          (fun '(l, s) => BiConcat l s);
        map (preceded_tag1 (s_ "strlen")
               (separated_pair (bracketted_expression_of e) sp (str_replace_expression_of e)))
          (fun '(x, s) => BiStrLen x s);
        call1 e (s_ "ucase") BiUCase;
        call1 e (s_ "lcase") BiLCase;
        call1 e (s_ "encode_for_uri") BiEncodeForUri;
        call2 e (s_ "strlen") BiContains;
        call2 e (s_ "strstarts") BiStrStarts ].

(** call.rs:164-210 [built_in_call_2] *)
Definition built_in_call_2_of {E G} (e : parser E) : parser (BuiltInCall E G) :=
  alt [ call2 e (s_ "strends") BiStrEnds;
        call2 e (s_ "strbefore") BiStrBefore;
        call2 e (s_ "strafter") BiStrAfter;
        call1 e (s_ "year") BiYear;
        call1 e (s_ "month") BiMonth;
        call1 e (s_ "day") BiDay;
        call1 e (s_ "hours") BiHours;
        call1 e (s_ "minutes") BiMinutes;
        call1 e (s_ "seconds") BiSeconds;
        call1 e (s_ "timezone") BiTimezone;
        call1 e (s_ "tz") BiTz;
        call0 (s_ "now") BiNow;
        call0 (s_ "uuid") BiUUID;
        call0 (s_ "struuid") BiStrUUID ].

(** call.rs:212-294 [built_in_call] *)
Definition built_in_call_of {E G} (e : parser E) (g : parser G) : parser (BuiltInCall E G) :=
  alt [ built_in_call_1_of e;
        built_in_call_2_of e;
        call1 e (s_ "md5") BiMD5;
        call1 e (s_ "sha1") BiSHA1;
        call1 e (s_ "sha256") BiSHA256;
        call1 e (s_ "sha384") BiSHA384;
        call1 e (s_ "sha512") BiSHA512;
        map (preceded_tag1 (s_ "coalesce") (expression_list_of e)) BiCoalesce;
        map (preceded_bracketted (s_ "if") (tuple3 e (preceded comma e) (preceded comma e)))
          (fun '(a, (b, c)) => BiIf a b c);
        call2 e (s_ "strlang") BiStrLang;
        call2 e (s_ "strdt") BiStrDt;
        call2 e (s_ "sameterm") BiSameTerm;
        call1 e (s_ "isiri") BiIsIri;
        call1 e (s_ "isuri") BiIsUri;
        call1 e (s_ "isblank") BiIsBlank;
        call1 e (s_ "isliteral") BiIsLiteral;
        call1 e (s_ "isnumeric") BiIsNumeric;
        map (regex_expression_of e) BiRegex;
        map (preceded_tag1 (s_ "exists") g) BiExistsFunc;
        map (tuple3 (tag_no_case (s_ "not")) (sp_enc1 (tag_no_case (s_ "exists"))) g)
          (fun '(_, (_, x)) => BiNotExistsFunc x) ].

(** expression/mod.rs:153-165 [primary_expression] *)
Definition primary_expression_of {E G} (e : parser E) (g : parser G)
  : parser (PrimaryExpression E G) :=
  alt [ map (bracketted_expression_of e) PeBracketted;
        map (built_in_call_of e g) PeBuiltInCall;
        map (iri_or_fun_of e) PeIriOrFunction;
        map rdf_literal PeRdfLiteral;
        map numeric_literal PeNumericLiteral;
        map boolean PeBooleanLiteral;
        map var PeVar ].

(** ** src/arithmetic.rs *)

(** arithmetic.rs:110-117 [unary_expression] *)
Definition unary_expression_of {E G} (e : parser E) (g : parser G) : parser (UnaryExpression E G) :=
  alt [ map (preceded_tag (s_ "!") (primary_expression_of e g)) UnNot;
        map (preceded_tag (s_ "+") (primary_expression_of e g)) UnAdd;
        map (preceded_tag (s_ "-") (primary_expression_of e g)) UnSub;
        map (primary_expression_of e g) UnDefault ].

(** arithmetic.rs:162-167 [mult_expression] *)
Definition mult_expression_of {E G} (e : parser E) (g : parser G) : parser (MultExpression E G) :=
  alt [ map (preceded_tag (s_ "*") (unary_expression_of e g)) MuMult;
        map (preceded_tag (s_ "/") (unary_expression_of e g)) MuDiv ].

(** arithmetic.rs:152-160 [multiplicative_expression] *)
Definition multiplicative_expression_of {E G} (e : parser E) (g : parser G)
  : parser (MultiplicativeExpression E G) :=
  map (pair (unary_expression_of e g) (preceded sp (separated_list sp (mult_expression_of e g))))
    (fun '(l, r) => MkMultiplicative l r).

(** arithmetic.rs:129-150 [add_expression] *)
Definition add_expression_of {E G} (e : parser E) (g : parser G) : parser (AddExpression E G) :=
  alt [ map (preceded_tag (s_ "+") (multiplicative_expression_of e g)) AddAdd;
        map (preceded_tag (s_ "-") (multiplicative_expression_of e g)) AddSub;
        map (pair numeric_literal (preceded sp (separated_list sp (mult_expression_of e g))))
          (fun '(n, l) => AddNumeric n l) ].

(** arithmetic.rs:119-127 [additive_expression] *)
Definition additive_expression_of {E G} (e : parser E) (g : parser G)
  : parser (AdditiveExpression E G) :=
  map (pair (multiplicative_expression_of e g)
         (preceded sp (separated_list sp (add_expression_of e g))))
    (fun '(l, r) => MkAdditive l r).

(** arithmetic.rs:169-186 [op_expression]; the two keywords of NOT IN are streaming tags
    (arithmetic.rs:8) *)
Definition op_expression_of {E G} (e : parser E) (g : parser G) : parser (OpExpression E G) :=
  alt [ map (preceded_tag (s_ "=") (additive_expression_of e g)) OpEQ;
        map (preceded_tag (s_ "!=") (additive_expression_of e g)) OpNE;
        map (preceded_tag (s_ "<") (additive_expression_of e g)) OpLT;
        map (preceded_tag (s_ ">") (additive_expression_of e g)) OpGT;
        map (preceded_tag (s_ "<=") (additive_expression_of e g)) OpLE;
        map (preceded_tag (s_ ">=") (additive_expression_of e g)) OpGE;
        map (preceded_tag (s_ "in") (expression_list_of e)) OpIN;
        map (preceded (terminated (tag_no_case_streaming (s_ "not"))
                         (sp_enc1 (tag_no_case_streaming (s_ "in"))))
               (expression_list_of e)) OpNIN ].

(** arithmetic.rs:188-193 [relational_expression] *)
Definition relational_expression_of {E G} (e : parser E) (g : parser G)
  : parser (RelationalExpression E G) :=
  map (pair (additive_expression_of e g) (opt (preceded sp (op_expression_of e g))))
    (fun '(l, r) => MkRelational l r).

(** arithmetic.rs:195-200 [conditional_and_expression] *)
Definition conditional_and_expression_of {E G} (e : parser E) (g : parser G)
  : parser (ConditionalAndExpression E G) :=
  map (separated_nonempty_list (sp_enc (tag (s_ "&&"))) (relational_expression_of e g))
    MkConditionalAnd.

(** expression/mod.rs:202-207 [expression] *)
Definition expression_body (e : parser Expression) (g : parser GroupGraphPattern)
  : parser Expression :=
  map (separated_nonempty_list (sp_enc (tag (s_ "||"))) (conditional_and_expression_of e g))
    MkExpression.

(** ** src/expression/functions.rs: constraints *)

(** functions.rs:74-80 [constraint] *)
Definition constraint_of {E G} (e : parser E) (g : parser G) : parser (Constraint E G) :=
  alt [ map (bracketted_expression_of e) CoBracketted;
        map (built_in_call_of e g) CoBuiltInCall;
        map (function_call_of e) CoFunctionCall ].

(** functions.rs:82-84 [filter] *)
Definition filter_of {E G} (e : parser E) (g : parser G) : parser (Constraint E G) :=
  preceded_tag1 (s_ "filter") (constraint_of e g).

(** ** src/order.rs, src/group.rs *)

(** order.rs:31-36 [order] *)
Definition order : parser Order :=
  alt [ map (tag_no_case (s_ "asc")) (fun _ => Asc); map (tag_no_case (s_ "desc")) (fun _ => Desc) ].

(** order.rs:38-43 [order_expression] *)
Definition order_expression_of {E} (e : parser E) : parser (OrderExpression E) :=
  map (separated_pair order sp1 (bracketted_expression_of e))
    (fun '(o, x) => MkOrderExpression o x).

(** order.rs:45-55 [order_condition] *)
Definition order_condition_of {E G} (e : parser E) (g : parser G) : parser (OrderCondition E G) :=
  alt [ map (order_expression_of e) OcOrder;
        map (constraint_of e g) OcConstraint;
        map var OcVar ].

(** group.rs:43-50 [group_condition] *)
Definition group_condition_of {E G} (e : parser E) (g : parser G) : parser (GroupCondition E G) :=
  alt [ map (built_in_call_of e g) GcBuiltInCall;
        map (function_call_of e) GcFunctionCall;
        map (expression_as_var_opt_of e) GcExpressionAsVarOpt;
        map var GcVar ].

(** [terminated(delimited(tag_no_case(w), sp1, tag_no_case("by")), sp1)] *)
Definition kw_by (w : str) : parser str :=
  terminated (delimited (tag_no_case w) sp1 (tag_no_case (s_ "by"))) sp1.

(** group.rs:33-41 [group_clause] *)
Definition group_clause_of {E G} (e : parser E) (g : parser G) : parser (GroupClause E G) :=
  map (preceded (kw_by (s_ "group")) (separated_nonempty_list sp (group_condition_of e g)))
    MkGroupClause.

(** ** src/clauses.rs *)

(** clauses.rs:71-79 [order_clause] *)
Definition order_clause_of {E G} (e : parser E) (g : parser G) : parser (OrderClause E G) :=
  map (preceded (kw_by (s_ "order")) (separated_nonempty_list sp (order_condition_of e g)))
    MkOrderClause.

(** clauses.rs:81-89 [having_clause] *)
Definition having_clause_of {E G} (e : parser E) (g : parser G) : parser (HavingClause E G) :=
  map (preceded (terminated (tag_no_case (s_ "having")) sp1)
         (separated_nonempty_list sp (constraint_of e g)))
    MkHavingClause.

(** clauses.rs:54-69 [solution_modifier] *)
Definition solution_modifier_of {E G} (e : parser E) (g : parser G)
  : parser (SolutionModifier E G) :=
  map (tuple4 (opt (group_clause_of e g))
         (opt (preceded sp (having_clause_of e g)))
         (opt (preceded sp (order_clause_of e g)))
         (opt (preceded sp limit_offset_clause)))
    (fun '(gb, (h, (ob, lo))) => MkSolutionModifier ob gb h lo).

(** clauses.rs:91-96 [where_clause] *)
Definition where_clause_of {G} (g : parser G) : parser G :=
  preceded (opt (terminated (tag_no_case (s_ "where")) sp1)) g.

(** ** src/query/select.rs: SELECT clause and sub-select *)

(** query/select.rs:108-113 [select_modifier] *)
Definition select_modifier : parser SelectModifier :=
  alt [ map (tag_no_case (s_ "distinct")) (fun _ => SmDistinct);
        map (tag_no_case (s_ "reduced")) (fun _ => SmReduced) ].

(** var.rs:96-101 [var_or_expression_as_var] *)
Definition var_or_expression_as_var_of {E} (e : parser E) : parser (VarOrExpressionAsVar E) :=
  alt [ map var VoeVar; map (expression_as_var_of e) VoeExpressionAsVar ].

(** query/select.rs:98-106 [select_vars] *)
Definition select_vars_of {E} (e : parser E) : parser (SelectVars E) :=
  alt [ map (chr (c_ "*")) (fun _ => SvAll);
        map (many1 (var_or_expression_as_var_of e)) SvList ].

(** query/select.rs:87-96 [select_clause] *)
Definition select_clause_of {E} (e : parser E) : parser (SelectClause E) :=
  map (tuple3 (tag_no_case (s_ "select")) (opt (preceded sp1 select_modifier))
         (preceded sp1 (select_vars_of e)))
    (fun '(_, (m, v)) => MkSelectClause m v).

(** query/select.rs:70-85 [sub_select] *)
Definition sub_select_of {E G} (e : parser E) (g : parser G) : parser (SubSelect E G) :=
  map (tuple4 (select_clause_of e) (sp_enc (where_clause_of g)) (solution_modifier_of e g)
         (preceded sp values_clause))
    (fun '(s, (w, (m, v))) => MkSubSelect s w m v).

(** ** src/graph.rs: graph patterns *)

(** graph.rs:167-172 [group_or_union_graph_pattern] *)
Definition group_or_union_of {G} (g : parser G) : parser (GroupOrUnionGraphPattern G) :=
  map (separated_nonempty_list (sp_enc1 (tag_no_case (s_ "union"))) g) MkGroupOrUnion.

(** graph.rs:173-175 [optional_group_graph_pattern] *)
Definition optional_of {G} (g : parser G) : parser G := preceded_tag1 (s_ "optional") g.
(** graph.rs:176-178 [minus_graph_pattern] *)
Definition minus_of {G} (g : parser G) : parser G := preceded_tag1 (s_ "minus") g.

(** graph.rs:180-192 [graph_graph_pattern] *)
Definition graph_graph_pattern_of {G} (g : parser G) : parser (GraphGraphPattern G) :=
  map (tuple3 (terminated (tag_no_case (s_ "graph")) sp1) (terminated var_or_iri sp) g)
    (fun '(_, (v, x)) => MkGraphGraphPattern v x).

(** graph.rs:221-235 [service_graph_pattern] *)
Definition service_graph_pattern_of {G} (g : parser G) : parser (ServiceGraphPattern G) :=
  map (tuple4 (terminated (tag_no_case (s_ "service")) sp1) opt_silent (terminated var_or_iri sp) g)
    (fun '(_, (s, (v, x))) => MkServiceGraphPattern v s x).

(** graph.rs:148-165 [graph_pattern_not_triples] *)
Definition graph_pattern_not_triples_of {E G} (e : parser E) (g : parser G)
  : parser (GraphPatternNotTriples E G) :=
  alt [ map (group_or_union_of g) GpGroupOrUnion;
        map (optional_of g) GpOptional;
        map (minus_of g) GpMinus;
        map (graph_graph_pattern_of g) GpGraph;
        map (service_graph_pattern_of g) GpService;
        map (filter_of e g) GpFilter;
        map (bind_of e) GpBind;
        map inline_data GpInlineData ].

(** graph.rs:207-219 [group_graph_pattern_and_triples] *)
Definition ggp_and_triples_of {E G} (e : parser E) (g : parser G)
  : parser (GraphPatternAndTriples E G) :=
  map (separated_pair (graph_pattern_not_triples_of e g) (opt (preceded sp (chr (c_ "?"))))
         (opt (preceded sp triples_block)))
    (fun '(p, t) => MkGraphPatternAndTriples p t).

(** graph.rs:194-205 [group_graph_pattern_sub] *)
Definition ggp_sub_of {E G} (e : parser E) (g : parser G) : parser (GroupGraphPatternSub E G) :=
  map (pair (opt (terminated triples_block sp)) (separated_list sp (ggp_and_triples_of e g)))
    (fun '(t, l) => MkGroupGraphPatternSub t l).

(** graph.rs:237-249 [group_graph_pattern] *)
Definition ggp_body (e : parser Expression) (g : parser GroupGraphPattern)
  : parser GroupGraphPattern :=
  delimited (chr (c_ "{"))
    (sp_enc (alt [ map (sub_select_of e g) GgpSubSelect; map (ggp_sub_of e g) GgpSub ]))
    (chr (c_ "}")).

(** ** Tying the knot *)

Definition ggp_of (e : parser Expression) : parser GroupGraphPattern := fixp (ggp_body e).
(** expression/mod.rs:202 [expression] *)
Definition expression : parser Expression := fixp (fun e => expression_body e (ggp_of e)).
(** graph.rs:237 [group_graph_pattern] *)
Definition group_graph_pattern : parser GroupGraphPattern := ggp_of expression.

Definition built_in_call := built_in_call_of expression group_graph_pattern.
Definition primary_expression := primary_expression_of expression group_graph_pattern.
Definition relational_expression := relational_expression_of expression group_graph_pattern.
Definition aggregate := aggregate_of expression.
Definition arg_list := arg_list_of expression.
Definition expression_list := expression_list_of expression.
Definition function_call := function_call_of expression.
Definition iri_or_fun := iri_or_fun_of expression.
Definition constraint := constraint_of expression group_graph_pattern.
Definition filter := filter_of expression group_graph_pattern.
Definition bind := bind_of expression.
Definition expression_as_var := expression_as_var_of expression.
Definition graph_pattern_not_triples := graph_pattern_not_triples_of expression group_graph_pattern.
Definition group_graph_pattern_sub := ggp_sub_of expression group_graph_pattern.
Definition select_clause := select_clause_of expression.
Definition sub_select := sub_select_of expression group_graph_pattern.
Definition solution_modifier := solution_modifier_of expression group_graph_pattern.
Definition where_clause := where_clause_of group_graph_pattern.
Definition order_condition := order_condition_of expression group_graph_pattern.
Definition order_clause := order_clause_of expression group_graph_pattern.
Definition group_clause := group_clause_of expression group_graph_pattern.
Definition having_clause := having_clause_of expression group_graph_pattern.
