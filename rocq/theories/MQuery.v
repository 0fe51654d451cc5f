(** Model of src/query/*.rs and src/parser.rs: the query forms and the public entry points. *)
From Verif Require Export MExpr.

(** query/select.rs:53-68 [select_query] *)
Definition select_query : parser SelectQuery :=
  map (tuple4 (terminated select_clause sp1) (separated_list sp data_set_clause)
         (sp_enc where_clause) solution_modifier)
    (fun '(s, (d, (w, m))) => MkSelectQuery s d w m).

(** query/ask.rs:18-32 [ask_query] *)
Definition ask_query : parser AskQuery :=
  map (tuple4 (terminated (tag_no_case (s_ "ask")) sp1)
         (terminated (separated_list sp data_set_clause) sp)
         (terminated where_clause sp) solution_modifier)
    (fun '(_, (d, (w, m))) => MkAskQuery d w m).

(** query/describe.rs:24-40 [describe_query] *)
Definition describe_query : parser DescribeQuery :=
  map (tuple5 (tag_no_case (s_ "describe")) (sp_enc1 var_or_iris_or_all)
         (terminated (separated_list sp data_set_clause) sp)
         (opt (terminated where_clause sp)) solution_modifier)
    (fun '(_, (v, (d, (w, m)))) => MkDescribeQuery d v w m).

(** query/construct.rs:46-60 [sub_triples] *)
Definition sub_triples : parser SubTriples :=
  map (tuple4 (terminated (separated_list sp data_set_clause) sp)
         (terminated (tag_no_case (s_ "where")) sp1)
         (delimited (chr (c_ "{")) (sp_enc (opt triples_template)) (chr (c_ "}")))
         (preceded sp solution_modifier))
    (fun '(d, (_, (t, m))) => MkSubTriples d t m).

(** query/construct.rs:62-77 [sub_construct] *)
Definition sub_construct : parser SubConstruct :=
  map (tuple4 (terminated construct_template sp1)
         (terminated (separated_list sp data_set_clause) sp)
         (terminated where_clause sp) solution_modifier)
    (fun '(t, (d, (w, m))) => MkSubConstruct t d w m).

(** query/construct.rs:79-87 [construct_query] *)
Definition construct_query : parser ConstructQuery :=
  preceded_tag1 (s_ "construct")
    (alt [ map sub_construct CqSubConstruct; map sub_triples CqSubTriples ]).

(** parser.rs:28-35 [sparql_query] *)
Definition sparql_query : parser SparqlQuery :=
  alt [ map select_query SqSelect;
        map construct_query SqConstruct;
        map describe_query SqDescribe;
        map ask_query SqAsk ].

(** parser.rs:13-26 [sparql_query_stmt] *)
Definition sparql_query_stmt : parser SparqlQueryStatement :=
  map (tuple3 (terminated prologue sp) sparql_query
         (opt (preceded sp1 (preceded_tag1 (s_ "values") datablock))))
    (fun '(p, (q, v)) => MkSparqlQueryStatement p q v).
