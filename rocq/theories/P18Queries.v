(** C18: well-formed queries are accepted with their own tree. *)
From Verif Require Import LMods LPrintEx LGen4 LEx2 LEx.
Open Scope list_scope.
Open Scope N_scope.

(** [W_query_stmt q t r]: [t] is a safe concrete form of the statement [q] in front of [r]: prologue, query
    form, data sets, graph patterns of any depth (groups, unions, OPTIONAL, MINUS, GRAPH, SERVICE, filters,
    BIND, inline data, sub-selects, triples), solution modifiers and VALUES.  Missing from the full
    statement: the concrete forms the code does not read, marked "departure" in Layout*.v (below). *)
Theorem C18_statement_partial : forall q t r, W_query_stmt q t r -> sparql_query_stmt (t ++ r) = Ok r q.
Proof. exact rd_query_stmt. Qed.
Print Assumptions C18_statement_partial.
Theorem C18_whole_text_partial : forall q t, W_query_stmt q t [] -> sparql_query_stmt t = Ok [] q.
Proof. intros q t H. rewrite <- (app_nil_r t) at 1. now apply rd_query_stmt. Qed.
Print Assumptions C18_whole_text_partial.
Theorem C18_query_partial : forall q t r, W_query q t r -> sparql_query (t ++ r) = Ok r q.
Proof. exact rd_query. Qed.
Print Assumptions C18_query_partial.
Theorem C18_pattern_partial : forall g t r, W_ggp g t r -> group_graph_pattern (t ++ r) = Ok r g.
Proof. exact rd_ggp. Qed.
Print Assumptions C18_pattern_partial.
(** A text has at most one tree. *)
Theorem C18_one_tree : forall q q' t r, W_query_stmt q t r -> W_query_stmt q' t r -> q = q'.
Proof. intros q q' t r H H'. apply rd_query_stmt in H, H'. congruence. Qed.
Print Assumptions C18_one_tree.

(** The canonical form: [print w x n q] (Print.v) writes the statement [q], nested at most [n] deep, with the
    keywords in the case chosen by [w] and the text [x] - spaces, tabs, line ends, comments - for every blank.  Parsing gives back exactly [q]; at most a blank is left.  Missing from the
    full statement: the trees outside [printable], all marked "departure" in Print.v, and there are: nested blank
    node property lists and collections, non-empty argument lists, ABS, CEIL, FLOOR and ROUND. *)
Theorem C18_round_trip_partial : forall w x n q, casing w -> blank1 x -> printable n q ->
  exists b, blank b /\ sparql_query_stmt (print w x n q) = Ok b q.
Proof. intros w x n q Hw Hx. exact (print_read w Hw (MkBlanks x Hx) n q). Qed.
Print Assumptions C18_round_trip_partial.
(** Different queries have different texts, however they are written. *)
Theorem C18_injective : forall w w' x x' n m q q', casing w -> casing w' -> blank1 x -> blank1 x' -> printable n q -> printable m q' ->
  print w x n q = print w' x' m q' -> q = q'.
Proof.
  intros w w' x x' n m q q' Hw Hw' Hx Hx' H H' E.
  destruct (print_read w Hw (MkBlanks x Hx) n q H) as (b & _ & X), (print_read w' Hw' (MkBlanks x' Hx') m q' H') as (b' & _ & Y).
  cbn [btext] in *. congruence.
Qed.
Print Assumptions C18_injective.

(** Usual forms that are not read, in any ASK query (the projection of several variables: see C55).
    A variable as object after an IRI, ... *)
Theorem C18_object_refuted : forall t b v tv b1 i ti b2 c x r q,
  W_ask_open t (123 :: b ++ tv ++ b1 ++ ti ++ b2 ++ 63 :: c :: x) -> blank b ->
  W_var v tv (b1 ++ ti ++ b2 ++ 63 :: c :: x) -> blank1 b1 -> solid (ti ++ b2 ++ 63 :: c :: x) -> W_iri i ti (b2 ++ 63 :: c :: x) -> blank1 b2 ->
  var_char c = true -> sparql_query_stmt (t ++ 123 :: b ++ tv ++ b1 ++ ti ++ b2 ++ 63 :: c :: x) <> Ok r q.
Proof. exact ask_question. Qed.
Print Assumptions C18_object_refuted.
(** ... a dot after the last triple of a block, ... *)
Theorem C18_dot_refuted : forall t b0 l tt b b' x r q, W_ask_open t (123 :: b0 ++ tt ++ b ++ 46 :: b' ++ x) -> blank b0 ->
  sep1W W_tssp dotsW (fun r => r = b ++ 46 :: b' ++ x) l tt (b ++ 46 :: b' ++ x) -> blank b -> blank b' -> solid x -> not_first 46 x -> no_block x ->
  solid (tt ++ b ++ 46 :: b' ++ x) -> ~ begins "select" (tt ++ b ++ 46 :: b' ++ x) ->
  sparql_query_stmt (t ++ 123 :: b0 ++ tt ++ b ++ 46 :: b' ++ x) <> Ok r q.
Proof. exact ask_dot. Qed.
Print Assumptions C18_dot_refuted.
(** ... and a closing brace directly after a pattern. *)
Theorem C18_brace_refuted : forall t b0 o l tt y r q, W_ask_open t (123 :: b0 ++ tt ++ 125 :: y) -> blank b0 ->
  (optW (fun t => W_triples_block t >> gap) no_block o >>
   sep1W (W_pattern_and_triples W_expression W_ggp) gap1 (fun r => r = 125 :: y) l) tt (125 :: y) ->
  solid (tt ++ 125 :: y) -> ~ begins "select" (tt ++ 125 :: y) -> sparql_query_stmt (t ++ 123 :: b0 ++ tt ++ 125 :: y) <> Ok r q.
Proof. exact ask_brace. Qed.
Print Assumptions C18_brace_refuted.

(** the same queries, the first of each pair written as it is read *)
Example C18_pairs :
  (exists q, sparql_query_stmt (s_ "ASK {?s ?p ?o}") = Ok [] q) /\
  (exists p k, sparql_query_stmt (s_ "ASK {?s ?p ?o .}") = Err (Error p k)) /\ (exists p k, sparql_query_stmt (s_ "ASK {?s <p> ?o}") = Err (Error p k)) /\
  (exists q, sparql_query_stmt (s_ "ASK { {} }") = Ok [] q) /\ (exists p k, sparql_query_stmt (s_ "ASK { {}}") = Err (Error p k)) /\
  (exists q, sparql_query_stmt (s_ "SELECT ?a?b {?a ?b ?c}") = Ok [] q) /\ (exists p k, sparql_query_stmt (s_ "SELECT ?a ?b {?a ?b ?c}") = Err (Error p k)).
Proof. repeat split; repeat eexists; vm_compute; reflexivity. Qed.
Example C18_open : W_ask_open (s_ "PREFIX ab: <u> ASK ") (s_ "{?s <p> ?o}") /\ W_var (QMark (s_ "s")) (s_ "?s") (s_ " <p> ?o}") /\
  W_iri (IriIri (s_ "p")) (s_ "<p>") (s_ " ?o}").
Proof.
  split; [exists (MkPrologue [DeclPrefix (MkPrefixDecl (Some (s_ "ab")) (s_ "u"))]); texts; lay|]. split; texts; lay.
Qed.

Example C18_ask : exists q, let t := s_ "ASK {}" in W_query_stmt q t [] /\ sparql_query_stmt t = Ok [] q.
Proof. eexists. cbv zeta. split; [|vm_compute; reflexivity]. texts. lay. Qed.
Example C18_depth : exists q, let t := s_ "ASK { {?a ?b ?c} UNION { OPTIONAL { MINUS {?x ?y ?z} } } FILTER (?a < 3) }" in
  W_query_stmt q t [] /\ sparql_query_stmt t = Ok [] q.
Proof. eexists. cbv zeta. split; [|vm_compute; reflexivity]. texts. lay. Qed.
Example C18_clauses : exists q, let t := s_ "PREFIX ab: <http://x> SELECT DISTINCT ?a FROM <http://g> WHERE {?a ?b ?c}  ORDER BY DESC (?a) LIMIT 5" in
  W_query_stmt q t [] /\ sparql_query_stmt t = Ok [] q.
Proof. eexists. cbv zeta. split; [|vm_compute; reflexivity]. texts. lay. Qed.
Example C18_construct : exists q, let t := s_ "CONSTRUCT {?a ?b ?c } WHERE { GRAPH ?g {?a ?b ?c} }" in
  W_query_stmt q t [] /\ sparql_query_stmt t = Ok [] q.
Proof. eexists. cbv zeta. split; [|vm_compute; reflexivity]. texts. lay. Qed.
Example C18_describe : exists q, let t := s_ "DESCRIBE ?x <http://a> WHERE {}" in
  W_query_stmt q t [] /\ sparql_query_stmt t = Ok [] q.
Proof. eexists. cbv zeta. split; [|vm_compute; reflexivity]. texts. lay. Qed.
(** a query with most kinds of clauses *)
Example C18_sample : printable 3 sample /\ print cap_words (s_ " ") 3 sample = s_ "PREFIX ab: <http://x> SELECT DISTINCT ?a( COUNT(?a ) AS ?n ) FROM NAMED <http://g> WHERE { ?a <p> | ^ab:cd -0.10000000000000000555111512312578270211815834045410156250e-3 OPTIONAL { ?a ?b 'say ""x""'@en } ? ?d ?e ?f FILTER ( ! ?a = 3 * 4 && ?x < 7 ) } GROUP BY ?a ORDER BY DESC ( ?a ) LIMIT 5 OFFSET 3 VALUES ?x { 1 UNDEF TRUE }" /\
  sparql_query_stmt (print cap_words (s_ " ") 3 sample) = Ok [] sample.
Proof. split; [exact sample_printable|split; vm_compute; reflexivity]. Qed.
(** names with an empty prefix where the keyword before them could be their prefix *)
Example C18_names : printable 3 names_sample /\ print cap_words (s_ " ") 3 names_sample = s_ "SELECT * FROM :gg WHERE { ?s <p> * ?o GRAPH :gg { ?s :pp 1 } SERVICE :ss { } FILTER :ff () VALUES ?x { :aa :bb 1 :cc UNDEF } } " /\
  sparql_query_stmt (print cap_words (s_ " ") 3 names_sample) = Ok [] names_sample.
Proof. split; [exact names_printable|split; vm_compute; reflexivity]. Qed.
