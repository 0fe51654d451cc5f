(** C16: the text a parser accepts is a writing of the tree it returns (grammar: Spec.v). *)
From Verif Require Import LMono.
Open Scope list_scope.

Theorem C16_query_stmt_sound : forall i r q,
  sparql_query_stmt i = Ok r q -> exists t, i = t ++ r /\ R_query_stmt q t.
Proof. exact sd_sparql_query_stmt. Qed.
Print Assumptions C16_query_stmt_sound.

Theorem C16_query_sound : forall i r q, sparql_query i = Ok r q -> exists t, i = t ++ r /\ R_query q t.
Proof. exact sd_sparql_query. Qed.
Print Assumptions C16_query_sound.

Theorem C16_select_sound : forall i r q,
  select_query i = Ok r q -> exists t, i = t ++ r /\ R_select_query q t.
Proof. exact sd_select_query. Qed.
Print Assumptions C16_select_sound.
Theorem C16_ask_sound : forall i r q, ask_query i = Ok r q -> exists t, i = t ++ r /\ R_ask_query q t.
Proof. exact sd_ask_query. Qed.
Print Assumptions C16_ask_sound.
Theorem C16_describe_sound : forall i r q,
  describe_query i = Ok r q -> exists t, i = t ++ r /\ R_describe_query q t.
Proof. exact sd_describe_query. Qed.
Print Assumptions C16_describe_sound.
Theorem C16_construct_sound : forall i r q,
  construct_query i = Ok r q -> exists t, i = t ++ r /\ R_construct_query q t.
Proof. exact sd_construct_query. Qed.
Print Assumptions C16_construct_sound.
Theorem C16_sub_construct_sound : forall i r q,
  sub_construct i = Ok r q -> exists t, i = t ++ r /\ R_sub_construct q t.
Proof. exact sd_sub_construct. Qed.
Print Assumptions C16_sub_construct_sound.
Theorem C16_sub_triples_sound : forall i r q,
  sub_triples i = Ok r q -> exists t, i = t ++ r /\ R_sub_triples q t.
Proof. exact sd_sub_triples. Qed.
Print Assumptions C16_sub_triples_sound.

Theorem C16_expression_sound : forall i r e,
  expression i = Ok r e -> exists t, i = t ++ r /\ R_expression e t.
Proof. exact sd_expression. Qed.
Print Assumptions C16_expression_sound.
Theorem C16_group_graph_pattern_sound : forall i r g,
  group_graph_pattern i = Ok r g -> exists t, i = t ++ r /\ R_ggp g t.
Proof. exact sd_group_graph_pattern. Qed.
Print Assumptions C16_group_graph_pattern_sound.

Theorem C16_update_sound : forall i r u, update i = Ok r u -> exists t, i = t ++ r /\ R_update u t.
Proof. exact sd_update. Qed.
Print Assumptions C16_update_sound.
Theorem C16_update_stmt_sound : forall i r u,
  update_stmt i = Ok r u -> exists t, i = t ++ r /\ R_update_stmt u t.
Proof. exact sd_update_stmt. Qed.
Print Assumptions C16_update_stmt_sound.

(** The recursive part of the grammar is what its rules say. *)
Theorem C16_grammar_of_expressions : forall e t,
  R_expression e t <-> expression_rule R_expression R_ggp e t.
Proof. exact R_expression_iff. Qed.
Print Assumptions C16_grammar_of_expressions.
Theorem C16_grammar_of_patterns : forall g t, R_ggp g t <-> ggp_rule R_expression R_ggp g t.
Proof. exact R_ggp_iff. Qed.
Print Assumptions C16_grammar_of_patterns.

(** A query with a prologue, a projected expression, a filter, a union, a sub-select and modifiers
    meets the hypothesis. *)
Definition C16_text : string :=
  "PREFIX ex: <http://e/> SELECT DISTINCT ?a(COUNT(?b) AS ?n) FROM <http://g> " ++
  "WHERE { ?s ?p 'x'@en . ?s ?q 7 FILTER (?o = 5) { {SELECT * { ?x ?y ?z } } UNION {} } } " ++
  "GROUP BY ?a HAVING (1) ORDER BY DESC (?n) LIMIT 10 OFFSET 5".
Example C16_meets_hypothesis :
  match sparql_query_stmt (s_ C16_text) with Ok r q => True | Err _ => False end.
Proof. vm_compute. exact I. Qed.
Example C16_update_meets_hypothesis :
  match update (s_ "BASE <http://b> COPY SILENT DEFAULT TO <http://g> ; INSERT DATA { <http://a> <http://b> 1 . GRAPH <http://h> {}}")
  with Ok [] (MkUpdate _ (Some _) (Some (MkUpdate _ (Some _) _))) => True | _ => False end.
Proof. vm_compute. exact I. Qed.
