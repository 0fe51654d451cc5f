(** C59: how deep the parsers recurse. *)
From Verif Require Import LDepth2 SpecDepth LEx2.
Open Scope list_scope.

(** A query, an expression, a group graph pattern: twice the number of opening brackets, and two,
    one for the group graph pattern. *)
Theorem C59_query n i : (2 * openings i + 2 <= n)%nat -> sparql_query_stmt_within n i = sparql_query_stmt i.
Proof. exact (sparql_query_stmt_depth n i). Qed.
Print Assumptions C59_query.
Example C59_query_case :
  let i := s_ "SELECT ?x WHERE { FILTER ( (?x) = ((3)) ) } " in
  openings i = 5%nat /\ (exists r q, sparql_query_stmt_within 12 i = Ok r q) /\
  sparql_query_stmt_within 3 i = Err OutOfFuel.
Proof. vm_compute. repeat split; try reflexivity. eexists _, _. reflexivity. Qed.

Theorem C59_expression n i : (2 * openings i + 2 <= n)%nat -> expression_within n i = expression i.
Proof. exact (expression_depth n i). Qed.
Print Assumptions C59_expression.
Example C59_expression_case :
  (exists r q, expression_within 10 (s_ "((1) = ((3))) }") = Ok r q) /\
  expression_within 2 (s_ "((1) = ((3))) }") = Err OutOfFuel.
Proof. vm_compute. split; [eexists _, _; reflexivity | reflexivity]. Qed.

Theorem C59_group_graph_pattern n i : (2 * openings i + 1 <= n)%nat ->
  group_graph_pattern_within n i = group_graph_pattern i.
Proof. exact (group_graph_pattern_depth n i). Qed.
Print Assumptions C59_group_graph_pattern.
Example C59_group_graph_pattern_case :
  (exists r q, group_graph_pattern_within 7 (s_ "{ { {} } }") = Ok r q) /\
  group_graph_pattern_within 2 (s_ "{ { {} } }") = Err OutOfFuel.
Proof. vm_compute. split; [eexists _, _; reflexivity | reflexivity]. Qed.

(** Paths, nodes of templates and nodes of patterns: the number of opening brackets, and one. *)
Theorem C59_path n i : (openings i < n)%nat -> path_alternative_within n i = path_alternative i.
Proof. exact (path_alternative_depth n i). Qed.
Print Assumptions C59_path.
Theorem C59_node n i : (openings i < n)%nat -> graph_node_within n i = graph_node i.
Proof. exact (graph_node_depth n i). Qed.
Print Assumptions C59_node.
Theorem C59_node_path n i : (openings i < n)%nat -> graph_node_path_within n i = graph_node_path i.
Proof. exact (graph_node_path_depth n i). Qed.
Print Assumptions C59_node_path.
Example C59_nodes_case :
  (exists r q, path_alternative_within 3 (s_ "((<p>))") = Ok r q) /\
  path_alternative_within 2 (s_ "((<p>))") = Err OutOfFuel /\
  (exists r q, graph_node_within 1 (s_ "?x , <p>") = Ok r q) /\
  graph_node_within 1 (s_ "[ <p> [ <q> 1 ] ]") = graph_node (s_ "[ <p> [ <q> 1 ] ]") /\
  (exists r q, graph_node_path_within 1 (s_ "?x ; <p>") = Ok r q).
Proof. vm_compute. repeat split; try reflexivity; eexists _, _; reflexivity. Qed.

(** An update: the number of semicolons, and one. *)
Theorem C59_update n i : (semicolons i < n)%nat -> update_within n i = update i.
Proof. exact (update_depth n i). Qed.
Print Assumptions C59_update.
Example C59_update_case :
  let i := s_ "CLEAR ALL ; DROP DEFAULT; CREATE GRAPH <g>" in
  (exists q, update_within 3 i = Ok [] q) /\ update_within 2 i = Err OutOfFuel.
Proof. vm_compute. split; [eexists; reflexivity | reflexivity]. Qed.

(** No fixed depth is enough, neither for queries nor for updates: whatever the limit, a text of
    about three (ten) times as many characters is accepted, and exceeds it. *)
Theorem C59_constant_depth_refuted n : exists i q,
  (List.length i <= 3 * n + 9)%nat /\ sparql_query_stmt i = Ok [] q /\ sparql_query_stmt_within n i = Err OutOfFuel.
Proof. exact (ask_deep n). Qed.
Print Assumptions C59_constant_depth_refuted.
Theorem C59_update_depth_refuted n : exists i u,
  List.length i = (10 * n)%nat /\ update i = Ok [] u /\ update_within n i = Err OutOfFuel.
Proof. exact (clears_deep n). Qed.
Print Assumptions C59_update_depth_refuted.
Example C59_deep_case : ask_braces 2 = s_ "ASK {{{} } }" /\ clears 2 = s_ "CLEAR ALL;CLEAR ALL;".
Proof. split; reflexivity. Qed.
