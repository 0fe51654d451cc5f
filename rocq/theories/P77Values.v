(** C77: a VALUES block is read alike wherever it stands. *)
From Verif Require Import LMods LC8 LVals LEx2 LEx.
Open Scope list_scope.
Open Scope N_scope.

(** In a group, behind a sub-select, and behind a query that leaves the blank in front of it: whatever text [j] follows the
    keyword, it is read as the block exactly if it is read as a block by itself. *)
Theorem C77_group : forall w b j r d, kw "values" w -> blank1 b -> solid j ->
  (graph_pattern_not_triples (w ++ b ++ j) = Ok r (GpInlineData d) <-> datablock j = Ok r d).
Proof. exact values_pattern. Qed.
Print Assumptions C77_group.
Theorem C77_sub_select : forall w b j r d, kw "values" w -> blank1 b -> solid j ->
  (values_clause (w ++ b ++ j) = Ok r (Some d) <-> datablock j = Ok r d).
Proof. exact values_sub. Qed.
Print Assumptions C77_sub_select.
Theorem C77_query : forall i q b0 w b j r d, sparql_query i = Ok (b0 ++ w ++ b ++ j) q -> blank1 b0 -> kw "values" w -> blank1 b -> solid j ->
  (sparql_query_stmt i = Ok r (MkSparqlQueryStatement (MkPrologue []) q (Some d)) <-> datablock j = Ok r d).
Proof. exact values_query. Qed.
Print Assumptions C77_query.

Example C77_blocks : exists d, datablock (s_ "?x { 1 UNDEF } .") = Ok (s_ " .") d /\
  graph_pattern_not_triples (s_ "VALUES ?x { 1 UNDEF } .") = Ok (s_ " .") (GpInlineData d) /\ values_clause (s_ "values ?x { 1 UNDEF } .") = Ok (s_ " .") (Some d).
Proof. eexists. repeat split; vm_compute; reflexivity. Qed.
Example C77_trailing : exists q d, sparql_query (s_ "ASK {} LIMIT 1 OFFSET 2 VALUES ?x { 1 }") = Ok (s_ " VALUES ?x { 1 }") q /\
  sparql_query_stmt (s_ "ASK {} LIMIT 1 OFFSET 2 VALUES ?x { 1 }") = Ok [] (MkSparqlQueryStatement (MkPrologue []) q (Some d)).
Proof. eexists _, _. split; vm_compute; reflexivity. Qed.
