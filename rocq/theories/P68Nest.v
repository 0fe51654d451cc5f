(** C68: what was read has matching brackets. *)
From Verif Require Import LMods LC8 LGen4 LNest4 LEx2 LEx.
Open Scope list_scope.
Open Scope N_scope.

(** [nested t] (SpecNest.v): the brackets of [t] match; those in strings, comments and IRIs and behind a backslash do not count. *)
Theorem C68_query : forall i r q, sparql_query_stmt i = Ok r q -> exists t, i = t ++ r /\ nested t.
Proof. exact query_nested. Qed.
Print Assumptions C68_query.
Theorem C68_update : forall i r u, update i = Ok r u -> exists t, i = t ++ r /\ nested t.
Proof. exact update_nested. Qed.
Print Assumptions C68_update.
Theorem C68_group : forall i r g, group_graph_pattern i = Ok r g -> exists t, i = t ++ r /\ nested t.
Proof. exact group_nested. Qed.
Print Assumptions C68_group.
Theorem C68_expression : forall i r e, expression i = Ok r e -> exists t, i = t ++ r /\ nested t.
Proof. exact expression_nested. Qed.
Print Assumptions C68_expression.
(** Without strings, comments, IRIs and backslashes ([bare]) a stack is enough to check a text that was read to its end. *)
Theorem C68_stack : forall i q, bare i -> sparql_query_stmt i = Ok [] q -> matching [] i = true.
Proof. exact query_matching. Qed.
Print Assumptions C68_stack.
Theorem C68_update_stack : forall i u, bare i -> update i = Ok [] u -> matching [] i = true.
Proof. exact update_matching. Qed.
Print Assumptions C68_update_stack.
(** There are as many closing as opening brackets of each kind in what was read. *)
Theorem C68_count : forall i r q, sparql_query_stmt i = Ok r q ->
  exists t, i = t ++ r /\ (bare t -> forall o c, In (o, c) [(40, 41); (91, 93); (123, 125)] -> occurs o t = occurs c t).
Proof. exact query_occurs. Qed.
Print Assumptions C68_count.
Theorem C68_update_count : forall i r u, update i = Ok r u ->
  exists t, i = t ++ r /\ (bare t -> forall o c, In (o, c) [(40, 41); (91, 93); (123, 125)] -> occurs o t = occurs c t).
Proof. exact update_occurs. Qed.
Print Assumptions C68_update_count.

Example C68_read : let i := s_ "SELECT ?x WHERE { ?s ?p ?x OPTIONAL { ?x ?p 1 } FILTER ( ?x ) }" in
  bare i /\ exists q, sparql_query_stmt i = Ok [] q.
Proof. split; [apply bare_test; vm_compute; reflexivity|]. eexists. vm_compute. reflexivity. Qed.
(** brackets that do not count *)
Example C68_quoted : exists q, sparql_query_stmt (s_ "ASK { ?s <a(> '}])' }") = Ok [] q.
Proof. eexists. vm_compute. reflexivity. Qed.
Example C68_request : exists u, bare (s_ "INSERT DATA { ?s ?p 1 }") /\ update (s_ "INSERT DATA { ?s ?p 1 }") = Ok [] u.
Proof. eexists. split; [apply bare_test; vm_compute; reflexivity|]. vm_compute. reflexivity. Qed.
(** texts that are therefore refused or not read to their end *)
Example C68_crossed : matching [] (s_ "ASK { FILTER ( ?x } )") = false /\ bare (s_ "ASK { FILTER ( ?x } )").
Proof. split; [vm_compute; reflexivity|apply bare_test; vm_compute; reflexivity]. Qed.
Example C68_not_nested : ~ nested (s_ "ASK { FILTER ( ?x } )").
Proof. intros H. assert (E : matching [] (s_ "ASK { FILTER ( ?x } )") = true) by (apply nested_matches; [exact H|apply bare_test; vm_compute; reflexivity]). vm_compute in E. discriminate E. Qed.
