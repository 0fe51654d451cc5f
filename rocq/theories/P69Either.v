(** C69: a text is a query or a request with statements, never both. *)
From Verif Require Import LMods LC8 LEither LEx2 LEx.
Open Scope list_scope.
Open Scope N_scope.

(** The update parser returns the declarations of a query and no statement, and stops in front of the query form. *)
Theorem C69_query_as_update : forall i r p q v, sparql_query_stmt i = Ok r (MkSparqlQueryStatement p q v) ->
  exists b j, update i = Ok (b ++ j) (MkUpdate p None None) /\ blank b /\ begins (form_word q) j.
Proof. exact query_as_update. Qed.
Print Assumptions C69_query_as_update.
(** So no query is read to its end as a request, ... *)
Theorem C69_query_not_update : forall i r q, sparql_query_stmt i = Ok r q -> forall u, update i <> Ok [] u.
Proof. exact query_not_update. Qed.
Print Assumptions C69_query_not_update.
(** ... and no request with a statement is read as a query. *)
Theorem C69_update_not_query : forall i r p s u, update i = Ok r (MkUpdate p (Some s) u) -> forall r' q, sparql_query_stmt i <> Ok r' q.
Proof. exact update_not_query. Qed.
Print Assumptions C69_update_not_query.

Example C69_query : exists q, sparql_query_stmt (s_ "PREFIX ex: <e> ASK { ?s ?p 1 }") = Ok [] q.
Proof. eexists. vm_compute. reflexivity. Qed.
Example C69_request : exists p s, update (s_ "PREFIX ex: <e> INSERT DATA { ?s ?p 1 }") = Ok [] (MkUpdate p (Some s) None).
Proof. eexists _, _. vm_compute. reflexivity. Qed.
