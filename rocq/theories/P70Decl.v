(** C70: declarations do not change how the rest of a text is read. *)
From Verif Require Import LMods LC8 LDecl LEx2 LEx.
Open Scope list_scope.
Open Scope N_scope.

(** Put in front of a text, declarations are added to its tree and nothing else changes, errors included. *)
Theorem C70_query : forall p t b j, W_prologue p t (b ++ j) -> blank b -> solid j -> no_decl j -> sparql_query_stmt (t ++ b ++ j) =
  match sparql_query_stmt j with Ok r (MkSparqlQueryStatement _ q v) => Ok r (MkSparqlQueryStatement p q v) | Err e => Err e end.
Proof. exact query_declared. Qed.
Print Assumptions C70_query.
Theorem C70_update : forall p t b j r s u, W_prologue p t (b ++ j) -> blank b -> solid j -> no_decl j ->
  (update (t ++ b ++ j) = Ok r (MkUpdate p (Some s) u) <-> update j = Ok r (MkUpdate (MkPrologue []) (Some s) u)).
Proof. exact update_declared. Qed.
Print Assumptions C70_update.
(** Whatever the text, it can be read without its declarations: names are not looked up. *)
Theorem C70_undeclared : forall i r p q v, sparql_query_stmt i = Ok r (MkSparqlQueryStatement p q v) ->
  exists t b j, i = t ++ b ++ j /\ R_prologue p t /\ blank b /\ sparql_query_stmt j = Ok r (MkSparqlQueryStatement (MkPrologue []) q v).
Proof. exact query_undeclared. Qed.
Print Assumptions C70_undeclared.
Theorem C70_update_undeclared : forall i r p s u, update i = Ok r (MkUpdate p (Some s) u) ->
  exists t b j, i = t ++ b ++ j /\ R_prologue p t /\ blank b /\ update j = Ok r (MkUpdate (MkPrologue []) (Some s) u).
Proof. exact update_undeclared. Qed.
Print Assumptions C70_update_undeclared.

Example C70_layout : let p := MkPrologue [DeclPrefix (MkPrefixDecl (Some (s_ "ex")) (s_ "e"))] in let j := s_ "ASK { ?s ex:pp 1 }" in
  W_prologue p (s_ "PREFIX ex: <e>") (s_ " " ++ j) /\ solid j /\ no_decl j /\ exists q, sparql_query_stmt j = Ok [] q.
Proof. texts. split; [lay|]. split; [side|]. split; [side|]. eexists. vm_compute. reflexivity. Qed.
Example C70_read : exists p q v, sparql_query_stmt (s_ "PREFIX ex: <e> ASK { ?s ex:pp 1 }") = Ok [] (MkSparqlQueryStatement p q v).
Proof. eexists _, _, _. vm_compute. reflexivity. Qed.
Example C70_request : exists p s, update (s_ "PREFIX ex: <e> INSERT DATA { ?s ex:pp 1 }") = Ok [] (MkUpdate p (Some s) None).
Proof. eexists _, _. vm_compute. reflexivity. Qed.
