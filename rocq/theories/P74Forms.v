(** C74: datasets, WHERE group, modifiers and VALUES are read alike in all query forms. *)
From Verif Require Import LMods LC8 LForms LEx2 LEx.
Open Scope list_scope.
Open Scope N_scope.

(** Exchanging the head of an ASK query for the head of a SELECT query keeps all that follows, whatever its text [j] is. *)
Theorem C74_select : forall w b s t b' j r d g m v, kw "ask" w -> blank1 b -> W_select_clause W_expression s t (b' ++ j) -> blank1 b' -> solid j ->
  (sparql_query_stmt (w ++ b ++ j) = Ok r (MkSparqlQueryStatement (MkPrologue []) (SqAsk (MkAskQuery d g m)) v) <->
   sparql_query_stmt (t ++ b' ++ j) = Ok r (MkSparqlQueryStatement (MkPrologue []) (SqSelect (MkSelectQuery s d g m)) v)).
Proof. exact ask_select. Qed.
Print Assumptions C74_select.
Theorem C74_describe : forall w b w' b0 x t b' j r d g m v, kw "ask" w -> blank1 b -> kw "describe" w' -> blank1 b0 -> solid (t ++ b' ++ j) ->
  W_targets x t (b' ++ j) -> blank1 b' -> solid j ->
  (sparql_query_stmt (w ++ b ++ j) = Ok r (MkSparqlQueryStatement (MkPrologue []) (SqAsk (MkAskQuery d g m)) v) <->
   sparql_query_stmt (w' ++ b0 ++ t ++ b' ++ j) = Ok r (MkSparqlQueryStatement (MkPrologue []) (SqDescribe (MkDescribeQuery d x (Some g) m)) v)).
Proof. exact ask_describe. Qed.
Print Assumptions C74_describe.
Theorem C74_construct : forall w b w' b0 c t b' j r d g m v, kw "ask" w -> blank1 b -> kw "construct" w' -> blank1 b0 ->
  W_construct_template c t (b' ++ j) -> blank1 b' -> solid j ->
  (sparql_query_stmt (w ++ b ++ j) = Ok r (MkSparqlQueryStatement (MkPrologue []) (SqAsk (MkAskQuery d g m)) v) <->
   sparql_query_stmt (w' ++ b0 ++ t ++ b' ++ j) = Ok r (MkSparqlQueryStatement (MkPrologue []) (SqConstruct (CqSubConstruct (MkSubConstruct c d g m))) v)).
Proof. exact ask_construct. Qed.
Print Assumptions C74_construct.

Example C74_read : exists d g m,
  sparql_query_stmt (s_ "ASK FROM <g> WHERE { ?s ?p ?o } LIMIT 5") = Ok [] (MkSparqlQueryStatement (MkPrologue []) (SqAsk (MkAskQuery d g m)) None) /\
  d <> [] /\
  (exists s, sparql_query_stmt (s_ "SELECT * FROM <g> WHERE { ?s ?p ?o } LIMIT 5") = Ok [] (MkSparqlQueryStatement (MkPrologue []) (SqSelect (MkSelectQuery s d g m)) None)) /\
  (exists x, sparql_query_stmt (s_ "DESCRIBE ?s FROM <g> WHERE { ?s ?p ?o } LIMIT 5") = Ok [] (MkSparqlQueryStatement (MkPrologue []) (SqDescribe (MkDescribeQuery d x (Some g) m)) None)) /\
  (exists c, sparql_query_stmt (s_ "CONSTRUCT { ?o ?p ?s } FROM <g> WHERE { ?s ?p ?o } LIMIT 5") = Ok [] (MkSparqlQueryStatement (MkPrologue []) (SqConstruct (CqSubConstruct (MkSubConstruct c d g m))) None)).
Proof.
  eexists _, _, _. split; [vm_compute; reflexivity|]. split; [discriminate|]. repeat split; eexists; vm_compute; reflexivity.
Qed.
Example C74_heads : let j := s_ "FROM <g> WHERE { ?s ?p ?o }" in
  W_select_clause W_expression (MkSelectClause None SvAll) (s_ "SELECT *") (s_ " " ++ j) /\
  W_targets (VoiList [VoiVar (QMark (s_ "s"))]) (s_ "?s") (s_ " " ++ j) /\
  W_construct_template (MkConstructTemplate []) (s_ "{ }") (s_ " " ++ j) /\ solid j.
Proof. texts. split; [lay|]. split; [lay|]. split; [lay|side]. Qed.
