(** C31: solution modifiers are not silently dropped. *)
From Verif Require Import LMods LGen4 LEx2 LEx.
Open Scope list_scope.
Open Scope N_scope.

(** [limit_of], [order_of], [having_of], [group_of]: the clauses of a query (SpecQuery.v).  What an accepted
    query leaves unread never starts with a LIMIT or OFFSET clause the query does not have ... *)
Theorem C31_limit_kept : forall i k q, sparql_query i = Ok k q -> limit_of q = None ->
  forall b l t r, k = b ++ t ++ r -> blank b -> solid (t ++ r) -> W_limit_offset l t r -> False.
Proof. exact limit_kept. Qed.
Print Assumptions C31_limit_kept.
(** ... nor with a safely laid out ORDER BY, HAVING or GROUP BY clause.  Missing from the full statement: a
    clause at the end of the text is dropped (below), and so are the forms of conditions marked "departure"
    in LayoutExpr.v. *)
Theorem C31_order_kept_partial : forall i k q, sparql_query i = Ok k q -> order_of q = None -> limit_of q = None ->
  forall b c t r, k = b ++ t ++ r -> blank b -> solid (t ++ r) -> W_order_clause W_expression W_ggp c t r -> False.
Proof. exact order_kept. Qed.
Print Assumptions C31_order_kept_partial.
Theorem C31_having_kept_partial : forall i k q,
  sparql_query i = Ok k q -> having_of q = None -> order_of q = None -> limit_of q = None ->
  forall b c t r, k = b ++ t ++ r -> blank b -> solid (t ++ r) -> W_having_clause W_expression W_ggp c t r -> False.
Proof. exact having_kept. Qed.
Print Assumptions C31_having_kept_partial.
Theorem C31_group_kept_partial : forall i k q, sparql_query i = Ok k q -> mods_of q = MkSolutionModifier None None None None ->
  forall c t r, k = t ++ r -> W_group_clause W_expression W_ggp c t r -> False.
Proof. exact group_kept. Qed.
Print Assumptions C31_group_kept_partial.
(** The clauses written are those returned. *)
Theorem C31_read_partial : forall m t r, W_mods m t r -> solution_modifier (t ++ r) = Ok r m.
Proof. exact rd_mods. Qed.
Print Assumptions C31_read_partial.

(** The full statement is false: no query read to the end of the text has a GROUP BY, HAVING or ORDER BY
    clause as its last clause, ... *)
Theorem C31_last_refuted : forall i p q,
  sparql_query_stmt i = Ok [] (MkSparqlQueryStatement p q None) -> limit_of q = None ->
  group_of q = None /\ having_of q = None /\ order_of q = None.
Proof. intros i p q H. apply (stmt_end i [] p q H). split; discriminate. Qed.
Print Assumptions C31_last_refuted.
(** ... instead such a clause, with no blank after its last condition (be it the end of the text or another
    clause that follows directly), is left unread with all that follows it, whatever the query. *)
Theorem C31_dropped_refuted : forall p q t c r, (W_prologue p >> gap >> W_query_head q) t (c ++ r) -> clause_then c r ->
  mods_of q = MkSolutionModifier None None None None ->
  sparql_query_stmt (t ++ c ++ r) = Ok (c ++ r) (MkSparqlQueryStatement p q None).
Proof. exact query_drops. Qed.
Print Assumptions C31_dropped_refuted.

Example C31_dropped :
  (exists q, sparql_query_stmt (s_ "ASK {} ORDER BY ?x") = Ok (s_ "ORDER BY ?x") q) /\
  (exists q, sparql_query_stmt (s_ "ASK {} GROUP BY ?x") = Ok (s_ "GROUP BY ?x") q) /\
  (exists q, sparql_query_stmt (s_ "ASK {} HAVING (?x > 1)") = Ok (s_ "HAVING (?x > 1)") q) /\
  (exists q, sparql_query_stmt (s_ "ASK {} ORDER BY DESC(?x) LIMIT 1") = Ok (s_ "ORDER BY DESC(?x) LIMIT 1") q).
Proof. repeat split; eexists; vm_compute; reflexivity. Qed.
Example C31_clauses : clause_then (s_ "ORDER BY ?x DESC (?y)") (s_ "LIMIT 1") /\ clause_then (s_ "GROUP BY ?x ?y") [] /\ clause_then (s_ "HAVING (?x > 1)") [].
Proof.
  split; [|split].
  - apply (ct_order [OcVar (QMark (s_ "x")); OcOrder (MkOrderExpression Desc (MkExpression [MkConditionalAnd [MkRelational (add1_ (un_ "y")) None]]))]).
    unfold add1_, un_. texts. lay.
  - apply (ct_group [GcVar (QMark (s_ "x")); GcVar (QMark (s_ "y"))]). texts. lay.
  - apply (ct_having [CoBracketted (MkExpression [MkConditionalAnd [MkRelational (add1_ (un_ "x"))
      (Some (OpGT (add1_ (UnDefault (PeNumericLiteral (NInt 1))))))]])]). unfold add1_, un_. texts. lay.
Qed.
Example C31_head : exists q, (W_prologue (MkPrologue []) >> gap >> W_query_head q) (s_ "SELECT DISTINCT ?a FROM <g> WHERE {?a ?b ?c} ") (s_ "ORDER BY ?a") /\
  mods_of q = MkSolutionModifier None None None None /\ exists p, sparql_query_stmt (s_ "SELECT DISTINCT ?a FROM <g> WHERE {?a ?b ?c} ORDER BY ?a") = Ok (s_ "ORDER BY ?a") (MkSparqlQueryStatement p q None).
Proof.
  let a := eval vm_compute in (sparql_query_stmt (s_ "SELECT DISTINCT ?a FROM <g> WHERE {?a ?b ?c} ORDER BY ?a")) in
    match a with Ok _ (MkSparqlQueryStatement _ ?q _) => exists q end.
  split; [|split; [reflexivity|eexists; vm_compute; reflexivity]]. texts. lay.
Qed.
Example C31_all : exists m, let t := s_ "GROUP BY ?a ?b HAVING (?a > 1) (?b) ORDER BY ASC (?a) ?c LIMIT 3 OFFSET 4" in
  W_mods m t [] /\ solution_modifier t = Ok [] m.
Proof. eexists. cbv zeta. split; [|vm_compute; reflexivity]. texts. lay. Qed.
Example C31_limit_case : exists q, sparql_query (s_ "ASK {} ORDER BY ?x ") = Ok (s_ " ") q /\ limit_of q = None.
Proof. eexists. split; vm_compute; reflexivity. Qed.
Example C31_order_case : exists q, sparql_query (s_ "ASK {}") = Ok [] q /\ mods_of q = MkSolutionModifier None None None None.
Proof. eexists. split; vm_compute; reflexivity. Qed.
