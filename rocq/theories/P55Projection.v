(** C55: several projected variables. *)
From Verif Require Import LMods LMore4 LEx2.
Open Scope list_scope.
Open Scope N_scope.

(** Variables and expressions written without blanks between them are projected, in order ([W_select_vars]). *)
Theorem C55_glued_partial : forall s t r, W_select_clause W_expression s t r -> select_clause (t ++ r) = Ok r s.
Proof. exact rd_select_clause_. Qed.
Print Assumptions C55_glued_partial.

(** The full statement is false: where a blank and a second variable or expression ([?], [$] or an opening
    parenthesis) follow, no SELECT query is read, ... *)
Theorem C55_query_refuted : forall p t0 b0 s t b c x r q,
  W_prologue p t0 (b0 ++ t ++ b ++ c :: x) -> blank b0 -> W_select_clause W_expression s t (b ++ c :: x) ->
  blank1 b -> In c [63; 36; 40] -> sparql_query_stmt (t0 ++ b0 ++ t ++ b ++ c :: x) <> Ok r q.
Proof. exact stmt_select_more. Qed.
Print Assumptions C55_query_refuted.
(** ... and no group with such a sub-select. *)
Theorem C55_sub_select_refuted : forall b0 s t b c x r g, blank b0 -> W_select_clause W_expression s t (b ++ c :: x) ->
  blank1 b -> In c [63; 36; 40] -> group_graph_pattern (123 :: b0 ++ t ++ b ++ c :: x) <> Ok r g.
Proof. exact group_select_more. Qed.
Print Assumptions C55_sub_select_refuted.

Example C55_sample :
  (exists q, sparql_query_stmt (s_ "SELECT ?a?b {}") = Ok [] q) /\ (exists e, sparql_query_stmt (s_ "SELECT ?a ?b {}") = Err e) /\
  (exists q, sparql_query_stmt (s_ "SELECT ?a( ?b AS ?c ) {}") = Ok [] q) /\ (exists e, sparql_query_stmt (s_ "SELECT DISTINCT ?a (?b AS ?c) {}") = Err e) /\
  (exists e, group_graph_pattern (s_ "{ SELECT ?a ?b {} }") = Err e).
Proof. repeat split; eexists; vm_compute; reflexivity. Qed.
Example C55_hypotheses : let s := MkSelectClause (Some SmDistinct) (SvList [VoeVar (QMark (s_ "a")); VoeVar (Dollar (s_ "b"))]) in
  let t := s_ "SELECT DISTINCT ?a$b" in W_select_clause W_expression s t (s_ " ?c {}") /\ select_clause (t ++ s_ " ?c {}") = Ok (s_ " ?c {}") s /\
  W_prologue (MkPrologue []) [] (t ++ s_ " ?c {}").
Proof. cbv zeta. split; [texts; lay|]. split; [vm_compute; reflexivity|texts; lay]. Qed.
