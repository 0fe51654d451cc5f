(** C81: a named expression is read alike in BIND, in SELECT and in GROUP BY. *)
From Verif Require Import LMods LC8 LSwap LEx2 LEx.
Open Scope list_scope.
Open Scope N_scope.

(** What BIND reads is what SELECT projects as a single item, with the same rest and the same value; [r] does not start another item. *)
Theorem C81_bind_select : forall w b w' b' j r n, kw "bind" w -> blank1 b -> kw "select" w' -> blank1 b' -> solid j -> stops (oneof (s_ "?$(")) r ->
  (graph_pattern_not_triples (w ++ b ++ j) = Ok r (GpBind n) <-> select_clause (w' ++ b' ++ j) = Ok r (MkSelectClause None (SvList [VoeExpressionAsVar n]))).
Proof. exact bind_item. Qed.
Print Assumptions C81_bind_select.
(** What GROUP BY reads under a name is read by BIND, with the same expression and variable; the converse is false (C50). *)
Theorem C81_group_bind : forall j r e v w b, group_condition j = Ok r (GcExpressionAsVarOpt (MkExpressionAsVarOpt e (Some v))) -> kw "bind" w -> blank1 b ->
  graph_pattern_not_triples (w ++ b ++ j) = Ok r (GpBind (MkExpressionAsVar e v)).
Proof. exact group_bind. Qed.
Print Assumptions C81_group_bind.

Example C81_read : exists n m, graph_pattern_not_triples (s_ "BIND (?a = 1 AS ?v) {") = Ok (s_ " {") (GpBind n) /\
  select_clause (s_ "select  (?a = 1 AS ?v) {") = Ok (s_ " {") (MkSelectClause None (SvList [VoeExpressionAsVar n])) /\
  group_condition (s_ "(?a +?b*?c AS ?v) {") = Ok (s_ " {") (GcExpressionAsVarOpt (MkExpressionAsVarOpt m (Some (QMark (s_ "v"))))) /\
  graph_pattern_not_triples (s_ "bind (?a +?b*?c AS ?v) {") = Ok (s_ " {") (GpBind (MkExpressionAsVar m (QMark (s_ "v")))).
Proof. repeat eexists; vm_compute; reflexivity. Qed.
Example C81_hypotheses : kw "bind" (s_ "Bind") /\ blank1 (s_ " ") /\ solid (s_ "(?a AS ?b)") /\ stops (oneof (s_ "?$(")) (s_ " {").
Proof. split; [reflexivity|]. split; [split; [now repeat constructor|discriminate]|]. split; [now apply char_solid|reflexivity]. Qed.
