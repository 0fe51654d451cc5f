(** C76: bracketed expressions, built-in calls and constraints are read alike wherever they stand. *)
From Verif Require Import LMods LC8 LPlace LEx2 LEx.
Open Scope list_scope.
Open Scope N_scope.

(** An expression in brackets: inside expressions, as a constraint, after ASC and DESC. *)
Theorem C76_bracket_primary : forall i r e, primary_expression i = Ok r (PeBracketted e) <-> bracketted_expression_of expression i = Ok r e.
Proof. exact bracket_primary. Qed.
Print Assumptions C76_bracket_primary.
Theorem C76_bracket_constraint : forall i r e, constraint i = Ok r (CoBracketted e) <-> bracketted_expression_of expression i = Ok r e.
Proof. exact bracket_constraint. Qed.
Print Assumptions C76_bracket_constraint.
Theorem C76_bracket_order : forall o w b j r e, kw (order_word o) w -> blank1 b -> solid j ->
  (order_condition (w ++ b ++ j) = Ok r (OcOrder (MkOrderExpression o e)) <-> bracketted_expression_of expression j = Ok r e).
Proof. exact bracket_order. Qed.
Print Assumptions C76_bracket_order.
(** A built-in call: inside expressions, as a constraint, as a condition of GROUP BY. *)
Theorem C76_call_primary : forall i r c, primary_expression i = Ok r (PeBuiltInCall c) <-> built_in_call i = Ok r c.
Proof. exact call_primary. Qed.
Print Assumptions C76_call_primary.
Theorem C76_call_constraint : forall i r c, constraint i = Ok r (CoBuiltInCall c) <-> built_in_call i = Ok r c.
Proof. exact call_constraint. Qed.
Print Assumptions C76_call_constraint.
Theorem C76_call_group : forall i r c, group_condition_of expression group_graph_pattern i = Ok r (GcBuiltInCall c) <-> built_in_call i = Ok r c.
Proof. exact call_group. Qed.
Print Assumptions C76_call_group.
(** A constraint: after FILTER, as a condition of ORDER BY, after HAVING. *)
Theorem C76_filter : forall w b j r c, kw "filter" w -> blank1 b -> solid j ->
  (graph_pattern_not_triples (w ++ b ++ j) = Ok r (GpFilter c) <-> constraint j = Ok r c).
Proof. exact filter_at. Qed.
Print Assumptions C76_filter.
Theorem C76_order : forall i r c, order_condition i = Ok r (OcConstraint c) <-> constraint i = Ok r c.
Proof. exact constraint_order. Qed.
Print Assumptions C76_order.
Theorem C76_having : forall w b j r l c, kw "having" w -> blank1 b -> solid j ->
  having_clause (w ++ b ++ j) = Ok r (MkHavingClause (c :: l)) -> exists r', constraint j = Ok r' c.
Proof. exact constraint_having. Qed.
Print Assumptions C76_having.
Theorem C76_having_one : forall w b j r c, kw "having" w -> blank1 b -> solid j -> constraint j = Ok r c ->
  nxt1 (fun x => exists p k, constraint x = Err (Error p k)) r -> having_clause (w ++ b ++ j) = Ok r (MkHavingClause [c]).
Proof. exact having_constraint. Qed.
Print Assumptions C76_having_one.

Example C76_brackets : exists e, bracketted_expression_of expression (s_ "(?x = 1) .") = Ok (s_ " .") e /\
  primary_expression (s_ "(?x = 1) .") = Ok (s_ " .") (PeBracketted e) /\ constraint (s_ "(?x = 1) .") = Ok (s_ " .") (CoBracketted e) /\
  order_condition (s_ "DESC (?x = 1) .") = Ok (s_ " .") (OcOrder (MkOrderExpression Desc e)).
Proof. eexists. repeat split; vm_compute; reflexivity. Qed.
Example C76_calls : exists c, built_in_call (s_ "STR(?x) .") = Ok (s_ " .") c /\
  primary_expression (s_ "STR(?x) .") = Ok (s_ " .") (PeBuiltInCall c) /\ constraint (s_ "STR(?x) .") = Ok (s_ " .") (CoBuiltInCall c) /\
  group_condition_of expression group_graph_pattern (s_ "STR(?x) .") = Ok (s_ " .") (GcBuiltInCall c).
Proof. eexists. repeat split; vm_compute; reflexivity. Qed.
Example C76_constraints : exists c, constraint (s_ "(?x < 3) }") = Ok (s_ " }") c /\
  graph_pattern_not_triples (s_ "FILTER (?x < 3) }") = Ok (s_ " }") (GpFilter c) /\ order_condition (s_ "(?x < 3) }") = Ok (s_ " }") (OcConstraint c) /\
  having_clause (s_ "HAVING (?x < 3) }") = Ok (s_ " }") (MkHavingClause [c]).
Proof. eexists. repeat split; vm_compute; reflexivity. Qed.
Example C76_rest : nxt1 (fun x => exists p k, constraint x = Err (Error p k)) (s_ " }").
Proof. exists (s_ " "), (s_ "}"). split; [reflexivity|]. split; [split; [constructor; [now left|constructor]|discriminate]|]. split; [now apply char_solid|]. eexists _, _. vm_compute. reflexivity. Qed.
