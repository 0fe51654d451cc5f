(** C63: no list of a tree is empty where the grammar wants members, and some nodes occur in no tree. *)
From Verif Require Import MUpdate LShape2.
Open Scope list_scope.

(** [shape_query_stmt] and the others are in SpecShape.v, with the list of the nodes that do not occur.  They look at
    every depth: [shape_expression_iff] and [shape_ggp_iff] (LShape2.v) are the equations. *)
Theorem C63_query : forall i r q, sparql_query_stmt i = Ok r q -> shape_query_stmt q.
Proof. exact en_query_stmt. Qed.
Print Assumptions C63_query.
Theorem C63_update : forall i r u, update i = Ok r u -> shape_update u.
Proof. exact en_update. Qed.
Print Assumptions C63_update.
Theorem C63_pattern : forall i r g, group_graph_pattern i = Ok r g -> shape_ggp g.
Proof. exact en_ggp. Qed.
Print Assumptions C63_pattern.
Theorem C63_expression : forall i r e, expression i = Ok r e -> shape_expression e.
Proof. exact en_expression. Qed.
Print Assumptions C63_expression.
Theorem C63_path : forall i r p, path_alternative i = Ok r p -> shape_path p.
Proof. exact en_path_alternative. Qed.
Print Assumptions C63_path.
(** A nested expression with a sum, and a path in a path: what their lists hold. *)
Example C63_sample : exists e, expression (s_ "( 1 + 2 * 3 ) && COALESCE () }") = Ok (s_ "}") e /\ shape_expression e.
Proof. eexists. match goal with |- ?P /\ _ => assert (H : P) by (vm_compute; reflexivity) end. split; [exact H|]. exact (en_expression _ _ _ H). Qed.
(** A minus sign before a number is an operator, wherever an operand may stand. *)
Example C63_sign : exists e, expression (s_ "( -5 < 7 -3 * 2 ) }") = Ok (s_ "}") e /\ shape_expression e.
Proof. eexists. match goal with |- ?P /\ _ => assert (H : P) by (vm_compute; reflexivity) end. split; [exact H|]. exact (en_expression _ _ _ H). Qed.
Example C63_path_sample : exists p, path_alternative (s_ "(<p>|^<q>)|<r> }") = Ok (s_ " }") p /\ shape_path p.
Proof. eexists. match goal with |- ?P /\ _ => assert (H : P) by (vm_compute; reflexivity) end. split; [exact H|]. exact (en_path_alternative _ _ _ H). Qed.
Example C63_query_sample : exists q, sparql_query_stmt (s_ "SELECT ?a WHERE {?a ?b 5 FILTER (?c < 7 ) } ORDER BY ?a LIMIT 7") = Ok [] q /\ shape_query_stmt q.
Proof. eexists. match goal with |- ?P /\ _ => assert (H : P) by (vm_compute; reflexivity) end. split; [exact H|]. exact (en_query_stmt _ _ _ H). Qed.
(** Trees without the shape. *)
Example C63_not : ~ shape_path (MkPathAlternative []) /\ ~ shape_update (MkUpdate (MkPrologue []) None (Some (MkUpdate (MkPrologue []) None None))) /\
  ~ shape_expression (MkExpression []) /\
  ~ shape_expression (MkExpression [MkConditionalAnd [MkRelational (MkAdditive (MkMultiplicative (UnDefault (PeBuiltInCall (BiCoalesce (ElList [])))) []) []) None]]) /\
  ~ shape_expression (MkExpression [MkConditionalAnd [MkRelational (MkAdditive (MkMultiplicative (UnDefault (PeNumericLiteral (NInt (-5)))) []) []) None]]).
Proof.
  repeat split; intros H; try (now cbn in H); apply shape_expression_iff in H; destruct H as [N H]; [congruence| |].
  - destruct H as [[_ [[[[[H _] _] _] _] _]] _]. exact H.
  - destruct H as [[_ [[[[[_ H] _] _] _] _]] _]. now apply H.
Qed.
