(** C48: a brace or a parenthesis directly after a keyword. *)
From Verif Require Import LMore1.
Open Scope list_scope.
Open Scope N_scope.

(** Refuted: with no blank after it ASK is not read, *)
Theorem C48_ask_refuted : forall w x r q, kw "ask" w -> solid x -> ask_query (w ++ x) <> Ok r q.
Proof. exact ask_brace. Qed.
Print Assumptions C48_ask_refuted.
(** nor is WHERE, *)
Theorem C48_where_refuted : forall w x r g, kw "where" w -> solid x -> where_clause (w ++ x) <> Ok r g.
Proof. exact where_brace. Qed.
Print Assumptions C48_where_refuted.
(** nor is any pattern that starts with a keyword; *)
Theorem C48_pattern_refuted : forall k w x r p,
  In k ["optional"; "minus"; "graph"; "service"; "filter"; "bind"; "values"]%string -> kw k w -> solid x ->
  graph_pattern_not_triples (w ++ x) <> Ok r p.
Proof. exact pattern_glued. Qed.
Print Assumptions C48_pattern_refuted.
(** so no group starts with [OPTIONAL{], [MINUS{], [FILTER(], [BIND(] or [VALUES(]. *)
Theorem C48_group_refuted : forall k w c x b r g, In k ["optional"; "minus"; "filter"; "bind"; "values"]%string ->
  kw k w -> blank b -> c = 40 \/ c = 123 -> group_graph_pattern (123 :: b ++ w ++ c :: x) <> Ok r g.
Proof. exact group_glued. Qed.
Print Assumptions C48_group_refuted.

Example C48_sample :
  (exists e, ask_query (s_ "ASK{}") = Err e) /\ (exists q, ask_query (s_ "ASK {}") = Ok [] q) /\
  (exists e, where_clause (s_ "WHERE{}") = Err e) /\ (exists g, where_clause (s_ "WHERE {}") = Ok [] g) /\
  (exists e, group_graph_pattern (s_ "{FILTER(true) }") = Err e) /\ (exists g, group_graph_pattern (s_ "{FILTER (true) }") = Ok [] g) /\
  (exists e, group_graph_pattern (s_ "{Optional{} }") = Err e) /\ (exists g, group_graph_pattern (s_ "{Optional {} }") = Ok [] g).
Proof. repeat split; eexists; vm_compute; reflexivity. Qed.
Example C48_hypotheses : kw "ask" (s_ "AsK") /\ kw "filter" (s_ "FILTER") /\ solid (s_ "{}") /\ solid (s_ "(true) }").
Proof. repeat split; try discriminate; cbn; intuition discriminate. Qed.
