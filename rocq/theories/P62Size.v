(** C62: a tree is at most 16 times as large as the text it was read from. *)
From Verif Require Import LSize3.
Open Scope list_scope.

(** [size_query_stmt d n q] (SpecSize.v): one for every value of a struct or enum, every element of a list and every
    character of a name or literal; expressions and groups nested more than [n] deep count as [d].  The bound holds for
    every [d] as soon as [n] reaches the number of characters read: no tree is nested deeper than that, and nothing is
    left out of the count. *)
Theorem C62_query : forall d n i r q, sparql_query_stmt i = Ok r q -> (List.length i <= List.length r + n)%nat ->
  (size_query_stmt d n q + 16 * List.length r <= 16 * List.length i)%nat.
Proof. exact query_size. Qed.
Print Assumptions C62_query.
(** An empty request (the two values for it) is read from the empty text. *)
Theorem C62_update : forall d n i r u, update i = Ok r u -> (List.length i <= List.length r + n)%nat ->
  (size_update d n u + 16 * List.length r <= 16 * List.length i + 2)%nat.
Proof. exact update_size. Qed.
Print Assumptions C62_update.
Theorem C62_pattern : forall d n i r g, group_graph_pattern i = Ok r g -> (List.length i <= List.length r + n)%nat ->
  (size_ggp d n g + 16 * List.length r <= 16 * List.length i)%nat.
Proof. exact pattern_size. Qed.
Print Assumptions C62_pattern.
Theorem C62_expression : forall d n i r e, expression i = Ok r e -> (List.length i <= List.length r + n)%nat ->
  (size_expression d n e + 16 * List.length r <= 16 * List.length i)%nat.
Proof. exact expression_size. Qed.
Print Assumptions C62_expression.

(** 28 values and characters in 13 characters, nested two deep: cut off earlier, the rest counts as [d]. *)
Example C62_sample : exists e, expression (s_ "( 1 ) && ?ab }") = Ok (s_ "}") e /\
  size_expression 1000 13 e = 28%nat /\ size_expression 1000 2 e = 28%nat /\ size_expression 1000 1 e = 1018%nat.
Proof. eexists. repeat split; vm_compute; reflexivity. Qed.
Example C62_query_sample : exists q, sparql_query_stmt (s_ "SELECT ?a WHERE {?a ?b 5 FILTER (?c < 7 ) } LIMIT 7") = Ok [] q /\
  size_query_stmt 1000 60 q = 51%nat.
Proof. eexists. repeat split; vm_compute; reflexivity. Qed.
Example C62_update_sample : exists u, update [] = Ok [] u /\ size_update 1000 0 u = 2%nat.
Proof. eexists. repeat split; vm_compute; reflexivity. Qed.
