(** C32: a trailing VALUES block is attached to the query. *)
From Verif Require Import LMods LGen4 LEx2 LEx.
Open Scope list_scope.
Open Scope N_scope.

(** Where the text of a query is followed by blank text and a VALUES block, the block is returned with it.
    Missing from the full statement: the texts of queries ([W_query]) followed by a blank are those of
    [C32_where_refuted]. *)
Theorem C32_attached_partial : forall p q v t r,
  (W_prologue p >> gap >> W_query q >> gap1 >> W_values v) t r ->
  sparql_query_stmt (t ++ r) = Ok r (MkSparqlQueryStatement p q (Some v)).
Proof. intros p q v. exact (rd_query_stmt (MkSparqlQueryStatement p q (Some v))). Qed.
Print Assumptions C32_attached_partial.
(** The full statement is false: a block is only ever attached to a query whose last clause is GROUP BY,
    HAVING or ORDER BY, or which has both LIMIT and OFFSET; never after a WHERE group or a single LIMIT. *)
Theorem C32_where_refuted : forall i r p q v, sparql_query_stmt i = Ok r (MkSparqlQueryStatement p q (Some v)) ->
  match limit_of q with Some lo => ~ single lo | None => order_of q <> None \/ group_of q <> None \/ having_of q <> None end.
Proof. exact values_after. Qed.
Print Assumptions C32_where_refuted.
(** Where no blank is left after the text of a query, in particular after the braces of a WHERE clause or
    after LIMIT or OFFSET alone with any blanks that follow them, the block stays unread. *)
Theorem C32_dropped_refuted : forall p q t c, (W_prologue p >> gap >> W_query q) t c -> begins "values" c ->
  sparql_query_stmt (t ++ c) = Ok c (MkSparqlQueryStatement p q None).
Proof. intros p q t c H B. exact (values_left p q t c H (begins_solid "values" c eq_refl B)). Qed.
Print Assumptions C32_dropped_refuted.
(** Nothing else than a VALUES block after blank text is attached. *)
Theorem C32_only : forall i r p q v, sparql_query_stmt i = Ok r (MkSparqlQueryStatement p q (Some v)) ->
  exists t, i = t ++ r /\ R_query_stmt (MkSparqlQueryStatement p q (Some v)) t.
Proof. intros i r p q v. apply sd_sparql_query_stmt. Qed.
Print Assumptions C32_only.

Example C32_order : exists p q v, let t := s_ "ASK {} ORDER BY ?x VALUES ?x { 1 }" in
  (W_prologue p >> gap >> W_query q >> gap1 >> W_values v) t [] /\ sparql_query_stmt t = Ok [] (MkSparqlQueryStatement p q (Some v)).
Proof. do 3 eexists. cbv zeta. split; [|vm_compute; reflexivity]. texts. lay. Qed.
Example C32_limit_offset : exists p q v, let t := s_ "ASK {} LIMIT 1 OFFSET 2 VALUES (?x ?y) { (1 UNDEF) }" in
  (W_prologue p >> gap >> W_query q >> gap1 >> W_values v) t [] /\ sparql_query_stmt t = Ok [] (MkSparqlQueryStatement p q (Some v)).
Proof. do 3 eexists. cbv zeta. split; [|vm_compute; reflexivity]. texts. lay. Qed.
Example C32_dropped :
  (exists p q, (W_prologue p >> gap >> W_query q) (s_ "ASK {} ") (s_ "VALUES ?x { 1 }")) /\
  (exists p q, (W_prologue p >> gap >> W_query q) (s_ "ASK {} LIMIT 1 ") (s_ "VALUES ?x { 1 }")) /\
  (exists p q, sparql_query_stmt (s_ "ASK {} VALUES ?x { 1 }") = Ok (s_ "VALUES ?x { 1 }") (MkSparqlQueryStatement p q None)) /\
  (exists p q, sparql_query_stmt (s_ "ASK {} LIMIT 1 VALUES ?x { 1 }") = Ok (s_ "VALUES ?x { 1 }") (MkSparqlQueryStatement p q None)).
Proof.
  split; [|split; [|split; do 2 eexists; vm_compute; reflexivity]].
  - let a := eval vm_compute in (sparql_query_stmt (s_ "ASK {} VALUES ?x { 1 }")) in match a with Ok _ (MkSparqlQueryStatement ?p ?q _) => exists p, q end. texts. lay.
  - let a := eval vm_compute in (sparql_query_stmt (s_ "ASK {} LIMIT 1 VALUES ?x { 1 }")) in match a with Ok _ (MkSparqlQueryStatement ?p ?q _) => exists p, q end. texts. lay.
Qed.
