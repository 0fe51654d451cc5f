(** C05: a complete text is never answered with Incomplete -- refuted, and what holds instead. *)
From Verif Require Import LGen LEx2.
Open Scope N_scope.
Open Scope list_scope.

(** Every text that ends after an expression without a comparison in a SELECT clause. *)
Theorem C05_refuted : forall b a t, blank b -> solid t -> W_additive W_expression W_ggp a t [] ->
  sparql_query_stmt (s_ "SELECT (" ++ b ++ t) = Err Incomplete.
Proof. exact select_stops. Qed.
Print Assumptions C05_refuted.
Example C05_open : W_additive W_expression W_ggp (add1_ (un_ "x")) (s_ "?x ") [] /\ sparql_query_stmt (s_ "SELECT (" ++ s_ "?x ") = Err Incomplete.
Proof. split; [go|vm_compute; reflexivity]. Qed.
(** Every text that ends with a blank after a variable and an IRI that a path may start with (path.rs:277). *)
Theorem C05_path_refuted : forall b v tv b1 i t b2, blank b -> W_var v tv (b1 ++ t ++ b2) -> blank1 b1 -> solid (t ++ b2) ->
  W_iri i t b2 -> blank1 b2 -> sparql_query_stmt (s_ "ASK {" ++ b ++ tv ++ b1 ++ t ++ b2) = Err Incomplete.
Proof. exact path_incomplete. Qed.
Print Assumptions C05_path_refuted.
Example C05_path : W_var (QMark (s_ "s")) (s_ "?s") (s_ " " ++ s_ "<p>" ++ s_ " ") /\ W_iri (IriIri (s_ "p")) (s_ "<p>") (s_ " ") /\
  sparql_query_stmt (s_ "ASK {?s <p> ") = Err Incomplete.
Proof. texts. split; [leaf|]. split; [leaf|]. vm_compute. reflexivity. Qed.

(** Full statement of C05: [forall i, sparql_query_stmt i <> Err Incomplete] (false, see above).
    What holds: Incomplete is only answered for texts with an opening parenthesis or brace. *)
Theorem C05_query_stmt_partial : forall i, sparql_query_stmt i = Err Incomplete ->
  In (c_ "(") i \/ In (c_ "{") i.
Proof. intros i. exact (good_incomplete _ _ _ i gd_sparql_query_stmt). Qed.
Print Assumptions C05_query_stmt_partial.

Theorem C05_update_partial : forall i, update i = Err Incomplete ->
  In (c_ "(") i \/ In (c_ "{") i.
Proof. intros i. exact (good_incomplete _ _ _ i gd_update). Qed.
Print Assumptions C05_update_partial.

(** The parsers that involve neither paths nor expressions never answer Incomplete: prologue, terms,
    templates, data blocks, quads, LIMIT/OFFSET, and every update statement but DELETE/INSERT ...
    WHERE. *)
Theorem C05_path_free_never_incomplete : forall i,
  prologue i <> Err Incomplete /\ iri i <> Err Incomplete /\ rdf_literal i <> Err Incomplete /\
  numeric_literal i <> Err Incomplete /\ var i <> Err Incomplete /\ blank_node i <> Err Incomplete /\
  graph_node i <> Err Incomplete /\ triples_template i <> Err Incomplete /\ construct_template i <> Err Incomplete /\
  datablock i <> Err Incomplete /\ quads_pattern i <> Err Incomplete /\ limit_offset_clause i <> Err Incomplete /\
  load_stmt i <> Err Incomplete /\ clear_stmt i <> Err Incomplete /\ drop_stmt i <> Err Incomplete /\
  create_stmt i <> Err Incomplete /\ add_stmt i <> Err Incomplete /\ move_stmt i <> Err Incomplete /\
  copy_stmt i <> Err Incomplete /\ insert_data i <> Err Incomplete /\ delete_data i <> Err Incomplete /\
  delete_where_data i <> Err Incomplete.
Proof.
  intros i. repeat apply conj.
  - exact (good_never _ _ _ i gd_prologue).
  - exact (good_never _ _ _ i gd_iri).
  - exact (good_never _ _ _ i gd_rdf_literal).
  - exact (good_never _ _ _ i gd_numeric_literal).
  - exact (good_never _ _ _ i gd_var).
  - exact (good_never _ _ _ i gd_blank_node).
  - exact (good_never _ _ _ i gd_graph_node).
  - exact (good_never _ _ _ i gd_triples_template).
  - exact (good_never _ _ _ i gd_construct_template).
  - exact (good_never _ _ _ i gd_datablock).
  - exact (good_never _ _ _ i gd_quads_pattern).
  - exact (good_never _ _ _ i gd_limit_offset_clause).
  - exact (good_never _ _ _ i gd_load_stmt).
  - exact (good_never _ _ _ i gd_clear_stmt).
  - exact (good_never _ _ _ i gd_drop_stmt).
  - exact (good_never _ _ _ i gd_create_stmt).
  - exact (good_never _ _ _ i gd_add_stmt).
  - exact (good_never _ _ _ i gd_move_stmt).
  - exact (good_never _ _ _ i gd_copy_stmt).
  - exact (good_never _ _ _ i gd_insert_data).
  - exact (good_never _ _ _ i gd_delete_data).
  - exact (good_never _ _ _ i gd_delete_where_data).
Qed.
Print Assumptions C05_path_free_never_incomplete.

(** Closed texts with brackets, paths and expressions are answered. *)
Example C05_closed_ok :
  exists q, sparql_query_stmt (s_ "SELECT (1 AS ?x) {?s :pp+ ?o FILTER ((?x = 1) && !(?s != 2))}") = q /\
            q <> Err Incomplete.
Proof. eexists. split; [vm_compute; reflexivity | discriminate]. Qed.
