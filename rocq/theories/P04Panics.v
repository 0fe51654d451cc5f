(** C04: parsing never panics -- refuted, and what holds instead. *)
From Verif Require Import LGen LEx.
Open Scope N_scope.
Open Scope list_scope.

(** A variable, an IRI that a path may start with, a blank and a character that is not ASCII make the parser slice
    inside that character (path.rs:280), whatever follows. *)
Theorem C04_refuted : forall b v tv b1 i t b2 c y, blank b -> W_var v tv (b1 ++ t ++ b2 ++ c :: y) -> blank1 b1 ->
  solid (t ++ b2 ++ c :: y) -> W_iri i t (b2 ++ c :: y) -> blank1 b2 -> 128 <= c ->
  sparql_query_stmt (s_ "ASK {" ++ b ++ tv ++ b1 ++ t ++ b2 ++ c :: y) = Err Panic.
Proof. exact path_panic. Qed.
Print Assumptions C04_refuted.
Example C04_panics : let x := 0xE9 :: s_ ":x ?o}" in
  W_var (QMark (s_ "s")) (s_ "?s") (s_ " " ++ s_ "<p>" ++ s_ " " ++ x) /\ W_iri (IriIri (s_ "p")) (s_ "<p>") (s_ " " ++ x) /\
  sparql_query_stmt (s_ "ASK {" ++ s_ "?s" ++ s_ " " ++ s_ "<p>" ++ s_ " " ++ x) = Err Panic.
Proof. cbv zeta. texts. split; [leaf|]. split; [leaf|]. vm_compute. reflexivity. Qed.

(** The Kelvin sign U+212A (lower case 'k') in a keyword makes [tag_no_case] slice inside it, whatever follows. *)
Theorem C04_kelvin_refuted : forall u r, kw "as" u -> sparql_query_stmt (u ++ 0x212A :: r) = Err Panic.
Proof. exact kelvin_panic. Qed.
Print Assumptions C04_kelvin_refuted.
Example C04_kelvin : kw "as" (s_ "As") /\ sparql_query_stmt (s_ "As" ++ 0x212A :: s_ " {}") = Err Panic.
Proof. split; [reflexivity|vm_compute; reflexivity]. Qed.

(** Full statement of C04: [forall i, sparql_query_stmt i <> Err Panic] (false, see above).
    What holds: a panic needs U+212A, or a non-ASCII character directly after a blank. *)
Theorem C04_query_stmt_partial : forall i, sparql_query_stmt i = Err Panic ->
  exists u c v, i = u ++ c :: v /\
    (c = 0x212A \/
     (128 <= c /\ exists u' b, u = u' ++ [b] /\ (b = 32 \/ b = 9 \/ b = 10 \/ b = 13))).
Proof. intros i. exact (good_panic _ _ _ _ i gd_sparql_query_stmt). Qed.
Print Assumptions C04_query_stmt_partial.

Theorem C04_update_partial : forall i, update i = Err Panic ->
  exists u c v, i = u ++ c :: v /\
    (c = 0x212A \/
     (128 <= c /\ exists u' b, u = u' ++ [b] /\ (b = 32 \/ b = 9 \/ b = 10 \/ b = 13))).
Proof. intros i. exact (good_panic _ _ _ _ i gd_update). Qed.
Print Assumptions C04_update_partial.

(** In particular ASCII text never makes the parsers panic. *)
Theorem C04_ascii_never_panics : forall i, (forall c, In c i -> c < 128) ->
  sparql_query_stmt i <> Err Panic /\ update i <> Err Panic.
Proof.
  intros i Ha. split; intros H;
    [apply C04_query_stmt_partial in H | apply C04_update_partial in H];
    destruct H as (u & c & v & -> & H);
    assert (c < 128) by (apply Ha, in_or_app; right; now left);
    destruct H as [-> | [H _]]; try lia; discriminate.
Qed.
Print Assumptions C04_ascii_never_panics.

(** The parsers that involve neither paths nor the keywords ASK and isBlank never panic at all:
    prologue, terms, templates, data blocks, quads, and every update statement but DELETE/INSERT
    ... WHERE. *)
Theorem C04_path_free_never_panics : forall i,
  prologue i <> Err Panic /\ iri i <> Err Panic /\ rdf_literal i <> Err Panic /\
  numeric_literal i <> Err Panic /\ var i <> Err Panic /\ blank_node i <> Err Panic /\
  graph_node i <> Err Panic /\ triples_template i <> Err Panic /\ construct_template i <> Err Panic /\
  datablock i <> Err Panic /\ quads_pattern i <> Err Panic /\ limit_offset_clause i <> Err Panic /\
  load_stmt i <> Err Panic /\ clear_stmt i <> Err Panic /\ drop_stmt i <> Err Panic /\
  create_stmt i <> Err Panic /\ add_stmt i <> Err Panic /\ move_stmt i <> Err Panic /\
  copy_stmt i <> Err Panic /\ insert_data i <> Err Panic /\ delete_data i <> Err Panic /\
  delete_where_data i <> Err Panic.
Proof.
  intros i. repeat apply conj.
  - exact (good_no_panic _ _ _ i gd_prologue).
  - exact (good_no_panic _ _ _ i gd_iri).
  - exact (good_no_panic _ _ _ i gd_rdf_literal).
  - exact (good_no_panic _ _ _ i gd_numeric_literal).
  - exact (good_no_panic _ _ _ i gd_var).
  - exact (good_no_panic _ _ _ i gd_blank_node).
  - exact (good_no_panic _ _ _ i gd_graph_node).
  - exact (good_no_panic _ _ _ i gd_triples_template).
  - exact (good_no_panic _ _ _ i gd_construct_template).
  - exact (good_no_panic _ _ _ i gd_datablock).
  - exact (good_no_panic _ _ _ i gd_quads_pattern).
  - exact (good_no_panic _ _ _ i gd_limit_offset_clause).
  - exact (good_no_panic _ _ _ i gd_load_stmt).
  - exact (good_no_panic _ _ _ i gd_clear_stmt).
  - exact (good_no_panic _ _ _ i gd_drop_stmt).
  - exact (good_no_panic _ _ _ i gd_create_stmt).
  - exact (good_no_panic _ _ _ i gd_add_stmt).
  - exact (good_no_panic _ _ _ i gd_move_stmt).
  - exact (good_no_panic _ _ _ i gd_copy_stmt).
  - exact (good_no_panic _ _ _ i gd_insert_data).
  - exact (good_no_panic _ _ _ i gd_delete_data).
  - exact (good_no_panic _ _ _ i gd_delete_where_data).
Qed.
Print Assumptions C04_path_free_never_panics.

(** Non-ASCII text that is not of the panicking shape is parsed. *)
Example C04_non_ascii_ok :
  exists q, sparql_query_stmt (s_ "ASK {?s :pp" ++ [0xE9] ++ s_ ":x 'caf" ++ [0xE9] ++ s_ "'}") = Ok [] q.
Proof. eexists. vm_compute. reflexivity. Qed.
