(** C52: triples whose object is a variable. *)
From Verif Require Import LMore2 LObj LEx2.
Open Scope list_scope.
Open Scope N_scope.

(** Refuted: after a predicate that is an IRI the question mark of the variable is read as the path
    modifier [?], and no list of predicates is read, *)
Theorem C52_object_refuted : forall i t b c x, W_iri i t (b ++ 63 :: c :: x) -> blank1 b -> var_char c = true ->
  fails property_list_path_not_empty (t ++ b ++ 63 :: c :: x).
Proof. exact object_question. Qed.
Print Assumptions C52_object_refuted.
(** so no group [{ ?s <p> ?o ...] is read, whatever the names and the blanks. *)
Theorem C52_group_refuted : forall b v tv b1 i t b2 c x r g, blank b -> W_var v tv (b1 ++ t ++ b2 ++ 63 :: c :: x) -> blank1 b1 ->
  solid (t ++ b2 ++ 63 :: c :: x) -> W_iri i t (b2 ++ 63 :: c :: x) -> blank1 b2 -> var_char c = true ->
  group_graph_pattern (123 :: b ++ tv ++ b1 ++ t ++ b2 ++ 63 :: c :: x) <> Ok r g.
Proof. exact group_question. Qed.
Print Assumptions C52_group_refuted.

Example C52_sample :
  (exists e, group_graph_pattern (s_ "{?s <p> ?o}") = Err e) /\ (exists g, group_graph_pattern (s_ "{?s <p> $o}") = Ok [] g) /\
  (exists g, group_graph_pattern (s_ "{?s ?p ?o}") = Ok [] g).
Proof. repeat split; eexists; vm_compute; reflexivity. Qed.
Example C52_hypotheses : W_var (QMark (s_ "s")) (s_ "?s") (s_ " <p> ?o}") /\ W_iri (IriIri (s_ "p")) (s_ "<p>") (s_ " ?o}") /\ var_char (c_ "o") = true.
Proof. split; [texts; lay|]. split; [|reflexivity]. split; [reflexivity|repeat constructor]. Qed.

(** What is read: after an IRI a variable written with a dollar sign, *)
Theorem C52_dollar_partial : forall b v tv b1 i t b2 o to b3 r, blank b -> W_var v tv (b1 ++ t ++ b2 ++ to ++ b3 ++ 125 :: r) -> blank1 b1 ->
  solid (t ++ b2 ++ to ++ b3 ++ 125 :: r) -> W_iri i t (b2 ++ to ++ b3 ++ 125 :: r) -> blank1 b2 -> W_var (Dollar o) to (b3 ++ 125 :: r) -> blank b3 ->
  group_graph_pattern (123 :: b ++ tv ++ b1 ++ t ++ b2 ++ to ++ b3 ++ 125 :: r) = Ok r (one_triple v (pred i None) (Dollar o)).
Proof. exact object_dollar. Qed.
Print Assumptions C52_dollar_partial.
(** after a predicate that is a variable every variable, *)
Theorem C52_variable_partial : forall b v tv b1 p t b2 o to b3 r, blank b -> W_var v tv (b1 ++ t ++ b2 ++ to ++ b3 ++ 125 :: r) -> blank1 b1 ->
  W_var p t (b2 ++ to ++ b3 ++ 125 :: r) -> blank1 b2 -> W_var o to (b3 ++ 125 :: r) -> blank b3 ->
  group_graph_pattern (123 :: b ++ tv ++ b1 ++ t ++ b2 ++ to ++ b3 ++ 125 :: r) = Ok r (one_triple v (VpsSimple p) o).
Proof. exact object_after_var. Qed.
Print Assumptions C52_variable_partial.
(** and after an IRI with a path modifier every variable. *)
Theorem C52_modifier_partial : forall b v tv b1 i t b2 m tm b3 o to b4 r, blank b -> W_var v tv (b1 ++ t ++ b2 ++ tm ++ b3 ++ to ++ b4 ++ 125 :: r) -> blank1 b1 ->
  solid (t ++ b2 ++ tm ++ b3 ++ to ++ b4 ++ 125 :: r) -> W_iri i t (b2 ++ tm ++ b3 ++ to ++ b4 ++ 125 :: r) -> blank1 b2 -> R_mod m tm -> blank1 b3 ->
  W_var o to (b4 ++ 125 :: r) -> blank b4 ->
  group_graph_pattern (123 :: b ++ tv ++ b1 ++ t ++ b2 ++ tm ++ b3 ++ to ++ b4 ++ 125 :: r) = Ok r (one_triple v (pred i (Some m)) o).
Proof. exact object_after_mod. Qed.
Print Assumptions C52_modifier_partial.
(** [{?s <p> $o}], [{?s ?p ?o}] and [{?s <p> * ?o}]. *)
Example C52_read :
  group_graph_pattern (s_ "{?s <p> $o} x") = Ok (s_ " x") (one_triple (QMark (s_ "s")) (pred (IriIri (s_ "p")) None) (Dollar (s_ "o"))) /\
  group_graph_pattern (s_ "{?s ?p ?o} x") = Ok (s_ " x") (one_triple (QMark (s_ "s")) (VpsSimple (QMark (s_ "p"))) (QMark (s_ "o"))) /\
  group_graph_pattern (s_ "{?s <p> * ?o} x") = Ok (s_ " x") (one_triple (QMark (s_ "s")) (pred (IriIri (s_ "p")) (Some PmAsterisk)) (QMark (s_ "o"))).
Proof.
  assert (B : blank1 (s_ " ")) by (split; [repeat constructor|discriminate]). assert (N : blank []) by constructor.
  assert (I : forall r, W_iri (IriIri (s_ "p")) (s_ "<p>") r) by (intros r; split; [reflexivity|repeat constructor]).
  split; [|split].
  - apply (C52_dollar_partial [] (QMark (s_ "s")) (s_ "?s") (s_ " ") (IriIri (s_ "p")) (s_ "<p>") (s_ " ") (s_ "o") (s_ "$o") [] (s_ " x")); try assumption; try apply I; texts; lay.
  - apply (C52_variable_partial [] (QMark (s_ "s")) (s_ "?s") (s_ " ") (QMark (s_ "p")) (s_ "?p") (s_ " ") (QMark (s_ "o")) (s_ "?o") [] (s_ " x")); try assumption; texts; lay.
  - apply (C52_modifier_partial [] (QMark (s_ "s")) (s_ "?s") (s_ " ") (IriIri (s_ "p")) (s_ "<p>") (s_ " ") PmAsterisk (s_ "*") (s_ " ") (QMark (s_ "o")) (s_ "?o") [] (s_ " x")); try assumption; try apply I; try reflexivity; texts; lay.
Qed.
