(** C78: lists of predicates and objects in groups. *)
From Verif Require Import LMods LC8 LPred LEx2 LEx.
Open Scope list_scope.
Open Scope N_scope.

(** Refuted: a semicolon does not start a predicate.  The terms between semicolons are returned as objects of one predicate, *)
Theorem C78_semicolon_refuted : forall b v tv b1 p tp b2 o t b3 r, blank b -> W_var v tv (b1 ++ tp ++ b2 ++ t ++ b3 ++ 125 :: r) -> blank1 b1 ->
  solid (tp ++ b2 ++ t ++ b3 ++ 125 :: r) -> W_verb_path p tp (b2 ++ t ++ b3 ++ 125 :: r) -> blank1 b2 -> solid (t ++ b3 ++ 125 :: r) ->
  W_object_list_path o t (b3 ++ 125 :: r) -> blank b3 ->
  group_graph_pattern (123 :: b ++ tv ++ b1 ++ tp ++ b2 ++ t ++ b3 ++ 125 :: r) = Ok r (one_subject v (MkPropertyListPath p o [])).
Proof. exact objects_read. Qed.
Print Assumptions C78_semicolon_refuted.
(** and no group is read where a semicolon is followed by a variable or IRI as predicate and an object ([c]: a character below the
    letters, such as the first one of a variable, an IRI, a number or a string, and neither a dot nor a semicolon). *)
Theorem C78_second_refuted : forall b v tv b1 p tp b2 o t b3 b4 q tq b5 c x r g, blank b ->
  W_var v tv (b1 ++ tp ++ b2 ++ t ++ b3 ++ 59 :: b4 ++ tq ++ b5 ++ c :: x) -> blank1 b1 ->
  solid (tp ++ b2 ++ t ++ b3 ++ 59 :: b4 ++ tq ++ b5 ++ c :: x) -> W_verb_path p tp (b2 ++ t ++ b3 ++ 59 :: b4 ++ tq ++ b5 ++ c :: x) -> blank1 b2 ->
  solid (t ++ b3 ++ 59 :: b4 ++ tq ++ b5 ++ c :: x) ->
  W_var_or_term o t (b3 ++ 59 :: b4 ++ tq ++ b5 ++ c :: x) -> blank b3 -> blank b4 -> solid (tq ++ b5 ++ c :: x) ->
  W_var_or_term q tq (b5 ++ c :: x) -> blank1 b5 -> solid (c :: x) -> c < 65 -> c <> 46 -> c <> 59 ->
  group_graph_pattern (123 :: b ++ tv ++ b1 ++ tp ++ b2 ++ t ++ b3 ++ 59 :: b4 ++ tq ++ b5 ++ c :: x) <> Ok r g.
Proof. exact second_stuck. Qed.
Print Assumptions C78_second_refuted.
(** Refuted: no comma is read between the objects of the first predicate. *)
Theorem C78_comma_refuted : forall b v tv b1 p tp b2 o t b3 x r g, blank b -> W_var v tv (b1 ++ tp ++ b2 ++ t ++ b3 ++ 44 :: x) -> blank1 b1 ->
  solid (tp ++ b2 ++ t ++ b3 ++ 44 :: x) -> W_verb_path p tp (b2 ++ t ++ b3 ++ 44 :: x) -> blank1 b2 -> solid (t ++ b3 ++ 44 :: x) ->
  W_object_list_path o t (b3 ++ 44 :: x) -> blank b3 ->
  group_graph_pattern (123 :: b ++ tv ++ b1 ++ tp ++ b2 ++ t ++ b3 ++ 44 :: x) <> Ok r g.
Proof. exact objects_comma. Qed.
Print Assumptions C78_comma_refuted.
Example C78_sample :
  (exists e, group_graph_pattern (s_ "{?s ?p 1 ; ?q 2}") = Err e) /\ (exists e, group_graph_pattern (s_ "{?s ?p 1 , 2}") = Err e) /\
  group_graph_pattern (s_ "{?s ?p 1 ; ?q}") = Ok [] (one_subject (QMark (s_ "s")) (MkPropertyListPath (VpsSimple (QMark (s_ "p")))
    (MkObjectListPath [GnpVarOrTerm (VotTerm (GtNumericLiteral (NInt 1))); GnpVarOrTerm (VotVar (QMark (s_ "q")))]) [])).
Proof. repeat split; try eexists; vm_compute; reflexivity. Qed.
(** the hypotheses for [{?s ?p ?o;?q 2}] *)
Example C78_hypotheses : let k := s_ ";?q 2}" in
  W_var (QMark (s_ "s")) (s_ "?s") (s_ " ?p ?o" ++ k) /\ W_verb_path (VpsSimple (QMark (s_ "p"))) (s_ "?p") (s_ " ?o" ++ k) /\
  W_var_or_term (VotVar (QMark (s_ "o"))) (s_ "?o") k /\ W_var_or_term (VotVar (QMark (s_ "q"))) (s_ "?q") (s_ " 2}").
Proof. split; [texts; lay|]. split; [texts; lay|]. split; texts; lay. Qed.

(** What is read: a further predicate after two semicolons, with its objects separated by commas. *)
Theorem C78_double_partial : forall b v tv b1 p tp b2 o t b3 b4 b5 e te b6 r, blank b ->
  W_var v tv (b1 ++ tp ++ b2 ++ t ++ b3 ++ 59 :: b4 ++ 59 :: b5 ++ te ++ b6 ++ 125 :: r) -> blank1 b1 ->
  solid (tp ++ b2 ++ t ++ b3 ++ 59 :: b4 ++ 59 :: b5 ++ te ++ b6 ++ 125 :: r) ->
  W_verb_path p tp (b2 ++ t ++ b3 ++ 59 :: b4 ++ 59 :: b5 ++ te ++ b6 ++ 125 :: r) -> blank1 b2 ->
  solid (t ++ b3 ++ 59 :: b4 ++ 59 :: b5 ++ te ++ b6 ++ 125 :: r) ->
  W_var_or_term o t (b3 ++ 59 :: b4 ++ 59 :: b5 ++ te ++ b6 ++ 125 :: r) -> blank b3 -> blank b4 -> blank b5 ->
  solid (te ++ b6 ++ 125 :: r) -> not_first 59 (te ++ b6 ++ 125 :: r) -> W_path_entry e te (b6 ++ 125 :: r) -> blank b6 ->
  group_graph_pattern (123 :: b ++ tv ++ b1 ++ tp ++ b2 ++ t ++ b3 ++ 59 :: b4 ++ 59 :: b5 ++ te ++ b6 ++ 125 :: r) =
    Ok r (one_subject v (MkPropertyListPath p (MkObjectListPath [GnpVarOrTerm o]) [e])).
Proof. exact double_read. Qed.
Print Assumptions C78_double_partial.
(** In general, any list of predicates that is laid out as [W_property_list_path] says: *)
Theorem C78_read_partial : forall b v tv b1 p t b3 r, blank b -> W_var v tv (b1 ++ t ++ b3 ++ 125 :: r) -> blank1 b1 ->
  solid (t ++ b3 ++ 125 :: r) -> W_property_list_path p t (b3 ++ 125 :: r) -> blank b3 ->
  group_graph_pattern (123 :: b ++ tv ++ b1 ++ t ++ b3 ++ 125 :: r) = Ok r (one_subject v p).
Proof. exact subject_read. Qed.
Print Assumptions C78_read_partial.
(** And only so: whatever the text, the second predicate of a list stands after two semicolons or starts with [a], [!] or [^]. *)
Theorem C78_only : forall i r v o e es, property_list_path_not_empty i = Ok r (MkPropertyListPath v o (e :: es)) ->
  exists tv b0 t b1 b2 k, i = tv ++ b0 ++ t ++ b1 ++ 59 :: b2 ++ k /\ R_verb_path v tv /\ blank1 b0 /\ R_object_list_path o t /\ blank b1 /\ blank b2 /\
    (first 59 k \/ first 97 k \/ first 33 k \/ first 94 k).
Proof. exact predicate_start. Qed.
Print Assumptions C78_only.
Example C78_read :
  group_graph_pattern (s_ "{?s ?p ?o;;?q 2,3}") = Ok [] (one_subject (QMark (s_ "s")) (MkPropertyListPath (VpsSimple (QMark (s_ "p")))
    (MkObjectListPath [GnpVarOrTerm (VotVar (QMark (s_ "o")))])
    [MkPropertyListPathEntry (VpsSimple (QMark (s_ "q"))) (MkObjectList [GnVarOrTerm (VotTerm (GtNumericLiteral (NInt 2))); GnVarOrTerm (VotTerm (GtNumericLiteral (NInt 3)))])])) /\
  (exists p es, group_graph_pattern (s_ "{?s ?p ?o ; a 2 , 3}") = Ok [] (one_subject (QMark (s_ "s")) (MkPropertyListPath (VpsSimple (QMark (s_ "p"))) p es)) /\ length es = 1%nat).
Proof. split; [vm_compute; reflexivity|]. eexists _, _. split; [vm_compute; reflexivity|reflexivity]. Qed.
Example C78_entry : W_path_entry (MkPropertyListPathEntry (VpsSimple (QMark (s_ "q"))) (MkObjectList [GnVarOrTerm (VotVar (QMark (s_ "x")))])) (s_ "?q ?x") (s_ "}").
Proof. texts. lay. Qed.
