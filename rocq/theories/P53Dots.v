(** C53: the dot in groups. *)
From Verif Require Import LMore2 LEx2.
Open Scope list_scope.
Open Scope N_scope.

(** Refuted: no group is read in which the triples at its start end with a dot and no triple follows that
    dot, whether the group ends there or OPTIONAL, FILTER or another pattern follows. *)
Theorem C53_last_dot_refuted : forall b0 l t b b' x r g, blank b0 ->
  sep1W W_tssp dotsW (fun r => r = b ++ 46 :: b' ++ x) l t (b ++ 46 :: b' ++ x) ->
  blank b -> blank b' -> solid x -> not_first 46 x -> no_block x ->
  solid (t ++ b ++ 46 :: b' ++ x) -> ~ begins "select" (t ++ b ++ 46 :: b' ++ x) ->
  group_graph_pattern (123 :: b0 ++ t ++ b ++ 46 :: b' ++ x) <> Ok r g.
Proof. exact group_dot. Qed.
Print Assumptions C53_last_dot_refuted.
(** Nor is a group that starts with a pattern and a dot after it, unless a digit follows the dot. *)
Theorem C53_pattern_dot_refuted : forall b0 p t b y r g, blank b0 -> W_pattern W_expression W_ggp p t (b ++ 46 :: y) -> blank b -> stops isd y ->
  solid (t ++ b ++ 46 :: y) -> no_block (t ++ b ++ 46 :: y) -> ~ begins "select" (t ++ b ++ 46 :: y) ->
  group_graph_pattern (123 :: b0 ++ t ++ b ++ 46 :: y) <> Ok r g.
Proof. exact pattern_then_dot. Qed.
Print Assumptions C53_pattern_dot_refuted.
(** The mark that is taken after a pattern is the question mark: a variable [?v] after a pattern loses it, and the
    triples that follow are those read from the text after the mark. *)
Theorem C53_question_refuted : forall b0 p t b y r g, blank b0 -> W_pattern W_expression W_ggp p t (b ++ 63 :: y) -> blank b ->
  solid (t ++ b ++ 63 :: y) -> no_block (t ++ b ++ 63 :: y) -> ~ begins "select" (t ++ b ++ 63 :: y) ->
  group_graph_pattern (123 :: b0 ++ t ++ b ++ 63 :: y) = Ok r g ->
  exists o l, g = GgpSub (MkGroupGraphPatternSub None (MkGraphPatternAndTriples p o :: l)) /\
    exists k, opt (preceded sp triples_block) y = Ok k o.
Proof. exact pattern_then_question. Qed.
Print Assumptions C53_question_refuted.

Example C53_sample :
  (exists e, group_graph_pattern (s_ "{?s ?p ?o .}") = Err e) /\ (exists e, group_graph_pattern (s_ "{?s ?p ?o . FILTER (true) }") = Err e) /\
  (exists g, group_graph_pattern (s_ "{?s ?p ?o . $s $p $o}") = Ok [] g) /\ (exists g, group_graph_pattern (s_ "{?s ?p ?o FILTER (true) }") = Ok [] g) /\
  (exists e, group_graph_pattern (s_ "{ {} . ?s ?p ?o }") = Err e) /\ (exists e, group_graph_pattern (s_ "{ {} ?s ?p ?o }") = Err e) /\
  (exists g, group_graph_pattern (s_ "{ {} ??s ?p ?o }") = Ok [] g) /\ (exists g, group_graph_pattern (s_ "{ {} $s ?p ?o }") = Ok [] g).
Proof. repeat split; eexists; vm_compute; reflexivity. Qed.
Example C53_hypotheses : exists l,
  sep1W W_tssp dotsW (fun r => r = s_ " " ++ 46 :: s_ " " ++ s_ "}") l (s_ "?s ?p ?o") (s_ " . }") /\ no_block (s_ "}").
Proof.
  exists [TsspTerm (VotVar (QMark (s_ "s"))) (MkPropertyListPath (VpsSimple (QMark (s_ "p"))) (MkObjectListPath [GnpVarOrTerm (VotVar (QMark (s_ "o")))]) [])].
  split; [|left; now exists []]. exists (s_ "?s ?p ?o"), []. split; [reflexivity|]. split; [texts; lay|]. split; reflexivity.
Qed.
Example C53_hypotheses_pattern : exists p, W_pattern W_expression W_ggp p (s_ "FILTER (true)") (s_ " . ?s ?p ?o}") /\
  graph_pattern_not_triples (s_ "FILTER (true) . ?s ?p ?o}") = Ok (s_ " . ?s ?p ?o}") p /\
  stops isd (s_ " ?s ?p ?o}") /\ no_block (s_ "FILTER (true) . ?s ?p ?o}").
Proof. eexists. split; [|split; [vm_compute; reflexivity|split; [reflexivity|texts; lay]]]. texts. lay. Qed.
