(** C56: the brace after a pattern. *)
From Verif Require Import LMods LMore4 LEx2.
Open Scope list_scope.
Open Scope N_scope.

(** With a blank in front of the closing brace the group is read ([W_group_sub] in LayoutExpr.v). *)
Theorem C56_blank_partial : forall g t r, W_ggp g t r -> group_graph_pattern (t ++ r) = Ok r g.
Proof. exact rd_ggp. Qed.
Print Assumptions C56_blank_partial.
(** The full statement is false: optional triples [o] and one or more patterns [l], the last of which ends directly
    before the closing brace, are not read as a group, whatever the patterns. *)
Theorem C56_refuted : forall b0 o l t y r g, blank b0 ->
  (optW (fun t => W_triples_block t >> gap) no_block o >>
   sep1W (W_pattern_and_triples W_expression W_ggp) gap1 (fun r => r = 125 :: y) l) t (125 :: y) ->
  solid (t ++ 125 :: y) -> ~ begins "select" (t ++ 125 :: y) -> group_graph_pattern (123 :: b0 ++ t ++ 125 :: y) <> Ok r g.
Proof. exact group_stuck. Qed.
Print Assumptions C56_refuted.

Example C56_sample :
  (exists g, group_graph_pattern (s_ "{ OPTIONAL {?s ?p ?o} }") = Ok [] g) /\ (exists e, group_graph_pattern (s_ "{ OPTIONAL {?s ?p ?o}}") = Err e) /\
  (exists g, group_graph_pattern (s_ "{?s ?p ?o FILTER (?s) }") = Ok [] g) /\ (exists e, group_graph_pattern (s_ "{?s ?p ?o FILTER (?s)}") = Err e) /\
  (exists g, group_graph_pattern (s_ "{?s ?p ?o}") = Ok [] g).
Proof. repeat split; eexists; vm_compute; reflexivity. Qed.
Example C56_hypotheses : exists o l, let t := s_ "?s ?p ?o FILTER (?s)" in
  (optW (fun t => W_triples_block t >> gap) no_block o >>
   sep1W (W_pattern_and_triples W_expression W_ggp) gap1 (fun r => r = s_ "}") l) t (s_ "}") /\ ~ begins "select" (t ++ s_ "}").
Proof.
  let a := eval vm_compute in (group_graph_pattern (s_ "{?s ?p ?o FILTER (?s) }")) in
    match a with Ok _ (GgpSub (MkGroupGraphPatternSub ?o ?l)) => exists o, l end.
  cbv zeta. split; [|texts; apply (LPrint5.nb_char "select" 63); [reflexivity|left; reflexivity]]. exists (s_ "?s ?p ?o "), (s_ "FILTER (?s)"). split; [reflexivity|]. split; [texts; lay|].
  exists (s_ "FILTER (?s)"), []. split; [reflexivity|]. split; [texts; lay|]. split; reflexivity.
Qed.
