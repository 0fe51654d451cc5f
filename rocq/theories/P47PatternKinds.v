(** C47: the kind of a graph pattern follows its keyword. *)
From Verif Require Import LFlags.
Open Scope list_scope.
Open Scope N_scope.

(** [announces p i]: [i] starts with the keyword of [p] and a blank, or with a brace for groups and unions. *)
Theorem C47_kind : forall i r p, graph_pattern_not_triples i = Ok r p -> announces p i.
Proof. exact pattern_kind. Qed.
Print Assumptions C47_kind.
Theorem C47_keyword_decides : forall k i r p,
  In k ["optional"; "minus"; "graph"; "service"; "filter"; "bind"; "values"]%string ->
  begins k i -> graph_pattern_not_triples i = Ok r p -> pattern_word p = Some k.
Proof. exact pattern_decides. Qed.
Print Assumptions C47_keyword_decides.
Theorem C47_brace_decides : forall x r p, graph_pattern_not_triples (123 :: x) = Ok r p -> pattern_word p = None.
Proof. exact brace_decides. Qed.
Print Assumptions C47_brace_decides.

Example C47_sample :
  (exists g, graph_pattern_not_triples (s_ "optional {}") = Ok [] (GpOptional g)) /\
  (exists g, graph_pattern_not_triples (s_ "MINUS {}") = Ok [] (GpMinus g)) /\
  (exists g, graph_pattern_not_triples (s_ "graph ?g {}") = Ok [] (GpGraph g)) /\
  (exists g, graph_pattern_not_triples (s_ "service ?g {}") = Ok [] (GpService g)) /\
  (exists g, graph_pattern_not_triples (s_ "filter (?x)") = Ok [] (GpFilter g)) /\
  (exists g, graph_pattern_not_triples (s_ "bind (?x as ?y)") = Ok [] (GpBind g)) /\
  (exists g, graph_pattern_not_triples (s_ "values ?x {}") = Ok [] (GpInlineData g)) /\
  (exists g, graph_pattern_not_triples (s_ "{} union {}") = Ok [] (GpGroupOrUnion g)).
Proof. repeat split; eexists; vm_compute; reflexivity. Qed.
