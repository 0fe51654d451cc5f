(** C83: literals and variables are read alike wherever they stand. *)
From Verif Require Import LMods LC8 LLit LEx2 LEx.
Open Scope list_scope.
Open Scope N_scope.

(** Strings, with language tags and datatypes: as a term of a triple, as a value of VALUES, as an operand. *)
Theorem C83_strings : forall j r l,
  (graph_term j = Ok r (GtRdfLiteral l) <-> datablock_value j = Ok r (DbvRdfLiteral l)) /\ (graph_term j = Ok r (GtRdfLiteral l) <-> primary_expression j = Ok r (PeRdfLiteral l)).
Proof. exact strings_alike. Qed.
Print Assumptions C83_strings.
Theorem C83_numbers : forall j r n,
  (graph_term j = Ok r (GtNumericLiteral n) <-> datablock_value j = Ok r (DbvNumericLiteral n)) /\ (graph_term j = Ok r (GtNumericLiteral n) <-> primary_expression j = Ok r (PeNumericLiteral n)).
Proof. exact numbers_alike. Qed.
Print Assumptions C83_numbers.
Theorem C83_booleans : forall j r v,
  (graph_term j = Ok r (GtBooleanLiteral v) <-> datablock_value j = Ok r (DbvBooleanLiteral v)) /\ (graph_term j = Ok r (GtBooleanLiteral v) <-> primary_expression j = Ok r (PeBooleanLiteral v)).
Proof. exact booleans_alike. Qed.
Print Assumptions C83_booleans.
(** Variables: as a subject or object, as a verb, as an operand, after GROUP BY and after ORDER BY. *)
Theorem C83_variables : forall j r v, let P := var_or_term j = Ok r (VotVar v) in
  (P <-> verb j = Ok r (VerbVarOrIri (VoiVar v))) /\ (P <-> primary_expression j = Ok r (PeVar v)) /\ (P <-> group_condition j = Ok r (GcVar v)) /\ (P <-> order_condition j = Ok r (OcVar v)).
Proof. exact variables_alike. Qed.
Print Assumptions C83_variables.

Example C83_read :
  (exists l, graph_term (s_ "'ab'@en-GB .") = Ok (s_ " .") (GtRdfLiteral l) /\ datablock_value (s_ "'ab'@en-GB .") = Ok (s_ " .") (DbvRdfLiteral l) /\ primary_expression (s_ "'ab'@en-GB .") = Ok (s_ " .") (PeRdfLiteral l)) /\
  (exists n, graph_term (s_ "-1.5e3 .") = Ok (s_ " .") (GtNumericLiteral n) /\ datablock_value (s_ "-1.5e3 .") = Ok (s_ " .") (DbvNumericLiteral n) /\ primary_expression (s_ "-1.5e3 .") = Ok (s_ " .") (PeNumericLiteral n)) /\
  (graph_term (s_ "True .") = Ok (s_ " .") (GtBooleanLiteral true) /\ datablock_value (s_ "True .") = Ok (s_ " .") (DbvBooleanLiteral true) /\ primary_expression (s_ "True .") = Ok (s_ " .") (PeBooleanLiteral true)) /\
  (exists v, var_or_term (s_ "$ab .") = Ok (s_ " .") (VotVar v) /\ primary_expression (s_ "$ab .") = Ok (s_ " .") (PeVar v) /\ group_condition (s_ "$ab .") = Ok (s_ " .") (GcVar v) /\ order_condition (s_ "$ab .") = Ok (s_ " .") (OcVar v)).
Proof. repeat split; repeat eexists; vm_compute; reflexivity. Qed.
