(** C42: DESCRIBE with only targets. *)
From Verif Require Import LFlags4.
Open Scope list_scope.

(** Targets followed by a blank are read. *)
Theorem C42_blank : forall v t w b, kw "describe" w -> blank1 b -> solid t -> W_targets v t (s_ " ") ->
  describe_query (w ++ b ++ t ++ s_ " ") = Ok [] (MkDescribeQuery [] v None (MkSolutionModifier None None None None)).
Proof. exact describe_blank. Qed.
Print Assumptions C42_blank.
(** Refuted at the end of the text: [DESCRIBE <iri>], [DESCRIBE ?x] and [DESCRIBE *] are rejected. *)
Theorem C42_end_refuted : forall w b v t r q, kw "describe" w -> blank1 b -> W_var_or_iri v t [] -> solid t ->
  describe_query (w ++ b ++ t) <> Ok r q.
Proof. exact describe_end. Qed.
Print Assumptions C42_end_refuted.
Theorem C42_all_refuted : forall w b r q, kw "describe" w -> blank1 b -> describe_query (w ++ b ++ s_ "*") <> Ok r q.
Proof. exact describe_end_all. Qed.
Print Assumptions C42_all_refuted.

Example C42_sample :
  (exists q, describe_query (s_ "DESCRIBE <u> ") = Ok [] q) /\ (exists e, describe_query (s_ "DESCRIBE <u>") = Err e) /\
  (exists q, describe_query (s_ "DESCRIBE ?x <u> ") = Ok [] q) /\ (exists e, describe_query (s_ "DESCRIBE *") = Err e).
Proof. repeat split; eexists; vm_compute; reflexivity. Qed.
Example C42_hypotheses : W_var_or_iri (VoiIri (IriIri (s_ "u"))) (s_ "<u>") [] /\ W_targets VoiAll (s_ "*") (s_ " ").
Proof. split; [split; [reflexivity|repeat constructor]|reflexivity]. Qed.
