(** C43: the two forms of CONSTRUCT. *)
From Verif Require Import LFlags3.
Open Scope list_scope.
Open Scope N_scope.

(** The form with a template is returned exactly when a brace follows the keyword. *)
Theorem C43_form : forall i r q, construct_query i = Ok r q ->
  exists j, after_word "construct" i j /\ ((exists c, q = CqSubConstruct c) <-> exists x, j = 123 :: x).
Proof. exact construct_form. Qed.
Print Assumptions C43_form.

Example C43_sample :
  (exists c, construct_query (s_ "construct {?s ?p ?o} where {?s ?p ?o}") = Ok [] (CqSubConstruct c)) /\
  (exists c, construct_query (s_ "construct where {?s ?p ?o}") = Ok [] (CqSubTriples c)).
Proof. repeat split; eexists; vm_compute; reflexivity. Qed.
