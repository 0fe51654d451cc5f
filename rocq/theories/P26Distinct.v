(** C26: aggregates report DISTINCT iff it was written. *)
From Verif Require Import LInv.
Open Scope list_scope.

(** [says_distinct j]: [j] starts with DISTINCT in some letter case and a blank (Spec2.v). *)
Theorem C26_distinct_iff_written : forall i r a, aggregate i = Ok r a ->
  exists k w b j, In k aggregate_names /\ i = w ++ b ++ 40%N :: j /\ kw k w /\ blank b /\
    (is_distinct a = true <-> says_distinct j).
Proof. exact (aggregate_distinct expression). Qed.
Print Assumptions C26_distinct_iff_written.

Example C26_distinct : match aggregate (s_ "SUM (dISTINCT ?x)") with Ok [] a => is_distinct a = true | _ => False end.
Proof. vm_compute. reflexivity. Qed.
Example C26_not_distinct : match aggregate (s_ "group_concat(?x;separator=',')") with Ok [] a => is_distinct a = false | _ => False end.
Proof. vm_compute. reflexivity. Qed.
