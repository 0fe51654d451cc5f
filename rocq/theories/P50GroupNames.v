(** C50: naming the value of an expression in GROUP BY. *)
From Verif Require Import LMore1.
Open Scope list_scope.
Open Scope N_scope.

(** Refuted: [AS ?v] is only read after an expression that ends in a sum, a difference or an IN list
    ([Print.op_expression]); after a variable, a call, a product or a comparison of these the condition is
    rejected. *)
Theorem C50_name_refuted : forall i r e v, group_condition i = Ok r (GcExpressionAsVarOpt (MkExpressionAsVarOpt e (Some v))) ->
  Print.op_expression e = true.
Proof. exact group_name. Qed.
Print Assumptions C50_name_refuted.

Example C50_sample :
  (exists e, group_condition (s_ "(?a AS ?v)") = Err e) /\ (exists e, group_condition (s_ "(?a = 1 AS ?v)") = Err e) /\
  (exists e, group_condition (s_ "(str(?a) AS ?v)") = Err e) /\
  (exists e v, group_condition (s_ "(?a +?b*?c AS ?v)") = Ok [] (GcExpressionAsVarOpt (MkExpressionAsVarOpt e (Some v))) /\ Print.op_expression e = true) /\
  (exists e, group_condition (s_ "(?a)") = Ok [] (GcExpressionAsVarOpt (MkExpressionAsVarOpt e None)) /\ Print.op_expression e = false).
Proof. repeat split; repeat eexists; vm_compute; reflexivity. Qed.
