(** C38: the direction of an ORDER BY condition is the written one. *)
From Verif Require Import LFlags2.
Open Scope list_scope.
Open Scope N_scope.

(** A condition with a direction was written with that keyword, a blank, and a bracketted expression. *)
Theorem C38_says : forall i r o e, order_condition i = Ok r (OcOrder (MkOrderExpression o e)) ->
  exists j, after_word (order_word o) i (40 :: j).
Proof. exact order_says. Qed.
Print Assumptions C38_says.
(** The keyword decides. *)
Theorem C38_decides : forall o w b j r c, kw (order_word o) w -> blank1 b ->
  order_condition (w ++ b ++ 40 :: j) = Ok r c -> exists e, c = OcOrder (MkOrderExpression o e).
Proof. exact order_decides. Qed.
Print Assumptions C38_decides.
(** The form without a blank, [DESC(...)], is never read. *)
Theorem C38_glued_refuted : forall o w j r c, kw (order_word o) w -> order_condition (w ++ 40 :: j) <> Ok r c.
Proof. exact order_glued. Qed.
Print Assumptions C38_glued_refuted.

Example C38_sample :
  (exists e, order_condition (s_ "DESC (?x)") = Ok [] (OcOrder (MkOrderExpression Desc e))) /\
  (exists e, order_condition (s_ "asc (?x)") = Ok [] (OcOrder (MkOrderExpression Asc e))) /\
  (exists e, order_condition (s_ "desc(?x)") = Err e).
Proof. repeat split; eexists; vm_compute; reflexivity. Qed.
