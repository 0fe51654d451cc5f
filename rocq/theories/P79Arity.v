(** C79: functions with the same number of arguments accept the same arguments. *)
From Verif Require Import LMods LC8 LArity LEx2 LEx.
Open Scope list_scope.
Open Scope N_scope.

(** The table [unary_calls] is that of C21: the functions of one expression, of which ABS, CEIL, FLOOR and ROUND are not read as such (C21). *)
Theorem C79_unary : forall k C k' C' w b w' b' x r e, In (k, C, true) unary_calls -> In (k', C', true) unary_calls -> kw k w -> blank b -> kw k' w' -> blank b' ->
  (built_in_call (w ++ b ++ 40 :: x) = Ok r (C e) <-> built_in_call (w' ++ b' ++ 40 :: x) = Ok r (C' e)).
Proof. exact unary_alike. Qed.
Print Assumptions C79_unary.
Theorem C79_binary : forall k C k' C' w b w' b' x r a c, In (k, C, true) binary_calls -> In (k', C', true) binary_calls -> kw k w -> blank b -> kw k' w' -> blank b' ->
  (built_in_call (w ++ b ++ 40 :: x) = Ok r (C a c) <-> built_in_call (w' ++ b' ++ 40 :: x) = Ok r (C' a c)).
Proof. exact binary_alike. Qed.
Print Assumptions C79_binary.
(** SUM, MIN, MAX, AVG and SAMPLE, with DISTINCT or without. *)
Theorem C79_aggregate : forall k C k' C' w b w' b' x r d, In (k, C) aggregate_calls -> In (k', C') aggregate_calls -> kw k w -> blank b -> kw k' w' -> blank b' ->
  (built_in_call (w ++ b ++ 40 :: x) = Ok r (BiAggregate (C d)) <-> built_in_call (w' ++ b' ++ 40 :: x) = Ok r (BiAggregate (C' d))).
Proof. exact aggregate_alike. Qed.
Print Assumptions C79_aggregate.

Example C79_read : (exists e, built_in_call (s_ "STR(?x = 1) .") = Ok (s_ " .") (BiStr e) /\ built_in_call (s_ "isNumeric (?x = 1) .") = Ok (s_ " .") (BiIsNumeric e)) /\
  (exists a c, built_in_call (s_ "STRENDS(?x , ?y) .") = Ok (s_ " .") (BiStrEnds a c) /\ built_in_call (s_ "sameTerm (?x , ?y) .") = Ok (s_ " .") (BiSameTerm a c)) /\
  (exists d, built_in_call (s_ "SUM(DISTINCT ?x) .") = Ok (s_ " .") (BiAggregate (AgSum d)) /\ built_in_call (s_ "max (DISTINCT ?x) .") = Ok (s_ " .") (BiAggregate (AgMax d))).
Proof. split; [|split]; [eexists|eexists _, _|eexists]; split; vm_compute; reflexivity. Qed.
Example C79_tables : In ("str"%string, BiStr, true) (@unary_calls Expression GroupGraphPattern) /\ In ("isnumeric"%string, BiIsNumeric, true) (@unary_calls Expression GroupGraphPattern) /\
  In ("strends"%string, BiStrEnds, true) (@binary_calls Expression GroupGraphPattern) /\ In ("max"%string, AgMax) (@aggregate_calls Expression) /\ kw "isnumeric" (s_ "isNumeric").
Proof. repeat split; try reflexivity; cbn; auto 60. Qed.
