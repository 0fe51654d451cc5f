(** C80: clauses that differ in a keyword only are read alike. *)
From Verif Require Import LMods LC8 LSwap LEx2 LEx.
Open Scope list_scope.
Open Scope N_scope.

(** SELECT DISTINCT and SELECT REDUCED read the same items and leave the same rest, ... *)
Theorem C80_modifiers : forall m m' w b w1 b1 w' b' w1' b1' j r v, kw "select" w -> blank1 b -> kw (modifier_word m) w1 -> blank1 b1 ->
  kw "select" w' -> blank1 b' -> kw (modifier_word m') w1' -> blank1 b1' -> solid j ->
  (select_clause (w ++ b ++ w1 ++ b1 ++ j) = Ok r (MkSelectClause (Some m) v) <-> select_clause (w' ++ b' ++ w1' ++ b1' ++ j) = Ok r (MkSelectClause (Some m') v)).
Proof. exact modifiers_alike. Qed.
Print Assumptions C80_modifiers.
(** ... and the word may be left out. *)
Theorem C80_without : forall m w b w1 b1 w' b' j r v, kw "select" w -> blank1 b -> kw (modifier_word m) w1 -> blank1 b1 -> kw "select" w' -> blank1 b' -> solid j ->
  select_clause (w ++ b ++ w1 ++ b1 ++ j) = Ok r (MkSelectClause (Some m) v) -> select_clause (w' ++ b' ++ j) = Ok r (MkSelectClause None v).
Proof. exact modifier_idle. Qed.
Print Assumptions C80_without.
(** FROM and USING name graphs alike. *)
Theorem C80_from_using : forall w b w' b' j r d, kw "from" w -> blank1 b -> kw "using" w' -> blank1 b' -> solid j ->
  (data_set_clause (w ++ b ++ j) = Ok r d <-> using_clause (w' ++ b' ++ j) = Ok r d).
Proof. exact from_using. Qed.
Print Assumptions C80_from_using.
(** ASC and DESC order by the same expressions. *)
Theorem C80_orders : forall o o' w b w' b' j r e, kw (order_word o) w -> blank1 b -> kw (order_word o') w' -> blank1 b' -> solid j ->
  (order_condition (w ++ b ++ j) = Ok r (OcOrder (MkOrderExpression o e)) <-> order_condition (w' ++ b' ++ j) = Ok r (OcOrder (MkOrderExpression o' e))).
Proof. exact orders_alike. Qed.
Print Assumptions C80_orders.
(** LIMIT and OFFSET take the same numbers, ... *)
Theorem C80_numbers : forall w b w' b' j r n, kw "limit" w -> blank b -> kw "offset" w' -> blank b' -> solid j ->
  (limit_clause (w ++ b ++ j) = Ok r n <-> offset_clause (w' ++ b' ++ j) = Ok r n).
Proof. exact limit_offset. Qed.
Print Assumptions C80_numbers.
(** ... also where one of the two stands alone. *)
Theorem C80_alone : forall w b w' b' j r n, kw "limit" w -> blank b -> kw "offset" w' -> blank b' -> solid j -> ~ begins "limit" r -> ~ begins "offset" r ->
  (limit_offset_clause (w ++ b ++ j) = Ok r (LimitOffset n None) <-> limit_offset_clause (w' ++ b' ++ j) = Ok r (OffsetLimit n None)).
Proof. exact limit_offset_alone. Qed.
Print Assumptions C80_alone.

Example C80_read :
  (exists v, select_clause (s_ "SELECT distinct ?a(?b AS ?c) {") = Ok (s_ " {") (MkSelectClause (Some SmDistinct) v) /\ select_clause (s_ "select REDUCED  ?a(?b AS ?c) {") = Ok (s_ " {") (MkSelectClause (Some SmReduced) v) /\
    select_clause (s_ "SELECT ?a(?b AS ?c) {") = Ok (s_ " {") (MkSelectClause None v)) /\
  (exists d, data_set_clause (s_ "FROM NAMED <g> {") = Ok (s_ " {") (DonNamed d) /\ using_clause (s_ "using NAMED <g> {") = Ok (s_ " {") (DonNamed d)) /\
  (exists e, order_condition (s_ "ASC (?x = 1) .") = Ok (s_ " .") (OcOrder (MkOrderExpression Asc e)) /\ order_condition (s_ "desc  (?x = 1) .") = Ok (s_ " .") (OcOrder (MkOrderExpression Desc e))) /\
  limit_offset_clause (s_ "LIMIT 10 }") = Ok (s_ "}") (LimitOffset 10 None) /\ limit_offset_clause (s_ "offset10 }") = Ok (s_ "}") (OffsetLimit 10 None).
Proof. repeat split; repeat eexists; vm_compute; reflexivity. Qed.
Example C80_hypotheses : kw (modifier_word SmReduced) (s_ "Reduced") /\ kw (order_word Desc) (s_ "desc") /\ blank1 (s_ "  ") /\ solid (s_ "?a {") /\ ~ begins "limit" (s_ "}") /\ ~ begins "offset" (s_ "}").
Proof.
  split; [reflexivity|]. split; [reflexivity|]. split; [split; [now repeat constructor|discriminate]|]. split; [now apply char_solid|]. split; eapply no_begins_by; vm_compute; reflexivity.
Qed.
