(** C37: SELECT DISTINCT and SELECT REDUCED are reported exactly when written. *)
From Verif Require Import LFlags2.
Open Scope list_scope.

(** [modifier_says m j]: [j] starts with the keyword of [m] and a blank; for no modifier, with neither
    keyword (Spec3.v). *)
Theorem C37_clause : forall i r m v, select_clause i = Ok r (MkSelectClause m v) ->
  exists j, after_word "select" i j /\ modifier_says m j.
Proof. exact select_says. Qed.
Print Assumptions C37_clause.
(** The same for the whole SELECT query and for sub-selects. *)
Theorem C37_query : forall i r m v d w s, sparql_query i = Ok r (SqSelect (MkSelectQuery (MkSelectClause m v) d w s)) ->
  exists j, after_word "select" i j /\ modifier_says m j.
Proof. exact select_query_says. Qed.
Print Assumptions C37_query.
Theorem C37_sub_select : forall i r m v w s x, sub_select i = Ok r (MkSubSelect (MkSelectClause m v) w s x) ->
  exists j, after_word "select" i j /\ modifier_says m j.
Proof. exact sub_select_modifier. Qed.
Print Assumptions C37_sub_select.

Example C37_sample :
  (exists v, select_clause (s_ "select DISTINCT *") = Ok [] (MkSelectClause (Some SmDistinct) v)) /\
  (exists v, select_clause (s_ "select reduced ?distinct") = Ok [] (MkSelectClause (Some SmReduced) v)) /\
  (exists v, select_clause (s_ "select ?reduced") = Ok [] (MkSelectClause None v)) /\
  (exists v d w s, sparql_query (s_ "select reduced * {}") = Ok [] (SqSelect (MkSelectQuery (MkSelectClause (Some SmReduced) v) d w s))) /\
  (exists v w s x, sub_select (s_ "select distinct * {}") = Ok [] (MkSubSelect (MkSelectClause (Some SmDistinct) v) w s x)).
Proof. repeat split; repeat eexists; vm_compute; reflexivity. Qed.
