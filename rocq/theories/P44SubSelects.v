(** C44: a group is a sub-select exactly when it starts with SELECT. *)
From Verif Require Import LGen3.
Open Scope list_scope.
Open Scope N_scope.

Theorem C44_says : forall i r s, group_graph_pattern i = Ok r (GgpSubSelect s) ->
  exists b j, i = 123 :: b ++ j /\ blank b /\ solid j /\ says "select" j.
Proof. exact sub_select_says. Qed.
Print Assumptions C44_says.
(** Conversely, unless the word is the prefix of a prefixed name. *)
Theorem C44_decides_partial : forall b w b' x r g, blank b -> kw "select" w -> blank1 b' -> solid x -> not_first 58 x ->
  group_graph_pattern (123 :: b ++ w ++ b' ++ x) = Ok r g -> exists s, g = GgpSubSelect s.
Proof. exact select_decides. Qed.
Print Assumptions C44_decides_partial.

(** Without that condition it is refuted: the word, blanks and a name with the empty prefix are one name. *)
Theorem C44_colon_refuted : forall b w b' x r g, blank b -> kw "select" w -> blank b' ->
  group_graph_pattern (123 :: b ++ w ++ b' ++ 58 :: x) = Ok r g -> exists s, g = GgpSub s.
Proof. exact select_colon. Qed.
Print Assumptions C44_colon_refuted.
Example C44_colon : exists s, group_graph_pattern (s_ "{ select :aa ?p ?o}") = Ok [] (GgpSub s).
Proof. eexists. vm_compute. reflexivity. Qed.

Example C44_sample :
  (exists s, group_graph_pattern (s_ "{ Select * {}}") = Ok [] (GgpSubSelect s)) /\
  (exists s, group_graph_pattern (s_ "{ select:aa ?p ?o}") = Ok [] (GgpSub s)).
Proof. repeat split; eexists; vm_compute; reflexivity. Qed.
