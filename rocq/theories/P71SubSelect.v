(** C71: SELECT is read in the same way as a query and inside a group. *)
From Verif Require Import LMods LC8 LSub LEx2 LEx.
Open Scope list_scope.
Open Scope N_scope.

(** A text that is read both as a query and as a sub-select has no dataset clauses, and the two trees have the same parts. *)
Theorem C71_agree : forall i r r' s w m v s' d w' m', sub_select i = Ok r (MkSubSelect s w m v) -> select_query i = Ok r' (MkSelectQuery s' d w' m') ->
  d = [] /\ s' = s /\ w' = w /\ m' = m.
Proof. exact sub_agrees. Qed.
Print Assumptions C71_agree.
(** Every sub-select is also read as a query with the same parts, unless no blank stands behind its SELECT clause ([solid]). *)
Theorem C71_sub_as_query : forall i r s w m v, sub_select i = Ok r (MkSubSelect s w m v) ->
  (exists r', select_query i = Ok r' (MkSelectQuery s [] w m)) \/ (exists r1, select_clause i = Ok r1 s /\ solid r1).
Proof. exact sub_as_query. Qed.
Print Assumptions C71_sub_as_query.
(** Every query without dataset clauses is also read as a sub-select with the same parts, if no VALUES follows. *)
Theorem C71_query_as_sub : forall i r s w m, select_query i = Ok r (MkSelectQuery s [] w m) -> nxt (fun r => ~ begins "values" r) r ->
  exists r', sub_select i = Ok r' (MkSubSelect s w m None).
Proof. exact query_as_sub. Qed.
Print Assumptions C71_query_as_sub.

Example C71_both : let i := s_ "SELECT ?x WHERE { ?s ?p ?x } ORDER BY ?x LIMIT 5 }" in
  (exists r q, sub_select i = Ok r q) /\ exists s w m, select_query i = Ok (s_ "}") (MkSelectQuery s [] w m) /\ nxt (fun r => ~ begins "values" r) (s_ "}").
Proof.
  split; [eexists _, _; vm_compute; reflexivity|]. eexists _, _, _. split; [vm_compute; reflexivity|]. texts. apply (nxt_at 0); [vr|vr|leaf].
Qed.
(** the exception *)
Example C71_glued : let i := s_ "SELECT *{ ?s ?p ?x } }" in (exists r q, sub_select i = Ok r q) /\ exists e, select_query i = Err e.
Proof. split; [eexists _, _|eexists]; vm_compute; reflexivity. Qed.
