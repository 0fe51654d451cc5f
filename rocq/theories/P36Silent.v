(** C36: SILENT is reported exactly when it is written. *)
From Verif Require Import LFlags.
Open Scope list_scope.

(** [silent_flag u]: the keyword of the statement and its flag; [after_word k i j]: [i] is the keyword [k],
    blank text and [j]; [says k j]: [j] starts with the keyword [k] and a blank (Spec3.v). *)
Theorem C36_statements : forall i r u k s, update_stmt i = Ok r u -> silent_flag u = Some (k, s) ->
  exists j, after_word k i j /\ (s = true <-> says "silent" j).
Proof. exact silent_stmt. Qed.
Print Assumptions C36_statements.
Theorem C36_service : forall i r v s g, graph_pattern_not_triples i = Ok r (GpService (MkServiceGraphPattern v s g)) ->
  exists j, after_word "service" i j /\ (s = true <-> says "silent" j).
Proof. exact silent_service. Qed.
Print Assumptions C36_service.

Example C36_sample :
  update_stmt (s_ "drop SILENT all") = Ok [] (UsDrop (MkDrop true GraAll)) /\
  update_stmt (s_ "drop all") = Ok [] (UsDrop (MkDrop false GraAll)) /\
  silent_flag (UsDrop (MkDrop true GraAll)) = Some ("drop"%string, true) /\
  (exists v g, graph_pattern_not_triples (s_ "service Silent <a> {}") = Ok [] (GpService (MkServiceGraphPattern v true g))) /\
  (exists v g, graph_pattern_not_triples (s_ "service <silent> {}") = Ok [] (GpService (MkServiceGraphPattern v false g))).
Proof. repeat split; try (vm_compute; reflexivity); eexists _, _; vm_compute; reflexivity. Qed.
