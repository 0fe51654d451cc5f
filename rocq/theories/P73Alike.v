(** C73: statements with the same arguments are read alike. *)
From Verif Require Import LMods LC8 LAlike LEx2 LEx.
Open Scope list_scope.
Open Scope N_scope.

(** Whatever stands behind the keyword, CLEAR and DROP read the same, up to the same place. *)
Theorem C73_clear_drop : forall w1 b1 w2 b2 j r s g, kw "clear" w1 -> blank1 b1 -> kw "drop" w2 -> blank1 b2 -> solid j ->
  (update_stmt (w1 ++ b1 ++ j) = Ok r (UsClear (MkClear s g)) <-> update_stmt (w2 ++ b2 ++ j) = Ok r (UsDrop (MkDrop s g))).
Proof. exact clear_drop. Qed.
Print Assumptions C73_clear_drop.
(** ADD and MOVE have parsers but are no statements of a request (C23); these read what COPY reads. *)
Theorem C73_add_copy : forall w1 b1 w2 b2 j r s f g, kw "add" w1 -> blank1 b1 -> kw "copy" w2 -> blank1 b2 -> solid j ->
  (add_stmt (w1 ++ b1 ++ j) = Ok r (MkAdd s f g) <-> update_stmt (w2 ++ b2 ++ j) = Ok r (UsCopy (MkCopy s f g))).
Proof. exact add_copy. Qed.
Print Assumptions C73_add_copy.
Theorem C73_move_copy : forall w1 b1 w2 b2 j r s f g, kw "move" w1 -> blank1 b1 -> kw "copy" w2 -> blank1 b2 -> solid j ->
  (move_stmt (w1 ++ b1 ++ j) = Ok r (MkMove s f g) <-> update_stmt (w2 ++ b2 ++ j) = Ok r (UsCopy (MkCopy s f g))).
Proof. exact move_copy. Qed.
Print Assumptions C73_move_copy.
(** INSERT DATA, DELETE DATA and DELETE WHERE read the same quads. *)
Theorem C73_insert_delete : forall w1 b1 w2 b2 w3 b3 w4 b4 j r q, kw "insert" w1 -> blank1 b1 -> kw "data" w2 -> blank1 b2 ->
  kw "delete" w3 -> blank1 b3 -> kw "data" w4 -> blank1 b4 -> solid j ->
  (update_stmt (w1 ++ b1 ++ w2 ++ b2 ++ j) = Ok r (UsInsertData q) <-> update_stmt (w3 ++ b3 ++ w4 ++ b4 ++ j) = Ok r (UsDeleteData q)).
Proof. exact insert_delete. Qed.
Print Assumptions C73_insert_delete.
Theorem C73_insert_delete_where : forall w1 b1 w2 b2 w3 b3 w4 b4 j r q, kw "insert" w1 -> blank1 b1 -> kw "data" w2 -> blank1 b2 ->
  kw "delete" w3 -> blank1 b3 -> kw "where" w4 -> blank1 b4 -> solid j ->
  (update_stmt (w1 ++ b1 ++ w2 ++ b2 ++ j) = Ok r (UsInsertData q) <-> update_stmt (w3 ++ b3 ++ w4 ++ b4 ++ j) = Ok r (UsDeleteWhere q)).
Proof. exact insert_delete_where. Qed.
Print Assumptions C73_insert_delete_where.

Example C73_graphs : exists g, update_stmt (s_ "CLEAR SILENT GRAPH <g>") = Ok [] (UsClear (MkClear true g)) /\
  update_stmt (s_ "drop  silent GRAPH <g>") = Ok [] (UsDrop (MkDrop true g)).
Proof. eexists. split; vm_compute; reflexivity. Qed.
Example C73_copies : exists f g, update_stmt (s_ "COPY <a> TO DEFAULT") = Ok [] (UsCopy (MkCopy false f g)) /\
  add_stmt (s_ "ADD <a> TO DEFAULT") = Ok [] (MkAdd false f g) /\ move_stmt (s_ "MOVE <a> TO DEFAULT") = Ok [] (MkMove false f g).
Proof. eexists _, _. repeat split; vm_compute; reflexivity. Qed.
Example C73_data : exists q, update_stmt (s_ "INSERT DATA { GRAPH <g> { ?s ?p ?o } }") = Ok [] (UsInsertData q) /\
  update_stmt (s_ "DELETE DATA { GRAPH <g> { ?s ?p ?o } }") = Ok [] (UsDeleteData q) /\
  update_stmt (s_ "DELETE WHERE { GRAPH <g> { ?s ?p ?o } }") = Ok [] (UsDeleteWhere q).
Proof. eexists. repeat split; vm_compute; reflexivity. Qed.
Example C73_words : kw "clear" (s_ "CLEAR") /\ blank1 (s_ " ") /\ kw "drop" (s_ "drop") /\ solid (s_ "SILENT GRAPH <g>").
Proof. split; [reflexivity|]. split; [split; [constructor; [now left|constructor]|discriminate]|]. split; [reflexivity|]. now apply char_solid. Qed.
