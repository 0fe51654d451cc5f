(** C90: INSERT with USING clauses and a WHERE group. *)
From Verif Require Import LMods LC8 LModify LBlock4 LEx2 LEx.
Open Scope list_scope.
Open Scope N_scope.

(** The statement is read exactly if its quads and its group are each read by themselves; the tree holds both and the graphs of the USING clauses in their order, and reading stops behind the group.
    [W_using_where us] is the text between the two blocks: the USING clauses and the word WHERE. *)
Theorem C90_statement : forall w b t m v us x r s, kw "insert" w -> blank1 b -> block t -> block v -> W_using_where us m (v ++ x) ->
  (update_stmt (w ++ b ++ t ++ m ++ v ++ x) = Ok r s <->
   r = x /\ exists q g, quads_pattern t = Ok [] q /\ group_graph_pattern v = Ok [] g /\ s = UsModify (MkModify None (DiInsert q) us g)).
Proof. exact insert_where_iff. Qed.
Print Assumptions C90_statement.
(** As a request of its own it is read to its end exactly if both blocks are. *)
Theorem C90_whole : forall w b t m v us x, kw "insert" w -> blank1 b -> block t -> block v -> W_using_where us m (v ++ x) -> nxt (not_first 59) x ->
  ((exists u, update (w ++ b ++ t ++ m ++ v ++ x) = Ok x u) <->
   (exists q, quads_pattern t = Ok [] q) /\ exists g, group_graph_pattern v = Ok [] g).
Proof. exact insert_where_whole. Qed.
Print Assumptions C90_whole.
(** The text between the blocks names at least one graph. *)
Theorem C90_using : forall us m y, W_using_where us m y -> us <> [].
Proof. exact using_where_some. Qed.
Print Assumptions C90_using.

Example C90_hypotheses : block (s_ "{ ?s ?p 1 }") /\ block (s_ "{ ?s ?p ?o }") /\
  W_using_where [DonDefault (IriIri (s_ "g")); DonNamed (IriIri (s_ "h"))] (s_ " USING <g> using NAMED <h> WHERE ") (s_ "{ ?s ?p ?o }").
Proof. split; [apply block_b_ok; vm_compute; reflexivity|]. split; [apply block_b_ok; vm_compute; reflexivity|]. lay. Qed.
Example C90_read : exists q g, quads_pattern (s_ "{ ?s ?p 1 }") = Ok [] q /\ group_graph_pattern (s_ "{ ?s ?p ?o }") = Ok [] g /\
  update_stmt (s_ "INSERT { ?s ?p 1 } USING <g> using NAMED <h> WHERE { ?s ?p ?o } ;") =
    Ok (s_ " ;") (UsModify (MkModify None (DiInsert q) [DonDefault (IriIri (s_ "g")); DonNamed (IriIri (s_ "h"))] g)).
Proof. do 2 eexists. split; [vm_compute; reflexivity|]. split; [vm_compute; reflexivity|]. vm_compute. reflexivity. Qed.
Example C90_refused : (exists p k, group_graph_pattern (s_ "{ 1 2 }") = Err (Error p k)) /\
  exists p k, update_stmt (s_ "INSERT { ?s ?p 1 } USING <g> WHERE { 1 2 }") = Err (Error p k).
Proof. split; do 2 eexists; vm_compute; reflexivity. Qed.
