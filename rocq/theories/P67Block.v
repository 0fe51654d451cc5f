(** C67: a group is read alone, whatever follows its closing brace. *)
From Verif Require Import LMods LC8 LGen4 LBlock6 LEx2 LEx.
Open Scope list_scope.
Open Scope N_scope.

(** [block t] (SpecBlock.v): [t] is a text from an opening brace to the brace that closes it; braces in strings, comments and IRIs do not count. *)
Theorem C67_alone : forall t x r g, block t -> (group_graph_pattern (t ++ x) = Ok r g <-> r = x /\ group_graph_pattern t = Ok [] g).
Proof. exact block_iff. Qed.
Print Assumptions C67_alone.
(** The error is the same too, at the same place. *)
Theorem C67_error : forall t x p k, block t -> group_graph_pattern t = Err (Error p k) -> group_graph_pattern (t ++ x) = Err (Error (p ++ x) k).
Proof. exact block_error. Qed.
Print Assumptions C67_error.
Theorem C67_failure : forall t x p k, block t -> group_graph_pattern t = Err (Failure p k) -> group_graph_pattern (t ++ x) = Err (Failure (p ++ x) k).
Proof. exact block_failure. Qed.
Print Assumptions C67_failure.
(** Blocks that are read alone can be put in any group: [ggp_layout WE WG] (LayoutExpr.v) is the layout of one group, with [WG] for the groups in it. *)
Theorem C67_nested : forall g t r, ggp_layout W_expression (fun g t _ => block t /\ group_graph_pattern t = Ok [] g) g t r -> group_graph_pattern (t ++ r) = Ok r g.
Proof. exact blocks_in_group. Qed.
Print Assumptions C67_nested.
Theorem C67_in_expression : forall e t r, expression_layout W_expression (fun g t _ => block t /\ group_graph_pattern t = Ok [] g) e t r -> expression (t ++ r) = Ok r e.
Proof. exact blocks_in_expression. Qed.
Print Assumptions C67_in_expression.
(** [ASK] before a block is accepted exactly if the block is. *)
Theorem C67_ask : forall t0 t, W_ask_open t0 t -> block t ->
  ((exists r q, sparql_query_stmt (t0 ++ t) = Ok r q) <-> exists g, group_graph_pattern t = Ok [] g).
Proof. exact ask_block. Qed.
Print Assumptions C67_ask.
(** The same for SELECT, CONSTRUCT with a template and ASK, with dataset clauses and WHERE or without; [W_query_open] (LayoutThen.v) is the text before the group. *)
Theorem C67_query : forall t0 t, W_query_open t0 t -> block t ->
  ((exists r q, sparql_query_stmt (t0 ++ t) = Ok r q) <-> exists g, group_graph_pattern t = Ok [] g).
Proof. exact query_block. Qed.
Print Assumptions C67_query.
(** The quads of INSERT DATA, DELETE DATA, DELETE WHERE and of the clauses of an update are read alone too. *)
Theorem C67_quads : forall t x r q, block t -> (quads_pattern (t ++ x) = Ok r q <-> r = x /\ quads_pattern t = Ok [] q).
Proof. exact quads_iff. Qed.
Print Assumptions C67_quads.
Theorem C67_quads_error : forall t x p k, block t -> quads_pattern t = Err (Error p k) -> quads_pattern (t ++ x) = Err (Error (p ++ x) k).
Proof. exact quads_error. Qed.
Print Assumptions C67_quads_error.

Example C67_sample : block block_sample /\ (exists g, group_graph_pattern block_sample = Ok [] g) /\ block block_wrong /\
  exists p k, group_graph_pattern block_wrong = Err (Error p k).
Proof. split; [exact block_sample_ok|]. split; [eexists; vm_compute; reflexivity|]. split; [exact block_wrong_ok|]. eexists _, _. vm_compute. reflexivity. Qed.
Example C67_hard : block (s_ "{ ?s ?p ( 1 ) }") /\ exists p k, group_graph_pattern (s_ "{ ?s ?p ( 1 ) }") = Err (Failure p k).
Proof. split; [apply block_b_ok; vm_compute; reflexivity|]. eexists _, _. vm_compute. reflexivity. Qed.
Example C67_open : W_ask_open (s_ "ASK ") block_sample.
Proof. exists (MkPrologue []). unfold block_sample. lay. Qed.
Example C67_layout : exists g, ggp_layout W_expression (fun g t _ => block t /\ group_graph_pattern t = Ok [] g)
  (GgpSub (MkGroupGraphPatternSub None [MkGraphPatternAndTriples (GpOptional g) None])) (s_ "{ OPTIONAL { ?s ?p '}' } }") [].
Proof.
  eexists. unfold ggp_layout. texts.
  apply (then_at 1); cbn [firstn skipn]; [lay|]. apply (then_at 1); cbn [firstn skipn]; [lay|].
  apply (then_at 22); cbn [firstn skipn]; [|lay]. split; [|lay]. unfold W_group_sub.
  apply (then_at 0); cbn [firstn skipn]; [lay|]. cbn [sepW tailW].
  apply (then_at 22); cbn [firstn skipn]; [|lay]. unfold W_pattern_and_triples.
  apply (then_at 22); cbn [firstn skipn]; [|lay]. unfold W_pattern.
  apply (then_at 8); cbn [firstn skipn]; [lay|]. apply (then_at 1); cbn [firstn skipn]; [lay|].
  split; [apply block_b_ok; vm_compute; reflexivity|vm_compute; reflexivity].
Qed.
Example C67_select_open : W_query_open (s_ "SELECT ?x FROM <g> WHERE ") block_sample.
Proof.
  exists (MkPrologue []). unfold block_sample, W_form_open. apply (then_at 0); cbn [firstn skipn]; [lay|]. apply (then_at 0); cbn [firstn skipn]; [lay|].
  right. left. exists (MkSelectClause None (SvList [VoeVar (QMark (s_ "x"))])), [DonDefault (IriIri (s_ "g"))]. apply (then_at 9); cbn [firstn skipn]; [lay|].
  apply (then_at 1); cbn [firstn skipn]; [lay|]. apply (then_at 8); cbn [firstn skipn]; [lay|]. apply (then_at 1); cbn [firstn skipn]; [lay|]. left. lay.
Qed.
Example C67_construct_open : W_query_open (s_ "CONSTRUCT { } ") block_wrong.
Proof.
  exists (MkPrologue []). unfold block_wrong, W_form_open. apply (then_at 0); cbn [firstn skipn]; [lay|]. apply (then_at 0); cbn [firstn skipn]; [lay|].
  right. right. exists (MkConstructTemplate []), []. apply (then_at 9); cbn [firstn skipn]; [lay|]. apply (then_at 1); cbn [firstn skipn]; [lay|].
  apply (then_at 3); cbn [firstn skipn]; [lay|]. apply (then_at 1); cbn [firstn skipn]; [lay|]. apply (then_at 0); cbn [firstn skipn]; [lay|]. apply (then_at 0); cbn [firstn skipn]; [lay|]. right. reflexivity.
Qed.
Example C67_quads_sample : block (s_ "{ ?s ?p '}' GRAPH <g> { ?s ?p 1 } }") /\ exists q, quads_pattern (s_ "{ ?s ?p '}' GRAPH <g> { ?s ?p 1 } }") = Ok [] q.
Proof. split; [apply block_b_ok; vm_compute; reflexivity|]. eexists. vm_compute. reflexivity. Qed.
Example C67_quads_wrong : block (s_ "{ ?s ?p }") /\ exists p k, quads_pattern (s_ "{ ?s ?p }") = Err (Error p k).
Proof. split; [apply block_b_ok; vm_compute; reflexivity|]. eexists _, _. vm_compute. reflexivity. Qed.
