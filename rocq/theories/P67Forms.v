(** C67, continued: the braces of CONSTRUCT WHERE, and the group of DESCRIBE. *)
From Verif Require Import LMods LC8 LBlock7 LEx2 LEx.
Open Scope list_scope.
Open Scope N_scope.

(** The braces of a template are read alone too. *)
Theorem C67_template : forall t x r o, block t -> (braced_template (t ++ x) = Ok r o <-> r = x /\ braced_template t = Ok [] o).
Proof. exact braced_iff. Qed.
Print Assumptions C67_template.
Theorem C67_template_error : forall t x p k, block t -> braced_template t = Err (Error p k) -> braced_template (t ++ x) = Err (Error (p ++ x) k).
Proof. exact braced_error. Qed.
Print Assumptions C67_template_error.
(** CONSTRUCT WHERE is accepted exactly if its braces are; [W_construct_where_open] is the text before them. *)
Theorem C67_construct_where : forall t0 t, W_construct_where_open t0 t -> block t ->
  ((exists r q, sparql_query_stmt (t0 ++ t) = Ok r q) <-> exists o, braced_template t = Ok [] o).
Proof. exact construct_where_block. Qed.
Print Assumptions C67_construct_where.
(** DESCRIBE may do without a group, so a group that is not accepted by itself is left over: all of the text is read exactly if the group is accepted by itself. *)
Theorem C67_describe : forall t0 t, W_describe_open t0 t -> block t ->
  ((exists q, sparql_query_stmt (t0 ++ t) = Ok [] q) <-> exists g, group_graph_pattern t = Ok [] g).
Proof. exact describe_block. Qed.
Print Assumptions C67_describe.

Example C67_template_sample : block (s_ "{ ?s ?p 1 }") /\ (exists o, braced_template (s_ "{ ?s ?p 1 }") = Ok [] o) /\
  block (s_ "{ OPTIONAL { } }") /\ exists p k, braced_template (s_ "{ OPTIONAL { } }") = Err (Error p k).
Proof. split; [apply block_b_ok; vm_compute; reflexivity|]. split; [eexists; vm_compute; reflexivity|]. split; [apply block_b_ok; vm_compute; reflexivity|]. eexists _, _. vm_compute. reflexivity. Qed.
Example C67_construct_where_open : W_construct_where_open (s_ "CONSTRUCT FROM <g> WHERE ") (s_ "{ ?s ?p 1 }").
Proof. exists (MkPrologue []), [DonDefault (IriIri (s_ "g"))]. lay. Qed.
Example C67_describe_open : W_describe_open (s_ "DESCRIBE ?x WHERE ") (s_ "{ ?s ?p 1 }").
Proof.
  exists (MkPrologue []), (VoiList [VoiVar (QMark (s_ "x"))]), []. apply (then_at 0); cbn [firstn skipn]; [lay|]. apply (then_at 0); cbn [firstn skipn]; [lay|].
  apply (then_at 8); cbn [firstn skipn]; [lay|]. apply (then_at 1); cbn [firstn skipn]; [lay|]. apply (then_at 2); cbn [firstn skipn]; [lay|]. apply (then_at 1); cbn [firstn skipn]; [lay|].
  apply (then_at 0); cbn [firstn skipn]; [lay|]. apply (then_at 0); cbn [firstn skipn]; [lay|]. left. lay.
Qed.
Example C67_describe_left : exists q, sparql_query_stmt (s_ "DESCRIBE ?x WHERE {1 2}") = Ok (s_ "WHERE {1 2}") q.
Proof. eexists. vm_compute. reflexivity. Qed.
