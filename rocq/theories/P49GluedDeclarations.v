(** C49: declarations that follow each other without a blank. *)
From Verif Require Import LMore1 LEx2.
Open Scope list_scope.
Open Scope N_scope.

(** Refuted: the declarations before the place without a blank are all that is read of the prologue; *)
Theorem C49_prologue_refuted : forall l t x, l <> [] -> sep1W W_decl gap1 solid l t x -> prologue (t ++ x) = Ok x (MkPrologue l).
Proof. exact prologue_glued. Qed.
Print Assumptions C49_prologue_refuted.
(** if a further declaration follows there, no query is read, *)
Theorem C49_query_refuted : forall l t x r q, l <> [] -> sep1W W_decl gap1 solid l t x -> begins "base" x \/ begins "prefix" x ->
  sparql_query_stmt (t ++ x) <> Ok r q.
Proof. exact stmt_glued. Qed.
Print Assumptions C49_query_refuted.
(** and a request is accepted without any statement, with the further declaration as the rest. *)
Theorem C49_update_refuted : forall l t x, l <> [] -> sep1W W_decl gap1 solid l t x -> begins "base" x \/ begins "prefix" x ->
  update (t ++ x) = Ok x (MkUpdate (MkPrologue l) None None).
Proof. exact update_glued. Qed.
Print Assumptions C49_update_refuted.

Example C49_sample :
  (exists e, sparql_query_stmt (s_ "PREFIX aa:<u>PREFIX bb:<v> ASK {}") = Err e) /\
  (exists q, sparql_query_stmt (s_ "PREFIX aa:<u> PREFIX bb:<v> ASK {}") = Ok [] q) /\
  (exists p, update (s_ "BASE <u>BASE <v> CLEAR ALL") = Ok (s_ "BASE <v> CLEAR ALL") (MkUpdate p None None)).
Proof. repeat split; eexists; vm_compute; reflexivity. Qed.
Example C49_hypotheses : exists l, l <> [] /\ sep1W W_decl gap1 solid l (s_ "BASE <u> PREFIX aa:<v>") (s_ "PREFIX bb:<w> ASK {}") /\
  begins "prefix" (s_ "PREFIX bb:<w> ASK {}").
Proof.
  exists [DeclBase (s_ "u"); DeclPrefix (MkPrefixDecl (Some (s_ "aa")) (s_ "v"))]. split; [discriminate|]. split.
  - texts. lay.
  - exists (s_ "PREFIX"), (s_ " bb:<w> ASK {}"). split; reflexivity.
Qed.
