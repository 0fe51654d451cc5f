(** C34: update sequences. *)
From Verif Require Import LMods LGen3 LPrintEx2 LEx2.
Open Scope list_scope.
Open Scope N_scope.

(** [W_stmts ss]: the texts of the statements [ss], separated by [;]; [statements u]: the statements of a
    request in order.  Missing from the full statement: the statements that are not read (C23). *)
Theorem C34_in_order_partial : forall ss t r, W_stmts ss t r -> exists u, update (t ++ r) = Ok r u /\ statements u = ss.
Proof. exact read_stmts. Qed.
Print Assumptions C34_in_order_partial.
(** The same with a prologue in front of every statement, and with a final [;]. *)
Theorem C34_request_partial : forall u t r, W_update u t r -> update (t ++ r) = Ok r u.
Proof. exact rd_update. Qed.
Print Assumptions C34_request_partial.
(** Requests written out ([print_update], PrintU.v) are read back exactly, whatever the case of the keywords and
    whatever stands for the blanks; at most a blank is left.  Missing from the full statement: the requests outside [printable_update]. *)
Theorem C34_round_trip_partial : forall w x n u, casing w -> blank1 x -> printable_update n u ->
  exists b, blank b /\ update (print_update w x n u) = Ok b u.
Proof. intros w x n u Hw Hx. exact (print_update_read w Hw (MkBlanks x Hx) n u). Qed.
Print Assumptions C34_round_trip_partial.
(** Different requests have different texts, however they are written. *)
Theorem C34_injective : forall w w' x x' n m u u', casing w -> casing w' -> blank1 x -> blank1 x' -> printable_update n u -> printable_update m u' ->
  print_update w x n u = print_update w' x' m u' -> u = u'.
Proof.
  intros w w' x x' n m u u' Hw Hw' Hx Hx' H H' E.
  destruct (print_update_read w Hw (MkBlanks x Hx) n u H) as (b & _ & X), (print_update_read w' Hw' (MkBlanks x' Hx') m u' H') as (b' & _ & Y).
  cbn [btext] in *. congruence.
Qed.
Print Assumptions C34_injective.
(** Only what is written is returned. *)
Theorem C34_only : forall i r u, update i = Ok r u -> exists t, i = t ++ r /\ R_update u t.
Proof. exact sd_update. Qed.
Print Assumptions C34_only.
(** The full statement is false: where a statement is not read, the request is accepted without it and
    without those after it.  [W_stmts_then ss]: the statements [ss], each followed by [;]. *)
Theorem C34_dropped_refuted : forall ss t r, W_stmts_then ss t r -> exists u, update (t ++ r) = Ok r u /\ statements u = ss.
Proof. exact rest_dropped. Qed.
Print Assumptions C34_dropped_refuted.
Theorem C34_empty_refuted : forall i, nxt no_stmt i -> no_decl i -> update i = Ok i (MkUpdate (MkPrologue []) None None).
Proof. exact update_empty. Qed.
Print Assumptions C34_empty_refuted.
Example C34_dropped : let t := s_ "CLEAR ALL; " in let r := s_ "MOVE <a> TO <b>; DROP ALL" in
  W_stmts_then [UsClear (MkClear false GraAll)] t r /\ exists u, update (t ++ r) = Ok r u /\ statements u = [UsClear (MkClear false GraAll)].
Proof. cbv zeta. split; [texts; lay|]. eexists. split; [vm_compute; reflexivity|reflexivity]. Qed.

Example C34_three : exists a b c, let t := s_ "CLEAR ALL ; DROP SILENT NAMED;CREATE GRAPH <http://a>" in
  W_stmts [UsClear a; UsDrop b; UsCreate c] t [] /\ exists u, update t = Ok [] u /\ statements u = [UsClear a; UsDrop b; UsCreate c].
Proof.
  exists (MkClear false GraAll), (MkDrop true GraNamed), (MkCreate false (IriIri (s_ "http://a"))). cbv zeta. split.
  - texts. lay.
  - eexists. split; vm_compute; reflexivity.
Qed.
Example C34_prologues : exists u, let t := s_ "PREFIX ab: <http://a> CLEAR ALL; BASE <http://b> DROP ALL;" in W_update u t [] /\ update t = Ok [] u.
Proof. eexists. cbv zeta. split; [|vm_compute; reflexivity]. texts. lay. Qed.
Example C34_empty : nxt no_stmt (s_ "MOVE <a> TO <b>") /\ no_decl (s_ "MOVE <a> TO <b>").
Proof. texts. split; side. Qed.
Example C34_written : printable_update 3 updates_sample /\ print_update cap_words (s_ " ") 3 updates_sample = s_ "PREFIX ab: <http://x> LOAD SILENT <http://a> INTO GRAPH <http://b> ; CLEAR ALL ; COPY GRAPH <http://a> TO DEFAULT ; BASE <http://x> INSERT DATA { <a> <b> 5 . GRAPH <g> { ?s ?p ""x"" , 7 }?d ?e ?f .GRAPH ?h { } } ; WHERE<http://g> OFFSET { ?a ?b ?c . ?d ?e ?f . } INSERT { } USING <http://g> USING NAMED <http://h> WHERE { ?a ?b ?c OPTIONAL { } } ; " /\
  update (print_update cap_words (s_ " ") 3 updates_sample) = Ok [] updates_sample.
Proof. split; [exact updates_printable|split; vm_compute; reflexivity]. Qed.
