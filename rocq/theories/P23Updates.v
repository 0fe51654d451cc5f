(** C23: update statements are recognised and tagged by their keyword. *)
From Verif Require Import LMods LMore4 LPrintEx2 LEx2.
Open Scope list_scope.
Open Scope N_scope.

(** [W_update_stmt]: the safe concrete forms of LOAD, CLEAR, DROP, CREATE, COPY, INSERT DATA, DELETE DATA,
    DELETE WHERE and of updates with a WHERE group.  Missing from the full statement: ADD and MOVE, and the
    usual form of updates with a WHERE group (below). *)
Theorem C23_read_partial : forall u t r, W_update_stmt u t r -> update_stmt (t ++ r) = Ok r u.
Proof. exact rd_update_stmt. Qed.
Print Assumptions C23_read_partial.
(** What is returned is what is written. *)
Theorem C23_only : forall i r u, update_stmt i = Ok r u -> exists t, i = t ++ r /\ R_update_stmt u t.
Proof. exact sd_update_stmt. Qed.
Print Assumptions C23_only.
(** The kind of the statement is that of its keyword. *)
Theorem C23_keyword_decides : forall k i r u,
  In k ["load"; "clear"; "drop"; "create"; "add"; "move"; "copy"; "insert"; "delete"; "where"; "offset"]%string ->
  begins k i -> update_stmt i = Ok r u -> In k (stmt_keys u).
Proof. exact key_decides. Qed.
Print Assumptions C23_keyword_decides.
Theorem C23_keyword_needed : forall i r u, update_stmt i = Ok r u -> exists k, In k (stmt_keys u) /\ begins k i.
Proof. exact update_keys. Qed.
Print Assumptions C23_keyword_needed.
(** Statements written out ([pr_stmt], PrintU.v) are read back exactly, whatever the case of the keywords and whatever
    stands for the blanks. *)
Theorem C23_round_trip_partial : forall w x n u, casing w -> blank1 x -> wf_stmt n u -> update_stmt (pr_stmt w x n u) = Ok [] u.
Proof. intros w x n u Hw Hx. exact (print_stmt_read w Hw (MkBlanks x Hx) n u). Qed.
Print Assumptions C23_round_trip_partial.

(** The full statement is false: ADD and MOVE statements are never returned, ... *)
Theorem C23_add_move_refuted : forall i r u, update_stmt i = Ok r u -> (forall a, u <> UsAdd a) /\ (forall a, u <> UsMove a).
Proof. exact update_stmt_kinds. Qed.
Print Assumptions C23_add_move_refuted.
(** ... an update with a WHERE group is only read if it has a USING clause, ... *)
Theorem C23_using_refuted : forall i r x d u w, modify_stmt i = Ok r (MkModify x d u w) -> u <> [].
Proof. exact modify_using. Qed.
Print Assumptions C23_using_refuted.
(** ... and nothing that starts with DELETE is read as one (the code looks for OFFSET instead). *)
Theorem C23_delete_refuted : forall i r u, begins "delete" i -> update_stmt i = Ok r u ->
  (exists q, u = UsDeleteData q) \/ (exists q, u = UsDeleteWhere q).
Proof.
  intros i r u B H. apply (key_decides "delete") in H; [|cbn; tauto|exact B]. destruct u; cbn in H; eauto;
    repeat (destruct H as [H|H]; [discriminate|]); destruct H.
Qed.
Print Assumptions C23_delete_refuted.
(** A statement with WITH is not read; the request is returned empty (the code looks for WHERE instead). *)
Theorem C23_with_refuted : forall i, begins "with" i ->
  (forall r u, update_stmt i <> Ok r u) /\ update i = Ok i (MkUpdate (MkPrologue []) None None).
Proof. exact with_unread. Qed.
Print Assumptions C23_with_refuted.

Example C23_forms : exists p k p' k' p'' k'',
  update_stmt (s_ "INSERT { <a> <b> <c> } WHERE {}") = Err (Error p k) /\
  update_stmt (s_ "DELETE { <a> <b> <c> } USING <g> WHERE {}") = Err (Error p' k') /\
  update_stmt (s_ "ADD <a> TO <b>") = Err (Error p'' k'').
Proof. do 6 eexists. split; [|split]; vm_compute; reflexivity. Qed.
Example C23_load : let u := UsLoad (MkLoad (IriIri (s_ "http://a")) true (Some (IriIri (s_ "http://b")))) in
  let t := s_ "LOAD SILENT <http://a> INTO GRAPH <http://b>" in W_update_stmt u t [] /\ update_stmt t = Ok [] u.
Proof. texts. split; [lay|vm_compute; reflexivity]. Qed.
Example C23_clear : exists u, let t := s_ "clear all" in W_update_stmt u t (s_ ";") /\ update_stmt (t ++ s_ ";") = Ok (s_ ";") u.
Proof. eexists. cbv zeta. split; [|vm_compute; reflexivity]. texts. lay. Qed.
Example C23_copy : exists u, let t := s_ "COPY GRAPH <http://a> TO default" in W_update_stmt u t [] /\ update_stmt t = Ok [] u.
Proof. eexists. cbv zeta. split; [|vm_compute; reflexivity]. texts. lay. Qed.
Example C23_insert_data : exists u, let t := s_ "INSERT DATA { <http://a> <http://b> <http://c> }" in W_update_stmt u t [] /\ update_stmt t = Ok [] u.
Proof. eexists. cbv zeta. split; [|vm_compute; reflexivity]. texts. lay. Qed.
Example C23_delete_where : exists u, let t := s_ "DELETE WHERE { ?a ?b ?c }" in W_update_stmt u t [] /\ update_stmt t = Ok [] u.
Proof. eexists. cbv zeta. split; [|vm_compute; reflexivity]. texts. lay. Qed.
Example C23_modify : exists u, let t := s_ "INSERT { ?a ?b ?c } USING <http://g> WHERE {?a ?b ?c}" in W_update_stmt u t [] /\ update_stmt t = Ok [] u.
Proof. eexists. cbv zeta. split; [|vm_compute; reflexivity]. texts. lay. Qed.
Example C23_written : let u := UsLoad (MkLoad (IriIri (s_ "http://a")) true (Some (IriIri (s_ "http://b")))) in
  wf_stmt 0 u /\ pr_stmt cap_words (s_ " ") 0 u = s_ "LOAD SILENT <http://a> INTO GRAPH <http://b>" /\ casing cap_words.
Proof. split; [prn|]. split; [vm_compute; reflexivity|exact cap_casing]. Qed.
Example C23_with : begins "with" (s_ "WITH <g> INSERT { <a> <b> <c> } USING <g> WHERE {}").
Proof. exists (s_ "WITH"), (s_ " <g> INSERT { <a> <b> <c> } USING <g> WHERE {}"). split; reflexivity. Qed.
