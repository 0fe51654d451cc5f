(** C35: blank text in front of a query or a request. *)
From Verif Require Import LLead.
Open Scope list_scope.
Open Scope N_scope.

(** Blanks and comments in front of a query without declarations do not matter: the result is the same,
    whatever it is. *)
Theorem C35_query : forall b i, blank b -> no_decl i -> sparql_query_stmt (b ++ i) = sparql_query_stmt i.
Proof. exact lead_query. Qed.
Print Assumptions C35_query.
(** A request without declarations that is read is read the same way after blanks. *)
Theorem C35_update : forall b i r p s n, blank b -> no_decl i ->
  update i = Ok r (MkUpdate p (Some s) n) -> update (b ++ i) = Ok r (MkUpdate p (Some s) n).
Proof. exact lead_update. Qed.
Print Assumptions C35_update.
(** With declarations it is refuted: one blank in front of the first [PREFIX] or [BASE] and no query at
    all is read; *)
Theorem C35_query_refuted : forall b i, blank1 b -> begins "base" i \/ begins "prefix" i ->
  forall r q, sparql_query_stmt (b ++ i) <> Ok r q.
Proof. intros b i B D r q. now apply lead_query_decl. Qed.
Print Assumptions C35_query_refuted.
(** a request is accepted and returned empty, with its whole text as the rest. *)
Theorem C35_update_refuted : forall b i, blank1 b -> begins "base" i \/ begins "prefix" i ->
  update (b ++ i) = Ok (b ++ i) (MkUpdate (MkPrologue []) None None).
Proof. exact lead_update_decl. Qed.
Print Assumptions C35_update_refuted.

Example C35_sample : blank (s_ " # hello
 ") /\ no_decl (s_ "ASK {}") /\ exists q, sparql_query_stmt (s_ " # hello
 ASK {}") = Ok [] q.
Proof.
  split; [|split; [|eexists; vm_compute; reflexivity]].
  - apply blank_space; [now left|]. apply (blank_comment (s_ " hello") 10 [32]); [repeat constructor; discriminate|now left|].
    apply blank_space; [now left|constructor].
  - split; intros (t & r & E & H); (destruct t as [|c t]; [discriminate|injection E as <- E; discriminate]).
Qed.
Example C35_sample_update : no_decl (s_ "CLEAR ALL") /\
  update (s_ "CLEAR ALL") = Ok [] (MkUpdate (MkPrologue []) (Some (UsClear (MkClear false GraAll))) None).
Proof.
  split; [|vm_compute; reflexivity].
  split; intros (t & r & E & H); (destruct t as [|c t]; [discriminate|injection E as <- E; discriminate]).
Qed.
Example C35_refuted_sample :
  (exists q, sparql_query_stmt (s_ "PREFIX : <a> ASK {}") = Ok [] q) /\
  (exists e, sparql_query_stmt (s_ " PREFIX : <a> ASK {}") = Err e) /\
  (exists p s, update (s_ "PREFIX : <a> CLEAR ALL") = Ok [] (MkUpdate p (Some s) None)) /\
  update (s_ " PREFIX : <a> CLEAR ALL") = Ok (s_ " PREFIX : <a> CLEAR ALL") (MkUpdate (MkPrologue []) None None).
Proof. repeat split; repeat eexists; vm_compute; reflexivity. Qed.
