(** C17: the query form follows the leading keyword. *)
From Verif Require Import LInv.
Open Scope list_scope.

(** [form_word]: the keyword of the form of a query; [begins k i]: [i] starts with the keyword [k] in
    some letter case (Spec2.v). *)
Theorem C17_form_by_keyword : forall i r q, sparql_query i = Ok r q -> begins (form_word q) i.
Proof. exact query_form. Qed.
Print Assumptions C17_form_by_keyword.
Theorem C17_no_keyword_rejected : forall i,
  ~ begins "select" i -> ~ begins "construct" i -> ~ begins "describe" i -> ~ begins "ask" i ->
  forall r q, sparql_query i <> Ok r q.
Proof. intros i H1 H2 H3 H4 r q H. apply query_form in H. destruct q; contradiction. Qed.
Print Assumptions C17_no_keyword_rejected.
(** The keyword decides: a text that starts with one of the keywords is never read as another form. *)
Theorem C17_keyword_decides : forall k i r q, In k ["select"; "construct"; "describe"; "ask"]%string ->
  begins k i -> sparql_query i = Ok r q -> form_word q = k.
Proof. exact keyword_decides. Qed.
Print Assumptions C17_keyword_decides.
(** The same for whole statements, after the declarations. *)
Theorem C17_statement : forall i r p q v, sparql_query_stmt i = Ok r (MkSparqlQueryStatement p q v) ->
  exists t b j, i = t ++ b ++ j /\ R_prologue p t /\ blank b /\ begins (form_word q) j.
Proof. exact stmt_form. Qed.
Print Assumptions C17_statement.

Example C17_all_forms :
  (exists q, sparql_query (s_ "SeLeCT * {}") = Ok [] (SqSelect q)) /\
  (exists q, sparql_query (s_ "asK {}") = Ok [] (SqAsk q)) /\
  (exists q, sparql_query (s_ "DESCRIBE * ") = Ok [] (SqDescribe q)) /\
  (exists q, sparql_query (s_ "Construct {} {}") = Ok [] (SqConstruct q)).
Proof. repeat split; eexists; vm_compute; reflexivity. Qed.
Example C17_no_keyword : ~ begins "select" (s_ "INSERT") /\ ~ begins "construct" (s_ "INSERT") /\
  ~ begins "describe" (s_ "INSERT") /\ ~ begins "ask" (s_ "INSERT").
Proof.
  repeat split; intros (t & r & E & H); (destruct t as [|c t]; [discriminate|injection E as <- E; discriminate]).
Qed.
