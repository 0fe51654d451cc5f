(** C03: a reported error location is a suffix of the input. *)
From Verif Require Import LGood2.

Lemma good_error {A} b c d (p : parser A) i pos k : good b c d p ->
  p i = Err (Error pos k) \/ p i = Err (Failure pos k) -> exists t, i = t ++ pos.
Proof.
  intros G H. pose proof (good_elim _ _ _ _ G i) as O. destruct H as [H | H]; rewrite H in O; exact O.
Qed.

Theorem C03_query_stmt_error_position : forall i pos k,
  sparql_query_stmt i = Err (Error pos k) \/ sparql_query_stmt i = Err (Failure pos k) ->
  exists t, i = t ++ pos.
Proof. intros i pos k. exact (good_error _ _ _ _ i pos k gd_sparql_query_stmt). Qed.
Print Assumptions C03_query_stmt_error_position.

Theorem C03_query_error_position : forall i pos k,
  sparql_query i = Err (Error pos k) \/ sparql_query i = Err (Failure pos k) ->
  exists t, i = t ++ pos.
Proof. intros i pos k. exact (good_error _ _ _ _ i pos k gd_sparql_query). Qed.
Print Assumptions C03_query_error_position.

Theorem C03_query_forms_error_position : forall i pos k,
  (ask_query i = Err (Error pos k) \/ ask_query i = Err (Failure pos k) \/
   select_query i = Err (Error pos k) \/ select_query i = Err (Failure pos k) \/
   describe_query i = Err (Error pos k) \/ describe_query i = Err (Failure pos k) \/
   construct_query i = Err (Error pos k) \/ construct_query i = Err (Failure pos k)) ->
  exists t, i = t ++ pos.
Proof.
  intros i pos k H.
  destruct H as [H | [H | [H | [H | [H | [H | [H | H]]]]]]].
  - exact (good_error _ _ _ _ i pos k gd_ask_query (or_introl H)).
  - exact (good_error _ _ _ _ i pos k gd_ask_query (or_intror H)).
  - exact (good_error _ _ _ _ i pos k gd_select_query (or_introl H)).
  - exact (good_error _ _ _ _ i pos k gd_select_query (or_intror H)).
  - exact (good_error _ _ _ _ i pos k gd_describe_query (or_introl H)).
  - exact (good_error _ _ _ _ i pos k gd_describe_query (or_intror H)).
  - exact (good_error _ _ _ _ i pos k gd_construct_query (or_introl H)).
  - exact (good_error _ _ _ _ i pos k gd_construct_query (or_intror H)).
Qed.
Print Assumptions C03_query_forms_error_position.

Theorem C03_update_error_position : forall i pos k,
  update i = Err (Error pos k) \/ update i = Err (Failure pos k) -> exists t, i = t ++ pos.
Proof. intros i pos k. exact (good_error _ _ _ _ i pos k gd_update). Qed.
Print Assumptions C03_update_error_position.

Example C03_error_inside :
  sparql_query (s_ "ASK {} x") <> Err (Error (s_ "x") KTag) /\
  construct_query (s_ "CONSTRUCT {} WHERE { ?s ?p }") = Err (Error (s_ "{} WHERE { ?s ?p }") KTag).
Proof. split; vm_compute; [discriminate | reflexivity]. Qed.
Example C03_failure_inside :
  exists k, sparql_query_stmt (s_ "ASK {?s ?p ( 1 2 )}") = Err (Failure (s_ "1 2 )}") k).
Proof. eexists. vm_compute. reflexivity. Qed.
