(** C02: the remainder is a suffix of the input and an accepted query consumes text. *)
From Verif Require Import LGood2.

Lemma good_ok {A} c d (p : parser A) i r a : good true c d p -> p i = Ok r a ->
  exists t, i = t ++ r /\ t <> [].
Proof.
  intros G H. pose proof (good_elim _ _ _ _ G i) as O. rewrite H in O.
  destruct O as [[t ->] L]. exists t. split; [reflexivity|]. intros ->. specialize (L eq_refl).
  simpl in L. lia.
Qed.
Lemma good_ok0 {A} b c d (p : parser A) i r a : good b c d p -> p i = Ok r a -> exists t, i = t ++ r.
Proof. intros G H. pose proof (good_elim _ _ _ _ G i) as O. rewrite H in O. apply O. Qed.

Theorem C02_query_stmt_suffix : forall i r q,
  sparql_query_stmt i = Ok r q -> exists t, i = t ++ r /\ t <> [].
Proof. intros i r q. exact (good_ok _ _ _ i r q gd_sparql_query_stmt). Qed.
Print Assumptions C02_query_stmt_suffix.

Theorem C02_query_suffix : forall i r q,
  sparql_query i = Ok r q -> exists t, i = t ++ r /\ t <> [].
Proof. intros i r q. exact (good_ok _ _ _ i r q gd_sparql_query). Qed.
Print Assumptions C02_query_suffix.

Theorem C02_ask_suffix : forall i r q, ask_query i = Ok r q -> exists t, i = t ++ r /\ t <> [].
Proof. intros i r q. exact (good_ok _ _ _ i r q gd_ask_query). Qed.
Print Assumptions C02_ask_suffix.
Theorem C02_select_suffix : forall i r q, select_query i = Ok r q -> exists t, i = t ++ r /\ t <> [].
Proof. intros i r q. exact (good_ok _ _ _ i r q gd_select_query). Qed.
Print Assumptions C02_select_suffix.
Theorem C02_describe_suffix : forall i r q,
  describe_query i = Ok r q -> exists t, i = t ++ r /\ t <> [].
Proof. intros i r q. exact (good_ok _ _ _ i r q gd_describe_query). Qed.
Print Assumptions C02_describe_suffix.
Theorem C02_construct_suffix : forall i r q,
  construct_query i = Ok r q -> exists t, i = t ++ r /\ t <> [].
Proof. intros i r q. exact (good_ok _ _ _ i r q gd_construct_query). Qed.
Print Assumptions C02_construct_suffix.

(** An update request may be empty, so only the suffix part holds; a single statement consumes. *)
Theorem C02_update_suffix : forall i r u, update i = Ok r u -> exists t, i = t ++ r.
Proof. intros i r u. exact (good_ok0 _ _ _ _ i r u gd_update). Qed.
Print Assumptions C02_update_suffix.
Theorem C02_update_stmt_suffix : forall i r u,
  update_stmt i = Ok r u -> exists t, i = t ++ r /\ t <> [].
Proof. intros i r u. exact (good_ok _ _ _ i r u gd_update_stmt). Qed.
Print Assumptions C02_update_stmt_suffix.

Example C02_with_remainder :
  exists q, sparql_query_stmt (s_ "ASK {?s ?p ?o} rest of the text") = Ok (s_ "rest of the text") q.
Proof. eexists. vm_compute. reflexivity. Qed.
Example C02_update_with_remainder :
  exists q, update (s_ "CLEAR ALL ; DROP SILENT NAMED ; x") = Ok (s_ "x") q.
Proof. eexists. vm_compute. reflexivity. Qed.
