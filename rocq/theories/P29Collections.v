(** C29: collections and blank node property lists. *)
From Verif Require Import LGen4 LEx2 LEx.
Open Scope list_scope.
Open Scope N_scope.

(** As subjects of templates they are accepted ([W_tss], C30, contains both forms).
    Missing from the full statement: every other position, where the statement is false (see below). *)
Theorem C29_template_subject_partial : forall n p t r, W_tss (TssNode n p) t r ->
  triples_same_subject (t ++ r) = Ok r (TssNode n p).
Proof. intros n p. exact (rd_tss (TssNode n p)). Qed.
Print Assumptions C29_template_subject_partial.
(** Everywhere else the full statement is false.  An opening bracket that is not followed, after blank
    text, by its closing bracket is a hard failure (no other reading is tried) as an object or member
    in a template, as an object or member in a WHERE block and as a subject in a WHERE block, whatever
    the content is. *)
Theorem C29_collection_refuted : forall b i, blank b -> solid i -> not_first 41 i ->
  (exists p k, graph_node (40 :: b ++ i) = Err (Failure p k)) /\
  (exists p k, graph_node_path (40 :: b ++ i) = Err (Failure p k)) /\
  (exists p k, triples_same_subject_path (40 :: b ++ i) = Err (Failure p k)).
Proof. intros b i. apply brackets_hard. auto. Qed.
Print Assumptions C29_collection_refuted.
Theorem C29_property_list_refuted : forall b i, blank b -> solid i -> not_first 93 i ->
  (exists p k, graph_node (91 :: b ++ i) = Err (Failure p k)) /\
  (exists p k, graph_node_path (91 :: b ++ i) = Err (Failure p k)) /\
  (exists p k, triples_same_subject_path (91 :: b ++ i) = Err (Failure p k)).
Proof. intros b i. apply brackets_hard. auto. Qed.
Print Assumptions C29_property_list_refuted.
(** Hence no input at all gives a collection or property list as object, as member or as WHERE subject. *)
Theorem C29_never_object_refuted : forall i r g, graph_node i = Ok r g -> exists v, g = GnVarOrTerm v.
Proof. exact graph_node_term. Qed.
Print Assumptions C29_never_object_refuted.
Theorem C29_never_where_object_refuted : forall i r g, graph_node_path i = Ok r g -> exists v, g = GnpVarOrTerm v.
Proof. exact graph_node_path_term. Qed.
Print Assumptions C29_never_where_object_refuted.
Theorem C29_never_where_subject_refuted : forall i r s, triples_same_subject_path i = Ok r s -> exists v p, s = TsspTerm v p.
Proof. exact tssp_term. Qed.
Print Assumptions C29_never_where_subject_refuted.
(** Whole queries: any ASK query with such a subject in its group, or such an object after a variable and
    a predicate, is a hard failure. *)
Theorem C29_query_subject_refuted : forall t b o c x, W_ask_open t (123 :: b ++ o :: x) -> blank b ->
  (o = 40 /\ c = 41) \/ (o = 91 /\ c = 93) -> other c x -> exists p k, sparql_query_stmt (t ++ 123 :: b ++ o :: x) = Err (Failure p k).
Proof. exact ask_subject. Qed.
Print Assumptions C29_query_subject_refuted.
Theorem C29_query_object_refuted : forall t b v tv b1 p tp b2 o c x, W_ask_open t (123 :: b ++ tv ++ b1 ++ tp ++ b2 ++ o :: x) -> blank b ->
  W_var v tv (b1 ++ tp ++ b2 ++ o :: x) -> blank1 b1 -> solid (tp ++ b2 ++ o :: x) -> W_verb_path p tp (b2 ++ o :: x) -> blank1 b2 ->
  (o = 40 /\ c = 41) \/ (o = 91 /\ c = 93) -> other c x ->
  exists z k, sparql_query_stmt (t ++ 123 :: b ++ tv ++ b1 ++ tp ++ b2 ++ o :: x) = Err (Failure z k).
Proof. exact ask_object. Qed.
Print Assumptions C29_query_object_refuted.

(** the same queries with a variable are accepted *)
Example C29_queries :
  (exists q, sparql_query_stmt (s_ "ASK {?s ?p ?o}") = Ok [] q) /\
  (exists p k, sparql_query_stmt (s_ "ASK {?s ?p (?o)}") = Err (Failure p k)) /\
  (exists p k, sparql_query_stmt (s_ "ASK {?s ?p [?q ?o]}") = Err (Failure p k)) /\
  (exists p k, sparql_query_stmt (s_ "ASK {(?s) ?p ?o}") = Err (Failure p k)) /\
  (exists p k, sparql_query_stmt (s_ "ASK {[?q ?s] ?p ?o}") = Err (Failure p k)) /\
  (exists q, sparql_query_stmt (s_ "CONSTRUCT {(?s) ?p ?o} WHERE {?s ?p ?o}") = Ok [] q) /\
  (exists p k, sparql_query_stmt (s_ "CONSTRUCT {?s ?p (?o)} WHERE {?s ?p ?o}") = Err (Failure p k)).
Proof. repeat split; repeat eexists; vm_compute; reflexivity. Qed.
Example C29_open : W_ask_open (s_ "ASK ") (s_ "{?s <p> (?o)}") /\ W_var (QMark (s_ "s")) (s_ "?s") (s_ " <p> (?o)}") /\
  W_verb_path (VpsPath (MkPathAlternative [MkPathSequence [PeiPathElt (MkPathElt (PpIri (IriIri (s_ "p"))) None)]])) (s_ "<p>") (s_ " (?o)}") /\ other 41 (s_ "?o)}").
Proof.
  split; [exists (MkPrologue []); texts; lay|]. split; [texts; lay|]. split; [texts; lay|]. exists [], (s_ "?o)}"). split; [reflexivity|split; [constructor|texts; split; side]].
Qed.
(** [(?x 1) <u> ?z] and [[a ?y]] as template subjects *)
Example C29_layout :
  let t := s_ "( ?x 1)<u> ?z" in let r := s_ "}" in
  let n := TnCollection (MkCollection [GnVarOrTerm (VotVar (QMark (s_ "x"))); GnVarOrTerm (VotTerm (GtNumericLiteral (NInt 1)))]) in
  let p := Some (MkPropertyList [MkVerbList (VerbVarOrIri (VoiIri (IriIri (s_ "u")))) (MkObjectList [GnVarOrTerm (VotVar (QMark (s_ "z")))])]) in
  W_tss (TssNode n p) t r /\ triples_same_subject (t ++ r) = Ok r (TssNode n p).
Proof.
  texts. split; [|vm_compute; reflexivity].
  at_ 7%nat. { at_ 1%nat. at_ 1%nat. at_ 4%nat; [|leaf]. split; [discriminate|]. at_ 3%nat; [at_ 2%nat; leaf|]. at_ 1%nat; [at_ 1%nat; leaf|]. fin. leaf. }
  at_ 0%nat. cbn [optW]. at_ 6%nat.
  - at_ 6%nat. { at_ 3%nat. at_ 1%nat. at_ 2%nat. fin. apply (nxt_at 0); [vr|vr|leaf]. } fin. left. apply (nxt_at 0); [vr|vr|leaf].
  - exists []. fin. apply (nxt_at 0); [vr|vr|leaf].
Qed.
Example C29_layout2 :
  let t := s_ "[a ?y ]" in let r := s_ "}" in
  let n := TnBlankNodePropertyList (MkPropertyList [MkVerbList VerbA (MkObjectList [GnVarOrTerm (VotVar (QMark (s_ "y")))])]) in
  W_tss (TssNode n None) t r /\ triples_same_subject (t ++ r) = Ok r (TssNode n None).
Proof.
  texts. split; [|vm_compute; reflexivity].
  at_ 7%nat.
  - at_ 1%nat. at_ 0%nat. at_ 4%nat; [|at_ 1%nat; leaf]. at_ 4%nat.
    + at_ 4%nat. { at_ 1%nat. at_ 1%nat. at_ 2%nat. fin. apply (nxt_at 1); [vr|vr|leaf]. } fin. left. apply (nxt_at 1); [vr|vr|leaf].
    + exists []. fin. apply (nxt_at 1); [vr|vr|leaf].
  - at_ 0%nat. fin. right. right. right. leaf.
Qed.
Example C29_content : blank (s_ " ") /\ solid (s_ "?x)") /\ not_first 41 (s_ "?x)").
Proof. split; [apply blank_by; vr|]. split; leaf. Qed.
