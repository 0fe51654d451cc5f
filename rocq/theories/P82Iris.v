(** C82: an IRI or prefixed name is read alike wherever it stands. *)
From Verif Require Import LMods LC8 LIri LEx2 LEx.
Open Scope list_scope.
Open Scope N_scope.

(** The place all others are compared with is that after FROM NAMED.  After FROM alone; the text must not start with the word NAMED and a blank: *)
Theorem C82_from : forall w b w1 b1 j, kw "from" w -> blank1 b -> kw "named" w1 -> blank1 b1 -> solid j ->
  forall r i w' b', kw "from" w' -> blank1 b' -> no_word1 "named" j ->
  (data_set_clause (w ++ b ++ w1 ++ b1 ++ j) = Ok r (DonNamed i) <-> data_set_clause (w' ++ b' ++ j) = Ok r (DonDefault i)).
Proof. exact places_default. Qed.
Print Assumptions C82_from.
(** In CLEAR GRAPH, ... *)
Theorem C82_clear : forall w b w1 b1 j, kw "from" w -> blank1 b -> kw "named" w1 -> blank1 b1 -> solid j ->
  forall r i w' b' w1' b1', kw "clear" w' -> blank1 b' -> kw "graph" w1' -> blank1 b1' ->
  (data_set_clause (w ++ b ++ w1 ++ b1 ++ j) = Ok r (DonNamed i) <-> update_stmt (w' ++ b' ++ w1' ++ b1' ++ j) = Ok r (UsClear (MkClear false (GraGraphRef i)))).
Proof. exact places_clear. Qed.
Print Assumptions C82_clear.
(** ... as the name of a GRAPH pattern, where a blank and a group follow, ... *)
Theorem C82_graph : forall w b w1 b1 j, kw "from" w -> blank1 b -> kw "named" w1 -> blank1 b1 -> solid j ->
  forall r i g w' b', kw "graph" w' -> blank1 b' ->
  (graph_pattern_not_triples (w' ++ b' ++ j) = Ok r (GpGraph (MkGraphGraphPattern (VoiIri i) g)) <->
   exists b2 k, blank b2 /\ solid k /\ data_set_clause (w ++ b ++ w1 ++ b1 ++ j) = Ok (b2 ++ k) (DonNamed i) /\ group_graph_pattern k = Ok r g).
Proof. exact places_graph. Qed.
Print Assumptions C82_graph.
(** ... as the datatype of a literal, ... *)
Theorem C82_datatype : forall w b w1 b1 j, kw "from" w -> blank1 b -> kw "named" w1 -> blank1 b1 -> solid j ->
  forall r i t s, string_literal t = Ok (94 :: 94 :: j) s ->
  (data_set_clause (w ++ b ++ w1 ++ b1 ++ j) = Ok r (DonNamed i) <-> rdf_literal t = Ok r (MkRdfLiteral s (Some (DescIri i)))).
Proof. exact places_datatype. Qed.
Print Assumptions C82_datatype.
(** ... and as a subject or object, as a verb, and as a value of VALUES. *)
Theorem C82_terms : forall w b w1 b1 j, kw "from" w -> blank1 b -> kw "named" w1 -> blank1 b1 -> solid j ->
  forall r i, let P := data_set_clause (w ++ b ++ w1 ++ b1 ++ j) = Ok r (DonNamed i) in
  (P <-> var_or_term j = Ok r (VotTerm (GtIri i))) /\ (P <-> verb j = Ok r (VerbVarOrIri (VoiIri i))) /\ (P <-> datablock_value j = Ok r (DbvIri i)).
Proof. exact places_terms. Qed.
Print Assumptions C82_terms.

Example C82_read : exists i, data_set_clause (s_ "FROM NAMED ex:ab {}") = Ok (s_ " {}") (DonNamed i) /\ data_set_clause (s_ "FROM ex:ab {}") = Ok (s_ " {}") (DonDefault i) /\
  update_stmt (s_ "CLEAR GRAPH ex:ab {}") = Ok (s_ " {}") (UsClear (MkClear false (GraGraphRef i))) /\ (exists g, graph_pattern_not_triples (s_ "GRAPH ex:ab {}") = Ok [] (GpGraph (MkGraphGraphPattern (VoiIri i) g))) /\
  (exists s, string_literal (s_ "'x'^^ex:ab {}") = Ok (s_ "^^ex:ab {}") s /\ rdf_literal (s_ "'x'^^ex:ab {}") = Ok (s_ " {}") (MkRdfLiteral s (Some (DescIri i)))) /\
  var_or_term (s_ "ex:ab {}") = Ok (s_ " {}") (VotTerm (GtIri i)) /\ verb (s_ "ex:ab {}") = Ok (s_ " {}") (VerbVarOrIri (VoiIri i)).
Proof. eexists. repeat split; repeat eexists; vm_compute; reflexivity. Qed.
Example C82_hypotheses : no_word1 "named" (s_ "ex:ab {}") /\ solid (s_ "ex:ab {}") /\ kw "named" (s_ "Named") /\ blank1 (s_ " ").
Proof. split; [eapply no_word1_by; vm_compute; reflexivity|]. split; [now apply char_solid|]. split; [reflexivity|split; [now repeat constructor|discriminate]]. Qed.
