(** C75: a group is read alike wherever it stands. *)
From Verif Require Import LMods LC8 LWhere LEx2 LEx.
Open Scope list_scope.
Open Scope N_scope.

(** [j] is any text; it is read as the group of the clause exactly if it is read as a group, up to the same place. *)
Theorem C75_where : forall w b j, blank1 b -> solid j -> forall r g, kw "where" w ->
  (where_clause (w ++ b ++ j) = Ok r g <-> group_graph_pattern j = Ok r g).
Proof. exact where_at. Qed.
Print Assumptions C75_where.
Theorem C75_no_where : forall j r g, group_graph_pattern j = Ok r g -> where_clause j = Ok r g.
Proof. exact bare_where. Qed.
Print Assumptions C75_no_where.
Theorem C75_where_only : forall j r g, where_clause j = Ok r g ->
  group_graph_pattern j = Ok r g \/ exists w b j', kw "where" w /\ blank1 b /\ j = w ++ b ++ j' /\ group_graph_pattern j' = Ok r g.
Proof. exact bare_where_inv. Qed.
Print Assumptions C75_where_only.
Theorem C75_optional : forall w b j, blank1 b -> solid j -> forall r g, kw "optional" w ->
  (graph_pattern_not_triples (w ++ b ++ j) = Ok r (GpOptional g) <-> group_graph_pattern j = Ok r g).
Proof. exact optional_at. Qed.
Print Assumptions C75_optional.
Theorem C75_minus : forall w b j, blank1 b -> solid j -> forall r g, kw "minus" w ->
  (graph_pattern_not_triples (w ++ b ++ j) = Ok r (GpMinus g) <-> group_graph_pattern j = Ok r g).
Proof. exact minus_at. Qed.
Print Assumptions C75_minus.
Theorem C75_graph : forall w b x t b' j r g, kw "graph" w -> blank1 b -> solid (t ++ b' ++ j) -> W_var_or_iri x t (b' ++ j) -> blank b' -> solid j ->
  (graph_pattern_not_triples (w ++ b ++ t ++ b' ++ j) = Ok r (GpGraph (MkGraphGraphPattern x g)) <-> group_graph_pattern j = Ok r g).
Proof. exact graph_at. Qed.
Print Assumptions C75_graph.
Theorem C75_service : forall w b s u x t b' j r g, kw "service" w -> blank1 b -> solid (u ++ t ++ b' ++ j) -> W_silent s u (t ++ b' ++ j) ->
  W_var_or_iri x t (b' ++ j) -> blank b' -> solid j ->
  (graph_pattern_not_triples (w ++ b ++ u ++ t ++ b' ++ j) = Ok r (GpService (MkServiceGraphPattern x s g)) <-> group_graph_pattern j = Ok r g).
Proof. exact service_at. Qed.
Print Assumptions C75_service.
Theorem C75_exists : forall w b j, blank1 b -> solid j -> forall r g, kw "exists" w ->
  (built_in_call (w ++ b ++ j) = Ok r (BiExistsFunc g) <-> group_graph_pattern j = Ok r g).
Proof. exact exists_at. Qed.
Print Assumptions C75_exists.
Theorem C75_not_exists : forall w b w' b' j r g, kw "not" w -> blank1 b -> kw "exists" w' -> blank1 b' -> solid j ->
  (built_in_call (w ++ b ++ w' ++ b' ++ j) = Ok r (BiNotExistsFunc g) <-> group_graph_pattern j = Ok r g).
Proof. exact not_exists_at. Qed.
Print Assumptions C75_not_exists.
(** A group among the patterns of a group is read as a union of one member, unless UNION follows it. *)
Theorem C75_pattern : forall j r g l, graph_pattern_not_triples j = Ok r (GpGroupOrUnion (MkGroupOrUnion (g :: l))) ->
  exists r', group_graph_pattern j = Ok r' g /\ (l = [] -> r' = r).
Proof. exact group_pattern. Qed.
Print Assumptions C75_pattern.
Theorem C75_as_pattern : forall j r g, group_graph_pattern j = Ok r g -> nxt (fun x => ~ begins "union" x) r ->
  graph_pattern_not_triples j = Ok r (GpGroupOrUnion (MkGroupOrUnion [g])).
Proof. exact group_as_pattern. Qed.
Print Assumptions C75_as_pattern.

Example C75_read : exists g, group_graph_pattern (s_ "{ ?s ?p ?o } x") = Ok (s_ " x") g /\ where_clause (s_ "where { ?s ?p ?o } x") = Ok (s_ " x") g /\
  graph_pattern_not_triples (s_ "OPTIONAL { ?s ?p ?o } x") = Ok (s_ " x") (GpOptional g) /\ graph_pattern_not_triples (s_ "MINUS { ?s ?p ?o } x") = Ok (s_ " x") (GpMinus g) /\
  (exists v, graph_pattern_not_triples (s_ "GRAPH <g>{ ?s ?p ?o } x") = Ok (s_ " x") (GpGraph (MkGraphGraphPattern v g))) /\
  (exists v, graph_pattern_not_triples (s_ "SERVICE SILENT <g>{ ?s ?p ?o } x") = Ok (s_ " x") (GpService (MkServiceGraphPattern v true g))) /\
  built_in_call (s_ "EXISTS { ?s ?p ?o } x") = Ok (s_ " x") (BiExistsFunc g) /\ built_in_call (s_ "NOT EXISTS { ?s ?p ?o } x") = Ok (s_ " x") (BiNotExistsFunc g) /\
  graph_pattern_not_triples (s_ "{ ?s ?p ?o } x") = Ok (s_ " x") (GpGroupOrUnion (MkGroupOrUnion [g])).
Proof. eexists. repeat split; try (eexists; vm_compute; reflexivity); vm_compute; reflexivity. Qed.
Example C75_names : let j := s_ "{ ?s ?p ?o }" in W_var_or_iri (VoiIri (IriIri (s_ "g"))) (s_ "<g>") j /\
  W_silent true (s_ "SILENT ") (s_ "<g>" ++ j) /\ W_silent false [] (s_ "<g>" ++ j) /\ solid j /\ solid (s_ "<g>" ++ j).
Proof. texts. split; [lay|]. split; [lay|]. split; [lay|]. split; side. Qed.
Example C75_union : nxt (fun x => ~ begins "union" x) (s_ " OPTIONAL {}").
Proof. exists (s_ " "), (s_ "OPTIONAL {}"). split; [reflexivity|]. split; [constructor; [now left|constructor]|]. split; [now apply char_solid|]. eapply no_begins_by; vm_compute; reflexivity. Qed.
