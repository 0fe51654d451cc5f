(** The pieces of the trees the parsers return stand in the text that was read. *)
From Verif Require Export LLeaves LMono.
Notation length := List.length (only parsing).
Open Scope list_scope.

Lemma read_leaves {A} (p : parser A) (R : A -> str -> Prop) (f : A -> list leaf) i r a :
  (p i = Ok r a -> exists t, i = t ++ r /\ R a t) -> sub (R a) (f a) -> p i = Ok r a -> exists t, i = t ++ r /\ spread (f a) t.
Proof. intros S F H. destruct (S H) as (t & -> & X). exists t. split; [reflexivity|now apply F]. Qed.
Lemma read_occurs i r (l : list leaf) : (exists t, i = t ++ r /\ spread l t) -> forall k s, In (Name k s) l -> exists u v, i = u ++ s ++ v.
Proof.
  intros (t & -> & H) k s I. destruct (spread_occurs l t H _ I) as (u & s' & v & -> & E). destruct E as [-> _]. exists u, (v ++ r). now rewrite <- !app_assoc.
Qed.
Lemma read_length i r (l : list leaf) : (exists t, i = t ++ r /\ spread l t) -> (total (names l) + length r <= length i)%nat.
Proof. intros (t & -> & H). rewrite app_length. apply spread_length in H. lia. Qed.
Lemma query_leaves n i r q : sparql_query_stmt i = Ok r q -> exists t, i = t ++ r /\ spread (leaves_query_stmt n q) t.
Proof. apply read_leaves with (R := R_query_stmt); [apply sd_sparql_query_stmt|apply sub_query_stmt]. Qed.
Lemma update_leaves n i r u : update i = Ok r u -> exists t, i = t ++ r /\ spread (leaves_update n u) t.
Proof. apply read_leaves with (R := R_update); [apply sd_update|apply sub_update]. Qed.
Lemma pattern_leaves n i r g : group_graph_pattern i = Ok r g -> exists t, i = t ++ r /\ spread (leaves_ggp n g) t.
Proof. apply read_leaves with (R := R_ggp); [apply sd_group_graph_pattern|apply sub_ggp]. Qed.
Lemma expression_leaves n i r e : expression i = Ok r e -> exists t, i = t ++ r /\ spread (leaves_expression n e) t.
Proof. apply read_leaves with (R := R_expression); [apply sd_expression|apply sub_expression]. Qed.
