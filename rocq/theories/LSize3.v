(** The trees the parsers return are not larger than the text that was read. *)
From Verif Require Export LSize2 LMono.
Notation length := List.length (only parsing).
Open Scope list_scope.
Open Scope nat_scope.

Lemma query_size d n i r q : sparql_query_stmt i = Ok r q -> length i <= length r + n -> size_query_stmt d n q + 16 * length r <= 16 * length i.
Proof.
  intros H L. apply sd_sparql_query_stmt in H. destruct H as (t & -> & H). rewrite app_length in *. apply (sz_query_stmt d n) in H; [lia|lia].
Qed.
Lemma update_size d n i r u : update i = Ok r u -> length i <= length r + n -> size_update d n u + 16 * length r <= 16 * length i + 2.
Proof.
  intros H L. apply sd_update in H. destruct H as (t & -> & H). rewrite app_length in *. apply (sz_update d n) in H; [lia|lia].
Qed.
Lemma pattern_size d n i r g : group_graph_pattern i = Ok r g -> length i <= length r + n -> size_ggp d n g + 16 * length r <= 16 * length i.
Proof.
  intros H L. apply sd_group_graph_pattern in H. destruct H as (t & -> & H). rewrite app_length in *. apply (sz_ggp d n) in H; [lia|lia].
Qed.
Lemma expression_size d n i r e : expression i = Ok r e -> length i <= length r + n -> size_expression d n e + 16 * length r <= 16 * length i.
Proof.
  intros H L. apply sd_expression in H. destruct H as (t & -> & H). rewrite app_length in *. apply (sz_expression d n) in H; [lia|lia].
Qed.
