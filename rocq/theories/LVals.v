(** A VALUES block is read alike wherever it stands. *)
From Verif Require Import LMods LC8.
From Verif Require Export LPlace.
From Verif Require Import Nom.
Notation length := List.length (only parsing).
Open Scope N_scope.
Open Scope list_scope.

Lemma values_pattern w b j r d : kw "values" w -> blank1 b -> solid j -> (graph_pattern_not_triples (w ++ b ++ j) = Ok r (GpInlineData d) <-> datablock j = Ok r d).
Proof.
  intros K B S. split; intros H.
  - apply alt_inv in H. destruct H as (p & [<-|[<-|[<-|[<-|[<-|[<-|[<-|[<-|[]]]]]]]]] & H); apply map_inv in H; destruct H as (z & H & X); try discriminate X.
    injection X as ->. unfold inline_data in H. now rewrite (tag1_at "values") in H by auto.
  - apply alt_next; [now apply map_fails, map_fails, sepne_fails, (brace_not "values")|]. do 6 (nx K). eapply map_ok; [|reflexivity].
    unfold inline_data. now rewrite (tag1_at "values") by auto.
Qed.
Lemma values_sub w b j r d : kw "values" w -> blank1 b -> solid j -> (values_clause (w ++ b ++ j) = Ok r (Some d) <-> datablock j = Ok r d).
Proof.
  intros K B S. unfold values_clause. split; intros H.
  - apply opt_inv in H. now rewrite (tag1_at "values") in H by auto.
  - apply opt_some. now rewrite (tag1_at "values") by auto.
Qed.
Lemma values_query i q b0 w b j r d : sparql_query i = Ok (b0 ++ w ++ b ++ j) q -> blank1 b0 -> kw "values" w -> blank1 b -> solid j ->
  (sparql_query_stmt i = Ok r (MkSparqlQueryStatement (MkPrologue []) q (Some d)) <-> datablock j = Ok r d).
Proof.
  intros Q B0 K B S. rewrite (around q) by exact (query_form _ _ _ Q). assert (S0 : solid (w ++ b ++ j)) by (apply (begins_solid "values"); [reflexivity|exists w, (b ++ j); auto]). split.
  - intros (k & E & H). rewrite Q in E. injection E as <-. apply opt_inv in H. apply preceded_inv in H. destruct H as (k & y & E & H). rewrite (sp1_ok b0 _ B0 S0) in E. injection E as <- <-.
    now rewrite (tag1_at "values") in H by auto.
  - intros H. eexists. split; [exact Q|]. apply opt_some. eapply preceded_ok; [now apply sp1_ok|]. now rewrite (tag1_at "values") by auto.
Qed.
