(** IRIs and prefixed names are read alike wherever they stand. *)
From Verif Require Import LMods LC8 LName3.
From Verif Require Export LForms LSwap.
From Verif Require Import Nom.
Notation length := List.length (only parsing).
Open Scope N_scope.
Open Scope list_scope.
Notation gg := group_graph_pattern (only parsing).

Lemma iri_not_var j r i : iri j = Ok r i -> fails var j.
Proof.
  intros H. destruct j as [|c j]; [now apply var_first|]. apply var_first. unfold stops. destruct (oneof (s_ "?$") c) eqn:Q; [|reflexivity]. exfalso. revert H. apply fails_not_ok, iri_fails_first.
  cbn in Q. repeat (apply orb_true_iff in Q; destruct Q as [Q|Q]; [apply N.eqb_eq in Q; subst; vm_compute; reflexivity|]). discriminate Q.
Qed.
Lemma var_or_iri_at j r i : var_or_iri j = Ok r (VoiIri i) <-> iri j = Ok r i.
Proof.
  split; intros H.
  - apply alt_inv in H. destruct H as (p & [<-|[<-|[]]] & H); apply map_inv in H; destruct H as (x & H & X); [discriminate X|]. now injection X as ->.
  - apply alt_next; [apply map_fails; exact (iri_not_var _ _ _ H)|]. eapply map_ok; [exact H|reflexivity].
Qed.
Lemma term_iri j r i : graph_term j = Ok r (GtIri i) <-> iri j = Ok r i.
Proof.
  split; intros H.
  - apply alt_inv in H. destruct H as (p & I & H). cbn [In] in I. destruct I as [<-|[<-|[<-|[<-|[<-|[<-|[]]]]]]]; apply map_inv in H; destruct H as (x & H & X); try discriminate X. now injection X as ->.
  - apply alt_first. eapply map_ok; [exact H|reflexivity].
Qed.
Lemma vot_iri j r i : var_or_term j = Ok r (VotTerm (GtIri i)) <-> iri j = Ok r i.
Proof.
  rewrite <- term_iri. split; intros H.
  - apply alt_inv in H. destruct H as (p & [<-|[<-|[]]] & H); apply map_inv in H; destruct H as (x & H & X); [discriminate X|]. now injection X as ->.
  - apply alt_next; [apply map_fails; apply (iri_not_var j r i); now apply term_iri|]. eapply map_ok; [exact H|reflexivity].
Qed.
Lemma verb_iri j r i : verb j = Ok r (VerbVarOrIri (VoiIri i)) <-> iri j = Ok r i.
Proof.
  rewrite <- var_or_iri_at. split; intros H.
  - apply alt_inv in H. destruct H as (p & [<-|[<-|[]]] & H); apply map_inv in H; destruct H as (x & H & X); [|discriminate X]. now injection X as ->.
  - apply alt_first. eapply map_ok; [exact H|reflexivity].
Qed.
Lemma value_iri j r i : datablock_value j = Ok r (DbvIri i) <-> iri j = Ok r i.
Proof.
  split; intros H.
  - apply alt_inv in H. destruct H as (p & I & H). cbn [In] in I. destruct I as [<-|[<-|[<-|[<-|[<-|[]]]]]]; apply map_inv in H; destruct H as (x & H & X); try discriminate X. now injection X as ->.
  - apply alt_first. eapply map_ok; [exact H|reflexivity].
Qed.

Lemma named_at w b j r i : kw "named" w -> blank1 b -> solid j -> (default_or_named_iri (w ++ b ++ j) = Ok r (DonNamed i) <-> iri j = Ok r i).
Proof.
  intros K B S. split; intros H.
  - apply alt_inv in H. destruct H as (p & [<-|[<-|[]]] & H); apply map_inv in H; destruct H as (x & H & X); [|discriminate X]. injection X as ->. unfold named_iri in H. now rewrite (tag1_at "named") in H by auto.
  - apply alt_first. eapply map_ok; [|reflexivity]. unfold named_iri. now rewrite (tag1_at "named") by auto.
Qed.
Lemma default_at j r i : no_word1 "named" j -> (default_or_named_iri j = Ok r (DonDefault i) <-> iri j = Ok r i).
Proof.
  intros N. split; intros H.
  - apply alt_inv in H. destruct H as (p & [<-|[<-|[]]] & H); apply map_inv in H; destruct H as (x & H & X); [discriminate X|]. now injection X as ->.
  - apply alt_next; [apply map_fails, preceded_fails1; apply (no_word1_fails "named" sp1); [reflexivity|cbn; intros [?|[?|[?|[?|[?|[]]]]]]; discriminate|exact N|auto]|].
    eapply map_ok; [exact H|reflexivity].
Qed.
Lemma from_named w b w1 b1 j r i : kw "from" w -> blank1 b -> kw "named" w1 -> blank1 b1 -> solid j ->
  (data_set_clause (w ++ b ++ w1 ++ b1 ++ j) = Ok r (DonNamed i) <-> iri j = Ok r i).
Proof.
  intros K B K1 B1 S. assert (S1 : solid (w1 ++ b1 ++ j)) by (apply (begins_solid "named"); [reflexivity|exists w1, (b1 ++ j); auto]). unfold data_set_clause. rewrite (tag1_at "from") by auto. now apply named_at.
Qed.
Lemma from_default w b j r i : kw "from" w -> blank1 b -> solid j -> no_word1 "named" j -> (data_set_clause (w ++ b ++ j) = Ok r (DonDefault i) <-> iri j = Ok r i).
Proof. intros K B S N. unfold data_set_clause. rewrite (tag1_at "from") by auto. now apply default_at. Qed.

(** GRAPH before a name *)
Lemma graph_ref_at w b j r i : kw "graph" w -> blank1 b -> solid j -> (graph_ref (w ++ b ++ j) = Ok r i <-> iri j = Ok r i).
Proof.
  intros K B S. assert (E : tag_no_case (s_ "graph") (w ++ b ++ j) = Ok (b ++ j) w) by (apply tnc_ok; [reflexivity|exact K]). split; intros H.
  - apply map_inv in H. destruct H as ((x & y) & H & X). cbn in X. subst y. apply pair_inv in H. destruct H as (k & E1 & H). rewrite E in E1. injection E1 as <- <-.
    apply preceded_inv in H. destruct H as (k & z & E1 & H). rewrite (sp1_ok b j B S) in E1. now injection E1 as <- <-.
  - eapply (map_ok _ _ _ _ (w, i)); [|reflexivity]. eapply pair_ok; [exact E|]. eapply preceded_ok; [now apply sp1_ok|exact H].
Qed.
Lemma clear_graph w b w1 b1 j r i : kw "clear" w -> blank1 b -> kw "graph" w1 -> blank1 b1 -> solid j ->
  (update_stmt (w ++ b ++ w1 ++ b1 ++ j) = Ok r (UsClear (MkClear false (GraGraphRef i))) <-> iri j = Ok r i).
Proof.
  intros K B K1 B1 S. assert (S1 : solid (w1 ++ b1 ++ j)) by (apply (begins_solid "graph"); [reflexivity|exists w1, (b1 ++ j); auto]). rewrite clear_at by auto.
  assert (O : opt_silent (w1 ++ b1 ++ j) = Ok (w1 ++ b1 ++ j) false).
  { eapply (map_ok _ _ _ _ None); [|reflexivity]. apply opt_none, terminated_fails1, map_fails. eapply off; [exact K1|reflexivity..]. }
  split; intros H.
  - apply pair_inv in H. destruct H as (k & E & H). rewrite O in E. injection E as <-. apply alt_inv in H. destruct H as (p & I & H). cbn [In] in I.
    destruct I as [<-|[<-|[<-|[<-|[]]]]]; apply map_inv in H; destruct H as (x & H & X); try discriminate X. injection X as ->. now apply graph_ref_at in H.
  - eapply pair_ok; [exact O|]. do 3 (skip K1). eapply map_ok; [|reflexivity]. now apply graph_ref_at.
Qed.
Lemma graph_pattern w b j r i g : kw "graph" w -> blank1 b -> solid j ->
  (graph_pattern_not_triples (w ++ b ++ j) = Ok r (GpGraph (MkGraphGraphPattern (VoiIri i) g)) <-> exists b1 k, blank b1 /\ solid k /\ iri j = Ok (b1 ++ k) i /\ gg k = Ok r g).
Proof.
  intros K B S. destruct (term_at "graph" w b _ eq_refl K B S) as [y Y]. split; intros H.
  - apply alt_inv in H. destruct H as (p & [<-|[<-|[<-|[<-|[<-|[<-|[<-|[<-|[]]]]]]]]] & H); apply map_inv in H; destruct H as (z & H & X); try discriminate X.
    injection X as ->. apply map_inv in H. destruct H as ([y' [x' g']] & H & X). injection X as -> ->. apply pair_inv in H. destruct H as (k & E & H). rewrite Y in E. injection E as <- <-.
    apply pair_inv in H. destruct H as (k & E & H). apply terminated_inv in E. destruct E as (k1 & b1 & E1 & E2). apply sp_iff in E2. destruct E2 as (-> & B1 & S1).
    exists b1, k. repeat split; auto. now apply var_or_iri_at.
  - destruct H as (b1 & k & B1 & S1 & E & H). apply alt_next; [now apply map_fails, map_fails, sepne_fails, (brace_not "graph")|]. do 2 (nx K). apply alt_first. eapply map_ok; [|reflexivity].
    apply (map_ok _ _ _ _ (y, (VoiIri i, g))); [|reflexivity]. eapply pair_ok; [exact Y|]. eapply pair_ok; [|exact H]. eapply terminated_ok; [apply var_or_iri_at; exact E|now apply sp_ok].
Qed.
(** the datatype of a literal *)
Lemma datatype_at t j r s i : string_literal t = Ok (94 :: 94 :: j) s -> (rdf_literal t = Ok r (MkRdfLiteral s (Some (DescIri i))) <-> iri j = Ok r i).
Proof.
  intros T. assert (E : tag (s_ "^^") (94 :: 94 :: j) = Ok j (s_ "^^")) by reflexivity. split; intros H.
  - apply map_inv in H. destruct H as ((l & o) & H & X). injection X as -> ->. apply pair_inv in H. destruct H as (k & E1 & H). rewrite T in E1. injection E1 as <-.
    apply opt_inv in H. apply alt_inv in H. destruct H as (p & [<-|[<-|[]]] & H); apply map_inv in H; destruct H as (x & H & X); [discriminate X|]. injection X as ->.
    apply preceded_inv in H. destruct H as (k & z & E1 & H). rewrite E in E1. now injection E1 as <- <-.
  - eapply (map_ok _ _ _ _ (s, Some (DescIri i))); [|reflexivity]. eapply pair_ok; [exact T|]. apply opt_some. apply alt_next; [now apply map_fails, preceded_fails1, chr_mark_fails|].
    eapply map_ok; [|reflexivity]. eapply preceded_ok; [exact E|exact H].
Qed.

(** ** The places against each other *)
Section Places.
  Variables (w b w1 b1 j : str).
  Hypotheses (K : kw "from" w) (B : blank1 b) (K1 : kw "named" w1) (B1 : blank1 b1) (S : solid j).
  Theorem places_default r i w' b' : kw "from" w' -> blank1 b' -> no_word1 "named" j ->
    (data_set_clause (w ++ b ++ w1 ++ b1 ++ j) = Ok r (DonNamed i) <-> data_set_clause (w' ++ b' ++ j) = Ok r (DonDefault i)).
  Proof. intros. rewrite from_named by auto. now rewrite from_default by auto. Qed.
  Theorem places_clear r i w' b' w1' b1' : kw "clear" w' -> blank1 b' -> kw "graph" w1' -> blank1 b1' ->
    (data_set_clause (w ++ b ++ w1 ++ b1 ++ j) = Ok r (DonNamed i) <-> update_stmt (w' ++ b' ++ w1' ++ b1' ++ j) = Ok r (UsClear (MkClear false (GraGraphRef i)))).
  Proof. intros. rewrite from_named by auto. now rewrite clear_graph by auto. Qed.
  Theorem places_graph r i g w' b' : kw "graph" w' -> blank1 b' ->
    (graph_pattern_not_triples (w' ++ b' ++ j) = Ok r (GpGraph (MkGraphGraphPattern (VoiIri i) g)) <->
     exists b2 k, blank b2 /\ solid k /\ data_set_clause (w ++ b ++ w1 ++ b1 ++ j) = Ok (b2 ++ k) (DonNamed i) /\ gg k = Ok r g).
  Proof.
    intros K' B'. rewrite graph_pattern by auto. split; intros (b2 & k & B2 & S2 & H & G); exists b2, k; repeat split; auto; [now apply from_named|now apply from_named in H].
  Qed.
  Theorem places_datatype r i t s : string_literal t = Ok (94 :: 94 :: j) s ->
    (data_set_clause (w ++ b ++ w1 ++ b1 ++ j) = Ok r (DonNamed i) <-> rdf_literal t = Ok r (MkRdfLiteral s (Some (DescIri i)))).
  Proof. intros. rewrite from_named by auto. now rewrite datatype_at by eassumption. Qed.
  Theorem places_terms r i : let P := data_set_clause (w ++ b ++ w1 ++ b1 ++ j) = Ok r (DonNamed i) in
    (P <-> var_or_term j = Ok r (VotTerm (GtIri i))) /\ (P <-> verb j = Ok r (VerbVarOrIri (VoiIri i))) /\ (P <-> datablock_value j = Ok r (DbvIri i)).
  Proof. cbv zeta. rewrite from_named, vot_iri, verb_iri, value_iri by auto. repeat split; auto. Qed.
End Places.
