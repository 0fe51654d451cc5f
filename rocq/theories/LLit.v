(** Literals and variables are read alike wherever they stand. *)
From Verif Require Import LMods LC8 LName3 LSign LPred LC4.
From Verif Require Export LForms LIri.
From Verif Require Import Nom.
Notation length := List.length (only parsing).
Open Scope N_scope.
Open Scope list_scope.

Lemma alt_split {A} (p q : parser A) ps i r x : alt (p :: q :: ps) i = Ok r x -> p i = Ok r x \/ (fails p i /\ alt (q :: ps) i = Ok r x).
Proof.
  intros H. rewrite alt_cons in H by discriminate. destruct (p i) as [i1 a|[]] eqn:E; try discriminate H; [left; exact H|]. right. split; [unfold fails; eauto|exact H].
Qed.
Lemma in_list_by (f : char -> bool) l (c : char) : In c l -> existsb f l = false -> f c = false.
Proof. intros I E. destruct (f c) eqn:X; [|reflexivity]. assert (existsb f l = true) by (apply existsb_exists; exists c; auto). congruence. Qed.

(** what the literals start with *)
Lemma quote_first j r l : rdf_literal j = Ok r l -> exists c i, j = c :: i /\ In c [39; 34].
Proof.
  intros H. destruct j as [|c j]; [exfalso; revert H; now apply fails_not_ok, rdf_literal_fails|]. exists c, j. split; [reflexivity|].
  destruct (N.eq_dec c 39) as [->|N1]; [now left|]. destruct (N.eq_dec c 34) as [->|N2]; [now right; left|]. exfalso. revert H. now apply fails_not_ok, rdf_literal_fails.
Qed.
Definition number_starts : str := [48; 49; 50; 51; 52; 53; 54; 55; 56; 57; 46; 43; 45].
Lemma number_first j r n : numeric_literal j = Ok r n -> exists c i, j = c :: i /\ In c number_starts.
Proof.
  intros H. destruct j as [|c j]; [exfalso; revert H; now apply fails_not_ok, numeric_fails_first|]. exists c, j. split; [reflexivity|].
  destruct (isd c) eqn:D; [apply or_introl with (B := c = 46), num_char in D; cbn in *; tauto|].
  destruct (N.eq_dec c 43) as [->|N1]; [cbn; tauto|]. destruct (N.eq_dec c 45) as [->|N2]; [cbn; tauto|]. destruct (N.eq_dec c 46) as [->|N3]; [cbn; tauto|].
  exfalso. revert H. now apply fails_not_ok, numeric_fails_first.
Qed.
(** ... is the start of nothing that is tried before *)
Lemma start_off l c i : In c l -> existsb iri_first l = false -> existsb base_char l = false -> existsb (N.eqb 40) l = false ->
  fails iri (c :: i) /\ fails built_in_call (c :: i) /\ fails (bracketted_expression_of expression) (c :: i).
Proof.
  intros C H1 H2 H3. repeat split.
  - apply iri_fails_first. exact (in_list_by _ _ _ C H1).
  - apply LC4.built_in_first. exact (in_list_by _ _ _ C H2).
  - apply delimited_fails1, chr_mark_fails. intros ->. apply in_list_by with (f := N.eqb 40) in C; [discriminate C|exact H3].
Qed.

Section Rdf.
  Variables (j r : str) (l : RdfLiteral).
  Lemma term_rdf : graph_term j = Ok r (GtRdfLiteral l) <-> rdf_literal j = Ok r l.
  Proof.
    split; intros H.
    - apply alt_inv in H. destruct H as (p & I & H). cbn [In] in I. destruct I as [<-|[<-|[<-|[<-|[<-|[<-|[]]]]]]]; apply map_inv in H; destruct H as (x & H & X); try discriminate X. now injection X as ->.
    - destruct (quote_first _ _ _ H) as (c & i & -> & C). destruct (start_off _ _ i C eq_refl eq_refl eq_refl) as (F & _). apply alt_next; [now apply map_fails|]. apply alt_first. eapply map_ok; [exact H|reflexivity].
  Qed.
  Lemma value_rdf : datablock_value j = Ok r (DbvRdfLiteral l) <-> rdf_literal j = Ok r l.
  Proof.
    split; intros H.
    - apply alt_inv in H. destruct H as (p & I & H). cbn [In] in I. destruct I as [<-|[<-|[<-|[<-|[<-|[]]]]]]; apply map_inv in H; destruct H as (x & H & X); try discriminate X. now injection X as ->.
    - destruct (quote_first _ _ _ H) as (c & i & -> & C). destruct (start_off _ _ i C eq_refl eq_refl eq_refl) as (F & _). apply alt_next; [now apply map_fails|]. apply alt_first. eapply map_ok; [exact H|reflexivity].
  Qed.
  Lemma primary_rdf : primary_expression j = Ok r (PeRdfLiteral l) <-> rdf_literal j = Ok r l.
  Proof.
    split; intros H.
    - apply alt_inv in H. destruct H as (p & I & H). cbn [In] in I. destruct I as [<-|[<-|[<-|[<-|[<-|[<-|[<-|[]]]]]]]]; apply map_inv in H; destruct H as (x & H & X); try discriminate X. now injection X as ->.
    - destruct (quote_first _ _ _ H) as (c & i & -> & C). destruct (start_off _ _ i C eq_refl eq_refl eq_refl) as (F & F1 & F2).
      apply alt_next; [now apply map_fails|]. apply alt_next; [now apply map_fails|]. apply alt_next; [now apply map_fails, map_fails, pair_fails1|]. apply alt_first. eapply map_ok; [exact H|reflexivity].
  Qed.
End Rdf.
Section Numbers.
  Variables (j r : str) (n : NumericLiteral).
  Lemma no_quote c i : In c number_starts -> fails rdf_literal (c :: i).
  Proof. intros C. apply rdf_literal_fails; intros ->; cbn in C; repeat (destruct C as [C|C]; [discriminate C|]); exact C. Qed.
  Lemma term_num : graph_term j = Ok r (GtNumericLiteral n) <-> numeric_literal j = Ok r n.
  Proof.
    split; intros H.
    - apply alt_inv in H. destruct H as (p & I & H). cbn [In] in I. destruct I as [<-|[<-|[<-|[<-|[<-|[<-|[]]]]]]]; apply map_inv in H; destruct H as (x & H & X); try discriminate X. now injection X as ->.
    - destruct (number_first _ _ _ H) as (c & i & -> & C). destruct (start_off _ _ i C eq_refl eq_refl eq_refl) as (F & _). apply alt_next; [now apply map_fails|].
      apply alt_next; [now apply map_fails, no_quote|]. apply alt_first. eapply map_ok; [exact H|reflexivity].
  Qed.
  Lemma value_num : datablock_value j = Ok r (DbvNumericLiteral n) <-> numeric_literal j = Ok r n.
  Proof.
    split; intros H.
    - apply alt_inv in H. destruct H as (p & I & H). cbn [In] in I. destruct I as [<-|[<-|[<-|[<-|[<-|[]]]]]]; apply map_inv in H; destruct H as (x & H & X); try discriminate X. now injection X as ->.
    - destruct (number_first _ _ _ H) as (c & i & -> & C). destruct (start_off _ _ i C eq_refl eq_refl eq_refl) as (F & _). apply alt_next; [now apply map_fails|].
      apply alt_next; [now apply map_fails, no_quote|]. apply alt_first. eapply map_ok; [exact H|reflexivity].
  Qed.
  Lemma primary_num : primary_expression j = Ok r (PeNumericLiteral n) <-> numeric_literal j = Ok r n.
  Proof.
    split; intros H.
    - apply alt_inv in H. destruct H as (p & I & H). cbn [In] in I. destruct I as [<-|[<-|[<-|[<-|[<-|[<-|[<-|[]]]]]]]]; apply map_inv in H; destruct H as (x & H & X); try discriminate X. now injection X as ->.
    - destruct (number_first _ _ _ H) as (c & i & -> & C). destruct (start_off _ _ i C eq_refl eq_refl eq_refl) as (F & F1 & F2).
      apply alt_next; [now apply map_fails|]. apply alt_next; [now apply map_fails|]. apply alt_next; [now apply map_fails, map_fails, pair_fails1|]. apply alt_next; [now apply map_fails, no_quote|].
      apply alt_first. eapply map_ok; [exact H|reflexivity].
  Qed.
End Numbers.

(** ** Booleans *)
Lemma bool_first j r v : boolean j = Ok r v -> exists w, kw (if v then "true" else "false") w /\ j = w ++ r.
Proof.
  intros H. apply alt_inv in H. destruct H as (p & [<-|[<-|[]]] & H); apply map_inv in H; destruct H as (w & H & <-); (apply tnc_kw in H; [|reflexivity]); exists w; destruct H as [-> K]; auto.
Qed.
Lemma bool_off j r v : boolean j = Ok r v -> fails rdf_literal j /\ fails numeric_literal j /\ fails built_in_call j /\ fails (bracketted_expression_of expression) j.
Proof.
  intros H. destruct (bool_first _ _ _ H) as (w & K & ->). assert (W : word_like (if v then "true" else "false") = true) by now destruct v.
  assert (Q : forall c, forallb (fun d => negb (oneof [c] d)) (List.map N.of_nat (List.seq 65 26 ++ List.seq 97 26)) = true -> not_first c (w ++ r)) by (intros c F; now apply (word_not c (if v then "true" else "false"))).
  repeat split.
  - apply rdf_literal_fails; now apply Q.
  - apply numeric_fails_first; try now apply Q. apply (begins_stops _ (if v then "true" else "false")); [exact W|reflexivity|]. exists w, r. auto.
  - apply (built_in_other (if v then "true" else "false")); [exact K|now destruct v|now destruct v].
  - apply delimited_fails1, chr_mark_fails. now apply Q.
Qed.
Section Booleans.
  Variables (j r : str) (v : bool).
  Lemma term_bool : graph_term j = Ok r (GtBooleanLiteral v) <-> fails iri j /\ boolean j = Ok r v.
  Proof.
    split; intros H.
    - apply alt_split in H. destruct H as [H|[F H]]; [apply map_inv in H; destruct H as (x & H & X); discriminate X|]. split; [exact (map_soft _ _ _ F)|].
      apply alt_inv in H. destruct H as (p & I & H). cbn [In] in I. destruct I as [<-|[<-|[<-|[<-|[<-|[]]]]]]; apply map_inv in H; destruct H as (x & H & X); try discriminate X. now injection X as ->.
    - destruct H as [F H]. destruct (bool_off _ _ _ H) as (F1 & F2 & _). do 3 (apply alt_next; [now apply map_fails|]). apply alt_first. eapply map_ok; [exact H|reflexivity].
  Qed.
  Lemma value_bool : datablock_value j = Ok r (DbvBooleanLiteral v) <-> fails iri j /\ boolean j = Ok r v.
  Proof.
    split; intros H.
    - apply alt_split in H. destruct H as [H|[F H]]; [apply map_inv in H; destruct H as (x & H & X); discriminate X|]. split; [exact (map_soft _ _ _ F)|].
      apply alt_inv in H. destruct H as (p & I & H). cbn [In] in I. destruct I as [<-|[<-|[<-|[<-|[]]]]]; apply map_inv in H; destruct H as (x & H & X); try discriminate X. now injection X as ->.
    - destruct H as [F H]. destruct (bool_off _ _ _ H) as (F1 & F2 & _). do 3 (apply alt_next; [now apply map_fails|]). apply alt_first. eapply map_ok; [exact H|reflexivity].
  Qed.
  Lemma iof_soft i : fails (iri_or_fun_of expression) i -> fails iri i.
  Proof.
    intros F. apply map_soft in F. destruct F as (x & k & F). unfold pair in F. destruct (iri i) as [i1 a|e] eqn:E; [|injection F as ->; unfold fails; eauto].
    unfold opt in F. destruct (preceded sp1 (arg_list_of expression) i1) as [? ?|[]]; discriminate F.
  Qed.
  Lemma primary_bool : primary_expression j = Ok r (PeBooleanLiteral v) <-> fails iri j /\ boolean j = Ok r v.
  Proof.
    split; intros H.
    - do 2 (apply alt_split in H; destruct H as [H|[_ H]]; [apply map_inv in H; destruct H as (x & H & X); discriminate X|]).
      apply alt_split in H; destruct H as [H|[F H]]; [apply map_inv in H; destruct H as (x & H & X); discriminate X|]. split; [apply iof_soft; exact (map_soft _ _ _ F)|].
      apply alt_inv in H. destruct H as (p & I & H). cbn [In] in I. destruct I as [<-|[<-|[<-|[<-|[]]]]]; apply map_inv in H; destruct H as (x & H & X); try discriminate X. now injection X as ->.
    - destruct H as [F H]. destruct (bool_off _ _ _ H) as (F1 & F2 & F3 & F4). do 2 (apply alt_next; [now apply map_fails|]). apply alt_next; [now apply map_fails, map_fails, pair_fails1|].
      do 2 (apply alt_next; [now apply map_fails|]). apply alt_first. eapply map_ok; [exact H|reflexivity].
  Qed.
End Booleans.

(** ** Variables *)
Lemma sigil_first j r v : var j = Ok r v -> exists c i, j = c :: i /\ In c [63; 36].
Proof.
  intros H. destruct j as [|c j]; [exfalso; revert H; now apply fails_not_ok, var_first|]. exists c, j. split; [reflexivity|].
  destruct (oneof (s_ "?$") c) eqn:Q; [|exfalso; revert H; now apply fails_not_ok, var_first]. cbn in Q.
  repeat (apply orb_true_iff in Q; destruct Q as [Q|Q]; [apply N.eqb_eq in Q; subst; cbn; tauto|]). discriminate Q.
Qed.
Section Vars.
  Variables (j r : str) (v : Var).
  Lemma term_var : var_or_term j = Ok r (VotVar v) <-> var j = Ok r v.
  Proof.
    split; intros H; [|apply alt_first; eapply map_ok; [exact H|reflexivity]].
    apply alt_inv in H. destruct H as (p & [<-|[<-|[]]] & H); apply map_inv in H; destruct H as (x & H & X); [|discriminate X]. now injection X as ->.
  Qed.
  Lemma verb_var : verb j = Ok r (VerbVarOrIri (VoiVar v)) <-> var j = Ok r v.
  Proof.
    split; intros H; [|apply alt_first; eapply map_ok; [apply alt_first; eapply map_ok; [exact H|reflexivity]|reflexivity]].
    apply alt_inv in H. destruct H as (p & [<-|[<-|[]]] & H); apply map_inv in H; destruct H as (x & H & X); [|discriminate X]. injection X as ->.
    apply alt_inv in H. destruct H as (p & [<-|[<-|[]]] & H); apply map_inv in H; destruct H as (x & H & X); [|discriminate X]. now injection X as ->.
  Qed.
  Lemma var_off : var j = Ok r v -> fails iri j /\ fails built_in_call j /\ fails (bracketted_expression_of expression) j /\ fails rdf_literal j /\ fails numeric_literal j /\ fails boolean j.
  Proof.
    intros H. destruct (sigil_first _ _ _ H) as (c & i & -> & C). destruct (start_off _ _ i C eq_refl eq_refl eq_refl) as (F & F1 & F2). repeat split; auto.
    - apply rdf_literal_fails; intros ->; cbn in C; destruct C as [C|[C|[]]]; discriminate C.
    - apply numeric_fails_first; [exact (in_list_by isd _ _ C eq_refl)|..]; intros ->; cbn in C; destruct C as [C|[C|[]]]; discriminate C.
    - apply boolean_first. exact (in_list_by base_char _ _ C eq_refl).
  Qed.
  Lemma primary_var : primary_expression j = Ok r (PeVar v) <-> var j = Ok r v.
  Proof.
    split; intros H.
    - apply alt_inv in H. destruct H as (p & I & H). cbn [In] in I. destruct I as [<-|[<-|[<-|[<-|[<-|[<-|[<-|[]]]]]]]]; apply map_inv in H; destruct H as (x & H & X); try discriminate X. now injection X as ->.
    - destruct (var_off H) as (F & F1 & F2 & F3 & F4 & F5). do 2 (apply alt_next; [now apply map_fails|]). apply alt_next; [now apply map_fails, map_fails, pair_fails1|].
      do 3 (apply alt_next; [now apply map_fails|]). eapply map_ok; [exact H|reflexivity].
  Qed.
  Lemma group_var : group_condition j = Ok r (GcVar v) <-> var j = Ok r v.
  Proof.
    split; intros H.
    - apply alt_inv in H. destruct H as (p & I & H). cbn [In] in I. destruct I as [<-|[<-|[<-|[<-|[]]]]]; apply map_inv in H; destruct H as (x & H & X); try discriminate X. now injection X as ->.
    - destruct (var_off H) as (F & F1 & F2 & _). destruct (sigil_first _ _ _ H) as (c & i & -> & C). apply alt_next; [now apply map_fails|]. apply alt_next; [now apply map_fails, map_fails, pair_fails1|].
      apply alt_next; [apply map_fails, delimited_fails1, chr_mark_fails; intros ->; cbn in C; destruct C as [C|[C|[]]]; discriminate C|]. eapply map_ok; [exact H|reflexivity].
  Qed.
  Lemma order_var : order_condition j = Ok r (OcVar v) <-> var j = Ok r v.
  Proof.
    split; intros H.
    - apply alt_inv in H. destruct H as (p & I & H). cbn [In] in I. destruct I as [<-|[<-|[<-|[]]]]; apply map_inv in H; destruct H as (x & H & X); try discriminate X. now injection X as ->.
    - destruct (var_off H) as (F & F1 & F2 & _). destruct (sigil_first _ _ _ H) as (c & i & -> & C).
      assert (K : forall k, LC4.named k = true -> word_like k = true -> fails (tag_no_case (s_ k)) (c :: i)) by (intros k H1 H2; apply kwf_fails_base; auto; exact (in_list_by base_char _ _ C eq_refl)).
      apply alt_next; [apply map_fails, map_fails, pair_fails1; unfold MExpr.order; apply alt_fails_cons; [now apply map_fails, K|apply alt_fails_cons; [now apply map_fails, K|apply alt_fails_nil]]|].
      apply alt_next; [apply map_fails; apply alt_fails_cons; [now apply map_fails|apply alt_fails_cons; [now apply map_fails|apply alt_fails_cons; [now apply map_fails, map_fails, pair_fails1|apply alt_fails_nil]]]|].
      eapply map_ok; [exact H|reflexivity].
  Qed.
End Vars.

(** ** The places against each other *)
Theorem strings_alike j r l : (graph_term j = Ok r (GtRdfLiteral l) <-> datablock_value j = Ok r (DbvRdfLiteral l)) /\ (graph_term j = Ok r (GtRdfLiteral l) <-> primary_expression j = Ok r (PeRdfLiteral l)).
Proof. rewrite term_rdf, value_rdf, primary_rdf. repeat split; auto. Qed.
Theorem numbers_alike j r n : (graph_term j = Ok r (GtNumericLiteral n) <-> datablock_value j = Ok r (DbvNumericLiteral n)) /\ (graph_term j = Ok r (GtNumericLiteral n) <-> primary_expression j = Ok r (PeNumericLiteral n)).
Proof. rewrite term_num, value_num, primary_num. repeat split; auto. Qed.
Theorem booleans_alike j r v : (graph_term j = Ok r (GtBooleanLiteral v) <-> datablock_value j = Ok r (DbvBooleanLiteral v)) /\ (graph_term j = Ok r (GtBooleanLiteral v) <-> primary_expression j = Ok r (PeBooleanLiteral v)).
Proof. rewrite term_bool, value_bool, primary_bool. split; reflexivity. Qed.
Theorem variables_alike j r v : let P := var_or_term j = Ok r (VotVar v) in
  (P <-> verb j = Ok r (VerbVarOrIri (VoiVar v))) /\ (P <-> primary_expression j = Ok r (PeVar v)) /\ (P <-> group_condition j = Ok r (GcVar v)) /\ (P <-> order_condition j = Ok r (OcVar v)).
Proof. cbv zeta. rewrite term_var, verb_var, primary_var, group_var, order_var. repeat split; auto. Qed.
