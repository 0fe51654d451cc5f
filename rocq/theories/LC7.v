(** Safely laid out constraints, solution modifiers, SELECT clauses and graph patterns are read; the
    knot of expressions and graph patterns. *)
From Verif Require Export LC6.
Notation length := List.length (only parsing).
Notation ex := expression (only parsing).
Notation gg := group_graph_pattern (only parsing).
Open Scope N_scope.
Open Scope list_scope.

Lemma then_l5 P Q S T U V t r : (P >> Q >> S >> T >> U >> V) t r -> ((P >> Q >> S >> T >> U) >> V) t r.
Proof. intros H. apply then_l. eapply then_mono; [|exact H]. intros. now apply then_l4. Qed.
Lemma var_or_eav_fails r : (forall c, In c (s_ "?$(") -> not_first c r) -> fails (var_or_expression_as_var_of ex) r.
Proof.
  intros H. unfold var_or_expression_as_var_of. apply alt_fails_cons; [apply map_fails, var_first|].
  - pose proof (H 63 (or_introl eq_refl)) as H1. pose proof (H 36 (or_intror (or_introl eq_refl))) as H2. destruct r as [|c r]; [exact I|]. cbn in *.
    unfold oneof. cbn. apply N.eqb_neq in H1, H2. now rewrite H1, H2.
  - apply alt_fails_cons; [|apply alt_fails_nil]. apply map_fails, delimited_fails1, chr_fails. apply H. cbn. auto.
Qed.
Lemma kw_terminated_fails {A} k (p : parser A) r : fails (tag_no_case (s_ k)) r -> fails (terminated (tag_no_case (s_ k)) p) r.
Proof. apply terminated_fails1. Qed.

Lemma select_fails {A} (p : parser A) i : no_word1 "select" i ->
  fails (tuple3 (tag_no_case (s_ "select")) (opt (preceded sp1 select_modifier)) (preceded sp1 p)) i.
Proof.
  intros N. destruct (begins_dec (s_ "select") i eq_refl (nokel (s_ "select") i ltac:(cbn; intuition discriminate))) as [(w & v & -> & Hw)|F].
  - eapply pair_fails2; [now apply (tnc_ok (s_ "select"))|]. destruct (blank_split v) as (b & v' & -> & Hb & Hv). destruct b as [|c b].
    + eapply pair_fails2; [apply opt_none, preceded_fails1; now apply sp1_fails|]. apply preceded_fails1. now apply sp1_fails.
    + exfalso. eapply N; [reflexivity|exact Hw|]. split; [exact Hb|discriminate].
  - apply pair_fails1. apply tnc_fails_begins; [reflexivity|apply nokel; cbn; intuition discriminate|assumption].
Qed.
Section Core.
  Context (WE : Expression -> lang) (WG : GroupGraphPattern -> lang).
  Context (HE : forall x, rd ex x (WE x)) (HG : forall x, rd gg x (WG x)).
  Let rd_bi b := rd_built_in WE WG HE HG b.
  Let rd_br e := rd_bracketted_expression WE HE e.

  Lemma built_in_opens b t r : W_built_in WE WG b t r -> exists k w x, t ++ r = w ++ x /\ kw k w /\ starts delims x /\ In k call_names.
  Proof.
    intros H.
    assert (O : forall k (P : lang), P t r -> opens k P -> existsb (String.eqb k) call_names = true -> exists k w x, t ++ r = w ++ x /\ kw k w /\ starts delims x /\ In k call_names).
    { intros k P K O L. destruct (O _ _ K) as (w & x & E & Hw & S). exists k, w, x. split; [exact E|]. split; [exact Hw|]. split; [exact S|].
      apply existsb_exists in L. destruct L as (y & I & L). apply String.eqb_eq in L. now subst y. }
    destruct b; cbn [W_built_in] in H;
      try (exact (O _ _ H (opens_gap _ _) eq_refl)); try (exact (O _ _ H (opens_gap1 _ _) eq_refl)); try (exact (O _ _ H (opens_sym _ _) eq_refl)); try (destruct H; fail).
    - destruct a as [[d c]|d|d|d|d|d|[d s]]; cbn [W_aggregate] in H; exact (O _ _ H (opens_gap _ _) eq_refl).
    - destruct H as [H|[H|[H|[H|H]]]]; exact (O _ _ H (opens_gap _ _) eq_refl).
    - destruct e as [e|]; exact (O _ _ H (opens_gap _ _) eq_refl).
  Qed.
  Lemma built_in_guard {A} ks (p : parser A) b : guarded ks p -> forallb named ks && forallb (fun k => negb (existsb (String.eqb k) call_names)) ks = true ->
    nf p (W_built_in WE WG b).
  Proof.
    intros G C t r H. apply andb_true_iff in C. destruct C as [C1 C2]. rewrite forallb_forall in C1, C2.
    destruct (built_in_opens b t r H) as (k & w & x & -> & Hw & S & I). apply G. intros k' I'. apply (word_uncond k); auto; [now apply call_name|].
    intros ->. apply C2 in I'. apply negb_true_iff in I'.
    assert (existsb (String.eqb k') call_names = true) by (apply existsb_exists; exists k'; split; [exact I|apply String.eqb_refl]). congruence.
  Qed.
  Lemma rd_constraint c : rd constraint c (W_constraint WE WG c).
  Proof.
    unfold constraint, constraint_of. destruct c as [e|b|f]; cbn [W_constraint].
    - alt1. eapply rd_map; [|reflexivity]. apply rd_br.
    - alt_skip; [apply built_in_starts|]. alt1. eapply rd_map; [|reflexivity]. apply rd_bi.
    - destruct f as [i a]. alt_skip.
      { apply nf_then. intros t r [H _]. apply bracketted_first. now apply (iri_reads_first i). }
      alt_skip; [apply nf_then; intros t r H; now apply (built_in_iri i)|].
      alt1. eapply rd_map; [|reflexivity]. apply rd_function_call.
  Qed.
  Lemma rd_expr_as_var x : rd expression_as_var x (W_expr_as_var WE x).
  Proof.
    destruct x as [e v]. unfold expression_as_var, expression_as_var_of. cbn [W_expr_as_var].
    apply (rd_sub _ _ (sym "(" >> (gap >> (WE e >> (gap >> word "as" >> gap) >> W_var v) >> gap) >> sym ")")).
    - apply rd_delimited; [now apply rdx_chr| |now apply rdx_chr]. apply rd_sp_enc. apply (rd_map _ _ (e, v)); [|reflexivity].
      apply rd_separated_pair; [apply HE| |apply rd_var]. apply rdx_sp_enc. now apply rdx_kw.
    - intros t r H. eapply then_mono; [|exact H]. clear t r H. intros t r H. apply then_l.
      eapply then_mono; [|exact H]. clear t r H. intros t r H. apply then_l, then_l.
      eapply then_mono; [|exact H]. clear t r H. intros t r H. apply then_l. now apply then_l3.
  Qed.
  Lemma as_var_none r : solid r \/ nxt1 (fun r => ~ begins "as" r) r -> fails (preceded (sp_enc1 (tag_no_case (s_ "as"))) var) r.
  Proof.
    intros H. apply preceded_fails1. unfold sp_enc1. destruct H as [H|(b & x & -> & Hb & S & H)].
    - now apply delimited_fails1, sp1_fails.
    - eapply delimited_fails2; [now apply sp1_ok|]. now apply (kw_fails "as").
  Qed.
  Lemma rd_expr_as_var_opt x : rd (expression_as_var_opt_of ex) x (W_expr_as_var_opt WE x).
  Proof.
    destruct x as [e v]. unfold expression_as_var_opt_of. cbn [W_expr_as_var_opt].
    apply (rd_sub _ _ (sym "(" >> (gap >> (WE e >> optW (fun v => (gap1 >> word "as" >> gap1) >> W_var v) (fun r => solid r \/ nxt1 (fun r => ~ begins "as" r) r) v) >> gap) >> sym ")")).
    - apply rd_delimited; [now apply rdx_chr| |now apply rdx_chr]. apply rd_sp_enc. apply (rd_map _ _ (e, v)); [|reflexivity].
      apply rd_pair; [apply HE|]. apply rd_opt; [|apply as_var_none]. intros y. apply rd_preceded; [|apply rd_var]. apply rdx_sp_enc1. now apply rdx_kw.
    - intros t r H. eapply then_mono; [|exact H]. clear t r H. intros t r H. apply then_l.
      eapply then_mono; [|exact H]. clear t r H. intros t r H. apply then_l, then_l.
      eapply then_mono; [|exact H]. clear t r H. intros t r (x & y & -> & Hx & Hy). exists x, y. split; [reflexivity|]. split; [|exact Hy].
      destruct v as [v|]; [|exact Hx]. now apply then_l3.
  Qed.
  Lemma rd_order_condition o : rd order_condition o (W_order_condition WE WG o).
  Proof.
    unfold order_condition, order_condition_of. destruct o as [[o e]|c|v]; cbn [W_order_condition].
    - alt1. eapply rd_map; [|reflexivity]. unfold order_expression_of. apply (rd_map _ _ (o, e)); [|reflexivity].
      apply rd_separated_pair; [apply rd_order|apply rdx_sp1|apply rd_br].
    - apply rd_alt_next.
      + apply nf_map. destruct c as [e|b|[i a]]; cbn [W_constraint W_function_call].
        * apply nf_then. intros t r ->. apply gu_order. intros k I. left. destruct I as [<-|[<-|[]]]; now apply kwf_fails_base.
        * eapply built_in_guard; [exact gu_order|reflexivity].
        * apply nf_then. intros t r H. apply gu_order. intros k I. apply (iri_uncond k i); [|exact H]. destruct I as [<-|[<-|[]]]; reflexivity.
      + alt1. eapply rd_map; [|reflexivity]. apply rd_constraint.
    - assert (S : forall t r, W_var v t r -> starts (s_ "?$") t) by (intros t r [H _]; now apply (var_starts v)).
      assert (B : forall t r, W_var v t r -> stops base_char (t ++ r)) by (intros t r H; eapply starts_stops; [exact (S _ _ H)|reflexivity]).
      apply rd_alt_next.
      + apply nf_map. intros t r H. apply gu_order. intros k I. left. destruct I as [<-|[<-|[]]]; apply kwf_fails_base; try reflexivity; now apply B.
      + apply rd_alt_next; [|alt1; eapply rd_map; [|reflexivity]; apply rd_var]. apply nf_map. intros t r H. unfold constraint_of.
        apply alt_fails_cons; [apply map_fails, bracketted_first; eapply starts_not; [exact (S _ _ H)|reflexivity]|].
        apply alt_fails_cons; [apply map_fails, built_in_first; now apply B|].
        apply alt_fails_cons; [|apply alt_fails_nil]. apply map_fails, function_call_iri, iri_fails_first. eapply starts_stops; [exact (S _ _ H)|reflexivity].
  Qed.
  Lemma rd_group_condition c : rd group_condition c (W_group_condition WE WG c).
  Proof.
    unfold group_condition, group_condition_of. destruct c as [b|[i a]|[e v]|v]; cbn [W_group_condition].
    - alt1. eapply rd_map; [|reflexivity]. apply rd_bi.
    - cbn [W_function_call]. alt_skip; [apply nf_then; intros t r H; now apply (built_in_iri i)|]. alt1. eapply rd_map; [|reflexivity]. apply rd_function_call.
    - alt_skip; [apply nf_then; intros t r ->; now apply built_in_first|].
      alt_skip; [apply nf_then; intros t r ->; now apply function_call_iri, iri_fails_first|]. alt1. eapply rd_map; [|reflexivity]. apply rd_expr_as_var_opt.
    - assert (S : forall t r, W_var v t r -> starts (s_ "?$") t) by (intros t r [H _]; now apply (var_starts v)).
      alt_skip; [by_start S built_in_first|].
      alt_skip; [intros t r H; apply function_call_iri, iri_fails_first; eapply starts_stops; [exact (S _ _ H)|reflexivity]|].
      alt_skip; [intros t r H; apply delimited_fails1, chr_fails; eapply starts_not; [exact (S _ _ H)|reflexivity]|].
      alt1. eapply rd_map; [|reflexivity]. apply rd_var.
  Qed.
  Lemma mv_group_condition : moves group_condition. Proof. mv1 group_condition. Qed.
  Lemma mv_order_condition : moves order_condition. Proof. mv1 order_condition. Qed.
  Lemma mv_constraint : moves constraint. Proof. mv1 constraint. Qed.
  Lemma rd_group_clause g : rd group_clause g (W_group_clause WE WG g).
  Proof.
    destruct g as [l]. unfold group_clause, group_clause_of. cbn [W_group_clause]. eapply rd_map; [|reflexivity].
    eapply rd_sub; [|intros t r; apply then_l4]. apply rd_preceded; [now apply rdx_by|].
    apply rd_sep1; [exact rd_group_condition|exact mv_group_condition|mv|apply gap1_sp|apply gap1_ne|].
    intros r. apply sp_back, group_condition_mod_end.
  Qed.
  Lemma rd_order_clause g : rd order_clause g (W_order_clause WE WG g).
  Proof.
    destruct g as [l]. unfold order_clause, order_clause_of. cbn [W_order_clause]. eapply rd_map; [|reflexivity].
    eapply rd_sub; [|intros t r; apply then_l4]. apply rd_preceded; [now apply rdx_by|].
    apply rd_sep1; [exact rd_order_condition|exact mv_order_condition|mv|apply gap1_sp|apply gap1_ne|].
    intros r. apply sp_back, order_condition_mod_end.
  Qed.
  Lemma rd_having_clause g : rd having_clause g (W_having_clause WE WG g).
  Proof.
    destruct g as [l]. unfold having_clause, having_clause_of. cbn [W_having_clause]. eapply rd_map; [|reflexivity].
    eapply rd_sub; [|intros t r; apply then_l]. apply rd_preceded; [apply rdx_terminated; [now apply rdx_kw|apply rdx_sp1]|].
    apply rd_sep1; [exact rd_constraint|exact mv_constraint|mv|apply gap1_sp|apply gap1_ne|].
    intros r. apply sp_back, constraint_mod_end.
  Qed.
  Lemma rd_modifier m : rd solution_modifier m (W_modifier WE WG m).
  Proof.
    destruct m as [ob gb h lo]. unfold solution_modifier, solution_modifier_of. cbn [W_modifier]. apply (rd_map _ _ (gb, (h, (ob, lo)))); [|reflexivity].
    apply rd_pair; [|apply rd_tuple3].
    - apply rd_opt; [apply rd_group_clause|]. intros r H. apply map_fails, preceded_fails1, terminated_fails1, delimited_fails1. now apply (kw_fails "group").
    - apply rd_opt; [intros a; apply rd_preceded; [apply rdx_sp|apply rd_having_clause]|].
      intros r. apply sp_fails. intros x H. apply map_fails, preceded_fails1, terminated_fails1. now apply (kw_fails "having").
    - apply rd_opt; [intros a; apply rd_preceded; [apply rdx_sp|apply rd_order_clause]|].
      intros r. apply sp_fails. intros x H. apply map_fails, preceded_fails1, terminated_fails1, delimited_fails1. now apply (kw_fails "order").
    - apply rd_opt; [intros a; apply rd_preceded; [apply rdx_sp|apply rd_limit_offset]|].
      intros r. apply sp_fails. apply limit_offset_fails.
  Qed.
  Lemma rd_where g : rd where_clause g (W_where WG g).
  Proof.
    unfold where_clause, where_clause_of. intros t r [H|[H N]].
    - apply then_l in H. revert t r H. apply rd_preceded; [|apply HG].
      intros t r H. destruct (rdx_terminated _ _ _ _ (rdx_kw "where" eq_refl) rdx_sp1 _ _ H) as [a E]. exists (Some a). apply opt_some. exact E.
    - eapply preceded_ok; [apply opt_none, terminated_fails1; now apply (kw_fails "where")|apply HG; exact H].
  Qed.
  Lemma rd_select_var v : rd (var_or_expression_as_var_of ex) v (W_select_var WE v).
  Proof.
    unfold var_or_expression_as_var_of. destruct v as [v|x]; cbn [W_select_var].
    - alt1. eapply rd_map; [|reflexivity]. apply rd_var.
    - alt_skip; [destruct x as [e v]; apply nf_then; intros t r ->; now apply var_first|]. alt1. eapply rd_map; [|reflexivity]. apply rd_expr_as_var.
  Qed.
  Lemma rd_select_vars v : rd (select_vars_of ex) v (W_select_vars WE v).
  Proof.
    unfold select_vars_of. destruct v as [l|]; cbn [W_select_vars].
    - alt_skip.
      + intros t r [N H]. destruct l as [|x l]; [congruence|]. destruct H as (u & v & -> & Hu & _). rewrite <- app_assoc. apply chr_fails.
        destruct x as [y|[e y]]; cbn [W_select_var W_expr_as_var] in Hu.
        * destruct Hu as [Hu _]. apply var_starts in Hu. destruct Hu as (c & u' & -> & Hc). cbn. intros ->. cbn in Hc. clear -Hc. intuition discriminate.
        * destruct Hu as (a & b & -> & Ha & _). hnf in Ha. subst a. discriminate.
      + alt1. eapply rd_map; [|reflexivity]. apply rd_many1; [exact rd_select_var|mv|apply var_or_eav_fails].
    - alt1. intros t r ->. apply (map_ok _ _ _ _ 42); [apply chr_ok|reflexivity].
  Qed.
  Lemma rd_select_modifier m : rd select_modifier m (W_select_modifier m).
  Proof.
    unfold select_modifier. destruct m; cbn [W_select_modifier].
    - alt1. now apply (rd_word "distinct").
    - alt_skip; [now apply (nf_kw "distinct" "reduced")|]. alt1. now apply (rd_word "reduced").
  Qed.
  Lemma rd_select_clause s : rd select_clause s (W_select_clause WE s).
  Proof.
    destruct s as [m v]. unfold select_clause, select_clause_of. cbn [W_select_clause]. intros t r (w & x & -> & Hw & H). rewrite <- app_assoc.
    apply (map_ok _ _ _ _ (w, (m, v))); [|reflexivity]. eapply pair_ok; [apply tnc_ok; [reflexivity|exact Hw]|].
    revert x r Hw H. intros x r _ H. revert x r H. apply rd_pair.
    - apply rd_opt; [intros a; apply rd_preceded; [apply rdx_sp1|apply rd_select_modifier]|].
      intros r (b & y & -> & Hb & S & H1 & H2). eapply preceded_fails2; [now apply sp1_ok|]. unfold select_modifier.
      apply alt_fails_cons; [|apply alt_fails_cons; [|apply alt_fails_nil]]; apply map_fails; [now apply (kw_fails "distinct")|now apply (kw_fails "reduced")].
    - apply rd_preceded; [apply rdx_sp1|apply rd_select_vars].
  Qed.
  Lemma rd_values_clause v : rd values_clause v (optW W_values (fun r => ~ begins "values" r) v).
  Proof. apply rd_opt; [exact rd_values|]. intros r H. apply tag1_fails. now apply (kw_fails "values"). Qed.
  Lemma rd_sub_select s : rd sub_select s (W_sub_select WE WG s).
  Proof.
    destruct s as [s w m v]. unfold sub_select, sub_select_of. cbn [W_sub_select]. apply (rd_map _ _ (s, (w, (m, v)))); [|reflexivity].
    apply rd_pair; [apply rd_select_clause|].
    apply (rd_sub _ _ ((gap >> W_where WG w >> gap) >> W_modifier WE WG m >> gap >> optW W_values (fun r => ~ begins "values" r) v)); [|intros t r; apply then_l3].
    apply rd_tuple3; [apply rd_sp_enc, rd_where|apply rd_modifier|]. apply rd_preceded; [apply rdx_sp|apply rd_values_clause].
  Qed.
  Lemma union_ne t r : (gap1 >> word "union" >> gap1) t r -> t <> [].
  Proof. intros (a & b & -> & [[_ N] _] & _) E. apply app_eq_nil in E. destruct E as [E _]. exact (N E). Qed.
  Lemma rd_group_or_union l : rd (group_or_union_of gg) (MkGroupOrUnion l)
    (sep1W WG (gap1 >> word "union" >> gap1) (fun r => solid r \/ nxt1 (fun r => ~ begins "union" r) r) l).
  Proof.
    unfold group_or_union_of. eapply rd_map; [|reflexivity].
    apply rd_sep1; [exact HG|eapply mv_gd, gd_group_graph_pattern|mv| |exact union_ne|].
    - apply rdx_sp_enc1. now apply rdx_kw.
    - intros r [H|(b & x & -> & Hb & S & H)]; apply sep_stop; unfold sp_enc1.
      + now apply delimited_fails1, sp1_fails.
      + eapply delimited_fails2; [now apply sp1_ok|]. now apply (kw_fails "union").
  Qed.
  Lemma nf_union_word k P : word_like k = true -> nf (group_or_union_of gg) (word k >> P).
  Proof.
    intros W. apply nf_then. intros t r H. apply map_fails, sepne_fails, gg_first. apply (stops_oneof [123]); [|now left].
    apply (begins_stops _ k); [exact W|reflexivity|]. exists t, r. split; [reflexivity|exact H].
  Qed.
  Ltac skw k := alt_skip; [first [apply nf_tag1, nf_then | apply nf_map, nf_pair1, nf_terminated1, nf_then]; now apply (nf_kw k)|].
  Lemma rd_pattern p : rd graph_pattern_not_triples p (W_pattern WE WG p).
  Proof.
    unfold graph_pattern_not_triples, graph_pattern_not_triples_of.
    destruct p as [g|[l]|g|[v g]|[v s g]|c|x|d]; cbn [W_pattern]; unfold W_values.
    - alt_skip; [now apply nf_union_word|]. alt1. eapply rd_map; [|reflexivity]. apply rd_preceded_tag1; [reflexivity|apply HG].
    - alt1. eapply rd_map; [|reflexivity]. apply rd_group_or_union.
    - alt_skip; [now apply nf_union_word|]. skw "optional"%string. alt1. eapply rd_map; [|reflexivity]. apply rd_preceded_tag1; [reflexivity|apply HG].
    - alt_skip; [now apply nf_union_word|]. skw "optional"%string. skw "minus"%string. alt1. eapply rd_map; [|reflexivity].
      unfold graph_graph_pattern_of. intros t r H. apply then_l in H. destruct H as (a & b & -> & Ha & Hb). rewrite <- app_assoc.
      destruct (rdx_terminated _ _ _ _ (rdx_kw "graph" eq_refl) rdx_sp1 _ _ Ha) as [y Ey]. apply (map_ok _ _ _ _ (y, (v, g))); [|reflexivity].
      eapply pair_ok; [exact Ey|]. clear Ha Ey. apply then_l in Hb. revert b r Hb. apply rd_pair; [|apply HG]. apply rd_terminated; [apply rd_var_or_iri|apply rdx_sp].
    - alt_skip; [now apply nf_union_word|]. skw "optional"%string. skw "minus"%string. skw "graph"%string. alt1. eapply rd_map; [|reflexivity].
      unfold service_graph_pattern_of. intros t r H. apply then_l in H. destruct H as (a & b & -> & Ha & Hb). rewrite <- app_assoc.
      destruct (rdx_terminated _ _ _ _ (rdx_kw "service" eq_refl) rdx_sp1 _ _ Ha) as [y Ey]. apply (map_ok _ _ _ _ (y, (s, (v, g)))); [|reflexivity].
      eapply pair_ok; [exact Ey|]. clear Ha Ey. revert b r Hb. apply rd_pair; [apply rd_opt_silent|]. apply rd_assoc, rd_pair; [|apply HG].
      apply rd_terminated; [apply rd_var_or_iri|apply rdx_sp].
    - alt_skip; [now apply nf_union_word|]. skw "optional"%string. skw "minus"%string. skw "graph"%string. skw "service"%string. alt1. eapply rd_map; [|reflexivity].
      apply rd_preceded_tag1; [reflexivity|apply rd_constraint].
    - alt_skip; [now apply nf_union_word|]. skw "optional"%string. skw "minus"%string. skw "graph"%string. skw "service"%string. skw "filter"%string. alt1. eapply rd_map; [|reflexivity].
      apply rd_preceded_tag1; [reflexivity|apply rd_expr_as_var].
    - alt_skip; [now apply nf_union_word|]. skw "optional"%string. skw "minus"%string. skw "graph"%string. skw "service"%string. skw "filter"%string. skw "bind"%string.
      alt1. eapply rd_map; [|reflexivity]. apply rd_values.
  Qed.
  Lemma rd_pattern_and_triples p : rd (ggp_and_triples_of ex gg) p (W_pattern_and_triples WE WG p).
  Proof.
    destruct p as [p t]. unfold ggp_and_triples_of. cbn [W_pattern_and_triples]. apply (rd_map _ _ (p, t)); [|reflexivity].
    apply rd_separated_pair; [apply rd_pattern| |].
    - intros u r [[-> H]|H].
      + exists None. apply opt_none. revert H. apply sp_fails. intros x H. now apply chr_fails.
      + destruct (rdx_preceded _ _ _ _ rdx_sp (rdx_chr 63 "?" eq_refl) _ _ H) as [a E]. exists (Some a). apply opt_some. exact E.
    - apply rd_opt; [intros b; apply rd_preceded; [apply rdx_sp|apply rd_triples_block]|]. intros r. apply sp_fails, no_block_fails.
  Qed.
  Lemma pattern_first i : first 125 i -> fails (ggp_and_triples_of ex gg) i.
  Proof.
    intros [x ->]. unfold ggp_and_triples_of. apply map_fails, pair_fails1. unfold graph_pattern_not_triples_of.
    apply alt_fails_cons; [now apply map_fails, map_fails, sepne_fails, gg_first|].
    do 2 (apply alt_fails_cons; [now apply map_fails, tag1_fails, kwf_fails_base|]).
    apply alt_fails_cons; [now apply map_fails, map_fails, pair_fails1, terminated_fails1, (kwf_fails_base "graph")|].
    apply alt_fails_cons; [now apply map_fails, map_fails, pair_fails1, terminated_fails1, (kwf_fails_base "service")|].
    do 3 (apply alt_fails_cons; [now apply map_fails, tag1_fails, kwf_fails_base|]). apply alt_fails_nil.
  Qed.
  Lemma rd_group_sub g : rd group_graph_pattern_sub g (W_group_sub WE WG g).
  Proof.
    destruct g as [t l]. unfold group_graph_pattern_sub, ggp_sub_of. cbn [W_group_sub]. apply (rd_map _ _ (t, l)); [|reflexivity]. apply rd_pair.
    - apply rd_opt; [intros b; apply rd_terminated; [apply rd_triples_block|apply rdx_sp]|]. intros r H. now apply terminated_fails1, no_block_fails.
    - apply rd_sep; [exact rd_pattern_and_triples|mv|mv|apply gap1_sp|apply gap1_ne| |apply pattern_first]. intros r. apply sp_back, pattern_first.
  Qed.
  Lemma rd_ggp_layout g : rd gg g (ggp_layout WE WG g).
  Proof.
    intros t r H. rewrite group_graph_pattern_eq. revert t r H. unfold ggp_body. destruct g as [s|s]; cbn [ggp_layout].
    - eapply rd_under; [intros t r; apply then_l3|]. apply rd_delimited; [now apply rdx_chr| |now apply rdx_chr]. apply rd_sp_enc.
      alt1. eapply rd_map; [|reflexivity]. apply rd_sub_select.
    - eapply rd_under; [intros t r; apply then_l3|]. apply rd_delimited; [now apply rdx_chr| |now apply rdx_chr]. apply rd_sp_enc.
      alt_skip; [intros t r [_ H]; apply map_fails, pair_fails1, map_fails; now apply select_fails|].
      alt1. eapply rd_map; [|reflexivity]. intros t r [H _]. now apply rd_group_sub.
  Qed.
End Core.

Scheme W_expression_mind := Minimality for W_expression Sort Prop
  with W_ggp_mind := Minimality for W_ggp Sort Prop.
Combined Scheme W_mutind from W_expression_mind, W_ggp_mind.
Lemma rd_knot : (forall e t r, W_expression e t r -> ex (t ++ r) = Ok r e) /\ (forall g t r, W_ggp g t r -> gg (t ++ r) = Ok r g).
Proof.
  apply W_mutind.
  - intros WE WG e t r _ IE _ IG H. exact (rd_expression_layout WE WG IE IG e t r H).
  - intros WE WG g t r _ IE _ IG H. exact (rd_ggp_layout WE WG IE IG g t r H).
Qed.
Lemma rd_expression e : rd ex e (W_expression e). Proof. intros t r. apply rd_knot. Qed.
Lemma rd_ggp g : rd gg g (W_ggp g). Proof. intros t r. apply rd_knot. Qed.
