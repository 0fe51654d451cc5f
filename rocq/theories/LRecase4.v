(** Changing the case of letters: expressions and group graph patterns. *)
From Verif Require Export LRecase3 MExpr.
Notation length := List.length (only parsing).
Open Scope N_scope.
Open Scope list_scope.

Section Core.
  Context {E G : Type} (LE : nat -> E -> list leaf) (LG : nat -> G -> list leaf).
  Context (e : parser E) (g : parser G).
  Context (He : cs false false (tree_alike LE) e) (Hg : cs false false (tree_alike LG) g).
  Notation te L := (tree_alike (fun n => L (LE n))) (only parsing).
  Notation tg L := (tree_alike (fun n => L (LG n))) (only parsing).
  Notation tb L := (tree_alike (fun n => L (LE n) (LG n))) (only parsing).
  Lemma he a : cs a false (tree_alike LE) e. Proof. apply cs_pre, He. Qed.
  Lemma hg a : cs a false (tree_alike LG) g. Proof. apply cs_pre, Hg. Qed.
  Hint Resolve he hg : cs.
  Lemma cs_comma a : cs a true any comma. Proof. unfold comma. eapply cs_any. go. Qed.
  Hint Resolve cs_comma : cs.
  Lemma cs_expr2 a : cs a false (both (tree_alike LE) (tree_alike LE)) (expr2_of e).
  Proof. unfold expr2_of. go. Qed.
  Hint Resolve cs_expr2 : cs.
  Lemma cs_expr3 a : cs a true (both (tree_alike LE) (both (tree_alike LE) (mayb (tree_alike LE)))) (bracketted_expr3_of e).
  Proof. unfold bracketted_expr3_of. go. Qed.
  Hint Resolve cs_expr3 : cs.
  Lemma cs_bracketted a : cs a true (tree_alike LE) (bracketted_expression_of e).
  Proof. unfold bracketted_expression_of. go. Qed.
  Hint Resolve cs_bracketted : cs.
  Lemma cs_as_var_opt a : cs a true (te leaves_as_var_opt) (expression_as_var_opt_of e).
  Proof. unfold expression_as_var_opt_of. go. Qed.
  Lemma cs_as_var a : cs a true (te leaves_as_var) (expression_as_var_of e).
  Proof. unfold expression_as_var_of. go. Qed.
  Hint Resolve cs_as_var_opt cs_as_var : cs.
  Lemma cs_expression_list a : cs a true (te leaves_expression_list) (expression_list_of e).
  Proof. unfold expression_list_of. go. Qed.
  Hint Resolve cs_expression_list : cs.
  Lemma cs_distinct_expression a : cs a false (te leaves_distinct) (distinct_expression_of e).
  Proof. unfold distinct_expression_of. go. Qed.
  Hint Resolve cs_distinct_expression : cs.
  Lemma cs_bind a : cs a true (te leaves_as_var) (bind_of e).
  Proof. unfold bind_of. go. Qed.
  Hint Resolve cs_bind : cs.
  Lemma cs_arg_list a : cs a true (te leaves_args) (arg_list_of e).
  Proof. unfold arg_list_of. go. Qed.
  Hint Resolve cs_arg_list : cs.
  Lemma cs_function_call a : cs a true (te leaves_function_call) (function_call_of e).
  Proof. unfold function_call_of. go. Qed.
  Lemma cs_iri_or_fun a : cs a false (te leaves_iri_or_fun) (iri_or_fun_of e).
  Proof. unfold iri_or_fun_of. go. Qed.
  Hint Resolve cs_function_call cs_iri_or_fun : cs.
  Lemma cs_regex a : cs a true (te leaves_expr3) (regex_expression_of e).
  Proof. unfold regex_expression_of. go. Qed.
  Lemma cs_substr a : cs a true (te leaves_expr3) (substring_expression_of e).
  Proof. unfold substring_expression_of. go. Qed.
  Lemma cs_str_replace a : cs a true (te leaves_str_replace) (str_replace_expression_of e).
  Proof. unfold str_replace_expression_of. go. Qed.
  Hint Resolve cs_regex cs_substr cs_str_replace : cs.

  Definition leaves_target {X} (L : X -> list leaf) (t : CountTarget X) : list leaf := match t with CtAll => [] | CtExpr x => L x end.
  Definition leaves_count {X} (L : X -> list leaf) (c : Count X) : list leaf := match c with MkCount d t => leaves_target L t end.
  Definition leaves_gc {X} (L : X -> list leaf) (c : GroupConcat X) : list leaf := match c with MkGroupConcat d s => leaves_distinct L d ++ of_opt (name KString) s end.
  Lemma cs_count_target a : cs a false (te leaves_target) (count_target_of e).
  Proof. unfold count_target_of. go. Qed.
  Hint Resolve cs_count_target : cs.
  Lemma cs_count a : cs a true (te leaves_count) (count_of e).
  Proof. unfold count_of. go. Qed.
  Lemma cs_group_concat a : cs a true (te leaves_gc) (group_concat_of e).
  Proof. unfold group_concat_of. go. Qed.
  Hint Resolve cs_count cs_group_concat : cs.
  Lemma ta_count x y : te leaves_count x y -> te leaves_aggregate (AgCount x) (AgCount y).
  Proof. apply (ta_1 AgCount). intros n [d [|t]]; reflexivity. Qed.
  Lemma ta_gc x y : te leaves_gc x y -> te leaves_aggregate (AgGroupConcat x) (AgGroupConcat y).
  Proof. apply (ta_1 AgGroupConcat). intros n [d s]; reflexivity. Qed.
  Hint Resolve ta_count ta_gc : core.
  Lemma cs_aggregate a : cs a true (te leaves_aggregate) (aggregate_of e).
  Proof.
    unfold aggregate_of.
    apply cs_alt; [eapply cs_map; [apply cs_count|exact ta_count]|]. do 5 (apply cs_alt; [go|]).
    apply cs_alt; [eapply cs_map; [apply cs_group_concat|exact ta_gc]|apply cs_alt_nil].
  Qed.
  Hint Resolve cs_aggregate : cs.

  Lemma cs_call1 a name (k : E -> BuiltInCall E G) : (forall n x, leaves_built_in (LE n) (LG n) (k x) = LE n x) -> cs a true (tb leaves_built_in) (call1 e name k).
  Proof. intros K. unfold call1. eapply cs_map; [go|]. intros x y. now apply ta_1. Qed.
  Lemma cs_call2 a name (k : E -> E -> BuiltInCall E G) : (forall n x y, leaves_built_in (LE n) (LG n) (k x y) = LE n x ++ LE n y) -> cs a true (tb leaves_built_in) (call2 e name k).
  Proof. intros K. unfold call2. eapply cs_map; [go|]. intros [x x'] [y y'] [A B]. now apply (ta_2 k LE LE). Qed.
  Lemma cs_call0 a name (k : BuiltInCall E G) : cs a true (tb leaves_built_in) (call0 name k).
  Proof. unfold call0. go. Qed.
  Ltac call := apply cs_alt; [first [apply cs_call1; intros; reflexivity|apply cs_call2; intros; reflexivity|apply cs_call0|go]|].
  Lemma cs_bic1 a : cs a true (tb leaves_built_in) (built_in_call_1_of (G := G) e).
  Proof.
    unfold built_in_call_1_of. do 8 call. apply cs_alt.
    { eapply (cs_map _ _ (mayb (tree_alike LE))); [|vl]. unfold preceded_bracketted, preceded_tag, bracketted, delimited. eapply cs_preceded; [go|].
      eapply cs_preceded; [go|]. eapply (cs_terminated _ false); [|go].
      apply cs_alt; [|apply cs_alt; [|apply cs_alt_nil]].
      - eapply cs_map; [apply he|]. intros x y H. exact H.
      - eapply cs_map; [eapply cs_post, cs_nil|]. intros x y H. exact I. }
    do 12 call. apply cs_alt_nil.
  Qed.
  Lemma cs_bic2 a : cs a true (tb leaves_built_in) (built_in_call_2_of (G := G) e).
  Proof. unfold built_in_call_2_of. do 14 call. apply cs_alt_nil. Qed.
  Hint Resolve cs_bic1 cs_bic2 : cs.
  Lemma cs_bic a : cs a false (tb leaves_built_in) (built_in_call_of e g).
  Proof.
    unfold built_in_call_of.
    do 20 (apply cs_alt; [first [eapply cs_post, cs_call1; intros; reflexivity|eapply cs_post, cs_call2; intros; reflexivity|eapply cs_post, cs_call0|go]|]).
    apply cs_alt_nil.
  Qed.
  Hint Resolve cs_bic : cs.
  Lemma cs_primary a : cs a false (tb leaves_primary) (primary_expression_of e g).
  Proof. unfold primary_expression_of. go. Qed.
  Hint Resolve cs_primary : cs.
  Lemma cs_unary a : cs a false (tb leaves_unary) (unary_expression_of e g).
  Proof. unfold unary_expression_of. go. Qed.
  Hint Resolve cs_unary : cs.
  Lemma cs_mult a : cs a false (tb leaves_mult) (mult_expression_of e g).
  Proof. unfold mult_expression_of. go. Qed.
  Hint Resolve cs_mult : cs.
  Lemma cs_multiplicative a : cs a false (tb leaves_multiplicative) (multiplicative_expression_of e g).
  Proof. unfold multiplicative_expression_of. go. Qed.
  Hint Resolve cs_multiplicative : cs.
  Lemma cs_add a : cs a false (tb leaves_add) (add_expression_of e g).
  Proof.
    unfold add_expression_of. do 2 (apply cs_alt; [go|]). apply cs_alt; [|apply cs_alt_nil]. eapply cs_map; [go|]. intros [x l] [y l'] [A B]. cbn [fst snd] in *.
    subst y. apply ta_list in B. apply (ta_2 AddNumeric (fun _ n => [Number n]) (fun n => flat_map (leaves_mult (LE n) (LG n)))); auto. apply ta_refl.
  Qed.
  Hint Resolve cs_add : cs.
  Lemma cs_additive a : cs a false (tb leaves_additive) (additive_expression_of e g).
  Proof. unfold additive_expression_of. go. Qed.
  Hint Resolve cs_additive : cs.
  Lemma cs_op a : cs a false (tb leaves_op) (op_expression_of e g).
  Proof. unfold op_expression_of. go. Qed.
  Hint Resolve cs_op : cs.
  Lemma cs_relational a : cs a false (tb leaves_relational) (relational_expression_of e g).
  Proof. unfold relational_expression_of. go. Qed.
  Hint Resolve cs_relational : cs.
  Lemma cs_and a : cs a false (tb leaves_and) (conditional_and_expression_of e g).
  Proof. unfold conditional_and_expression_of. go. Qed.
  Hint Resolve cs_and : cs.

  Lemma cs_constraint a : cs a false (tb leaves_constraint) (constraint_of e g).
  Proof. unfold constraint_of. go. Qed.
  Hint Resolve cs_constraint : cs.
  Lemma cs_filter a : cs a false (tb leaves_constraint) (filter_of e g).
  Proof. unfold filter_of. go. Qed.
  Hint Resolve cs_filter : cs.
  Lemma cs_order a : cs a false eq MExpr.order.
  Proof. unfold MExpr.order. go. Qed.
  Hint Resolve cs_order : cs.
  Definition leaves_order_expr {X} (L : X -> list leaf) (o : OrderExpression X) : list leaf := match o with MkOrderExpression o x => L x end.
  Lemma cs_order_expression a : cs a true (te leaves_order_expr) (order_expression_of e).
  Proof.
    unfold order_expression_of. eapply cs_map; [go|]. intros [o x] [o' x'] [Eo H]. cbn in Eo. subst o'. now apply (ta_1 (MkOrderExpression o) LE).
  Qed.
  Hint Resolve cs_order_expression : cs.
  Lemma cs_order_condition a : cs a false (tb leaves_order_condition) (order_condition_of e g).
  Proof.
    unfold order_condition_of. apply cs_alt; [|go]. eapply cs_map; [eapply cs_post, cs_order_expression|]. intros x y.
    apply (ta_1 OcOrder). now intros n [o z].
  Qed.
  Hint Resolve cs_order_condition : cs.
  Lemma cs_group_condition a : cs a false (tb leaves_group_condition) (group_condition_of e g).
  Proof. unfold group_condition_of. go. Qed.
  Hint Resolve cs_group_condition : cs.
  Lemma cs_group_clause a : cs a false (tb leaves_group_clause) (group_clause_of e g).
  Proof. unfold group_clause_of, kw_by. go. Qed.
  Lemma cs_order_clause a : cs a false (tb leaves_order_clause) (order_clause_of e g).
  Proof. unfold order_clause_of, kw_by. go. Qed.
  Lemma cs_having_clause a : cs a false (tb leaves_having_clause) (having_clause_of e g).
  Proof. unfold having_clause_of. go. Qed.
  Hint Resolve cs_group_clause cs_order_clause cs_having_clause : cs.
  Lemma cs_modifier a : cs a false (tb leaves_modifier) (solution_modifier_of e g).
  Proof.
    unfold solution_modifier_of. eapply cs_map; [go|]. intros x y H. prep.
    apply (ta_4 (fun gb h ob lo => MkSolutionModifier ob gb h lo) (fun n => of_opt (leaves_group_clause (LE n) (LG n)))
      (fun n => of_opt (leaves_having_clause (LE n) (LG n))) (fun n => of_opt (leaves_order_clause (LE n) (LG n))) (fun n => of_opt leaves_limit_offset)); auto.
  Qed.
  Hint Resolve cs_modifier : cs.
  Lemma cs_where a : cs a false (tree_alike LG) (where_clause_of g).
  Proof. unfold where_clause_of. go. Qed.
  Hint Resolve cs_where : cs.
  Lemma cs_select_modifier a : cs a false eq select_modifier.
  Proof. unfold select_modifier. go. Qed.
  Hint Resolve cs_select_modifier : cs.
  Lemma cs_voe a : cs a false (te leaves_select_var) (var_or_expression_as_var_of e).
  Proof. unfold var_or_expression_as_var_of. go. Qed.
  Hint Resolve cs_voe : cs.
  Lemma cs_select_vars a : cs a false (te leaves_select_vars) (select_vars_of e).
  Proof. unfold select_vars_of. go. Qed.
  Hint Resolve cs_select_vars : cs.
  Lemma cs_select_clause a : cs a false (te leaves_select_clause) (select_clause_of e).
  Proof.
    unfold select_clause_of. eapply cs_map; [go|]. intros (w & m & v) (w' & m' & v') (_ & M & V). cbn [fst snd] in *. apply may_eq in M. subst m'.
    now apply (ta_1 (MkSelectClause m) (fun n => leaves_select_vars (LE n))).
  Qed.
  Hint Resolve cs_select_clause : cs.
  Lemma cs_sub_select a : cs a false (tb leaves_sub_select) (sub_select_of e g).
  Proof. unfold sub_select_of. go. Qed.
  Hint Resolve cs_sub_select : cs.

  Definition leaves_gou {X} (L : X -> list leaf) (x : GroupOrUnionGraphPattern X) : list leaf := match x with MkGroupOrUnion l => flat_map L l end.
  Definition leaves_gra_pat {X} (L : X -> list leaf) (x : GraphGraphPattern X) : list leaf := match x with MkGraphGraphPattern v y => leaves_voi v ++ L y end.
  Definition leaves_service {X} (L : X -> list leaf) (x : ServiceGraphPattern X) : list leaf := match x with MkServiceGraphPattern v s y => leaves_voi v ++ L y end.
  Lemma cs_gou a : cs a false (tg leaves_gou) (group_or_union_of g).
  Proof. unfold group_or_union_of. go. Qed.
  Lemma cs_optional a : cs a false (tree_alike LG) (optional_of g).
  Proof. unfold optional_of. go. Qed.
  Lemma cs_minus a : cs a false (tree_alike LG) (minus_of g).
  Proof. unfold minus_of. go. Qed.
  Lemma cs_gra_pat a : cs a false (tg leaves_gra_pat) (graph_graph_pattern_of g).
  Proof. unfold graph_graph_pattern_of. go. Qed.
  Lemma cs_service a : cs a false (tg leaves_service) (service_graph_pattern_of g).
  Proof.
    unfold service_graph_pattern_of. eapply cs_map; [go|]. intros (w & s & v & x) (w' & s' & v' & x') (_ & Es & V & X). cbn [fst snd] in *. subst s'.
    now apply (ta_2 (fun v x => MkServiceGraphPattern v s x) (fun _ => leaves_voi) LG).
  Qed.
  Hint Resolve cs_gou cs_optional cs_minus cs_gra_pat cs_service : cs.
  Lemma cs_pattern a : cs a false (tb leaves_pattern) (graph_pattern_not_triples_of e g).
  Proof.
    unfold graph_pattern_not_triples_of.
    apply cs_alt; [eapply cs_map; [apply cs_gou|]; intros x y; apply (ta_1 GpGroupOrUnion); now intros n [l]|].
    do 2 (apply cs_alt; [go|]).
    apply cs_alt; [eapply cs_map; [apply cs_gra_pat|]; intros x y; apply (ta_1 GpGraph); now intros n [v z]|].
    apply cs_alt; [eapply cs_map; [apply cs_service|]; intros x y; apply (ta_1 GpService); now intros n [v s z]|].
    go.
  Qed.
  Hint Resolve cs_pattern : cs.
  Lemma cs_pattern_and_triples a : cs a false (tb leaves_pattern_and_triples) (ggp_and_triples_of e g).
  Proof. unfold ggp_and_triples_of. go. Qed.
  Hint Resolve cs_pattern_and_triples : cs.
  Lemma cs_group_sub a : cs a false (tb leaves_group_sub) (ggp_sub_of e g).
  Proof. unfold ggp_sub_of. go. Qed.
End Core.

(** ** The knot *)
Notation tex := (tree_alike leaves_expression) (only parsing).
Notation tgg := (tree_alike leaves_ggp) (only parsing).
Notation tq L := (tree_alike (fun n => L (leaves_expression n) (leaves_ggp n))) (only parsing).
Lemma cs_expression_body a e g : cs false false tex e -> cs false false tgg g -> cs a false tex (expression_body e g).
Proof.
  intros He Hg. unfold expression_body. eapply (cs_map _ _ (Forall2 (tq leaves_and))).
  - eapply cs_sep1'; [go|]. now apply cs_and.
  - intros x y H. apply ta_list in H. now apply (ta_knot MkExpression (fun n => flat_map (leaves_and (leaves_expression n) (leaves_ggp n)))).
Qed.
Lemma cs_ggp_body a e g : cs false false tex e -> cs false false tgg g -> cs a false tgg (ggp_body e g).
Proof.
  intros He Hg. unfold ggp_body, delimited, sp_enc. eapply cs_preceded; [go|]. eapply cs_post. eapply cs_terminated; [|apply (cs_chr false); reflexivity].
  eapply cs_preceded; [apply cs_sp|]. eapply cs_terminated; [|apply cs_sp]. apply cs_alt; [|apply cs_alt; [|apply cs_alt_nil]].
  - eapply (cs_map _ _ (tq leaves_sub_select)); [apply cs_sub_select; assumption|]. intros x y. now apply (ta_knot GgpSubSelect).
  - eapply (cs_map _ _ (tq leaves_group_sub)); [apply cs_group_sub; assumption|]. intros x y. now apply (ta_knot GgpSub).
Qed.
Lemma cs_ggp_of a e : cs false false tex e -> cs a false tgg (ggp_of e).
Proof. intros He. apply cs_pre, cs_fixp. intros p. now apply cs_ggp_body. Qed.
Lemma cs_expression a : cs a false tex expression.
Proof. apply cs_pre, cs_fixp. intros p H. apply cs_expression_body; [exact H|]. now apply cs_ggp_of. Qed.
Lemma cs_ggp a : cs a false tgg group_graph_pattern.
Proof. apply cs_ggp_of. apply cs_expression. Qed.
Global Hint Resolve cs_expression cs_ggp : cs.
