(** Changing blanks: expressions and group graph patterns. *)
From Verif Require Export LBlank3 LRecase4.
Notation length := List.length (only parsing).
Open Scope N_scope.
Open Scope list_scope.

Section Core.
  Context {E G : Type} (LE : nat -> E -> list leaf) (LG : nat -> G -> list leaf).
  Context (m : bool) (e e' : parser E) (g g' : parser G).
  Context (He : bs2 m false (tsp m LE) e e') (Hg : bs2 m false (tsp m LG) g g').
  Notation te L := (tsp m (fun n => L (LE n))) (only parsing).
  Notation tg L := (tsp m (fun n => L (LG n))) (only parsing).
  Notation tb L := (tsp m (fun n => L (LE n) (LG n))) (only parsing).
  Lemma bs_comma : bs2 m false any comma comma. Proof. unfold comma. eapply bs_any. gb. Qed.
  Hint Resolve bs_comma : bs.
  Lemma bs_expr2 : bs2 m false (both (tsp m LE) (tsp m LE)) (expr2_of e) (expr2_of e').
  Proof. unfold expr2_of. gb. Qed.
  Hint Resolve bs_expr2 : bs.
  Lemma bs_expr3 : bs2 m false (both (tsp m LE) (both (tsp m LE) (mayb (tsp m LE)))) (bracketted_expr3_of e) (bracketted_expr3_of e').
  Proof. unfold bracketted_expr3_of. gb. Qed.
  Hint Resolve bs_expr3 : bs.
  Lemma bs_bracketted : bs2 m false (tsp m LE) (bracketted_expression_of e) (bracketted_expression_of e').
  Proof. unfold bracketted_expression_of. gb. Qed.
  Hint Resolve bs_bracketted : bs.
  Lemma bs_as_var_opt : bs2 m false (te leaves_as_var_opt) (expression_as_var_opt_of e) (expression_as_var_opt_of e').
  Proof. unfold expression_as_var_opt_of. gb. Qed.
  Lemma bs_as_var : bs2 m false (te leaves_as_var) (expression_as_var_of e) (expression_as_var_of e').
  Proof. unfold expression_as_var_of. gb. Qed.
  Hint Resolve bs_as_var_opt bs_as_var : bs.
  Lemma bs_expression_list : bs2 m false (te leaves_expression_list) (expression_list_of e) (expression_list_of e').
  Proof. unfold expression_list_of. gb. Qed.
  Hint Resolve bs_expression_list : bs.
  Lemma bs_distinct_expression : bs2 m false (te leaves_distinct) (distinct_expression_of e) (distinct_expression_of e').
  Proof. unfold distinct_expression_of. gb. Qed.
  Hint Resolve bs_distinct_expression : bs.
  Lemma bs_bind : bs2 m false (te leaves_as_var) (bind_of e) (bind_of e').
  Proof. unfold bind_of. gb. Qed.
  Hint Resolve bs_bind : bs.
  Lemma bs_arg_list : bs2 m false (te leaves_args) (arg_list_of e) (arg_list_of e').
  Proof. unfold arg_list_of. gb. Qed.
  Hint Resolve bs_arg_list : bs.
  Lemma bs_function_call : bs2 m false (te leaves_function_call) (function_call_of e) (function_call_of e').
  Proof. unfold function_call_of. gb. Qed.
  Lemma bs_iri_or_fun : bs2 m false (te leaves_iri_or_fun) (iri_or_fun_of e) (iri_or_fun_of e').
  Proof. unfold iri_or_fun_of. gb. Qed.
  Hint Resolve bs_function_call bs_iri_or_fun : bs.
  Lemma bs_regex : bs2 m false (te leaves_expr3) (regex_expression_of e) (regex_expression_of e').
  Proof. unfold regex_expression_of. gb. Qed.
  Lemma bs_substr : bs2 m false (te leaves_expr3) (substring_expression_of e) (substring_expression_of e').
  Proof. unfold substring_expression_of. gb. Qed.
  Lemma bs_str_replace : bs2 m false (te leaves_str_replace) (str_replace_expression_of e) (str_replace_expression_of e').
  Proof. unfold str_replace_expression_of. gb. Qed.
  Hint Resolve bs_regex bs_substr bs_str_replace : bs.

  Lemma bs_count_target : bs2 m false (te leaves_target) (count_target_of e) (count_target_of e').
  Proof. unfold count_target_of. gb. Qed.
  Hint Resolve bs_count_target : bs.
  Lemma bs_count : bs2 m false (te leaves_count) (count_of e) (count_of e').
  Proof. unfold count_of. gb. Qed.
  Lemma bs_group_concat : bs2 m false (te leaves_gc) (group_concat_of e) (group_concat_of e').
  Proof. unfold group_concat_of. gb. Qed.
  Hint Resolve bs_count bs_group_concat : bs.
  Lemma tb_count x y : te leaves_count x y -> te leaves_aggregate (AgCount x) (AgCount y).
  Proof. apply (tb_1 m AgCount). intros n [d [|t]]; reflexivity. Qed.
  Lemma tb_gc x y : te leaves_gc x y -> te leaves_aggregate (AgGroupConcat x) (AgGroupConcat y).
  Proof. apply (tb_1 m AgGroupConcat). intros n [d s]; reflexivity. Qed.
  Hint Resolve tb_count tb_gc : core.
  Lemma bs_aggregate : bs2 m false (te leaves_aggregate) (aggregate_of e) (aggregate_of e').
  Proof.
    unfold aggregate_of.
    apply bs_alt; [reflexivity| eapply bs_map; [apply bs_count|exact tb_count]|]. do 5 (apply bs_alt; [reflexivity| gb|]).
    apply bs_alt; [reflexivity| eapply bs_map; [apply bs_group_concat|exact tb_gc]|apply bs_alt_nil].
  Qed.
  Hint Resolve bs_aggregate : bs.

  Lemma bs_call1 name (k : E -> BuiltInCall E G) : keyw name = true -> (forall n x, leaves_built_in (LE n) (LG n) (k x) = LE n x) -> bs2 m false (tb leaves_built_in) (call1 e name k) (call1 e' name k).
  Proof. intros Hk K. unfold call1. eapply bs_map; [gb|]. intros x y. now apply tb_1. Qed.
  Lemma bs_call2 name (k : E -> E -> BuiltInCall E G) : keyw name = true -> (forall n x y, leaves_built_in (LE n) (LG n) (k x y) = LE n x ++ LE n y) -> bs2 m false (tb leaves_built_in) (call2 e name k) (call2 e' name k).
  Proof. intros Hk K. unfold call2. eapply bs_map; [gb|]. intros [x x'] [y y'] [A B]. now apply (tb_2 m k LE LE). Qed.
  Lemma bs_call0 name (k : BuiltInCall E G) : keyw name = true -> bs2 m false (tb leaves_built_in) (call0 name k) (call0 name k).
  Proof. intros Hk. unfold call0. gb. Qed.
  Ltac call := apply bs_alt; [reflexivity| first [apply bs_call1; [reflexivity|intros; reflexivity]|apply bs_call2; [reflexivity|intros; reflexivity]|apply bs_call0; reflexivity|gb]|].
  Lemma bs_bic1 : bs2 m false (tb leaves_built_in) (built_in_call_1_of (G := G) e) (built_in_call_1_of (G := G) e').
  Proof.
    unfold built_in_call_1_of. do 8 call. apply bs_alt; [reflexivity| |].
    { eapply (bs_map _ _ (mayb (tsp m LE))); [|vb]. unfold preceded_bracketted, preceded_tag, bracketted, delimited. eapply bs_preceded; [gb|].
      eapply bs_preceded; [gb|]. eapply bs_terminated; [|gb].
      apply bs_alt; [reflexivity| |apply bs_alt; [reflexivity| |apply bs_alt_nil]].
      - eapply bs_map; [apply He|]. intros x y H. exact H.
      - eapply bs_map; [eapply bs_nil|]. intros x y H. exact I. }
    do 12 call. apply bs_alt_nil.
  Qed.
  Lemma bs_bic2 : bs2 m false (tb leaves_built_in) (built_in_call_2_of (G := G) e) (built_in_call_2_of (G := G) e').
  Proof. unfold built_in_call_2_of. do 14 call. apply bs_alt_nil. Qed.
  Hint Resolve bs_bic1 bs_bic2 : bs.
  Lemma bs_bic : bs2 m false (tb leaves_built_in) (built_in_call_of e g) (built_in_call_of e' g').
  Proof.
    unfold built_in_call_of.
    do 20 (apply bs_alt; [reflexivity| first [eapply bs_call1; [reflexivity|intros; reflexivity]|eapply bs_call2; [reflexivity|intros; reflexivity]|eapply bs_call0; reflexivity|gb]|]).
    apply bs_alt_nil.
  Qed.
  Hint Resolve bs_bic : bs.
  Lemma bs_primary : bs2 m false (tb leaves_primary) (primary_expression_of e g) (primary_expression_of e' g').
  Proof. unfold primary_expression_of. gb. Qed.
  Hint Resolve bs_primary : bs.
  Lemma bs_unary : bs2 m false (tb leaves_unary) (unary_expression_of e g) (unary_expression_of e' g').
  Proof. unfold unary_expression_of. gb. Qed.
  Hint Resolve bs_unary : bs.
  Lemma bs_mult : bs2 m false (tb leaves_mult) (mult_expression_of e g) (mult_expression_of e' g').
  Proof. unfold mult_expression_of. gb. Qed.
  Hint Resolve bs_mult : bs.
  Lemma bs_multiplicative : bs2 m false (tb leaves_multiplicative) (multiplicative_expression_of e g) (multiplicative_expression_of e' g').
  Proof. unfold multiplicative_expression_of. gb. Qed.
  Hint Resolve bs_multiplicative : bs.
  Lemma bs_add : bs2 m false (tb leaves_add) (add_expression_of e g) (add_expression_of e' g').
  Proof.
    unfold add_expression_of. do 2 (apply bs_alt; [reflexivity| gb|]). apply bs_alt; [reflexivity| |apply bs_alt_nil]. eapply bs_map; [gb|]. intros [x l] [y l'] [A B]. cbn [fst snd] in *.
    subst y. apply tb_list in B. apply (tb_2 m AddNumeric (fun _ n => [Number n]) (fun n => flat_map (leaves_mult (LE n) (LG n)))); auto. apply tb_refl.
  Qed.
  Hint Resolve bs_add : bs.
  Lemma bs_additive : bs2 m false (tb leaves_additive) (additive_expression_of e g) (additive_expression_of e' g').
  Proof. unfold additive_expression_of. gb. Qed.
  Hint Resolve bs_additive : bs.
  Lemma bs_op : bs2 m false (tb leaves_op) (op_expression_of e g) (op_expression_of e' g').
  Proof. unfold op_expression_of. gb. Qed.
  Hint Resolve bs_op : bs.
  Lemma bs_relational : bs2 m false (tb leaves_relational) (relational_expression_of e g) (relational_expression_of e' g').
  Proof. unfold relational_expression_of. gb. Qed.
  Hint Resolve bs_relational : bs.
  Lemma bs_and : bs2 m false (tb leaves_and) (conditional_and_expression_of e g) (conditional_and_expression_of e' g').
  Proof. unfold conditional_and_expression_of. gb. Qed.
  Hint Resolve bs_and : bs.

  Lemma bs_constraint : bs2 m false (tb leaves_constraint) (constraint_of e g) (constraint_of e' g').
  Proof. unfold constraint_of. gb. Qed.
  Hint Resolve bs_constraint : bs.
  Lemma bs_filter : bs2 m false (tb leaves_constraint) (filter_of e g) (filter_of e' g').
  Proof. unfold filter_of. gb. Qed.
  Hint Resolve bs_filter : bs.
  Lemma bs_order : bs2 m false eq MExpr.order MExpr.order.
  Proof. unfold MExpr.order. gb. Qed.
  Hint Resolve bs_order : bs.
  Lemma bs_order_expression : bs2 m false (te leaves_order_expr) (order_expression_of e) (order_expression_of e').
  Proof.
    unfold order_expression_of. eapply bs_map; [gb|]. intros [o x] [o' x'] [Eo H]. cbn in Eo. subst o'. now apply (tb_1 m (MkOrderExpression o) LE).
  Qed.
  Hint Resolve bs_order_expression : bs.
  Lemma bs_order_condition : bs2 m false (tb leaves_order_condition) (order_condition_of e g) (order_condition_of e' g').
  Proof.
    unfold order_condition_of. apply bs_alt; [reflexivity| |gb]. eapply bs_map; [eapply bs_order_expression|]. intros x y.
    apply (tb_1 m OcOrder). now intros n [o z].
  Qed.
  Hint Resolve bs_order_condition : bs.
  Lemma bs_group_condition : bs2 m false (tb leaves_group_condition) (group_condition_of e g) (group_condition_of e' g').
  Proof. unfold group_condition_of. gb. Qed.
  Hint Resolve bs_group_condition : bs.
  Lemma bs_group_clause : bs2 m false (tb leaves_group_clause) (group_clause_of e g) (group_clause_of e' g').
  Proof. unfold group_clause_of, kw_by. gb. Qed.
  Lemma bs_order_clause : bs2 m false (tb leaves_order_clause) (order_clause_of e g) (order_clause_of e' g').
  Proof. unfold order_clause_of, kw_by. gb. Qed.
  Lemma bs_having_clause : bs2 m false (tb leaves_having_clause) (having_clause_of e g) (having_clause_of e' g').
  Proof. unfold having_clause_of. gb. Qed.
  Hint Resolve bs_group_clause bs_order_clause bs_having_clause : bs.
  Lemma bs_modifier : bs2 m false (tb leaves_modifier) (solution_modifier_of e g) (solution_modifier_of e' g').
  Proof.
    unfold solution_modifier_of. eapply bs_map; [gb|]. intros x y H. prepb.
    apply (tb_4 m (fun gb h ob lo => MkSolutionModifier ob gb h lo) (fun n => of_opt (leaves_group_clause (LE n) (LG n)))
      (fun n => of_opt (leaves_having_clause (LE n) (LG n))) (fun n => of_opt (leaves_order_clause (LE n) (LG n))) (fun n => of_opt leaves_limit_offset)); auto.
  Qed.
  Hint Resolve bs_modifier : bs.
  Lemma bs_where : bs2 m false (tsp m LG) (where_clause_of g) (where_clause_of g').
  Proof. unfold where_clause_of. gb. Qed.
  Hint Resolve bs_where : bs.
  Lemma bs_select_modifier : bs2 m false eq select_modifier select_modifier.
  Proof. unfold select_modifier. gb. Qed.
  Hint Resolve bs_select_modifier : bs.
  Lemma bs_voe : bs2 m false (te leaves_select_var) (var_or_expression_as_var_of e) (var_or_expression_as_var_of e').
  Proof. unfold var_or_expression_as_var_of. gb. Qed.
  Hint Resolve bs_voe : bs.
  Lemma bs_select_vars : bs2 m false (te leaves_select_vars) (select_vars_of e) (select_vars_of e').
  Proof. unfold select_vars_of. gb. Qed.
  Hint Resolve bs_select_vars : bs.
  Lemma bs_select_clause : bs2 m false (te leaves_select_clause) (select_clause_of e) (select_clause_of e').
  Proof.
    unfold select_clause_of. eapply bs_map; [gb|]. intros (w & o & v) (w' & o' & v') (_ & M & V). cbn [fst snd] in *. apply may_eq in M. subst o'.
    now apply (tb_1 m (MkSelectClause o) (fun n => leaves_select_vars (LE n))).
  Qed.
  Hint Resolve bs_select_clause : bs.
  Lemma bs_sub_select : bs2 m false (tb leaves_sub_select) (sub_select_of e g) (sub_select_of e' g').
  Proof. unfold sub_select_of. gb. Qed.
  Hint Resolve bs_sub_select : bs.

  Lemma bs_gou : bs2 m false (tg leaves_gou) (group_or_union_of g) (group_or_union_of g').
  Proof. unfold group_or_union_of. gb. Qed.
  Lemma bs_optional : bs2 m false (tsp m LG) (optional_of g) (optional_of g').
  Proof. unfold optional_of. gb. Qed.
  Lemma bs_minus : bs2 m false (tsp m LG) (minus_of g) (minus_of g').
  Proof. unfold minus_of. gb. Qed.
  Lemma bs_gra_pat : bs2 m false (tg leaves_gra_pat) (graph_graph_pattern_of g) (graph_graph_pattern_of g').
  Proof. unfold graph_graph_pattern_of. gb. Qed.
  Lemma bs_service : bs2 m false (tg leaves_service) (service_graph_pattern_of g) (service_graph_pattern_of g').
  Proof.
    unfold service_graph_pattern_of. eapply bs_map; [gb|]. intros (w & s & v & x) (w' & s' & v' & x') (_ & Es & V & X). cbn [fst snd] in *. subst s'.
    now apply (tb_2 m (fun v x => MkServiceGraphPattern v s x) (fun _ => leaves_voi) LG).
  Qed.
  Hint Resolve bs_gou bs_optional bs_minus bs_gra_pat bs_service : bs.
  Lemma bs_pattern : bs2 m false (tb leaves_pattern) (graph_pattern_not_triples_of e g) (graph_pattern_not_triples_of e' g').
  Proof.
    unfold graph_pattern_not_triples_of.
    apply bs_alt; [reflexivity| eapply bs_map; [apply bs_gou|]; intros x y; apply (tb_1 m GpGroupOrUnion); now intros n [l]|].
    do 2 (apply bs_alt; [reflexivity| gb|]).
    apply bs_alt; [reflexivity| eapply bs_map; [apply bs_gra_pat|]; intros x y; apply (tb_1 m GpGraph); now intros n [v z]|].
    apply bs_alt; [reflexivity| eapply bs_map; [apply bs_service|]; intros x y; apply (tb_1 m GpService); now intros n [v s z]|].
    gb.
  Qed.
  Hint Resolve bs_pattern : bs.
  Lemma bs_pattern_and_triples : bs2 m false (tb leaves_pattern_and_triples) (ggp_and_triples_of e g) (ggp_and_triples_of e' g').
  Proof. unfold ggp_and_triples_of. gb. Qed.
  Hint Resolve bs_pattern_and_triples : bs.
  Lemma bs_group_sub : bs2 m false (tb leaves_group_sub) (ggp_sub_of e g) (ggp_sub_of e' g').
  Proof. unfold ggp_sub_of. gb. Qed.
End Core.

(** ** The knot *)
Notation xex m := (tsp m leaves_expression) (only parsing).
Notation xgg m := (tsp m leaves_ggp) (only parsing).
Notation xq m L := (tsp m (fun n => L (leaves_expression n) (leaves_ggp n))) (only parsing).
Lemma bs_expression_body m e e' g g' : bs2 m false (xex m) e e' -> bs2 m false (xgg m) g g' -> bs2 m false (xex m) (expression_body e g) (expression_body e' g').
Proof.
  intros He Hg. unfold expression_body. eapply (bs_map _ _ (Forall2 (xq m leaves_and))).
  - eapply bs_sep1; [gb|]. apply bs_and; assumption.
  - intros x y H. apply tb_list in H. now apply (tb_knot m MkExpression (fun n => flat_map (leaves_and (leaves_expression n) (leaves_ggp n)))).
Qed.
Lemma bs_ggp_body m e e' g g' : bs2 m false (xex m) e e' -> bs2 m false (xgg m) g g' -> bs2 m false (xgg m) (ggp_body e g) (ggp_body e' g').
Proof.
  intros He Hg. unfold ggp_body, delimited, sp_enc. eapply bs_preceded; [gb|]. eapply bs_terminated; [|gb].
  eapply bs_preceded; [apply bs_sp|]. eapply bs_terminated; [|apply bs_sp]. apply bs_alt; [reflexivity| |apply bs_alt; [reflexivity| |apply bs_alt_nil]].
  - eapply (bs_map _ _ (xq m leaves_sub_select)); [apply bs_sub_select; assumption|]. intros x y. now apply (tb_knot m GgpSubSelect).
  - eapply (bs_map _ _ (xq m leaves_group_sub)); [apply bs_group_sub; assumption|]. intros x y. now apply (tb_knot m GgpSub).
Qed.
Lemma bs_ggp_of m e e' : bs2 m false (xex m) e e' -> bs2 m false (xgg m) (ggp_of e) (ggp_of e').
Proof. intros He. apply bs_fixp. intros p q H. apply bs_ggp_body; assumption. Qed.
Lemma bs_expression m : bs m false (xex m) expression.
Proof. apply bs_fixp. intros p q H. apply bs_expression_body; [exact H|]. apply bs_ggp_of. exact H. Qed.
Lemma bs_ggp m : bs m false (xgg m) group_graph_pattern.
Proof. apply bs_ggp_of. apply bs_expression. Qed.
Global Hint Resolve bs_expression bs_ggp : bs.
