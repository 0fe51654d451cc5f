(** Structural invariants, continued: expressions, graph patterns, queries, updates. *)
From Verif Require Export LGood.
Notation length := List.length (only parsing).

Section Expr.
  Context {E : Type} (n : nat) (e e' : parser E).

  Lemma sm_distinct_expression : sim n true IAny true e e' ->
    sim n true IAny true (distinct_expression_of e) (distinct_expression_of e').
  Proof. sm @distinct_expression_of. Qed.
  Lemma sm_count_target : sim n true IAny true e e' ->
    sim n true IAny true (count_target_of e) (count_target_of e').
  Proof. sm @count_target_of. Qed.
  Hypothesis He : sim (pred n) true IAny true e e'.
  Lemma sm_bind : sim n true IOpen true (bind_of e) (bind_of e').
  Proof. sm @bind_of. Qed.
  Lemma sm_function_call : sim n true IOpen true (function_call_of e) (function_call_of e').
  Proof. sm @function_call_of. Qed.
  Lemma sm_iri_or_fun : sim n true IOpen true (iri_or_fun_of e) (iri_or_fun_of e').
  Proof. sm @iri_or_fun_of. Qed.
  Lemma sm_regex_expression : sim n true IOpen true (regex_expression_of e) (regex_expression_of e').
  Proof. sm @regex_expression_of. Qed.
  Lemma sm_substring_expression :
    sim n true IOpen true (substring_expression_of e) (substring_expression_of e').
  Proof. sm @substring_expression_of. Qed.
End Expr.
#[export] Hint Resolve sm_distinct_expression sm_count_target sm_bind sm_function_call sm_iri_or_fun
  sm_regex_expression sm_substring_expression : simdb.

Section Aggregate.
  Context {E : Type} (n : nat) (e e' : parser E).
  Hypothesis He : sim (pred n) true IAny true e e'.
  Lemma sm_count : sim n true IOpen true (count_of e) (count_of e').
  Proof. sm @count_of. Qed.
  Lemma sm_group_concat : sim n true IOpen true (group_concat_of e) (group_concat_of e').
  Proof. sm @group_concat_of. Qed.
End Aggregate.
#[export] Hint Resolve sm_count sm_group_concat : simdb.
Lemma sm_aggregate {E} n (e e' : parser E) : sim (pred n) true IAny true e e' ->
  sim n true IOpen true (aggregate_of e) (aggregate_of e').
Proof. sm @aggregate_of. Qed.
#[export] Hint Resolve sm_aggregate : simdb.

Section Calls.
  Context {E G : Type} (n : nat) (e e' : parser E) (g g' : parser G).
  Hypothesis He : sim (pred n) true IAny true e e'.
  Lemma sm_call1 name (k : E -> BuiltInCall E G) :
    ascii_b name && negb (Nat.eqb (length name) 0) = true ->
    sim n true IOpen true (call1 e name k) (call1 e' name k).
  Proof.
    intros Hn. unfold call1, preceded_bracketted, preceded_tag. eapply sim_weaken.
    - eapply sim_map, sim_preceded; [eapply sim_terminated; [now apply good_tnc_k | sg] | sg].
    - reflexivity.
    - reflexivity.
    - reflexivity.
  Qed.
  Lemma sm_call2 name (k : E -> E -> BuiltInCall E G) :
    ascii_b name && negb (Nat.eqb (length name) 0) = true ->
    sim n true IOpen true (call2 e name k) (call2 e' name k).
  Proof.
    intros Hn. unfold call2, preceded_bracketted, preceded_tag. eapply sim_weaken.
    - eapply sim_map, sim_preceded; [eapply sim_terminated; [now apply good_tnc_k | sg] | sg].
    - reflexivity.
    - reflexivity.
    - reflexivity.
  Qed.
  Lemma sm_call0 name (k : BuiltInCall E G) :
    ascii_b name && negb (Nat.eqb (length name) 0) = true ->
    sim n true IOpen true (call0 name k) (call0 name k).
  Proof.
    intros Hn. unfold call0, preceded_bracketted, preceded_tag. eapply sim_weaken.
    - eapply sim_map, sim_preceded; [eapply sim_terminated; [now apply good_tnc_k | sg] | sg].
    - reflexivity.
    - reflexivity.
    - reflexivity.
  Qed.
End Calls.

Ltac sg_calls := lazymatch goal with
  | |- sim _ _ _ _ (alt [_]) _ => eapply sim_alt_one; sg_calls
  | |- sim _ _ _ _ (alt _) _ => eapply sim_alt_cons; [sg_calls | sg_calls]
  | |- sim _ _ _ _ (call1 _ _ _) _ => apply sm_call1; [sg_mono | reflexivity]
  | |- sim _ _ _ _ (call2 _ _ _) _ => apply sm_call2; [sg_mono | reflexivity]
  | |- sim _ _ _ _ (call0 _ _) _ => apply sm_call0; reflexivity
  | |- _ => idtac
  end.

Section BuiltIn.
  Context {E G : Type} (n : nat) (e e' : parser E) (g g' : parser G).
  Hypothesis He : sim (pred n) true IAny true e e'.
  Hypothesis Hg : sim (pred n) true IOpen true g g'.
  Lemma sm_built_in_call_1 :
    sim n true IOpen true (built_in_call_1_of (G:=G) e) (built_in_call_1_of e').
  Proof.
    unfold built_in_call_1_of. eapply sim_weaken; [sg_calls; sg | reflexivity ..].
  Qed.
  Lemma sm_built_in_call_2 :
    sim n true IOpen true (built_in_call_2_of (G:=G) e) (built_in_call_2_of e').
  Proof.
    unfold built_in_call_2_of. eapply sim_weaken; [sg_calls; sg | reflexivity ..].
  Qed.
  Lemma sm_built_in_call :
    sim n true IOpen true (built_in_call_of e g) (built_in_call_of e' g').
  Proof.
    unfold built_in_call_of. eapply sim_weaken;
      [sg_calls; [apply sm_built_in_call_1 | apply sm_built_in_call_2 | sg ..] | reflexivity ..].
  Qed.
End BuiltIn.
#[export] Hint Resolve sm_built_in_call : simdb.

Section Arith.
  Context {E G : Type} (n : nat) (e e' : parser E) (g g' : parser G).
  Hypothesis He : sim (pred n) true IAny true e e'.
  Hypothesis Hg : sim (pred n) true IOpen true g g'.
  Lemma sm_primary_expression :
    sim n true IOpen true (primary_expression_of e g) (primary_expression_of e' g').
  Proof. sm @primary_expression_of. Qed.
End Arith.
#[export] Hint Resolve sm_primary_expression : simdb.

Section Arith2.
  Context {E G : Type} (n : nat) (e e' : parser E) (g g' : parser G).
  Hypothesis He : sim (pred n) true IAny true e e'.
  Hypothesis Hg : sim (pred n) true IOpen true g g'.
  Lemma sm_unary_expression :
    sim n true IOpen true (unary_expression_of e g) (unary_expression_of e' g').
  Proof. sm @unary_expression_of; eapply sm_primary_expression; sg_mono. Qed.
End Arith2.
#[export] Hint Resolve sm_unary_expression : simdb.

Section Arith3.
  Context {E G : Type} (n : nat) (e e' : parser E) (g g' : parser G).
  Hypothesis He : sim (pred n) true IAny true e e'.
  Hypothesis Hg : sim (pred n) true IOpen true g g'.
  Lemma sm_mult_expression :
    sim n true IOpen true (mult_expression_of e g) (mult_expression_of e' g').
  Proof. sm @mult_expression_of; eapply sm_unary_expression; sg_mono. Qed.
End Arith3.
#[export] Hint Resolve sm_mult_expression : simdb.

Section Arith4.
  Context {E G : Type} (n : nat) (e e' : parser E) (g g' : parser G).
  Hypothesis He : sim (pred n) true IAny true e e'.
  Hypothesis Hg : sim (pred n) true IOpen true g g'.
  Lemma sm_multiplicative_expression :
    sim n true IOpen true (multiplicative_expression_of e g) (multiplicative_expression_of e' g').
  Proof. sm @multiplicative_expression_of. Qed.
End Arith4.
#[export] Hint Resolve sm_multiplicative_expression : simdb.

Section Arith5.
  Context {E G : Type} (n : nat) (e e' : parser E) (g g' : parser G).
  Hypothesis He : sim (pred n) true IAny true e e'.
  Hypothesis Hg : sim (pred n) true IOpen true g g'.
  Lemma sm_add_expression :
    sim n true IOpen true (add_expression_of e g) (add_expression_of e' g').
  Proof. sm @add_expression_of. Qed.
End Arith5.
#[export] Hint Resolve sm_add_expression : simdb.

Section Arith6.
  Context {E G : Type} (n : nat) (e e' : parser E) (g g' : parser G).
  Hypothesis He : sim (pred n) true IAny true e e'.
  Hypothesis Hg : sim (pred n) true IOpen true g g'.
  Lemma sm_additive_expression :
    sim n true IOpen true (additive_expression_of e g) (additive_expression_of e' g').
  Proof. sm @additive_expression_of. Qed.
End Arith6.
#[export] Hint Resolve sm_additive_expression : simdb.

Section Arith7.
  Context {E G : Type} (n : nat) (e e' : parser E) (g g' : parser G).
  Hypothesis He : sim (pred n) true IAny true e e'.
  Hypothesis Hg : sim (pred n) true IOpen true g g'.
  Lemma sm_op_expression :
    sim n true IAny true (op_expression_of e g) (op_expression_of e' g').
  Proof. sm @op_expression_of. Qed.
End Arith7.
#[export] Hint Resolve sm_op_expression : simdb.

Section Arith8.
  Context {E G : Type} (n : nat) (e e' : parser E) (g g' : parser G).
  Hypothesis He : sim (pred n) true IAny true e e'.
  Hypothesis Hg : sim (pred n) true IOpen true g g'.
  Lemma sm_relational_expression :
    sim n true IAny true (relational_expression_of e g) (relational_expression_of e' g').
  Proof. sm @relational_expression_of. Qed.
End Arith8.
#[export] Hint Resolve sm_relational_expression : simdb.

Section Arith9.
  Context {E G : Type} (n : nat) (e e' : parser E) (g g' : parser G).
  Hypothesis He : sim (pred n) true IAny true e e'.
  Hypothesis Hg : sim (pred n) true IOpen true g g'.
  Lemma sm_conditional_and_expression :
    sim n true IAny true (conditional_and_expression_of e g) (conditional_and_expression_of e' g').
  Proof. sm @conditional_and_expression_of. Qed.
  Lemma sm_constraint : sim n true IOpen true (constraint_of e g) (constraint_of e' g').
  Proof. sm @constraint_of. Qed.
End Arith9.
#[export] Hint Resolve sm_conditional_and_expression sm_constraint : simdb.

Lemma sm_expression_body n e e' g g' :
  sim n true IAny true e e' -> sim n true IOpen true g g' ->
  sim (S n) true IAny true (expression_body e g) (expression_body e' g').
Proof. sm @expression_body. Qed.

Lemma gd_order : good true INever false order.
Proof. gd order. Qed.
Lemma gd_select_modifier : good true INever false select_modifier.
Proof. gd select_modifier. Qed.
#[export] Hint Resolve gd_order gd_select_modifier : good.

Section Clauses1.
  Context {E G : Type} (n : nat) (e e' : parser E) (g g' : parser G).
  Hypothesis He : sim (pred n) true IAny true e e'.
  Hypothesis Hg : sim (pred n) true IOpen true g g'.
  Lemma sm_filter : sim n true IOpen true (filter_of e g) (filter_of e' g').
  Proof. sm @filter_of. Qed.
  Lemma sm_order_expression :
    sim n true IOpen true (order_expression_of e) (order_expression_of e').
  Proof. sm @order_expression_of. Qed.
  Lemma sm_group_condition :
    sim n true IOpen true (group_condition_of e g) (group_condition_of e' g').
  Proof. sm @group_condition_of. Qed.
  Lemma sm_having_clause : sim n true IOpen true (having_clause_of e g) (having_clause_of e' g').
  Proof. sm @having_clause_of. Qed.
  Lemma sm_var_or_expression_as_var :
    sim n true IOpen true (var_or_expression_as_var_of e) (var_or_expression_as_var_of e').
  Proof. sm @var_or_expression_as_var_of. Qed.
End Clauses1.
#[export] Hint Resolve sm_filter sm_order_expression sm_group_condition sm_having_clause
  sm_var_or_expression_as_var : simdb.

Section Clauses2.
  Context {E G : Type} (n : nat) (e e' : parser E) (g g' : parser G).
  Hypothesis He : sim (pred n) true IAny true e e'.
  Hypothesis Hg : sim (pred n) true IOpen true g g'.
  Lemma sm_order_condition :
    sim n true IOpen true (order_condition_of e g) (order_condition_of e' g').
  Proof. sm @order_condition_of. Qed.
  Lemma sm_group_clause : sim n true IOpen true (group_clause_of e g) (group_clause_of e' g').
  Proof. sm @group_clause_of. Qed.
  Lemma sm_select_vars : sim n true IOpen true (select_vars_of e) (select_vars_of e').
  Proof. sm @select_vars_of. Qed.
End Clauses2.
#[export] Hint Resolve sm_order_condition sm_group_clause sm_select_vars : simdb.

Section Clauses3.
  Context {E G : Type} (n : nat) (e e' : parser E) (g g' : parser G).
  Hypothesis He : sim (pred n) true IAny true e e'.
  Hypothesis Hg : sim (pred n) true IOpen true g g'.
  Lemma sm_order_clause : sim n true IOpen true (order_clause_of e g) (order_clause_of e' g').
  Proof. sm @order_clause_of. Qed.
  Lemma sm_select_clause : sim n true IOpen true (select_clause_of e) (select_clause_of e').
  Proof. sm @select_clause_of. Qed.
End Clauses3.
#[export] Hint Resolve sm_order_clause sm_select_clause : simdb.

Section Clauses4.
  Context {E G : Type} (n : nat) (e e' : parser E) (g g' : parser G).
  Hypothesis He : sim (pred n) true IAny true e e'.
  Hypothesis Hg : sim (pred n) true IOpen true g g'.
  Lemma sm_solution_modifier :
    sim n false IOpen true (solution_modifier_of e g) (solution_modifier_of e' g').
  Proof. sm @solution_modifier_of. Qed.
End Clauses4.
#[export] Hint Resolve sm_solution_modifier : simdb.

Lemma sm_where_clause {G} n (g g' : parser G) : sim n true IOpen true g g' ->
  sim n true IOpen true (where_clause_of g) (where_clause_of g').
Proof. sm @where_clause_of. Qed.
#[export] Hint Resolve sm_where_clause : simdb.

Lemma sm_sub_select {E G} n (e e' : parser E) (g g' : parser G) :
  sim (pred n) true IAny true e e' -> sim (pred n) true IOpen true g g' ->
  sim n true IOpen true (sub_select_of e g) (sub_select_of e' g').
Proof. sm @sub_select_of. Qed.
#[export] Hint Resolve sm_sub_select : simdb.

Section Patterns.
  Context {E G : Type} (n : nat) (e e' : parser E) (g g' : parser G).
  Hypothesis He : sim (pred n) true IAny true e e'.
  Hypothesis Hg : sim n true IOpen true g g'.
  Lemma sm_group_or_union : sim n true IOpen true (group_or_union_of g) (group_or_union_of g').
  Proof. sm @group_or_union_of. Qed.
  Lemma sm_optional : sim n true IOpen true (optional_of g) (optional_of g').
  Proof. sm @optional_of. Qed.
  Lemma sm_minus : sim n true IOpen true (minus_of g) (minus_of g').
  Proof. sm @minus_of. Qed.
  Lemma sm_graph_graph_pattern :
    sim n true IOpen true (graph_graph_pattern_of g) (graph_graph_pattern_of g').
  Proof. sm @graph_graph_pattern_of. Qed.
  Lemma sm_service_graph_pattern :
    sim n true IOpen true (service_graph_pattern_of g) (service_graph_pattern_of g').
  Proof. sm @service_graph_pattern_of. Qed.
End Patterns.
#[export] Hint Resolve sm_group_or_union sm_optional sm_minus sm_graph_graph_pattern
  sm_service_graph_pattern : simdb.

Lemma sm_graph_pattern_not_triples {E G} n (e e' : parser E) (g g' : parser G) :
  sim (pred n) true IAny true e e' -> sim n true IOpen true g g' ->
  sim n true IOpen true (graph_pattern_not_triples_of e g) (graph_pattern_not_triples_of e' g').
Proof. sm @graph_pattern_not_triples_of. Qed.
#[export] Hint Resolve sm_graph_pattern_not_triples : simdb.
Lemma sm_ggp_and_triples {E G} n (e e' : parser E) (g g' : parser G) :
  sim (pred n) true IAny true e e' -> sim n true IOpen true g g' ->
  sim n true IAny true (ggp_and_triples_of e g) (ggp_and_triples_of e' g').
Proof. sm @ggp_and_triples_of. Qed.
#[export] Hint Resolve sm_ggp_and_triples : simdb.
Lemma sm_ggp_sub {E G} n (e e' : parser E) (g g' : parser G) :
  sim (pred n) true IAny true e e' -> sim n true IOpen true g g' ->
  sim n false IAny true (ggp_sub_of e g) (ggp_sub_of e' g').
Proof. sm @ggp_sub_of. Qed.
#[export] Hint Resolve sm_ggp_sub : simdb.

Lemma sm_ggp_body n e e' g g' :
  sim n true IAny true e e' -> sim n true IOpen true g g' ->
  sim (S n) true IOpen true (ggp_body e g) (ggp_body e' g').
Proof. sm @ggp_body. Qed.

Lemma sm_ggp_of n e e' : sim n true IAny true e e' -> sim n true IOpen true (ggp_of e) (ggp_of e').
Proof.
  intros He. unfold ggp_of. apply fixp_sim2. intros m g g' Hm Hg. apply sm_ggp_body; [|assumption].
  eapply sim_mono; [exact He | lia].
Qed.
Lemma sm_expression_knot n e e' : sim n true IAny true e e' ->
  sim (S n) true IAny true (expression_body e (ggp_of e)) (expression_body e' (ggp_of e')).
Proof. intros He. apply sm_expression_body; [assumption | now apply sm_ggp_of]. Qed.

Lemma gd_expression : good true IAny true expression.
Proof. unfold expression. apply good_fixp. intros. now apply sm_expression_knot. Qed.
#[export] Hint Resolve gd_expression : good.
Lemma gd_group_graph_pattern : good true IOpen true group_graph_pattern.
Proof. intros n. unfold group_graph_pattern. apply sm_ggp_of, gd_expression. Qed.
#[export] Hint Resolve gd_group_graph_pattern : good.
Lemma ggp_of_eq e i : good true IAny true e -> ggp_of e i = ggp_body e (ggp_of e) i.
Proof.
  intros He. unfold ggp_of. apply (fixp_eq true IOpen true). intros n g g' Hg.
  apply sm_ggp_body; [apply He | assumption].
Qed.
Lemma group_graph_pattern_eq i :
  group_graph_pattern i = ggp_body expression group_graph_pattern i.
Proof. unfold group_graph_pattern. apply ggp_of_eq, gd_expression. Qed.
Lemma expression_eq i : expression i = expression_body expression group_graph_pattern i.
Proof.
  unfold expression at 1.
  rewrite (fixp_eq true IAny true (fun e => expression_body e (ggp_of e))); [reflexivity|].
  intros. now apply sm_expression_knot.
Qed.

(** ** the closed parsers *)
Lemma gd_built_in_call : good true IOpen true built_in_call.
Proof. gd built_in_call. Qed.
Lemma gd_primary_expression : good true IOpen true primary_expression.
Proof. gd primary_expression. Qed.
Lemma gd_relational_expression : good true IAny true relational_expression.
Proof. gd relational_expression. Qed.
Lemma gd_aggregate : good true IOpen true aggregate.
Proof. gd aggregate. Qed.
Lemma gd_arg_list : good true IOpen true arg_list.
Proof. gd arg_list. Qed.
Lemma gd_expression_list : good true IOpen true expression_list.
Proof. gd expression_list. Qed.
Lemma gd_function_call : good true IOpen true function_call.
Proof. gd function_call. Qed.
Lemma gd_iri_or_fun : good true IOpen true iri_or_fun.
Proof. gd iri_or_fun. Qed.
Lemma gd_constraint : good true IOpen true constraint.
Proof. gd constraint. Qed.
Lemma gd_filter : good true IOpen true filter.
Proof. gd filter. Qed.
Lemma gd_bind : good true IOpen true bind.
Proof. gd bind. Qed.
Lemma gd_expression_as_var : good true IOpen true expression_as_var.
Proof. gd expression_as_var. Qed.
Lemma gd_graph_pattern_not_triples : good true IOpen true graph_pattern_not_triples.
Proof. gd graph_pattern_not_triples. Qed.
Lemma gd_group_graph_pattern_sub : good false IAny true group_graph_pattern_sub.
Proof. gd group_graph_pattern_sub. Qed.
Lemma gd_select_clause : good true IOpen true select_clause.
Proof. gd select_clause. Qed.
Lemma gd_sub_select : good true IOpen true sub_select.
Proof. gd sub_select. Qed.
Lemma gd_solution_modifier : good false IOpen true solution_modifier.
Proof. gd solution_modifier. Qed.
Lemma gd_where_clause : good true IOpen true where_clause.
Proof. gd where_clause. Qed.
Lemma gd_order_clause : good true IOpen true order_clause.
Proof. gd order_clause. Qed.
Lemma gd_group_clause : good true IOpen true group_clause.
Proof. gd group_clause. Qed.
Lemma gd_having_clause : good true IOpen true having_clause.
Proof. gd having_clause. Qed.
#[export] Hint Resolve gd_select_clause gd_solution_modifier gd_where_clause : good.

(** ** queries *)
Lemma gd_select_query : good true IOpen true select_query.
Proof. gd select_query. Qed.
Lemma gd_ask_query : good true IOpen true ask_query.
Proof. gd ask_query. Qed.
Lemma gd_describe_query : good true IOpen true describe_query.
Proof. gd describe_query. Qed.
Lemma gd_sub_triples : good true IOpen true sub_triples.
Proof. gd sub_triples. Qed.
Lemma gd_sub_construct : good true IOpen true sub_construct.
Proof. gd sub_construct. Qed.
#[export] Hint Resolve gd_select_query gd_ask_query gd_describe_query gd_sub_triples
  gd_sub_construct : good.
Lemma gd_construct_query : good true IOpen true construct_query.
Proof. gd construct_query. Qed.
#[export] Hint Resolve gd_construct_query : good.
Lemma gd_sparql_query : good true IOpen true sparql_query.
Proof. gd sparql_query. Qed.
#[export] Hint Resolve gd_sparql_query : good.
Lemma gd_sparql_query_stmt : good true IOpen true sparql_query_stmt.
Proof. gd sparql_query_stmt. Qed.

(** ** updates *)
Lemma gd_braced_template : good true INever false braced_template.
Proof. gd braced_template. Qed.
#[export] Hint Resolve gd_braced_template : good.
Lemma gd_quads_entry : good true INever false quads_entry.
Proof. unfold quads_entry, quads_not_triples. gd quads_entry. Qed.
#[export] Hint Resolve gd_quads_entry : good.
Lemma gd_quads : good false INever false quads.
Proof. gd quads. Qed.
#[export] Hint Resolve gd_quads : good.
Lemma gd_quads_pattern : good true INever false quads_pattern.
Proof. gd quads_pattern. Qed.
Lemma gd_quad_data : good true INever false quad_data.
Proof. exact gd_quads_pattern. Qed.
#[export] Hint Resolve gd_quads_pattern gd_quad_data : good.
Lemma gd_insert_clause : good true INever false insert_clause.
Proof. gd insert_clause. Qed.
Lemma gd_delete_clause : good true INever false delete_clause.
Proof. gd delete_clause. Qed.
#[export] Hint Resolve gd_insert_clause gd_delete_clause : good.
Lemma gd_silent_from_to : good true INever false silent_from_to.
Proof. gd silent_from_to. Qed.
Lemma gd_silent_graph_ref_all : good true INever false silent_graph_ref_all.
Proof. gd silent_graph_ref_all. Qed.
#[export] Hint Resolve gd_silent_from_to gd_silent_graph_ref_all : good.
Lemma gd_add_stmt : good true INever false add_stmt.
Proof. gd add_stmt. Qed.
Lemma gd_move_stmt : good true INever false move_stmt.
Proof. gd move_stmt. Qed.
Lemma gd_copy_stmt : good true INever false copy_stmt.
Proof. gd copy_stmt. Qed.
Lemma gd_create_stmt : good true INever false create_stmt.
Proof. gd create_stmt. Qed.
Lemma gd_drop_stmt : good true INever false drop_stmt.
Proof. gd drop_stmt. Qed.
Lemma gd_clear_stmt : good true INever false clear_stmt.
Proof. gd clear_stmt. Qed.
Lemma gd_load_stmt : good true INever false load_stmt.
Proof. gd load_stmt. Qed.
Lemma gd_insert_data : good true INever false insert_data.
Proof. gd insert_data. Qed.
Lemma gd_delete_data : good true INever false delete_data.
Proof. gd delete_data. Qed.
Lemma gd_delete_where_data : good true INever false delete_where_data.
Proof. gd delete_where_data. Qed.
Lemma gd_delete_insert : good true INever false delete_insert.
Proof. gd delete_insert. Qed.
#[export] Hint Resolve gd_copy_stmt gd_create_stmt gd_drop_stmt gd_clear_stmt
  gd_load_stmt gd_insert_data gd_delete_data gd_delete_where_data gd_delete_insert : good.
Lemma gd_modify_stmt : good true IOpen true modify_stmt.
Proof. gd modify_stmt. Qed.
#[export] Hint Resolve gd_modify_stmt : good.
Lemma gd_update_stmt : good true IOpen true update_stmt.
Proof. gd update_stmt. Qed.
#[export] Hint Resolve gd_update_stmt : good.
Lemma sm_update_body n u u' : sim n false IOpen true u u' ->
  sim (S n) false IOpen true (update_body u) (update_body u').
Proof. sm @update_body. Qed.
Lemma gd_update : good false IOpen true update.
Proof. apply good_fixp. intros. now apply sm_update_body. Qed.
Lemma update_eq i : update i = update_body update i.
Proof. apply (fixp_eq false IOpen true). intros. now apply sm_update_body. Qed.
