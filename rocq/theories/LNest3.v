(** What a parser takes from the text has matching brackets: expressions, groups, queries and requests. *)
From Verif Require Export LNest2.
From Verif Require Import LSound MUpdate LTerm LGood2 LEval.
From Verif Require Import Nom.
Notation length := List.length (only parsing).
Open Scope N_scope.
Open Scope list_scope.

Section E.
Context {E G : Type}.
Variable e : parser E.
Hypothesis He : bal e.
Variable g : parser G.
Hypothesis Hg : bal g.

Lemma bal_comma : bal comma. Proof. bau comma. Qed.
#[local] Hint Resolve He Hg bal_comma : bal.
Lemma bal_list_of : bal (expression_list_of e). Proof. unfold expression_list_of. ba. Qed.
Lemma bal_br : bal (bracketted_expression_of e). Proof. unfold bracketted_expression_of. ba. Qed.
Lemma bal_distinct_expression : bal (distinct_expression_of e). Proof. unfold distinct_expression_of. ba. Qed.
Lemma bal_expr3 : bal (bracketted_expr3_of e). Proof. unfold bracketted_expr3_of. ba. Qed.
Lemma bal_expr2 : bal (expr2_of e). Proof. unfold expr2_of. ba. Qed.
#[local] Hint Resolve bal_list_of bal_br bal_distinct_expression bal_expr2 bal_expr3 : bal.
Lemma bal_as_var : bal (expression_as_var_of e). Proof. unfold expression_as_var_of. ba. Qed.
Lemma bal_as_var_opt : bal (expression_as_var_opt_of e). Proof. unfold expression_as_var_opt_of. ba. Qed.
Lemma bal_regex : bal (regex_expression_of e). Proof. unfold regex_expression_of. ba. Qed.
Lemma bal_substring : bal (substring_expression_of e). Proof. unfold substring_expression_of. ba. Qed.
Lemma bal_replace : bal (str_replace_expression_of e). Proof. unfold str_replace_expression_of. ba. Qed.
Lemma bal_bind : bal (bind_of e). Proof. unfold bind_of, expression_as_var_of. ba. Qed.
Lemma bal_arg_list : bal (arg_list_of e). Proof. unfold arg_list_of. ba. Qed.
#[local] Hint Resolve bal_as_var bal_as_var_opt bal_regex bal_substring bal_replace bal_bind bal_arg_list : bal.
Lemma bal_function_call : bal (function_call_of e). Proof. unfold function_call_of. ba. Qed.
Lemma bal_iri_or_fun : bal (iri_or_fun_of e). Proof. unfold iri_or_fun_of. ba. Qed.
Lemma bal_aggregate : bal (aggregate_of e). Proof. unfold aggregate_of, count_of, group_concat_of, count_target_of. ba. Qed.
#[local] Hint Resolve bal_function_call bal_iri_or_fun bal_aggregate : bal.
Lemma bal_call1 : bal (@built_in_call_1_of E G e). Proof. unfold built_in_call_1_of, call0, call1, call2. ba. Qed.
Lemma bal_call2 : bal (@built_in_call_2_of E G e). Proof. unfold built_in_call_2_of, call0, call1, call2. ba. Qed.
#[local] Hint Resolve bal_call1 bal_call2 : bal.
Lemma bal_call : bal (built_in_call_of e g). Proof. unfold built_in_call_of, call0, call1, call2. ba. Qed.
#[local] Hint Resolve bal_call : bal.
Lemma bal_primary : bal (primary_expression_of e g). Proof. unfold primary_expression_of. ba. Qed.
#[local] Hint Resolve bal_primary : bal.
Lemma bal_unary : bal (unary_expression_of e g). Proof. unfold unary_expression_of. ba. Qed.
#[local] Hint Resolve bal_unary : bal.
Lemma bal_mult : bal (mult_expression_of e g). Proof. unfold mult_expression_of. ba. Qed.
#[local] Hint Resolve bal_mult : bal.
Lemma bal_multiplicative : bal (multiplicative_expression_of e g). Proof. unfold multiplicative_expression_of. ba. Qed.
#[local] Hint Resolve bal_multiplicative : bal.
Lemma bal_add : bal (add_expression_of e g). Proof. unfold add_expression_of. ba. Qed.
#[local] Hint Resolve bal_add : bal.
Lemma bal_additive : bal (additive_expression_of e g). Proof. unfold additive_expression_of. ba. Qed.
#[local] Hint Resolve bal_additive : bal.
Lemma bal_op : bal (op_expression_of e g). Proof. unfold op_expression_of. ba. Qed.
#[local] Hint Resolve bal_op : bal.
Lemma bal_relational : bal (relational_expression_of e g). Proof. unfold relational_expression_of. ba. Qed.
#[local] Hint Resolve bal_relational : bal.
Lemma bal_conjunction : bal (conditional_and_expression_of e g). Proof. unfold conditional_and_expression_of. ba. Qed.

Lemma bal_constraint : bal (constraint_of e g). Proof. unfold constraint_of. ba. Qed.
#[local] Hint Resolve bal_constraint : bal.
Lemma bal_filter : bal (filter_of e g). Proof. unfold filter_of. ba. Qed.
Lemma bal_modifier : bal (solution_modifier_of e g).
Proof.
  unfold solution_modifier_of, group_clause_of, having_clause_of, order_clause_of, kw_by, group_condition_of, order_condition_of, order_expression_of, MExpr.order. ba.
Qed.
Lemma bal_select_clause : bal (select_clause_of e). Proof. unfold select_clause_of, select_modifier, select_vars_of, var_or_expression_as_var_of. ba. Qed.
#[local] Hint Resolve bal_filter bal_modifier bal_select_clause : bal.
Lemma bal_sub_select : bal (sub_select_of e g). Proof. unfold sub_select_of, where_clause_of. ba. Qed.
Lemma bal_pattern : bal (graph_pattern_not_triples_of e g).
Proof. unfold graph_pattern_not_triples_of, group_or_union_of, optional_of, minus_of, graph_graph_pattern_of, service_graph_pattern_of. ba. Qed.
#[local] Hint Resolve bal_sub_select bal_pattern : bal.
Lemma bal_sub : bal (ggp_sub_of e g). Proof. unfold ggp_sub_of, ggp_and_triples_of. ba. Qed.
End E.


Lemma bal_expression_body e g : bal e -> bal g -> bal (expression_body e g).
Proof. intros He Hg. pose proof (bal_conjunction e He g Hg). unfold expression_body. ba. Qed.
Lemma bal_ggp_of e : bal e -> bal (ggp_of e).
Proof.
  intros He. unfold ggp_of. apply sound_fixp. intros g Hg. pose proof (bal_sub_select e He g Hg) as H1. pose proof (bal_sub e He g Hg) as H2. unfold ggp_body. ba.
Qed.
Lemma bal_expression : bal expression.
Proof. unfold expression. apply sound_fixp. intros e He. apply bal_expression_body; [exact He|]. now apply bal_ggp_of. Qed.
Lemma bal_group : bal group_graph_pattern.
Proof. apply bal_ggp_of, bal_expression. Qed.
#[export] Hint Resolve bal_expression bal_group : bal.

(** ** Queries *)
Lemma bal_modifiers : bal solution_modifier. Proof. apply bal_modifier; [exact bal_expression|exact bal_group]. Qed.
Lemma bal_selects : bal select_clause. Proof. apply bal_select_clause; exact bal_expression. Qed.
Lemma bal_where : bal where_clause. Proof. unfold where_clause, where_clause_of. ba. Qed.
Lemma bal_prologue : bal prologue. Proof. unfold prologue, base_decl, prefix_decl. ba. Qed.
Lemma bal_default_or_named : bal default_or_named_iri. Proof. unfold default_or_named_iri, named_iri. ba. Qed.
#[export] Hint Resolve bal_modifiers bal_selects bal_where bal_prologue bal_default_or_named : bal.
Lemma bal_dataset : bal data_set_clause. Proof. bau data_set_clause. Qed.
#[export] Hint Resolve bal_dataset : bal.
Lemma bal_targets : bal var_or_iris_or_all. Proof. bau var_or_iris_or_all. Qed.
#[export] Hint Resolve bal_targets : bal.
Lemma bal_query : bal sparql_query.
Proof. unfold sparql_query, select_query, construct_query, sub_construct, sub_triples, describe_query, ask_query. ba. Qed.
#[export] Hint Resolve bal_query : bal.
Lemma bal_query_stmt : bal sparql_query_stmt. Proof. bau sparql_query_stmt. Qed.

(** ** Updates *)
Lemma bal_braced : bal braced_template. Proof. bau braced_template. Qed.
#[export] Hint Resolve bal_braced : bal.
Lemma bal_quads : bal quads. Proof. unfold quads, quads_entry, quads_not_triples. ba. Qed.
#[export] Hint Resolve bal_quads : bal.
Lemma bal_quads_pattern : bal quads_pattern. Proof. bau quads_pattern. Qed.
#[export] Hint Resolve bal_quads_pattern : bal.
Lemma bal_graph_ref : bal graph_ref. Proof. bau graph_ref. Qed.
#[export] Hint Resolve bal_graph_ref : bal.
Lemma bal_graph_or_default : bal graph_or_default. Proof. bau graph_or_default. Qed.
Lemma bal_graph_ref_all : bal graph_ref_all. Proof. bau graph_ref_all. Qed.
#[export] Hint Resolve bal_graph_or_default bal_graph_ref_all : bal.
Lemma bal_delete_insert : bal delete_insert. Proof. unfold delete_insert, insert_clause, delete_clause. ba. Qed.
#[export] Hint Resolve bal_delete_insert : bal.
Lemma bal_using : bal using_clause. Proof. bau using_clause. Qed.
#[export] Hint Resolve bal_using : bal.
Lemma bal_modify : bal modify_stmt. Proof. bau modify_stmt. Qed.
#[export] Hint Resolve bal_modify : bal.
Lemma bal_update_stmt : bal update_stmt.
Proof.
  unfold update_stmt, load_stmt, clear_stmt, drop_stmt, create_stmt, copy_stmt, move_stmt, add_stmt, insert_data, delete_data, delete_where_data, quad_data, silent_graph_ref_all, silent_from_to, stmt. ba.
Qed.
#[export] Hint Resolve bal_update_stmt : bal.
Lemma bal_update : bal update.
Proof. unfold update. apply sound_fixp. intros p H. unfold update_body. ba. Qed.
