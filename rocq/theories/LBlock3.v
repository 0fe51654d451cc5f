(** Inside a block the parsers do not look behind its closing brace: expressions and groups. *)
From Verif Require Export LBlock2.
From Verif Require Import LTerm LGood2 LEval.
From Verif Require Import Nom.
Notation length := List.length (only parsing).
Open Scope N_scope.
Open Scope list_scope.

Section E.
Context {E G : Type}.
Variable e : parser E.
Hypothesis He : loc e.
Variable g : parser G.
Hypothesis Hg : loc g.

Lemma loc_comma : loc comma. Proof. lou comma. Qed.
#[local] Hint Resolve He Hg loc_comma : loc.
Lemma loc_list_of : loc (expression_list_of e). Proof. unfold expression_list_of. lo. Qed.
Lemma loc_br : loc (bracketted_expression_of e). Proof. unfold bracketted_expression_of. lo. Qed.
Lemma loc_distinct_expression : loc (distinct_expression_of e). Proof. unfold distinct_expression_of. lo. Qed.
Lemma loc_expr3 : loc (bracketted_expr3_of e). Proof. unfold bracketted_expr3_of. lo. Qed.
Lemma loc_expr2 : loc (expr2_of e). Proof. unfold expr2_of. lo. Qed.
#[local] Hint Resolve loc_list_of loc_br loc_distinct_expression loc_expr2 loc_expr3 : loc.
Lemma loc_as_var : loc (expression_as_var_of e). Proof. unfold expression_as_var_of. lo. Qed.
Lemma loc_as_var_opt : loc (expression_as_var_opt_of e). Proof. unfold expression_as_var_opt_of. lo. Qed.
Lemma loc_regex : loc (regex_expression_of e). Proof. unfold regex_expression_of. lo. Qed.
Lemma loc_substring : loc (substring_expression_of e). Proof. unfold substring_expression_of. lo. Qed.
Lemma loc_replace : loc (str_replace_expression_of e). Proof. unfold str_replace_expression_of. lo. Qed.
Lemma loc_bind : loc (bind_of e). Proof. unfold bind_of, expression_as_var_of. lo. Qed.
Lemma loc_arg_list : loc (arg_list_of e). Proof. unfold arg_list_of. lo. Qed.
#[local] Hint Resolve loc_as_var loc_as_var_opt loc_regex loc_substring loc_replace loc_bind loc_arg_list : loc.
Lemma loc_function_call : loc (function_call_of e). Proof. unfold function_call_of. lo. Qed.
Lemma loc_iri_or_fun : loc (iri_or_fun_of e). Proof. unfold iri_or_fun_of. lo. Qed.
Lemma loc_aggregate : loc (aggregate_of e). Proof. unfold aggregate_of, count_of, group_concat_of, count_target_of. lo. Qed.
#[local] Hint Resolve loc_function_call loc_iri_or_fun loc_aggregate : loc.
Lemma loc_call1 : loc (@built_in_call_1_of E G e). Proof. unfold built_in_call_1_of, call0, call1, call2. lo. Qed.
Lemma loc_call2 : loc (@built_in_call_2_of E G e). Proof. unfold built_in_call_2_of, call0, call1, call2. lo. Qed.
#[local] Hint Resolve loc_call1 loc_call2 : loc.
Lemma loc_call : loc (built_in_call_of e g). Proof. unfold built_in_call_of, call0, call1, call2. lo. Qed.
#[local] Hint Resolve loc_call : loc.
Lemma loc_primary : loc (primary_expression_of e g). Proof. unfold primary_expression_of. lo. Qed.
#[local] Hint Resolve loc_primary : loc.
Lemma loc_unary : loc (unary_expression_of e g). Proof. unfold unary_expression_of. lo. Qed.
#[local] Hint Resolve loc_unary : loc.
Lemma loc_mult : loc (mult_expression_of e g). Proof. unfold mult_expression_of. lo. Qed.
#[local] Hint Resolve loc_mult : loc.
Lemma loc_multiplicative : loc (multiplicative_expression_of e g). Proof. unfold multiplicative_expression_of. lo. Qed.
#[local] Hint Resolve loc_multiplicative : loc.
Lemma loc_add : loc (add_expression_of e g). Proof. unfold add_expression_of. lo. Qed.
#[local] Hint Resolve loc_add : loc.
Lemma loc_additive : loc (additive_expression_of e g). Proof. unfold additive_expression_of. lo. Qed.
#[local] Hint Resolve loc_additive : loc.
Lemma loc_op : loc (op_expression_of e g). Proof. unfold op_expression_of. lo. Qed.
#[local] Hint Resolve loc_op : loc.
Lemma loc_relational : loc (relational_expression_of e g). Proof. unfold relational_expression_of. lo. Qed.
#[local] Hint Resolve loc_relational : loc.
Lemma loc_conjunction : loc (conditional_and_expression_of e g). Proof. unfold conditional_and_expression_of. lo. Qed.

Lemma loc_constraint : loc (constraint_of e g). Proof. unfold constraint_of. lo. Qed.
#[local] Hint Resolve loc_constraint : loc.
Lemma loc_filter : loc (filter_of e g). Proof. unfold filter_of. lo. Qed.
Lemma loc_modifier : loc (solution_modifier_of e g).
Proof.
  unfold solution_modifier_of, group_clause_of, having_clause_of, order_clause_of, kw_by, group_condition_of, order_condition_of, order_expression_of, MExpr.order. lo.
Qed.
Lemma loc_select_clause : loc (select_clause_of e). Proof. unfold select_clause_of, select_modifier, select_vars_of, var_or_expression_as_var_of. lo. Qed.
#[local] Hint Resolve loc_filter loc_modifier loc_select_clause : loc.
Lemma loc_sub_select : loc (sub_select_of e g). Proof. unfold sub_select_of, where_clause_of. lo. Qed.
Lemma loc_pattern : loc (graph_pattern_not_triples_of e g).
Proof. unfold graph_pattern_not_triples_of, group_or_union_of, optional_of, minus_of, graph_graph_pattern_of, service_graph_pattern_of. lo. Qed.
#[local] Hint Resolve loc_sub_select loc_pattern : loc.
Lemma loc_sub : loc (ggp_sub_of e g). Proof. unfold ggp_sub_of, ggp_and_triples_of. lo. Qed.
End E.

Lemma loc_expression_body e g : loc e -> loc g -> loc (expression_body e g).
Proof. intros He Hg. unfold expression_body. apply loc_map, loc_sepne; [lo|]. now apply loc_conjunction. Qed.
Lemma loc_content e g : loc e -> loc g -> loc (sp_enc (alt [map (sub_select_of e g) GgpSubSelect; map (ggp_sub_of e g) GgpSub])).
Proof.
  intros He Hg. pose proof (loc_sub_select e He g Hg) as H1. pose proof (loc_sub e He g Hg) as H2. lo.
Qed.
Lemma loc_ggp_body e g : loc e -> loc g -> loc (ggp_body e g).
Proof. intros He Hg. unfold ggp_body. apply loc_braces; [exact open_brace|now apply loc_content|intros d; exact (close_brace (S d))]. Qed.

(** ** The knot *)
Fixpoint knot (m k : nat) : parser Expression :=
  match k with
  | O => fun _ => Err OutOfFuel
  | S k => expression_body (knot m k) (iter m (ggp_body (knot m k)))
  end.
Lemma loc_knot m k : loc (knot m k).
Proof.
  induction k as [|k IH]; [apply loc_fail; auto|]. cbn [knot]. apply loc_expression_body; [exact IH|]. apply loc_iter. intros p Hp. now apply loc_ggp_body.
Qed.
Lemma sim_ggp n e m : sim n true IAny true expression e -> (n <= m)%nat -> sim n true IOpen true group_graph_pattern (iter m (ggp_body e)).
Proof.
  revert m. induction n as [|n IH]; intros m He L; [intros i Hi; lia|]. destruct m as [|m]; [lia|]. cbn [iter].
  intros i Hi. rewrite group_graph_pattern_eq. apply (sm_ggp_body n); [| |exact Hi].
  - apply (sim_mono n (S n)); [exact He|lia].
  - apply IH; [apply (sim_mono n (S n)); [exact He|lia]|lia].
Qed.
Lemma sim_knot m k : (k <= m)%nat -> sim k true IAny true expression (knot m k).
Proof.
  induction k as [|k IH]; intros L; [intros i Hi; lia|]. cbn [knot]. intros i Hi. rewrite expression_eq. apply (sm_expression_body k); [| |exact Hi].
  - apply IH. lia.
  - apply sim_ggp; [apply IH|]; lia.
Qed.
Lemma loc_expression : loc expression.
Proof.
  intros d i x D. set (n := S (length (i ++ x))).
  assert (K : forall j, (length j < n)%nat -> expression j = knot n n j) by (intros j L; exact (proj1 (sim_knot n n (le_n _) j L))).
  assert (L : (length i < n)%nat) by (unfold n; rewrite app_length; lia).
  rewrite (K (i ++ x) (le_n _)), (K i L). exact (loc_knot n n d i x D).
Qed.
Lemma loc_group : loc group_graph_pattern.
Proof.
  unfold group_graph_pattern, ggp_of. apply (loc_fixp true IOpen true).
  - intros n g g' Hg. apply sm_ggp_body; [apply gd_expression|exact Hg].
  - intros p Hp. apply loc_ggp_body; [exact loc_expression|exact Hp].
Qed.

(** ** A block *)
Definition content := sp_enc (alt [map (sub_select_of expression group_graph_pattern) GgpSubSelect; map (ggp_sub_of expression group_graph_pattern) GgpSub]).
Lemma opened i : group_graph_pattern (123 :: i) = terminated content (chr 125) i.
Proof.
  rewrite group_graph_pattern_eq. unfold ggp_body. fold content. unfold delimited, preceded. unfold map at 1. unfold pair at 1. cbn [chr].
  change (123 =? c_ "{") with true. cbv iota. change (c_ "}") with 125. destruct (terminated content (chr 125) i); reflexivity.
Qed.
Lemma block_local t x : block t -> group_graph_pattern (t ++ x) = shifted x (group_graph_pattern t) /\ forall r g, group_graph_pattern t = Ok r g -> r = [].
Proof.
  intros (i & -> & D). cbn [app]. rewrite !opened.
  destruct (loc_content expression group_graph_pattern loc_expression loc_group O i x D) as [E R]. fold content in E, R.
  unfold terminated, map, pair. rewrite E. destruct (content i) as [r a|[]]; cbn [shifted]; try (split; [reflexivity|discriminate]).
  destruct (R _ _ eq_refl) as [D1 _]. destruct (close_brace O r x D1) as [E1 R1]. rewrite E1. destruct (chr 125 r) as [r' b|[]]; cbn [shifted]; (split; [reflexivity|]); try discriminate.
  intros r2 g X. injection X as <- _. destruct (R1 _ _ eq_refl) as [D2 _]. now inversion D2.
Qed.
