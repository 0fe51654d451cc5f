(** The grammar of expressions and patterns grows with what counts as an expression or a pattern;
    hence the two inductive relations of Spec.v satisfy their rules as equivalences. *)
From Verif Require Export LSound4.
Notation length := List.length (only parsing).
Open Scope N_scope.
Open Scope list_scope.

Create HintDb mono discriminated.
#[export] Hint Constants Opaque : mono.
Lemma either_mono (P P' Q Q' : str -> Prop) t : (forall u, P u -> P' u) -> (forall u, Q u -> Q' u) ->
  (P || Q)%lang t -> (P' || Q')%lang t.
Proof. intros HP HQ [H|H]; [left|right]; auto. Qed.

Ltac mono :=
  cbv beta; lazymatch goal with
  | |- (_ ;; _) _ -> (_ ;; _) _ => apply seq_mono; intros ?; mono
  | |- (_ || _)%lang _ -> (_ || _)%lang _ => apply either_mono; intros ?; mono
  | |- (_ <> [] /\ _) -> _ => let N := fresh in let H := fresh in intros [N H]; split; [exact N | revert H; mono]
  | |- opt_ _ _ _ -> opt_ _ _ _ => apply opt_mono; intros ? ?; cbv beta; mono
  | |- star _ _ _ -> star _ _ _ => apply star_mono; intros ? ?; cbv beta; mono
  | |- sepby _ _ _ _ -> sepby _ _ _ _ => apply sepby_mono; [intros ? ? | intros ?]; cbv beta; mono
  | |- sepby1 _ _ _ _ -> sepby1 _ _ _ _ => unfold sepby1; mono
  | |- ?P -> ?P => exact (fun H => H)
  | |- _ => first [ solve [eauto with mono nocore] ]
  end.
Ltac cases x := repeat match goal with |- context [match ?y with _ => _ end] => is_var y; destruct y end.
Ltac mon R := unfold R; cases tt; cbv beta; mono.

Section Mono.
  Context {E G : Type} (RE RE' : E -> str -> Prop) (RG RG' : G -> str -> Prop).
  Context (HE : forall e t, RE e t -> RE' e t) (HG : forall g t, RG g t -> RG' g t).
  Hint Resolve HE HG : mono.
  Lemma R_arg_list_mono (a : ArgList E) t : R_arg_list RE a t -> R_arg_list RE' a t.
  Proof using HE . mon @R_arg_list. Qed.
  Hint Resolve R_arg_list_mono : mono.
  Lemma R_iri_or_fun_mono (i : IriOrFunction E) t : R_iri_or_fun RE i t -> R_iri_or_fun RE' i t.
  Proof using HE . mon @R_iri_or_fun. Qed.
  Hint Resolve R_iri_or_fun_mono : mono.
  Lemma R_function_call_mono (f : FunctionCall E) t : R_function_call RE f t -> R_function_call RE' f t.
  Proof using HE . mon @R_function_call. Qed.
  Hint Resolve R_function_call_mono : mono.
  Lemma R_expression_list_mono (l : ExpressionList E) t : R_expression_list RE l t -> R_expression_list RE' l t.
  Proof using HE . mon @R_expression_list. Qed.
  Hint Resolve R_expression_list_mono : mono.
  Lemma R_expr3_mono (r : RegexExpression E) t : R_expr3 RE r t -> R_expr3 RE' r t.
  Proof using HE . mon @R_expr3. Qed.
  Hint Resolve R_expr3_mono : mono.
  Lemma R_str_replace_mono (r : StrReplaceExpression E) t : R_str_replace RE r t -> R_str_replace RE' r t.
  Proof using HE . mon @R_str_replace. Qed.
  Hint Resolve R_str_replace_mono : mono.
  Lemma R_distinct_expression_mono (d : DistinctExpression E) t : R_distinct_expression RE d t -> R_distinct_expression RE' d t.
  Proof using HE . mon @R_distinct_expression. Qed.
  Hint Resolve R_distinct_expression_mono : mono.
  Lemma R_count_target_mono (c : CountTarget E) t : R_count_target RE c t -> R_count_target RE' c t.
  Proof using HE . mon @R_count_target. Qed.
  Hint Resolve R_count_target_mono : mono.
  Lemma R_aggregate_mono (a : Aggregate E) t : R_aggregate RE a t -> R_aggregate RE' a t.
  Proof using HE . mon @R_aggregate. Qed.
  Hint Resolve R_aggregate_mono : mono.
  Lemma fun1_mono (k : string) (e : E) t : fun1 RE k e t -> fun1 RE' k e t.
  Proof using HE . mon @fun1. Qed.
  Hint Resolve fun1_mono : mono.
  Lemma fun2_mono (k : string) (a b : E) t : fun2 RE k a b t -> fun2 RE' k a b t.
  Proof using HE . mon @fun2. Qed.
  Hint Resolve fun2_mono : mono.
  Lemma R_bracketted_mono (e : E) t : R_bracketted RE e t -> R_bracketted RE' e t.
  Proof using HE . mon @R_bracketted. Qed.
  Hint Resolve R_bracketted_mono : mono.
  Lemma R_built_in_mono (b : BuiltInCall E G) t : R_built_in RE RG b t -> R_built_in RE' RG' b t.
  Proof using HE HG. mon @R_built_in. Qed.
  Hint Resolve R_built_in_mono : mono.
  Lemma R_primary_mono (p : PrimaryExpression E G) t : R_primary RE RG p t -> R_primary RE' RG' p t.
  Proof using HE HG. mon @R_primary. Qed.
  Hint Resolve R_primary_mono : mono.
  Lemma R_unary_mono (u : UnaryExpression E G) t : R_unary RE RG u t -> R_unary RE' RG' u t.
  Proof using HE HG. mon @R_unary. Qed.
  Hint Resolve R_unary_mono : mono.
  Lemma R_mult_mono (m : MultExpression E G) t : R_mult RE RG m t -> R_mult RE' RG' m t.
  Proof using HE HG. mon @R_mult. Qed.
  Hint Resolve R_mult_mono : mono.
  Lemma R_multiplicative_mono (m : MultiplicativeExpression E G) t : R_multiplicative RE RG m t -> R_multiplicative RE' RG' m t.
  Proof using HE HG. mon @R_multiplicative. Qed.
  Hint Resolve R_multiplicative_mono : mono.
  Lemma R_add_mono (a : AddExpression E G) t : R_add RE RG a t -> R_add RE' RG' a t.
  Proof using HE HG. mon @R_add. Qed.
  Hint Resolve R_add_mono : mono.
  Lemma R_additive_mono (a : AdditiveExpression E G) t : R_additive RE RG a t -> R_additive RE' RG' a t.
  Proof using HE HG. mon @R_additive. Qed.
  Hint Resolve R_additive_mono : mono.
  Lemma R_op_mono (o : OpExpression E G) t : R_op RE RG o t -> R_op RE' RG' o t.
  Proof using HE HG. mon @R_op. Qed.
  Hint Resolve R_op_mono : mono.
  Lemma R_relational_mono (r : RelationalExpression E G) t : R_relational RE RG r t -> R_relational RE' RG' r t.
  Proof using HE HG. mon @R_relational. Qed.
  Hint Resolve R_relational_mono : mono.
  Lemma R_conditional_and_mono (c : ConditionalAndExpression E G) t : R_conditional_and RE RG c t -> R_conditional_and RE' RG' c t.
  Proof using HE HG. mon @R_conditional_and. Qed.
  Hint Resolve R_conditional_and_mono : mono.
  Lemma R_constraint_mono (c : Constraint E G) t : R_constraint RE RG c t -> R_constraint RE' RG' c t.
  Proof using HE HG. mon @R_constraint. Qed.
  Hint Resolve R_constraint_mono : mono.
  Lemma R_expr_as_var_mono (x : ExpressionAsVar E) t : R_expr_as_var RE x t -> R_expr_as_var RE' x t.
  Proof using HE . mon @R_expr_as_var. Qed.
  Hint Resolve R_expr_as_var_mono : mono.
  Lemma R_expr_as_var_opt_mono (x : ExpressionAsVarOpt E) t : R_expr_as_var_opt RE x t -> R_expr_as_var_opt RE' x t.
  Proof using HE . mon @R_expr_as_var_opt. Qed.
  Hint Resolve R_expr_as_var_opt_mono : mono.
  Lemma R_order_condition_mono (o : OrderCondition E G) t : R_order_condition RE RG o t -> R_order_condition RE' RG' o t.
  Proof using HE HG. mon @R_order_condition. Qed.
  Hint Resolve R_order_condition_mono : mono.
  Lemma R_group_condition_mono (g : GroupCondition E G) t : R_group_condition RE RG g t -> R_group_condition RE' RG' g t.
  Proof using HE HG. mon @R_group_condition. Qed.
  Hint Resolve R_group_condition_mono : mono.
  Lemma R_group_clause_mono (g : GroupClause E G) t : R_group_clause RE RG g t -> R_group_clause RE' RG' g t.
  Proof using HE HG. mon @R_group_clause. Qed.
  Hint Resolve R_group_clause_mono : mono.
  Lemma R_order_clause_mono (g : OrderClause E G) t : R_order_clause RE RG g t -> R_order_clause RE' RG' g t.
  Proof using HE HG. mon @R_order_clause. Qed.
  Hint Resolve R_order_clause_mono : mono.
  Lemma R_having_clause_mono (g : HavingClause E G) t : R_having_clause RE RG g t -> R_having_clause RE' RG' g t.
  Proof using HE HG. mon @R_having_clause. Qed.
  Hint Resolve R_having_clause_mono : mono.
  Lemma R_modifier_mono (m : SolutionModifier E G) t : R_modifier RE RG m t -> R_modifier RE' RG' m t.
  Proof using HE HG. mon @R_modifier. Qed.
  Hint Resolve R_modifier_mono : mono.
  Lemma R_where_mono (g : G) t : R_where RG g t -> R_where RG' g t.
  Proof using  HG. mon @R_where. Qed.
  Hint Resolve R_where_mono : mono.
  Lemma R_select_var_mono (v : VarOrExpressionAsVar E) t : R_select_var RE v t -> R_select_var RE' v t.
  Proof using HE . mon @R_select_var. Qed.
  Hint Resolve R_select_var_mono : mono.
  Lemma R_select_vars_mono (v : SelectVars E) t : R_select_vars RE v t -> R_select_vars RE' v t.
  Proof using HE . mon @R_select_vars. Qed.
  Hint Resolve R_select_vars_mono : mono.
  Lemma R_select_clause_mono (s : SelectClause E) t : R_select_clause RE s t -> R_select_clause RE' s t.
  Proof using HE . mon @R_select_clause. Qed.
  Hint Resolve R_select_clause_mono : mono.
  Lemma R_sub_select_mono (s : SubSelect E G) t : R_sub_select RE RG s t -> R_sub_select RE' RG' s t.
  Proof using HE HG. mon @R_sub_select. Qed.
  Hint Resolve R_sub_select_mono : mono.
  Lemma R_pattern_mono (p : GraphPatternNotTriples E G) t : R_pattern RE RG p t -> R_pattern RE' RG' p t.
  Proof using HE HG. mon @R_pattern. Qed.
  Hint Resolve R_pattern_mono : mono.
  Lemma R_pattern_and_triples_mono (p : GraphPatternAndTriples E G) t : R_pattern_and_triples RE RG p t -> R_pattern_and_triples RE' RG' p t.
  Proof using HE HG. mon @R_pattern_and_triples. Qed.
  Hint Resolve R_pattern_and_triples_mono : mono.
  Lemma R_group_sub_mono (g : GroupGraphPatternSub E G) t : R_group_sub RE RG g t -> R_group_sub RE' RG' g t.
  Proof using HE HG. mon @R_group_sub. Qed.
  Hint Resolve R_group_sub_mono : mono.
End Mono.

Lemma expression_rule_mono (RE RE' : Expression -> str -> Prop) (RG RG' : GroupGraphPattern -> str -> Prop) e t :
  (forall e t, RE e t -> RE' e t) -> (forall g t, RG g t -> RG' g t) ->
  expression_rule RE RG e t -> expression_rule RE' RG' e t.
Proof.
  intros HE HG. unfold expression_rule. destruct e. intros [N H]. split; [assumption|]. revert H.
  apply sepby_mono; [|auto]. intros a u. now apply R_conditional_and_mono.
Qed.
Lemma ggp_rule_mono (RE RE' : Expression -> str -> Prop) (RG RG' : GroupGraphPattern -> str -> Prop) g t :
  (forall e t, RE e t -> RE' e t) -> (forall g t, RG g t -> RG' g t) ->
  ggp_rule RE RG g t -> ggp_rule RE' RG' g t.
Proof.
  intros HE HG. unfold ggp_rule.
  pose proof (R_sub_select_mono _ _ _ _ HE HG) as H1. pose proof (R_group_sub_mono _ _ _ _ HE HG) as H2.
  destruct g; mono.
Qed.
Lemma R_expression_iff e t : R_expression e t <-> expression_rule R_expression R_ggp e t.
Proof.
  split; [|apply R_expression_rule]. intros [RE RG e' t' HE HG H]. revert H. now apply expression_rule_mono.
Qed.
Lemma R_ggp_iff g t : R_ggp g t <-> ggp_rule R_expression R_ggp g t.
Proof.
  split; [|apply R_ggp_rule]. intros [RE RG g' t' HE HG H]. revert H. now apply ggp_rule_mono.
Qed.
