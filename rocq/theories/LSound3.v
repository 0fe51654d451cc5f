(** Soundness of expressions, graph patterns, queries and updates. *)
From Verif Require Export LSound2.
Notation length := List.length (only parsing).
Open Scope N_scope.
Open Scope list_scope.

Ltac sdal p := unfold p; alts; (eapply sound_map; [sdv|]); write.

Section Core.
  Context {E G : Type} (e : parser E) (g : parser G) (RE : E -> str -> Prop) (RG : G -> str -> Prop).
  Context (He : sound e RE) (Hg : sound g RG).

  Lemma sd_comma : eats comma comma_.
  Proof. unfold comma. eapply eats_of; [sdv|]. write. Qed.
  Hint Resolve sd_comma : sound.
  Lemma sd_bracketted_expression_of : sound (bracketted_expression_of e) (R_bracketted RE).
  Proof using He. sdw @bracketted_expression_of. Qed.
  Lemma sd_expr2_of : sound (expr2_of e) (fun ab => RE (fst ab) ;; comma_ ;; RE (snd ab)).
  Proof using He. sdw @expr2_of. Qed.
  Hint Resolve sd_bracketted_expression_of sd_expr2_of : sound.
  Lemma sd_bracketted_expr3_of : sound (bracketted_expr3_of e) (fun '(a, (b, c)) => R_expr3 RE (MkRegex a b c)).
  Proof using He. sdw @bracketted_expr3_of. Qed.
  Hint Resolve sd_bracketted_expr3_of : sound.
  Lemma sd_expression_as_var_opt_of : sound (expression_as_var_opt_of e) (R_expr_as_var_opt RE).
  Proof using He.
    unfold expression_as_var_opt_of. eapply sound_weaken.
    - eapply sound_delimited; [sde| |sde]. unfold sp_enc at 1. eapply sound_delimited; [sde| |sde].
      eapply sound_map with (Q := fun x => match x with MkExpressionAsVarOpt e v => RE e ;; opt_ (fun v => (blank1 ;; kw "as" ;; blank1) ;; R_var v) v end);
        [sdv|write].
    - intros [x v]. write.
  Qed.
  Lemma sd_expression_as_var_of : sound (expression_as_var_of e) (R_expr_as_var RE).
  Proof using He.
    unfold expression_as_var_of. eapply sound_weaken.
    - eapply sound_delimited; [sde| |sde]. unfold sp_enc at 1. eapply sound_delimited; [sde| |sde].
      eapply sound_map with (Q := fun x => match x with MkExpressionAsVar e v => RE e ;; (blank ;; kw "as" ;; blank) ;; R_var v end);
        [sdv|write].
    - intros [x v]. write.
  Qed.
  Lemma sd_expression_list_of : sound (expression_list_of e) (R_expression_list RE).
  Proof using He. sdal @expression_list_of. Qed.
  Lemma sd_distinct_expression_of : sound (distinct_expression_of e) (R_distinct_expression RE).
  Proof using He. sdm @distinct_expression_of. Qed.
  Lemma sd_arg_list_of : sound (arg_list_of e) (R_arg_list RE).
  Proof using He. sdal @arg_list_of. Qed.
  Hint Resolve sd_expression_as_var_opt_of sd_expression_as_var_of sd_expression_list_of sd_distinct_expression_of sd_arg_list_of : sound.
  Lemma sd_bind_of : sound (bind_of e) (fun x => kw "bind" ;; blank1 ;; R_expr_as_var RE x).
  Proof using He. sdw @bind_of. Qed.
  Lemma sd_function_call_of : sound (function_call_of e) (R_function_call RE).
  Proof using He. sdm @function_call_of. Qed.
  Lemma sd_iri_or_fun_of : sound (iri_or_fun_of e) (R_iri_or_fun RE).
  Proof using He. sdm @iri_or_fun_of. Qed.
  Lemma sd_regex_expression_of : sound (regex_expression_of e) (fun r => kw "regex" ;; blank1 ;; R_expr3 RE r).
  Proof using He. sdm @regex_expression_of. Qed.
  Lemma sd_substring_expression_of : sound (substring_expression_of e) (fun r => kw "substr" ;; blank1 ;; R_expr3 RE r).
  Proof using He. sdm @substring_expression_of. Qed.
  Lemma sd_str_replace_expression_of : sound (str_replace_expression_of e) (R_str_replace RE).
  Proof using He. sdm @str_replace_expression_of. Qed.
  Lemma sd_count_target_of : sound (count_target_of e) (R_count_target RE).
  Proof using He. sdal @count_target_of. Qed.
  Hint Resolve sd_bind_of sd_function_call_of sd_iri_or_fun_of sd_regex_expression_of sd_substring_expression_of
    sd_str_replace_expression_of sd_count_target_of : sound.
  Lemma sd_count_of : sound (count_of e) (fun c => R_aggregate RE (AgCount c)).
  Proof using He. sdm @count_of. Qed.
  Lemma sd_group_concat_of : sound (group_concat_of e) (fun c => R_aggregate RE (AgGroupConcat c)).
  Proof using He.
    unfold group_concat_of. eapply sound_map.
    - unfold preceded_tag. eapply sound_preceded; [sde|]. unfold bracketted. eapply sound_delimited; [sde| |sde].
      eapply sound_pair; [sdv|]. eapply sound_opt.
      eapply sound_weaken with (R' := R_separator); [sdv|write].
    - write.
  Qed.
  Hint Resolve sd_count_of sd_group_concat_of : sound.
  Lemma sd_aggregate_of : sound (aggregate_of e) (R_aggregate RE).
  Proof using He. unfold aggregate_of. alts; (eapply sound_map; [sdv|]); first [intros; assumption | write]. Qed.
  Hint Resolve sd_aggregate_of : sound.

  Lemma sd_call1 k K (R : BuiltInCall E G -> str -> Prop) : kw_ok (s_ k) = true -> (forall x t, fun1 RE k x t -> R (K x) t) ->
    sound (call1 e (s_ k) K) R.
  Proof using He.
    intros Hk HK. unfold call1. eapply sound_map.
    - unfold preceded_bracketted, preceded_tag. eapply sound_preceded; [eapply eats_terminated; [now apply eats_tag_no_case|sde]|sdv].
    - intros x t H. apply HK. write.
  Qed.
  Lemma sd_call2 k K (R : BuiltInCall E G -> str -> Prop) : kw_ok (s_ k) = true -> (forall x y t, fun2 RE k x y t -> R (K x y) t) ->
    sound (call2 e (s_ k) K) R.
  Proof using He.
    intros Hk HK. unfold call2, expr2_of. eapply sound_map.
    - unfold preceded_bracketted, preceded_tag. eapply sound_preceded; [eapply eats_terminated; [now apply eats_tag_no_case|sde]|sdv].
    - intros [x y] t H. apply HK. write.
  Qed.
  Lemma sd_call0 k K (R : BuiltInCall E G -> str -> Prop) : kw_ok (s_ k) = true -> (forall t, fun0 k t -> R K t) ->
    sound (call0 (s_ k) K) R.
  Proof.
    intros Hk HK. unfold call0. eapply sound_map.
    - unfold preceded_bracketted, preceded_tag. eapply sound_preceded; [eapply eats_terminated; [now apply eats_tag_no_case|sde]|].
      unfold bracketted. eapply sound_delimited; [sde|apply sd_nil|sde].
    - intros x t H. apply HK. destruct H as (u & v & -> & (u1 & u2 & -> & H1 & H2) & v1 & v2 & -> & H3 & w1 & w2 & -> & H4 & H5).
      unfold fun0. rewrite <- app_assoc. repeat (apply seq_intro; [assumption|]). assumption.
  Qed.
  Ltac call := lazymatch goal with
    | |- sound (call1 _ _ _) _ => apply sd_call1; [reflexivity | intros; first [assumption | left; assumption | right; left; assumption
        | right; right; left; assumption | right; right; right; left; assumption | right; right; right; right; assumption]]
    | |- sound (call2 _ _ _) _ => apply sd_call2; [reflexivity | intros; assumption]
    | |- sound (call0 _ _) _ => apply sd_call0; [reflexivity | intros; assumption]
    | |- sound (map _ _) _ => eapply sound_map; [sdv | write]
    end.
  Lemma sd_bnode_arg : sound (alt [ map e Some; map nil_ (fun _ => None) ])
    (fun o => match o with Some x => RE x | None => R_nil end).
  Proof using He. alts; (eapply sound_map; [sdv|]); intros; assumption. Qed.
  Hint Resolve sd_bnode_arg : sound.
  Lemma sd_built_in_call_1_of : sound (built_in_call_1_of e) (R_built_in RE RG).
  Proof using He.
    unfold built_in_call_1_of. alts; try call.
    eapply sound_map; [sdv|]. intros [x|] t H; cbv beta iota in H; [write|].
    destruct H as (u & v & -> & (u1 & u2 & -> & H1 & H2) & v1 & v2 & -> & H3 & w1 & w2 & -> & H4 & H5).
    cbn [R_built_in]. unfold fun0. rewrite <- app_assoc. repeat (apply seq_intro; [assumption|]). assumption.
  Qed.
  Lemma sd_built_in_call_2_of : sound (built_in_call_2_of e) (R_built_in RE RG).
  Proof using He. unfold built_in_call_2_of. alts; call. Qed.
  Lemma sd_built_in_call_of : sound (built_in_call_of e g) (R_built_in RE RG).
  Proof using He Hg.
    unfold built_in_call_of. alts; try call; [apply sd_built_in_call_1_of | apply sd_built_in_call_2_of].
  Qed.
  Hint Resolve sd_built_in_call_of : sound.

  Lemma sd_primary_expression_of : sound (primary_expression_of e g) (R_primary RE RG).
  Proof using He Hg. unfold primary_expression_of. alts; (eapply sound_map; [sdv|]); intros; assumption. Qed.
  Hint Resolve sd_primary_expression_of : sound.
  Lemma sd_unary_expression_of : sound (unary_expression_of e g) (R_unary RE RG).
  Proof using He Hg. sdal @unary_expression_of. Qed.
  Hint Resolve sd_unary_expression_of : sound.
  Lemma sd_mult_expression_of : sound (mult_expression_of e g) (R_mult RE RG).
  Proof using He Hg. sdal @mult_expression_of. Qed.
  Hint Resolve sd_mult_expression_of : sound.
  Lemma sd_multiplicative_expression_of : sound (multiplicative_expression_of e g) (R_multiplicative RE RG).
  Proof using He Hg. sdm @multiplicative_expression_of. Qed.
  Hint Resolve sd_multiplicative_expression_of : sound.
  Lemma sd_add_expression_of : sound (add_expression_of e g) (R_add RE RG).
  Proof using He Hg. sdal @add_expression_of. Qed.
  Hint Resolve sd_add_expression_of : sound.
  Lemma sd_additive_expression_of : sound (additive_expression_of e g) (R_additive RE RG).
  Proof using He Hg. sdm @additive_expression_of. Qed.
  Hint Resolve sd_additive_expression_of : sound.
  Lemma sd_op_expression_of : sound (op_expression_of e g) (R_op RE RG).
  Proof using He Hg. sdal @op_expression_of. Qed.
  Hint Resolve sd_op_expression_of : sound.
  Lemma sd_relational_expression_of : sound (relational_expression_of e g) (R_relational RE RG).
  Proof using He Hg. sdm @relational_expression_of. Qed.
  Hint Resolve sd_relational_expression_of : sound.
  Lemma sd_conditional_and_expression_of : sound (conditional_and_expression_of e g) (R_conditional_and RE RG).
  Proof using He Hg. sdm @conditional_and_expression_of. Qed.
  Lemma sd_constraint_of : sound (constraint_of e g) (R_constraint RE RG).
  Proof using He Hg. unfold constraint_of. alts; (eapply sound_map; [sdv|]); intros; assumption. Qed.
  Hint Resolve sd_constraint_of : sound.
  Lemma sd_filter_of : sound (filter_of e g) (fun c => kw "filter" ;; blank1 ;; R_constraint RE RG c).
  Proof using He Hg. sdw @filter_of. Qed.
  Hint Resolve sd_filter_of : sound.
  Lemma sd_order : sound order R_order.
  Proof. sdal @order. Qed.
  Hint Resolve sd_order : sound.
  Lemma sd_order_expression_of : sound (order_expression_of e) (fun o => R_order_condition RE RG (OcOrder o)).
  Proof using He. sdm @order_expression_of. Qed.
  Hint Resolve sd_order_expression_of : sound.
  Lemma sd_order_condition_of : sound (order_condition_of e g) (R_order_condition RE RG).
  Proof using He Hg. unfold order_condition_of. alts; (eapply sound_map; [sdv|]); intros; assumption. Qed.
  Lemma sd_group_condition_of : sound (group_condition_of e g) (R_group_condition RE RG).
  Proof using He Hg. unfold group_condition_of. alts; (eapply sound_map; [sdv|]); intros; assumption. Qed.
  Hint Resolve sd_order_condition_of sd_group_condition_of : sound.
  Lemma sd_group_clause_of : sound (group_clause_of e g) (R_group_clause RE RG).
  Proof using He Hg. sdm @group_clause_of. Qed.
  Lemma sd_order_clause_of : sound (order_clause_of e g) (R_order_clause RE RG).
  Proof using He Hg. sdm @order_clause_of. Qed.
  Lemma sd_having_clause_of : sound (having_clause_of e g) (R_having_clause RE RG).
  Proof using He Hg. sdm @having_clause_of. Qed.
  Hint Resolve sd_group_clause_of sd_order_clause_of sd_having_clause_of : sound.
  Lemma sd_solution_modifier_of : sound (solution_modifier_of e g) (R_modifier RE RG).
  Proof using He Hg. sdm @solution_modifier_of. Qed.
  Hint Resolve sd_solution_modifier_of : sound.
  Lemma sd_where_clause_of : sound (where_clause_of g) (R_where RG).
  Proof using Hg. sdw @where_clause_of. Qed.
  Hint Resolve sd_where_clause_of : sound.
  Lemma sd_select_modifier : sound select_modifier R_select_modifier.
  Proof. sdal @select_modifier. Qed.
  Hint Resolve sd_select_modifier : sound.
  Lemma sd_var_or_expression_as_var_of : sound (var_or_expression_as_var_of e) (R_select_var RE).
  Proof using He. unfold var_or_expression_as_var_of. alts; (eapply sound_map; [sdv|]); intros; assumption. Qed.
  Hint Resolve sd_var_or_expression_as_var_of : sound.
  Lemma sd_select_vars_of : sound (select_vars_of e) (R_select_vars RE).
  Proof using He. sdal @select_vars_of. Qed.
  Hint Resolve sd_select_vars_of : sound.
  Lemma sd_select_clause_of : sound (select_clause_of e) (R_select_clause RE).
  Proof using He. sdm @select_clause_of. Qed.
  Hint Resolve sd_select_clause_of : sound.
  Lemma sd_sub_select_of : sound (sub_select_of e g) (R_sub_select RE RG).
  Proof using He Hg. sdm @sub_select_of. Qed.
  Hint Resolve sd_sub_select_of : sound.
  Lemma sd_group_or_union_of : sound (group_or_union_of g) (fun x => R_pattern RE RG (GpGroupOrUnion x)).
  Proof using Hg. sdm @group_or_union_of. Qed.
  Lemma sd_graph_graph_pattern_of : sound (graph_graph_pattern_of g) (fun x => R_pattern RE RG (GpGraph x)).
  Proof using Hg. sdm @graph_graph_pattern_of. Qed.
  Lemma sd_service_graph_pattern_of : sound (service_graph_pattern_of g) (fun x => R_pattern RE RG (GpService x)).
  Proof using Hg. sdm @service_graph_pattern_of. Qed.
  Hint Resolve sd_group_or_union_of sd_graph_graph_pattern_of sd_service_graph_pattern_of : sound.
  Lemma sd_graph_pattern_not_triples_of : sound (graph_pattern_not_triples_of e g) (R_pattern RE RG).
  Proof using He Hg.
    unfold graph_pattern_not_triples_of, optional_of, minus_of. alts; (eapply sound_map; [sdv|]);
      first [intros; assumption | write].
  Qed.
  Hint Resolve sd_graph_pattern_not_triples_of : sound.
  Lemma sd_ggp_and_triples_of : sound (ggp_and_triples_of e g) (R_pattern_and_triples RE RG).
  Proof using He Hg. sdm @ggp_and_triples_of. Qed.
  Hint Resolve sd_ggp_and_triples_of : sound.
  Lemma sd_ggp_sub_of : sound (ggp_sub_of e g) (R_group_sub RE RG).
  Proof using He Hg. sdm @ggp_sub_of. Qed.
End Core.
