(** The number of calls each function makes, as a multiple of the calls of the recursive ones. *)
From Verif Require Import LGood2 MQuery LDepth LDepth2.
From Verif Require Export LWork.
Open Scope N_scope.
Open Scope list_scope.

Create HintDb cbdb.
Lemma cb_path_mod m n B : cb m n B false 0 0 (lift path_mod).
Proof.
  intros i _ _. cbn [lift fst snd]. split; [apply N.le_0_l|]. intros r a E. split; [|discriminate].
  destruct (path_mod_ok i) as [P | P]; rewrite E in P; [discriminate|exact (proj1 P)].
Qed.
#[export] Hint Extern 1 (cb _ _ _ _ _ _ ?p) => (match goal with H : cb _ _ _ _ _ _ p |- _ => eapply cb_mono; [exact H | lia] end) : cbdb.
Ltac cb_leaf := first
  [ match goal with H : cb _ _ _ _ _ _ ?p |- cb _ _ _ _ _ _ ?p => eapply cb_mono; [exact H | lia] end
  | lazymatch goal with
    | |- cb _ _ _ _ _ _ (lift path_mod) => apply cb_path_mod
    | |- cb _ _ _ _ _ _ (lift _) => first [ eapply cb_ag; ag_leaf | eapply cb_ag; solve [agt] ]
    end ].
Ltac cbt := cbn [orb]; first
  [ cb_leaf
  | lazymatch goal with
    | |- cb _ _ _ _ _ _ (t_pair _ _) => eapply cb_pair; [cbt | cbt]
    | |- cb _ _ _ _ _ _ (t_map _ _) => eapply cb_map; cbt
    | |- cb _ _ _ _ _ _ (t_preceded _ _) => eapply cb_preceded; [cbt | cbt]
    | |- cb _ _ _ _ _ _ (t_terminated _ _) => eapply cb_terminated; [cbt | cbt]
    | |- cb _ _ _ _ _ _ (t_delimited _ _ _) => unfold t_delimited; cbt
    | |- cb _ _ _ _ _ _ (t_separated_pair _ _ _) => unfold t_separated_pair; cbt
    | |- cb _ _ _ _ _ _ (t_tuple3 _ _ _) => unfold t_tuple3; cbt
    | |- cb _ _ _ _ _ _ (t_tuple4 _ _ _ _) => unfold t_tuple4; cbt
    | |- cb _ _ _ _ _ _ (t_tuple5 _ _ _ _ _) => unfold t_tuple5; cbt
    | |- cb _ _ _ _ _ _ (t_alt [_]) => eapply cb_alt_one; cbt
    | |- cb _ _ _ _ _ _ (t_alt _) => eapply cb_alt_cons; [cbt | cbt]
    | |- cb _ _ _ _ _ _ (t_opt _) => eapply cb_opt; cbt
    | |- cb _ _ _ _ _ _ (t_many1 _) => eapply cb_many1; cbt
    | |- cb _ _ _ _ _ _ (t_many0 _) => eapply cb_many0; cbt
    | |- cb _ _ _ _ _ _ (t_separated_list _ _) => eapply cb_sepl; [cbt | cbt]
    | |- cb _ _ _ _ _ _ (t_separated_nonempty_list _ _) => eapply cb_sepne; [cbt | cbt]
    | |- cb _ _ _ _ _ _ (t_sp_enc _) => unfold t_sp_enc; cbt
    | |- cb _ _ _ _ _ _ (t_sp_enc1 _) => unfold t_sp_enc1; cbt
    | |- cb _ _ _ _ _ _ (t_sp_sep _ _) => unfold t_sp_sep; cbt
    | |- cb _ _ _ _ _ _ (t_sp_sep1 _ _) => unfold t_sp_sep1; cbt
    | |- cb _ _ _ _ _ _ (t_bracketted _) => unfold t_bracketted; cbt
    | |- cb _ _ _ _ _ _ (t_preceded_tag _ _) => unfold t_preceded_tag; cbt
    | |- cb _ _ _ _ _ _ (t_preceded_tag1 _ _) => unfold t_preceded_tag1; cbt
    | |- cb _ _ _ _ _ _ (t_preceded_bracketted _ _) => unfold t_preceded_bracketted; cbt
    | |- cb _ _ _ _ _ _ (t_call1 _ _ _) => unfold t_call1; cbt
    | |- cb _ _ _ _ _ _ (t_call2 _ _ _) => unfold t_call2; cbt
    | |- cb _ _ _ _ _ _ (t_call0 _ _) => unfold t_call0; cbt
    | |- cb _ _ _ _ _ _ (t_expr2_of _) => unfold t_expr2_of; cbt
    | |- cb _ _ _ _ _ _ _ => solve [eauto 3 with cbdb nocore]
    end ].
Lemma cb_exact {A} m n B b c k c' k' (p : cparser A) : cb m n B b c k p -> c = c' -> k = k' -> cb m n B false c' k' p.
Proof. intros H <- <-. exact (cb_weaken _ _ _ _ _ _ _ H). Qed.
Ltac cbp p := intros; unfold p; eapply cb_exact; [cbt | reflexivity | reflexivity].

Lemma cb_path_primary_of (m n : nat) (B : N) (pa : cparser PathAlternative) : cb (pred m) n B false 1 0 pa ->
  cb m n B false 1 0 (t_path_primary_of pa).
Proof. cbp @t_path_primary_of. Qed.
#[export] Hint Resolve cb_path_primary_of : cbdb.
Lemma cb_path_elt_of (m n : nat) (B : N) (pa : cparser PathAlternative) : cb (pred m) n B false 1 0 pa ->
  cb m n B false 1 0 (t_path_elt_of pa).
Proof. cbp @t_path_elt_of. Qed.
#[export] Hint Resolve cb_path_elt_of : cbdb.
Lemma cb_path_elt_or_inverse_of (m n : nat) (B : N) (pa : cparser PathAlternative) : cb (pred m) n B false 1 0 pa ->
  cb m n B false 2 0 (t_path_elt_or_inverse_of pa).
Proof. cbp @t_path_elt_or_inverse_of. Qed.
#[export] Hint Resolve cb_path_elt_or_inverse_of : cbdb.
Lemma cb_path_sequence_of (m n : nat) (B : N) (pa : cparser PathAlternative) : cb (pred m) n B false 1 0 pa ->
  cb m n B false 2 1 (t_path_sequence_of pa).
Proof. cbp @t_path_sequence_of. Qed.
#[export] Hint Resolve cb_path_sequence_of : cbdb.
Lemma cb_path_alternative_body (m n : nat) (B : N) (pa : cparser PathAlternative) : cb (pred m) n B false 1 0 pa ->
  cb m n B false 2 2 (t_path_alternative_body pa).
Proof. cbp @t_path_alternative_body. Qed.
#[export] Hint Resolve cb_path_alternative_body : cbdb.
Lemma cb_verb_path_or_simple (m n : nat) (B : N) : cb m n B false 1 0 t_path_alternative ->
  cb m n B false 1 0 (t_verb_path_or_simple).
Proof. cbp @t_verb_path_or_simple. Qed.
#[export] Hint Resolve cb_verb_path_or_simple : cbdb.
Lemma cb_property_list_path_entry (m n : nat) (B : N) : cb m n B false 1 0 t_path_alternative ->
  cb m n B false 1 0 (t_property_list_path_entry).
Proof. cbp @t_property_list_path_entry. Qed.
#[export] Hint Resolve cb_property_list_path_entry : cbdb.
Lemma cb_object_list_path_of (m n : nat) (B : N) (gnp : cparser GraphNodePath) : cb m n B false 1 0 t_path_alternative -> cb (m) n B false 1 0 gnp ->
  cb m n B false 1 1 (t_object_list_path_of gnp).
Proof. cbp @t_object_list_path_of. Qed.
#[export] Hint Resolve cb_object_list_path_of : cbdb.
Lemma cb_property_list_path_not_empty_of (m n : nat) (B : N) (gnp : cparser GraphNodePath) : cb m n B false 1 0 t_path_alternative -> cb (m) n B false 1 0 gnp ->
  cb m n B false 3 2 (t_property_list_path_not_empty_of gnp).
Proof. cbp @t_property_list_path_not_empty_of. Qed.
#[export] Hint Resolve cb_property_list_path_not_empty_of : cbdb.
Lemma cb_blank_node_property_list_path_of (m n : nat) (B : N) (gnp : cparser GraphNodePath) : cb (pred m) n B false 1 0 t_path_alternative -> cb (pred m) n B false 1 0 gnp ->
  cb m n B false 3 2 (t_blank_node_property_list_path_of gnp).
Proof. cbp @t_blank_node_property_list_path_of. Qed.
#[export] Hint Resolve cb_blank_node_property_list_path_of : cbdb.
Lemma cb_triples_node_path_of (m n : nat) (B : N) (gnp : cparser GraphNodePath) : cb (pred m) n B false 1 0 t_path_alternative -> cb (pred m) n B false 1 0 gnp ->
  cb m n B false 4 2 (t_triples_node_path_of gnp).
Proof. cbp @t_triples_node_path_of. Qed.
#[export] Hint Resolve cb_triples_node_path_of : cbdb.
Lemma cb_graph_node_path_body (m n : nat) (B : N) (gnp : cparser GraphNodePath) : cb (pred m) n B false 1 0 t_path_alternative -> cb (pred m) n B false 1 0 gnp ->
  cb m n B false 4 2 (t_graph_node_path_body gnp).
Proof. cbp @t_graph_node_path_body. Qed.
#[export] Hint Resolve cb_graph_node_path_body : cbdb.
Lemma cb_property_list_path_not_empty (m n : nat) (B : N) : cb m n B false 1 0 t_path_alternative -> cb m n B false 1 0 t_graph_node_path ->
  cb m n B false 3 2 (t_property_list_path_not_empty).
Proof. cbp @t_property_list_path_not_empty. Qed.
#[export] Hint Resolve cb_property_list_path_not_empty : cbdb.
Lemma cb_triples_node_path (m n : nat) (B : N) : cb m n B false 1 0 t_path_alternative -> cb m n B false 1 0 t_graph_node_path ->
  cb m n B false 4 2 (t_triples_node_path).
Proof. cbp @t_triples_node_path. Qed.
#[export] Hint Resolve cb_triples_node_path : cbdb.
Lemma cb_property_list_path (m n : nat) (B : N) : cb m n B false 1 0 t_path_alternative -> cb m n B false 1 0 t_graph_node_path ->
  cb m n B false 3 2 (t_property_list_path).
Proof. cbp @t_property_list_path. Qed.
#[export] Hint Resolve cb_property_list_path : cbdb.
Lemma cb_triples_same_subject_path (m n : nat) (B : N) : cb m n B false 1 0 t_path_alternative -> cb m n B false 1 0 t_graph_node_path ->
  cb m n B false 10 2 (t_triples_same_subject_path).
Proof. cbp @t_triples_same_subject_path. Qed.
#[export] Hint Resolve cb_triples_same_subject_path : cbdb.
Lemma cb_triples_block (m n : nat) (B : N) : cb m n B false 1 0 t_path_alternative -> cb m n B false 1 0 t_graph_node_path ->
  cb m n B false 10 3 (t_triples_block).
Proof. cbp @t_triples_block. Qed.
#[export] Hint Resolve cb_triples_block : cbdb.
Lemma cb_distinct_expression_of {E : Type} (m n : nat) (B : N) (e : cparser E) : cb (m) n B false 1 0 e ->
  cb m n B false 1 0 (t_distinct_expression_of e).
Proof. cbp @t_distinct_expression_of. Qed.
#[export] Hint Resolve cb_distinct_expression_of : cbdb.
Lemma cb_count_target_of {E : Type} (m n : nat) (B : N) (e : cparser E) : cb (m) n B false 1 0 e ->
  cb m n B false 1 0 (t_count_target_of e).
Proof. cbp @t_count_target_of. Qed.
#[export] Hint Resolve cb_count_target_of : cbdb.
Lemma cb_arg_list_of {E : Type} (m n : nat) (B : N) (e : cparser E) : cb (pred m) n B false 1 0 e ->
  cb m n B false 1 1 (t_arg_list_of e).
Proof. cbp @t_arg_list_of. Qed.
#[export] Hint Resolve cb_arg_list_of : cbdb.
Lemma cb_expression_list_of {E : Type} (m n : nat) (B : N) (e : cparser E) : cb (pred m) n B false 1 0 e ->
  cb m n B false 1 1 (t_expression_list_of e).
Proof. cbp @t_expression_list_of. Qed.
#[export] Hint Resolve cb_expression_list_of : cbdb.
Lemma cb_bracketted_expression_of {E : Type} (m n : nat) (B : N) (e : cparser E) : cb (pred m) n B false 1 0 e ->
  cb m n B false 1 0 (t_bracketted_expression_of e).
Proof. cbp @t_bracketted_expression_of. Qed.
#[export] Hint Resolve cb_bracketted_expression_of : cbdb.
Lemma cb_bracketted_expr3_of {E : Type} (m n : nat) (B : N) (e : cparser E) : cb (pred m) n B false 1 0 e ->
  cb m n B false 3 0 (t_bracketted_expr3_of e).
Proof. cbp @t_bracketted_expr3_of. Qed.
#[export] Hint Resolve cb_bracketted_expr3_of : cbdb.
Lemma cb_str_replace_expression_of {E : Type} (m n : nat) (B : N) (e : cparser E) : cb (pred m) n B false 1 0 e ->
  cb m n B false 4 0 (t_str_replace_expression_of e).
Proof. cbp @t_str_replace_expression_of. Qed.
#[export] Hint Resolve cb_str_replace_expression_of : cbdb.
Lemma cb_expression_as_var_of {E : Type} (m n : nat) (B : N) (e : cparser E) : cb (pred m) n B false 1 0 e ->
  cb m n B false 1 0 (t_expression_as_var_of e).
Proof. cbp @t_expression_as_var_of. Qed.
#[export] Hint Resolve cb_expression_as_var_of : cbdb.
Lemma cb_expression_as_var_opt_of {E : Type} (m n : nat) (B : N) (e : cparser E) : cb (pred m) n B false 1 0 e ->
  cb m n B false 1 0 (t_expression_as_var_opt_of e).
Proof. cbp @t_expression_as_var_opt_of. Qed.
#[export] Hint Resolve cb_expression_as_var_opt_of : cbdb.
Lemma cb_bind_of {E : Type} (m n : nat) (B : N) (e : cparser E) : cb (pred m) n B false 1 0 e ->
  cb m n B false 1 0 (t_bind_of e).
Proof. cbp @t_bind_of. Qed.
#[export] Hint Resolve cb_bind_of : cbdb.
Lemma cb_function_call_of {E : Type} (m n : nat) (B : N) (e : cparser E) : cb (pred m) n B false 1 0 e ->
  cb m n B false 1 1 (t_function_call_of e).
Proof. cbp @t_function_call_of. Qed.
#[export] Hint Resolve cb_function_call_of : cbdb.
Lemma cb_iri_or_fun_of {E : Type} (m n : nat) (B : N) (e : cparser E) : cb (pred m) n B false 1 0 e ->
  cb m n B false 1 1 (t_iri_or_fun_of e).
Proof. cbp @t_iri_or_fun_of. Qed.
#[export] Hint Resolve cb_iri_or_fun_of : cbdb.
Lemma cb_regex_expression_of {E : Type} (m n : nat) (B : N) (e : cparser E) : cb (pred m) n B false 1 0 e ->
  cb m n B false 3 0 (t_regex_expression_of e).
Proof. cbp @t_regex_expression_of. Qed.
#[export] Hint Resolve cb_regex_expression_of : cbdb.
Lemma cb_substring_expression_of {E : Type} (m n : nat) (B : N) (e : cparser E) : cb (pred m) n B false 1 0 e ->
  cb m n B false 3 0 (t_substring_expression_of e).
Proof. cbp @t_substring_expression_of. Qed.
#[export] Hint Resolve cb_substring_expression_of : cbdb.
Lemma cb_count_of {E : Type} (m n : nat) (B : N) (e : cparser E) : cb (pred m) n B false 1 0 e ->
  cb m n B false 1 0 (t_count_of e).
Proof. cbp @t_count_of. Qed.
#[export] Hint Resolve cb_count_of : cbdb.
Lemma cb_group_concat_of {E : Type} (m n : nat) (B : N) (e : cparser E) : cb (pred m) n B false 1 0 e ->
  cb m n B false 1 0 (t_group_concat_of e).
Proof. cbp @t_group_concat_of. Qed.
#[export] Hint Resolve cb_group_concat_of : cbdb.
Lemma cb_aggregate_of {E : Type} (m n : nat) (B : N) (e : cparser E) : cb (pred m) n B false 1 0 e ->
  cb m n B false 7 0 (t_aggregate_of e).
Proof. cbp @t_aggregate_of. Qed.
#[export] Hint Resolve cb_aggregate_of : cbdb.
Lemma cb_built_in_call_1_of {E G : Type} (m n : nat) (B : N) (e : cparser E) : cb (pred m) n B false 1 0 e ->
  cb m n B false 35 1 (t_built_in_call_1_of (G:=G) e).
Proof. cbp @t_built_in_call_1_of. Qed.
#[export] Hint Resolve cb_built_in_call_1_of : cbdb.
Lemma cb_built_in_call_2_of {E G : Type} (m n : nat) (B : N) (e : cparser E) : cb (pred m) n B false 1 0 e ->
  cb m n B false 14 0 (t_built_in_call_2_of (G:=G) e).
Proof. cbp @t_built_in_call_2_of. Qed.
#[export] Hint Resolve cb_built_in_call_2_of : cbdb.
Lemma cb_built_in_call_of {E G : Type} (m n : nat) (B : N) (e : cparser E) (g : cparser G) : cb (pred m) n B false 1 0 e -> cb m n B false 1 0 g ->
  cb m n B false 74 1 (t_built_in_call_of e g).
Proof. cbp @t_built_in_call_of. Qed.
#[export] Hint Resolve cb_built_in_call_of : cbdb.
Lemma cb_primary_expression_of {E G : Type} (m n : nat) (B : N) (e : cparser E) (g : cparser G) : cb (pred m) n B false 1 0 e -> cb m n B false 1 0 g ->
  cb m n B false 76 1 (t_primary_expression_of e g).
Proof. cbp @t_primary_expression_of. Qed.
#[export] Hint Resolve cb_primary_expression_of : cbdb.
Lemma cb_unary_expression_of {E G : Type} (m n : nat) (B : N) (e : cparser E) (g : cparser G) : cb (pred m) n B false 1 0 e -> cb m n B false 1 0 g ->
  cb m n B false 304 1 (t_unary_expression_of e g).
Proof. cbp @t_unary_expression_of. Qed.
#[export] Hint Resolve cb_unary_expression_of : cbdb.
Lemma cb_mult_expression_of {E G : Type} (m n : nat) (B : N) (e : cparser E) (g : cparser G) : cb (pred m) n B false 1 0 e -> cb m n B false 1 0 g ->
  cb m n B false 608 1 (t_mult_expression_of e g).
Proof. cbp @t_mult_expression_of. Qed.
#[export] Hint Resolve cb_mult_expression_of : cbdb.
Lemma cb_multiplicative_expression_of {E G : Type} (m n : nat) (B : N) (e : cparser E) (g : cparser G) : cb (pred m) n B false 1 0 e -> cb m n B false 1 0 g ->
  cb m n B false 912 2 (t_multiplicative_expression_of e g).
Proof. cbp @t_multiplicative_expression_of. Qed.
#[export] Hint Resolve cb_multiplicative_expression_of : cbdb.
Lemma cb_add_expression_of {E G : Type} (m n : nat) (B : N) (e : cparser E) (g : cparser G) : cb (pred m) n B false 1 0 e -> cb m n B false 1 0 g ->
  cb m n B false 2432 2 (t_add_expression_of e g).
Proof. cbp @t_add_expression_of. Qed.
#[export] Hint Resolve cb_add_expression_of : cbdb.
Lemma cb_additive_expression_of {E G : Type} (m n : nat) (B : N) (e : cparser E) (g : cparser G) : cb (pred m) n B false 1 0 e -> cb m n B false 1 0 g ->
  cb m n B false 3344 3 (t_additive_expression_of e g).
Proof. cbp @t_additive_expression_of. Qed.
#[export] Hint Resolve cb_additive_expression_of : cbdb.
Lemma cb_op_expression_of {E G : Type} (m n : nat) (B : N) (e : cparser E) (g : cparser G) : cb (pred m) n B false 1 0 e -> cb m n B false 1 0 g ->
  cb m n B false 20066 3 (t_op_expression_of e g).
Proof. cbp @t_op_expression_of. Qed.
#[export] Hint Resolve cb_op_expression_of : cbdb.
Lemma cb_relational_expression_of {E G : Type} (m n : nat) (B : N) (e : cparser E) (g : cparser G) : cb (pred m) n B false 1 0 e -> cb m n B false 1 0 g ->
  cb m n B false 23410 3 (t_relational_expression_of e g).
Proof. cbp @t_relational_expression_of. Qed.
#[export] Hint Resolve cb_relational_expression_of : cbdb.
Lemma cb_conditional_and_expression_of {E G : Type} (m n : nat) (B : N) (e : cparser E) (g : cparser G) : cb (pred m) n B false 1 0 e -> cb m n B false 1 0 g ->
  cb m n B false 23410 4 (t_conditional_and_expression_of e g).
Proof. cbp @t_conditional_and_expression_of. Qed.
#[export] Hint Resolve cb_conditional_and_expression_of : cbdb.
Lemma cb_expression_body (m n : nat) (B : N) (e : cparser Expression) (g : cparser GroupGraphPattern) : cb (pred m) n B false 1 0 e -> cb m n B false 1 0 g ->
  cb m n B false 23410 5 (t_expression_body e g).
Proof. cbp @t_expression_body. Qed.
#[export] Hint Resolve cb_expression_body : cbdb.
Lemma cb_constraint_of {E G : Type} (m n : nat) (B : N) (e : cparser E) (g : cparser G) : cb (pred m) n B false 1 0 e -> cb m n B false 1 0 g ->
  cb m n B false 76 1 (t_constraint_of e g).
Proof. cbp @t_constraint_of. Qed.
#[export] Hint Resolve cb_constraint_of : cbdb.
Lemma cb_filter_of {E G : Type} (m n : nat) (B : N) (e : cparser E) (g : cparser G) : cb (pred m) n B false 1 0 e -> cb m n B false 1 0 g ->
  cb m n B false 76 1 (t_filter_of e g).
Proof. cbp @t_filter_of. Qed.
#[export] Hint Resolve cb_filter_of : cbdb.
Lemma cb_order_expression_of {E : Type} (m n : nat) (B : N) (e : cparser E) : cb (pred m) n B false 1 0 e ->
  cb m n B false 1 0 (t_order_expression_of e).
Proof. cbp @t_order_expression_of. Qed.
#[export] Hint Resolve cb_order_expression_of : cbdb.
Lemma cb_order_condition_of {E G : Type} (m n : nat) (B : N) (e : cparser E) (g : cparser G) : cb (pred m) n B false 1 0 e -> cb m n B false 1 0 g ->
  cb m n B false 77 1 (t_order_condition_of e g).
Proof. cbp @t_order_condition_of. Qed.
#[export] Hint Resolve cb_order_condition_of : cbdb.
Lemma cb_group_condition_of {E G : Type} (m n : nat) (B : N) (e : cparser E) (g : cparser G) : cb (pred m) n B false 1 0 e -> cb m n B false 1 0 g ->
  cb m n B false 76 1 (t_group_condition_of e g).
Proof. cbp @t_group_condition_of. Qed.
#[export] Hint Resolve cb_group_condition_of : cbdb.
Lemma cb_group_clause_of {E G : Type} (m n : nat) (B : N) (e : cparser E) (g : cparser G) : cb (pred m) n B false 1 0 e -> cb m n B false 1 0 g ->
  cb m n B false 76 2 (t_group_clause_of e g).
Proof. cbp @t_group_clause_of. Qed.
#[export] Hint Resolve cb_group_clause_of : cbdb.
Lemma cb_order_clause_of {E G : Type} (m n : nat) (B : N) (e : cparser E) (g : cparser G) : cb (pred m) n B false 1 0 e -> cb m n B false 1 0 g ->
  cb m n B false 77 2 (t_order_clause_of e g).
Proof. cbp @t_order_clause_of. Qed.
#[export] Hint Resolve cb_order_clause_of : cbdb.
Lemma cb_having_clause_of {E G : Type} (m n : nat) (B : N) (e : cparser E) (g : cparser G) : cb (pred m) n B false 1 0 e -> cb m n B false 1 0 g ->
  cb m n B false 76 2 (t_having_clause_of e g).
Proof. cbp @t_having_clause_of. Qed.
#[export] Hint Resolve cb_having_clause_of : cbdb.
Lemma cb_solution_modifier_of {E G : Type} (m n : nat) (B : N) (e : cparser E) (g : cparser G) : cb (pred m) n B false 1 0 e -> cb m n B false 1 0 g ->
  cb m n B false 229 2 (t_solution_modifier_of e g).
Proof. cbp @t_solution_modifier_of. Qed.
#[export] Hint Resolve cb_solution_modifier_of : cbdb.
Lemma cb_where_clause_of {G : Type} (m n : nat) (B : N) (g : cparser G) : cb m n B false 1 0 g ->
  cb m n B false 1 0 (t_where_clause_of g).
Proof. cbp @t_where_clause_of. Qed.
#[export] Hint Resolve cb_where_clause_of : cbdb.
Lemma cb_var_or_expression_as_var_of {E : Type} (m n : nat) (B : N) (e : cparser E) : cb (pred m) n B false 1 0 e ->
  cb m n B false 1 0 (t_var_or_expression_as_var_of e).
Proof. cbp @t_var_or_expression_as_var_of. Qed.
#[export] Hint Resolve cb_var_or_expression_as_var_of : cbdb.
Lemma cb_select_vars_of {E : Type} (m n : nat) (B : N) (e : cparser E) : cb (pred m) n B false 1 0 e ->
  cb m n B false 1 1 (t_select_vars_of e).
Proof. cbp @t_select_vars_of. Qed.
#[export] Hint Resolve cb_select_vars_of : cbdb.
Lemma cb_select_clause_of {E : Type} (m n : nat) (B : N) (e : cparser E) : cb (pred m) n B false 1 0 e ->
  cb m n B false 1 1 (t_select_clause_of e).
Proof. cbp @t_select_clause_of. Qed.
#[export] Hint Resolve cb_select_clause_of : cbdb.
Lemma cb_sub_select_of {E G : Type} (m n : nat) (B : N) (e : cparser E) (g : cparser G) : cb (pred m) n B false 1 0 e -> cb m n B false 1 0 g ->
  cb m n B false 231 2 (t_sub_select_of e g).
Proof. cbp @t_sub_select_of. Qed.
#[export] Hint Resolve cb_sub_select_of : cbdb.
Lemma cb_group_or_union_of {G : Type} (m n : nat) (B : N) (g : cparser G) : cb m n B false 1 0 g ->
  cb m n B false 1 1 (t_group_or_union_of g).
Proof. cbp @t_group_or_union_of. Qed.
#[export] Hint Resolve cb_group_or_union_of : cbdb.
Lemma cb_optional_of {G : Type} (m n : nat) (B : N) (g : cparser G) : cb m n B false 1 0 g ->
  cb m n B false 1 0 (t_optional_of g).
Proof. cbp @t_optional_of. Qed.
#[export] Hint Resolve cb_optional_of : cbdb.
Lemma cb_minus_of {G : Type} (m n : nat) (B : N) (g : cparser G) : cb m n B false 1 0 g ->
  cb m n B false 1 0 (t_minus_of g).
Proof. cbp @t_minus_of. Qed.
#[export] Hint Resolve cb_minus_of : cbdb.
Lemma cb_graph_graph_pattern_of {G : Type} (m n : nat) (B : N) (g : cparser G) : cb m n B false 1 0 g ->
  cb m n B false 1 0 (t_graph_graph_pattern_of g).
Proof. cbp @t_graph_graph_pattern_of. Qed.
#[export] Hint Resolve cb_graph_graph_pattern_of : cbdb.
Lemma cb_service_graph_pattern_of {G : Type} (m n : nat) (B : N) (g : cparser G) : cb m n B false 1 0 g ->
  cb m n B false 1 0 (t_service_graph_pattern_of g).
Proof. cbp @t_service_graph_pattern_of. Qed.
#[export] Hint Resolve cb_service_graph_pattern_of : cbdb.
Lemma cb_graph_pattern_not_triples_of {E G : Type} (m n : nat) (B : N) (e : cparser E) (g : cparser G) : cb (pred m) n B false 1 0 e -> cb m n B false 1 0 g ->
  cb m n B false 82 1 (t_graph_pattern_not_triples_of e g).
Proof. cbp @t_graph_pattern_not_triples_of. Qed.
#[export] Hint Resolve cb_graph_pattern_not_triples_of : cbdb.
Lemma cb_ggp_and_triples_of {E G : Type} (m n : nat) (B : N) (e : cparser E) (g : cparser G) : cb (pred m) n B false 1 0 e -> cb m n B false 1 0 g -> cb m n B false 1 0 t_triples_block ->
  cb m n B false 83 1 (t_ggp_and_triples_of e g).
Proof. cbp @t_ggp_and_triples_of. Qed.
#[export] Hint Resolve cb_ggp_and_triples_of : cbdb.
Lemma cb_ggp_sub_of {E G : Type} (m n : nat) (B : N) (e : cparser E) (g : cparser G) : cb (pred m) n B false 1 0 e -> cb m n B false 1 0 g -> cb m n B false 1 0 t_triples_block ->
  cb m n B false 84 2 (t_ggp_sub_of e g).
Proof. cbp @t_ggp_sub_of. Qed.
#[export] Hint Resolve cb_ggp_sub_of : cbdb.
Lemma cb_ggp_body (m n : nat) (B : N) (e : cparser Expression) (g : cparser GroupGraphPattern) : cb (pred m) n B false 1 0 e -> cb (pred m) n B false 1 0 g -> cb (pred m) n B false 1 0 t_triples_block ->
  cb m n B false 315 2 (t_ggp_body e g).
Proof. cbp @t_ggp_body. Qed.
#[export] Hint Resolve cb_ggp_body : cbdb.
Lemma cb_select_clause (m n : nat) (B : N) : cb m n B false 1 0 t_expression -> cb m n B false 1 0 t_group_graph_pattern ->
  cb m n B false 1 1 (t_select_clause).
Proof. cbp @t_select_clause. Qed.
#[export] Hint Resolve cb_select_clause : cbdb.
Lemma cb_where_clause (m n : nat) (B : N) : cb m n B false 1 0 t_expression -> cb m n B false 1 0 t_group_graph_pattern ->
  cb m n B false 1 0 (t_where_clause).
Proof. cbp @t_where_clause. Qed.
#[export] Hint Resolve cb_where_clause : cbdb.
Lemma cb_solution_modifier (m n : nat) (B : N) : cb m n B false 1 0 t_expression -> cb m n B false 1 0 t_group_graph_pattern ->
  cb m n B false 229 2 (t_solution_modifier).
Proof. cbp @t_solution_modifier. Qed.
#[export] Hint Resolve cb_solution_modifier : cbdb.
Lemma cb_select_query (m n : nat) (B : N) : cb m n B false 1 0 t_expression -> cb m n B false 1 0 t_group_graph_pattern ->
  cb m n B false 231 2 (t_select_query).
Proof. cbp @t_select_query. Qed.
#[export] Hint Resolve cb_select_query : cbdb.
Lemma cb_ask_query (m n : nat) (B : N) : cb m n B false 1 0 t_expression -> cb m n B false 1 0 t_group_graph_pattern ->
  cb m n B false 230 2 (t_ask_query).
Proof. cbp @t_ask_query. Qed.
#[export] Hint Resolve cb_ask_query : cbdb.
Lemma cb_describe_query (m n : nat) (B : N) : cb m n B false 1 0 t_expression -> cb m n B false 1 0 t_group_graph_pattern ->
  cb m n B false 230 2 (t_describe_query).
Proof. cbp @t_describe_query. Qed.
#[export] Hint Resolve cb_describe_query : cbdb.
Lemma cb_sub_triples (m n : nat) (B : N) : cb m n B false 1 0 t_expression -> cb m n B false 1 0 t_group_graph_pattern ->
  cb m n B false 229 2 (t_sub_triples).
Proof. cbp @t_sub_triples. Qed.
#[export] Hint Resolve cb_sub_triples : cbdb.
Lemma cb_sub_construct (m n : nat) (B : N) : cb m n B false 1 0 t_expression -> cb m n B false 1 0 t_group_graph_pattern ->
  cb m n B false 230 2 (t_sub_construct).
Proof. cbp @t_sub_construct. Qed.
#[export] Hint Resolve cb_sub_construct : cbdb.
Lemma cb_construct_query (m n : nat) (B : N) : cb m n B false 1 0 t_expression -> cb m n B false 1 0 t_group_graph_pattern ->
  cb m n B false 459 2 (t_construct_query).
Proof. cbp @t_construct_query. Qed.
#[export] Hint Resolve cb_construct_query : cbdb.
Lemma cb_sparql_query (m n : nat) (B : N) : cb m n B false 1 0 t_expression -> cb m n B false 1 0 t_group_graph_pattern ->
  cb m n B false 1150 2 (t_sparql_query).
Proof. cbp @t_sparql_query. Qed.
#[export] Hint Resolve cb_sparql_query : cbdb.
Lemma cb_sparql_query_stmt (m n : nat) (B : N) : cb m n B false 1 0 t_expression -> cb m n B false 1 0 t_group_graph_pattern ->
  cb m n B false 1150 2 (t_sparql_query_stmt).
Proof. cbp @t_sparql_query_stmt. Qed.
#[export] Hint Resolve cb_sparql_query_stmt : cbdb.
