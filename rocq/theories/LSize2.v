(** Expressions, graph patterns, queries and updates are not larger than their texts. *)
From Verif Require Export LSize.
Notation length := List.length (only parsing).
Open Scope list_scope.
Open Scope nat_scope.

Notation K := 16 (only parsing).
(** lists in texts of at most [m] characters *)
Section Bounded.
  Context {A : Type} (R : A -> str -> Prop) (f : A -> nat) (S : str -> Prop) (c m : nat).
  Context (H : forall a t, R a t -> length t <= m -> f a + 1 + c <= K * length t).
  Lemma star_lenb l : forall t, star R l t -> length t <= m -> sum f l + c * length l <= K * length t.
  Proof.
    intros t X L. apply (star_len (fun a t => R a t /\ length t <= m) f c); [intros a u [Y Z]; now apply H|].
    revert t X L. induction l as [|a l IH]; intros t X L; [exact X|]. destruct X as (u & v & -> & X & Y). rewrite app_length in L.
    exists u, v. split; [reflexivity|]. split; [split; [exact X|lia]|]. apply IH; [exact Y|lia].
  Qed.
  Lemma sepby_lenb l : forall t, sepby R S l t -> length t <= m -> sum f l + c * length l <= K * length t.
  Proof.
    intros t X L. apply (sepby_len (fun a t => R a t /\ length t <= m) f S c); [intros a u [Y Z]; now apply H|].
    revert t X L. induction l as [|a l IH]; intros t X L; [exact X|]. destruct l as [|b l]; [split; [exact X|exact L]|].
    destruct X as (u & v & -> & X & w & x & -> & Y & Z). rewrite !app_length in L.
    exists u, (w ++ x). split; [reflexivity|]. split; [split; [exact X|lia]|]. exists w, x. split; [reflexivity|]. split; [exact Y|]. apply IH; [exact Z|lia].
  Qed.
End Bounded.
Ltac under L ::= idtac; match goal with H : _ |- _ => apply L in H; [lia|rewrite ?app_length; lia..] end.
Ltac eltsb c m tac := idtac; repeat match goal with
  | H : star ?R ?l ?t |- context [sum ?f ?l] => apply (star_lenb R f c m) in H; [|intros; cbv beta in *; tac|lia]
  | H : sepby ?R ?S ?l ?t |- context [sum ?f ?l] => apply (sepby_lenb R f S c m) in H; [|intros; cbv beta in *; tac|lia]
  end.

Section Core.
  Context {E G : Type} (RE : E -> str -> Prop) (RG : G -> str -> Prop) (SE : E -> nat) (SG : G -> nat) (n : nat).
  Context (HE : forall e t, RE e t -> length t <= n -> SE e + 4 <= K * length t) (HG : forall g t, RG g t -> length t <= n -> SG g + 12 <= K * length t).
  Ltac eg := idtac; by_ HE; by_ HG; t1.
  Lemma sz_args a t : R_arg_list RE a t -> length t <= S n -> size_args SE a + 20 <= K * length t.
  Proof. destruct a as [|[]]; cbn [R_arg_list size_args R_distinct]; sz ltac:(eltsb 0 n ltac:(under HE)). Qed.
  Lemma sz_iri_or_fun i t : R_iri_or_fun RE i t -> length t <= S n -> size_iri_or_fun SE i + 13 <= K * length t.
  Proof. destruct i; cbn [R_iri_or_fun size_iri_or_fun]; sz ltac:(by_ sz_iri; by_ sz_args). Qed.
  Lemma sz_function_call f t : R_function_call RE f t -> length t <= S n -> size_function_call SE f + 13 <= K * length t.
  Proof. destruct f; cbn [R_function_call size_function_call]; sz ltac:(by_ sz_iri; by_ sz_args). Qed.
  Lemma sz_expression_list l t : R_expression_list RE l t -> length t <= S n -> size_expression_list SE l + 20 <= K * length t.
  Proof. destruct l; cbn [R_expression_list size_expression_list]; sz ltac:(eltsb 0 n ltac:(under HE)). Qed.
  Lemma sz_expr3 r t : R_expr3 RE r t -> length t <= S n -> size_expr3 SE r + 20 <= K * length t.
  Proof. destruct r; cbn [R_expr3 size_expr3]; sz eg. Qed.
  Lemma sz_str_replace r t : R_str_replace RE r t -> length t <= S n -> size_str_replace SE r + 20 <= K * length t.
  Proof. destruct r; cbn [R_str_replace size_str_replace]; sz eg. Qed.
  Lemma sz_distinct d t : R_distinct_expression RE d t -> length t <= n -> size_distinct SE d + 3 <= K * length t.
  Proof. destruct d as [[]]; cbn [R_distinct_expression size_distinct R_distinct]; sz eg. Qed.
  Lemma sz_aggregate a t : R_aggregate RE a t -> length t <= S n -> size_aggregate SE a + 30 <= K * length t.
  Proof.
    destruct a as [[[] []]|d|d|d|d|d|[d s]]; cbn [R_aggregate size_aggregate R_count_target R_distinct]; unfold R_separator; sz ltac:(by_ sz_distinct; eg).
  Qed.
  Lemma sz_bracketted e t : R_bracketted RE e t -> length t <= S n -> SE e + 20 <= K * length t.
  Proof. unfold R_bracketted. sz eg. Qed.
  Lemma sz_built_in b t : R_built_in RE RG b t -> length t <= S n -> size_built_in SE SG b + 20 <= K * length t.
  Proof.
    destruct b; try match goal with |- context [BiBnode ?o] => destruct o end; cbn [R_built_in size_built_in of_]; unfold fun1, fun2, fun0;
      sz ltac:(by_ sz_aggregate; by_ sz_expression_list; by_ sz_expr3; by_ sz_str_replace; by_ sz_bracketted; eg).
  Qed.
  Lemma sz_primary p t : R_primary RE RG p t -> length t <= S n -> size_primary SE SG p + 12 <= K * length t.
  Proof. destruct p; cbn [R_primary size_primary]; sz ltac:(by_ sz_bracketted; by_ sz_built_in; by_ sz_iri_or_fun; t1). Qed.
  Lemma sz_unary u t : R_unary RE RG u t -> length t <= S n -> size_unary SE SG u + 11 <= K * length t.
  Proof. destruct u; cbn [R_unary size_unary]; sz ltac:(by_ sz_primary). Qed.
  Lemma sz_mult m t : R_mult RE RG m t -> length t <= S n -> size_mult SE SG m + 11 <= K * length t.
  Proof. destruct m; cbn [R_mult size_mult]; sz ltac:(by_ sz_unary). Qed.
  Lemma sz_multiplicative m t : R_multiplicative RE RG m t -> length t <= S n -> size_multiplicative SE SG m + 10 <= K * length t.
  Proof. destruct m; cbn [R_multiplicative size_multiplicative]; sz ltac:(by_ sz_unary; eltsb 0 (S n) ltac:(under sz_mult)). Qed.
  Lemma sz_add a t : R_add RE RG a t -> length t <= S n -> size_add SE SG a + 10 <= K * length t.
  Proof. destruct a; cbn [R_add size_add]; sz ltac:(by_ sz_multiplicative; eltsb 0 (S n) ltac:(under sz_mult)). Qed.
  Lemma sz_additive a t : R_additive RE RG a t -> length t <= S n -> size_additive SE SG a + 9 <= K * length t.
  Proof. destruct a; cbn [R_additive size_additive]; sz ltac:(by_ sz_multiplicative; eltsb 0 (S n) ltac:(under sz_add)). Qed.
  Lemma sz_op o t : R_op RE RG o t -> length t <= S n -> size_op SE SG o + 9 <= K * length t.
  Proof. destruct o; cbn [R_op size_op]; sz ltac:(by_ sz_additive; by_ sz_expression_list). Qed.
  Lemma sz_relational r t : R_relational RE RG r t -> length t <= S n -> size_relational SE SG r + 8 <= K * length t.
  Proof. destruct r; cbn [R_relational size_relational]; sz ltac:(by_ sz_additive; by_ sz_op). Qed.
  Lemma sz_and c t : R_conditional_and RE RG c t -> length t <= S n -> size_and SE SG c + 6 <= K * length t.
  Proof. destruct c; cbn [R_conditional_and size_and]; sz ltac:(eltsb 7 (S n) ltac:(under sz_relational)). Qed.
  Lemma sz_constraint c t : R_constraint RE RG c t -> length t <= S n -> size_constraint SE SG c + 12 <= K * length t.
  Proof. destruct c; cbn [R_constraint size_constraint]; sz ltac:(by_ sz_bracketted; by_ sz_built_in; by_ sz_function_call). Qed.
  Lemma sz_as_var x t : R_expr_as_var RE x t -> length t <= S n -> size_as_var SE x + 20 <= K * length t.
  Proof. destruct x; cbn [R_expr_as_var size_as_var]; sz eg. Qed.
  Lemma sz_as_var_opt x t : R_expr_as_var_opt RE x t -> length t <= S n -> size_as_var_opt SE x + 20 <= K * length t.
  Proof. destruct x; cbn [R_expr_as_var_opt size_as_var_opt]; sz eg. Qed.
  Lemma sz_order_condition o t : R_order_condition RE RG o t -> length t <= S n -> size_order_condition SE SG o + 11 <= K * length t.
  Proof. destruct o as [[]| |]; cbn [R_order_condition size_order_condition]; sz ltac:(by_ sz_bracketted; by_ sz_constraint; t1). Qed.
  Lemma sz_group_condition g t : R_group_condition RE RG g t -> length t <= S n -> size_group_condition SE SG g + 11 <= K * length t.
  Proof. destruct g; cbn [R_group_condition size_group_condition]; sz ltac:(by_ sz_built_in; by_ sz_function_call; by_ sz_as_var_opt; t1). Qed.
  Lemma sz_group_clause g t : R_group_clause RE RG g t -> length t <= S n -> size_group_clause SE SG g + 20 <= K * length t.
  Proof. destruct g; cbn [R_group_clause size_group_clause]; sz ltac:(eltsb 0 (S n) ltac:(under sz_group_condition)). Qed.
  Lemma sz_order_clause g t : R_order_clause RE RG g t -> length t <= S n -> size_order_clause SE SG g + 20 <= K * length t.
  Proof. destruct g; cbn [R_order_clause size_order_clause]; sz ltac:(eltsb 0 (S n) ltac:(under sz_order_condition)). Qed.
  Lemma sz_having_clause g t : R_having_clause RE RG g t -> length t <= S n -> size_having_clause SE SG g + 20 <= K * length t.
  Proof. destruct g; cbn [R_having_clause size_having_clause]; sz ltac:(eltsb 0 (S n) ltac:(under sz_constraint)). Qed.
  Lemma sz_modifier m t : R_modifier RE RG m t -> length t <= S n -> size_modifier SE SG m <= K * length t + 1.
  Proof.
    destruct m; cbn [R_modifier size_modifier]; sz ltac:(by_ sz_group_clause; by_ sz_order_clause; by_ sz_having_clause; by_ sz_limit_offset).
  Qed.
  Lemma sz_where g t : R_where RG g t -> length t <= n -> SG g + 12 <= K * length t.
  Proof. unfold R_where. sz eg. Qed.
  Lemma sz_select_var v t : R_select_var RE v t -> length t <= S n -> size_select_var SE v + 19 <= K * length t.
  Proof. destruct v; cbn [R_select_var size_select_var]; sz ltac:(by_ sz_as_var; t1). Qed.
  Lemma sz_select_vars v t : R_select_vars RE v t -> length t <= S n -> size_select_vars SE v + 15 <= K * length t.
  Proof. destruct v; cbn [R_select_vars size_select_vars]; sz ltac:(eltsb 16 (S n) ltac:(under sz_select_var)). Qed.
  Lemma sz_select_clause s t : R_select_clause RE s t -> length t <= S n -> size_select_clause SE s + 20 <= K * length t.
  Proof. destruct s as [[[]|] v]; cbn [R_select_clause size_select_clause opt_ of_ R_select_modifier]; sz ltac:(by_ sz_select_vars). Qed.
  Lemma sz_sub_select s t : R_sub_select RE RG s t -> length t <= n -> size_sub_select SE SG s + 20 <= K * length t.
  Proof. destruct s; cbn [R_sub_select size_sub_select]; sz ltac:(by_ sz_select_clause; by_ sz_where; by_ sz_modifier; by_ sz_values). Qed.
  Lemma sz_pattern p t : R_pattern RE RG p t -> length t <= n -> size_pattern SE SG p + 8 <= K * length t.
  Proof.
    destruct p as [|[]| |[]|[]| | |]; cbn [R_pattern size_pattern];
      sz ltac:(by_ sz_voi; by_ sz_constraint; by_ sz_as_var; by_ sz_values; eg; eltsb 10 n ltac:(under HG)).
  Qed.
  Lemma sz_pattern_and_triples p t : R_pattern_and_triples RE RG p t -> length t <= n -> size_pattern_and_triples SE SG p + 6 <= K * length t.
  Proof. destruct p; cbn [R_pattern_and_triples size_pattern_and_triples]; sz ltac:(by_ sz_pattern; by_ sz_block). Qed.
  Lemma sz_group_sub g t : R_group_sub RE RG g t -> length t <= n -> size_group_sub SE SG g <= K * length t + 1.
  Proof. destruct g; cbn [R_group_sub size_group_sub]; sz ltac:(by_ sz_block; eltsb 0 n ltac:(under sz_pattern_and_triples)). Qed.
End Core.

(** ** The knot *)
Lemma sz_expression_rule (RE : Expression -> str -> Prop) (RG : GroupGraphPattern -> str -> Prop) (SE : Expression -> nat) (SG : GroupGraphPattern -> nat) n e t :
  (forall e t, RE e t -> length t <= n -> SE e + 4 <= K * length t) -> (forall g t, RG g t -> length t <= n -> SG g + 12 <= K * length t) ->
  expression_rule RE RG e t -> length t <= S n -> size_expression_step SE SG e + 4 <= K * length t.
Proof. intros HE HG. destruct e; cbn [expression_rule size_expression_step]. sz ltac:(eltsb 5 (S n) ltac:(under (sz_and RE RG SE SG n HE HG))). Qed.
Lemma sz_ggp_rule (RE : Expression -> str -> Prop) (RG : GroupGraphPattern -> str -> Prop) (SE : Expression -> nat) (SG : GroupGraphPattern -> nat) n g t :
  (forall e t, RE e t -> length t <= n -> SE e + 4 <= K * length t) -> (forall g t, RG g t -> length t <= n -> SG g + 12 <= K * length t) ->
  ggp_rule RE RG g t -> length t <= S n -> size_ggp_step SE SG g + 12 <= K * length t.
Proof.
  intros HE HG. destruct g; cbn [ggp_rule size_ggp_step].
  - sz ltac:(by_ (sz_sub_select RE RG SE SG n HE HG)).
  - sz ltac:(by_ (sz_group_sub RE RG SE SG n HE HG)).
Qed.
(** texts of expressions and groups are not empty *)
Fixpoint expression_ne e t (H : R_expression e t) {struct H} : 1 <= length t
with ggp_ne g t (H : R_ggp g t) {struct H} : 1 <= length t.
Proof.
  - destruct H as [RE RG e t HE HG H].
    assert (X := sz_expression_rule RE RG (fun _ => 0) (fun _ => 0) (length t) e t). cut (size_expression_step (fun _ => 0) (fun _ => 0) e + 4 <= K * length t); [lia|].
    apply X; [intros e' t' H' _; apply HE, expression_ne in H'; lia|intros g' t' H' _; apply HG, ggp_ne in H'; lia|exact H|lia].
  - destruct H as [RE RG g t HE HG H].
    assert (X := sz_ggp_rule RE RG (fun _ => 0) (fun _ => 0) (length t) g t). cut (size_ggp_step (fun _ => 0) (fun _ => 0) g + 12 <= K * length t); [lia|].
    apply X; [intros e' t' H' _; apply HE, expression_ne in H'; lia|intros g' t' H' _; apply HG, ggp_ne in H'; lia|exact H|lia].
Qed.
Lemma sz_both d n : (forall e t, R_expression e t -> length t <= n -> size_expression d n e + 4 <= K * length t) /\
  (forall g t, R_ggp g t -> length t <= n -> size_ggp d n g + 12 <= K * length t).
Proof.
  induction n as [|n [HE HG]].
  - split; [intros e t H L; apply expression_ne in H|intros g t H L; apply ggp_ne in H]; lia.
  - split.
    + intros e t H L. destruct H as [RE RG e t XE XG H].
      change (size_expression_step (size_expression d n) (size_ggp d n) e + 4 <= K * length t). apply (sz_expression_rule RE RG _ _ n); auto.
    + intros e t H L. destruct H as [RE RG g t XE XG H].
      change (size_ggp_step (size_expression d n) (size_ggp d n) g + 12 <= K * length t). apply (sz_ggp_rule RE RG _ _ n); auto.
Qed.

(** ** Queries and updates *)
Section Queries.
  Context (d n : nat).
  Lemma sz_expression e t : R_expression e t -> length t <= n -> size_expression d n e + 4 <= K * length t.
  Proof. apply sz_both. Qed.
  Lemma sz_ggp g t : R_ggp g t -> length t <= n -> size_ggp d n g + 12 <= K * length t.
  Proof. apply sz_both. Qed.
  Lemma sz_datasets l t : R_datasets l t -> size_datasets l <= K * length t.
  Proof. unfold R_datasets, size_datasets, R_dataset. revert l. unfold DataSetClause. intros l. sz ltac:(elts 0 ltac:(pieces; under sz_don)). Qed.
  Lemma sz_mods m t : R_mods m t -> length t <= n -> size_mods d n m <= K * length t + 1.
  Proof. intros H L. apply (sz_modifier _ _ _ _ n sz_expression sz_ggp m t H). lia. Qed.
  Lemma sz_where_ g t : R_where R_ggp g t -> length t <= n -> size_ggp d n g + 12 <= K * length t.
  Proof. exact (sz_where _ _ n sz_ggp g t). Qed.
  Lemma sz_select_clause_ s t : R_select_clause R_expression s t -> length t <= n -> size_select_clause (size_expression d n) s + 20 <= K * length t.
  Proof. intros H L. apply (sz_select_clause _ _ n sz_expression s t H). lia. Qed.
  Lemma sz_braced o t : R_braced_template o t -> of_ size_template o + 20 <= K * length t.
  Proof. unfold R_braced_template. sz ltac:(by_ sz_template). Qed.
  Lemma sz_query q t : R_query q t -> length t <= n -> size_query d n q + 20 <= K * length t.
  Proof.
    destruct q as [[]|[]|[]|[[[]]|[]]];
      cbn [R_query size_query R_ask_query size_ask_query R_select_query size_select_query R_describe_query size_describe_query
           R_construct_query size_construct_query R_sub_construct R_sub_triples R_construct_template];
      sz ltac:(by_ sz_datasets; by_ sz_mods; by_ sz_where_; by_ sz_select_clause_; by_ sz_braced; by_ sz_targets; elts 0 ltac:(under sz_tss)).
  Qed.
  Lemma sz_query_stmt q t : R_query_stmt q t -> length t <= n -> size_query_stmt d n q + 10 <= K * length t.
  Proof. destruct q; cbn [R_query_stmt size_query_stmt]; sz ltac:(by_ sz_prologue; by_ sz_query; by_ sz_values). Qed.
  Lemma sz_quads_entry q t : R_quads_entry q t -> size_quads_entry q + 10 <= K * length t.
  Proof. destruct q as [[v u] u']. cbn [R_quads_entry size_quads_entry R_quads_not_triples]. sz ltac:(by_ sz_voi; by_ sz_braced; by_ sz_template). Qed.
  Lemma sz_quads q t : R_quads q t -> size_quads q <= K * length t + 1.
  Proof. destruct q; cbn [R_quads size_quads]; sz ltac:(by_ sz_template; elts 0 ltac:(under sz_quads_entry)). Qed.
  Lemma sz_quads_pattern q t : R_quads_pattern q t -> size_quads q + 20 <= K * length t.
  Proof. unfold R_quads_pattern. sz ltac:(by_ sz_quads). Qed.
  Lemma sz_god g t : R_graph_or_default g t -> size_god g + 13 <= K * length t.
  Proof. destruct g; cbn [R_graph_or_default size_god]; sz t1. Qed.
  Lemma sz_graph_ref i t : R_graph_ref i t -> size_iri i + 20 <= K * length t.
  Proof. unfold R_graph_ref. sz t1. Qed.
  Lemma sz_gra g t : R_graph_ref_all g t -> size_gra g + 13 <= K * length t.
  Proof. destruct g; cbn [R_graph_ref_all size_gra]; sz ltac:(by_ sz_graph_ref). Qed.
  Lemma sz_delete_insert x t : R_delete_insert x t -> size_delete_insert x + 20 <= K * length t.
  Proof. destruct x; cbn [R_delete_insert size_delete_insert]; unfold R_delete_clause, R_insert_clause; sz ltac:(by_ sz_quads_pattern). Qed.
  Lemma sz_update_stmt u t : R_update_stmt u t -> length t <= n -> size_update_stmt d n u + 20 <= K * length t.
  Proof.
    destruct u as [[]|[]|[]|[]|[]|[]|[]| | | |[]]; cbn [R_update_stmt size_update_stmt R_modify]; unfold R_from_to, R_using;
      sz ltac:(by_ sz_graph_ref; by_ sz_gra; by_ sz_god; by_ sz_quads_pattern; by_ sz_delete_insert; by_ sz_ggp; t1; elts 0 ltac:(pieces; under sz_don)).
  Qed.
  Fixpoint sz_update (u : Update) : forall t, R_update u t -> length t <= n -> size_update d n u <= K * length t + 2.
  Proof.
    destruct u as [p [s|] [u|]]; cbn [R_update size_update of_ opt_]; intros t H L.
    - pieces. match goal with H : R_update u _ |- _ => apply (sz_update u) in H; [|lia] end. by_ sz_prologue. by_ sz_update_stmt. lia.
    - pieces. by_ sz_prologue. by_ sz_update_stmt. lia.
    - destruct H.
    - by_ sz_prologue. lia.
  Qed.
End Queries.
