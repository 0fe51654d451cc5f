(** What no tree has: queries, updates, and the equations of the two predicates. *)
From Verif Require Import LMono LC8 LMods.
From Verif Require Export LShape.
From Verif Require Import Nom.
Notation length := List.length (only parsing).
Open Scope N_scope.
Open Scope list_scope.

(** ** Parts of the shape may be weakened *)
Lemma some_mono {A} (P Q : A -> Prop) l : (forall a, P a -> Q a) -> some_ P l -> some_ Q l.
Proof. intros W [N H]. split; [exact N|]. now apply (each_mono P). Qed.
Lemma if_mono {A} (P Q : A -> Prop) o : (forall a, P a -> Q a) -> if_ P o -> if_ Q o.
Proof. destruct o; cbn; auto. Qed.
Section Mono.
  Context {E G : Type} (HE HE' : E -> Prop) (HG HG' : G -> Prop) (We : forall e, HE e -> HE' e) (Wg : forall g, HG g -> HG' g).
  Ltac mono := repeat match goal with
    | |- _ /\ _ -> _ => let H := fresh in intros H; destruct H
    | H : _ /\ _ |- _ => destruct H
    | |- _ /\ _ => split
    | |- if_ _ _ -> if_ _ _ => apply if_mono; intros ?
    | |- some_ _ _ -> some_ _ _ => apply some_mono; intros ?
    | |- each _ _ -> each _ _ => apply each_mono; intros ?
    | H : if_ ?P ?o |- if_ _ ?o => revert H; apply if_mono; intros ?
    | H : some_ ?P ?o |- some_ _ ?o => revert H; apply some_mono; intros ?
    | H : each ?P ?o |- each _ ?o => revert H; apply each_mono; intros ?
    end; auto with mono nocore.
  Lemma expr3_mono r : shape_expr3 HE r -> shape_expr3 HE' r. Proof using We. destruct r; cbn; mono. Qed.
  Lemma str_replace_mono r : shape_str_replace HE r -> shape_str_replace HE' r. Proof using We. destruct r; cbn; mono. Qed.
  Lemma distinct_mono r : shape_distinct HE r -> shape_distinct HE' r. Proof using We. destruct r; cbn; mono. Qed.
  Hint Resolve expr3_mono str_replace_mono distinct_mono We Wg : mono.
  Lemma aggregate_mono a : shape_aggregate HE a -> shape_aggregate HE' a.
  Proof using We. destruct a as [[d []]| | | | | |[]]; cbn; mono. Qed.
  Hint Resolve aggregate_mono : mono.
  Lemma built_in_mono b : shape_built_in HE HG b -> shape_built_in HE' HG' b.
  Proof using We Wg. destruct b; cbn; mono. Qed.
  Hint Resolve built_in_mono : mono.
  Lemma primary_mono p : shape_primary HE HG p -> shape_primary HE' HG' p. Proof using We Wg. destruct p; cbn; mono. Qed.
  Hint Resolve primary_mono : mono.
  Lemma unary_mono u : shape_unary HE HG u -> shape_unary HE' HG' u. Proof using We Wg. destruct u; cbn; mono. Qed.
  Hint Resolve unary_mono : mono.
  Lemma mult_mono u : shape_mult HE HG u -> shape_mult HE' HG' u. Proof using We Wg. destruct u; cbn; mono. Qed.
  Hint Resolve mult_mono : mono.
  Lemma multiplicative_mono u : shape_multiplicative HE HG u -> shape_multiplicative HE' HG' u. Proof using We Wg. destruct u; cbn [shape_multiplicative]; mono. Qed.
  Lemma add_mono u : shape_add HE HG u -> shape_add HE' HG' u. Proof using We Wg. destruct u as [[]|[]|]; cbn [shape_add]; mono. Qed.
  Hint Resolve multiplicative_mono add_mono : mono.
  Lemma additive_mono u : shape_additive HE HG u -> shape_additive HE' HG' u. Proof using We Wg. destruct u; cbn [shape_additive]; mono. Qed.
  Hint Resolve additive_mono : mono.
  Lemma op_mono u : shape_op HE HG u -> shape_op HE' HG' u. Proof using We Wg. destruct u; cbn [shape_op]; mono. Qed.
  Hint Resolve op_mono : mono.
  Lemma relational_mono u : shape_relational HE HG u -> shape_relational HE' HG' u. Proof using We Wg. destruct u; cbn [shape_relational]; mono. Qed.
  Hint Resolve relational_mono : mono.
  Lemma and_mono u : shape_and HE HG u -> shape_and HE' HG' u. Proof using We Wg. destruct u; cbn [shape_and]; mono. Qed.
  Lemma constraint_mono u : shape_constraint HE HG u -> shape_constraint HE' HG' u. Proof using We Wg. destruct u; cbn [shape_constraint]; mono. Qed.
  Lemma as_var_mono u : shape_as_var HE u -> shape_as_var HE' u. Proof using We. destruct u; cbn; mono. Qed.
  Lemma as_var_opt_mono u : shape_as_var_opt HE u -> shape_as_var_opt HE' u. Proof using We. destruct u; cbn; mono. Qed.
  Hint Resolve and_mono constraint_mono as_var_mono as_var_opt_mono : mono.
  Lemma order_condition_mono u : shape_order_condition HE HG u -> shape_order_condition HE' HG' u. Proof using We Wg. destruct u as [[]| |]; cbn [shape_order_condition]; mono. Qed.
  Lemma group_condition_mono u : shape_group_condition HE HG u -> shape_group_condition HE' HG' u. Proof using We Wg. destruct u; cbn [shape_group_condition]; mono. Qed.
  Hint Resolve order_condition_mono group_condition_mono : mono.
  Lemma group_clause_mono u : shape_group_clause HE HG u -> shape_group_clause HE' HG' u. Proof using We Wg. destruct u; cbn [shape_group_clause]; mono. Qed.
  Lemma order_clause_mono u : shape_order_clause HE HG u -> shape_order_clause HE' HG' u. Proof using We Wg. destruct u; cbn [shape_order_clause]; mono. Qed.
  Lemma having_clause_mono u : shape_having_clause HE HG u -> shape_having_clause HE' HG' u. Proof using We Wg. destruct u; cbn [shape_having_clause]; mono. Qed.
  Hint Resolve group_clause_mono order_clause_mono having_clause_mono : mono.
  Lemma modifier_mono u : shape_modifier HE HG u -> shape_modifier HE' HG' u. Proof using We Wg. destruct u; cbn [shape_modifier]; mono. Qed.
  Lemma select_var_mono u : shape_select_var HE u -> shape_select_var HE' u. Proof using We. destruct u; cbn; mono. Qed.
  Hint Resolve modifier_mono select_var_mono : mono.
  Lemma select_clause_mono u : shape_select_clause HE u -> shape_select_clause HE' u.
  Proof using We. destruct u as [m []]; cbn [shape_select_clause shape_select_vars]; mono. Qed.
  Hint Resolve select_clause_mono : mono.
  Lemma sub_select_mono u : shape_sub_select HE HG u -> shape_sub_select HE' HG' u. Proof using We Wg. destruct u; cbn [shape_sub_select]; mono. Qed.
  Lemma pattern_mono u : shape_pattern HE HG u -> shape_pattern HE' HG' u.
  Proof using We Wg. destruct u; cbn [shape_pattern]; repeat match goal with |- context [match ?x with _ => _ end] => is_var x; destruct x end; mono. Qed.
  Hint Resolve pattern_mono : mono.
  Lemma pattern_and_triples_mono u : shape_pattern_and_triples HE HG u -> shape_pattern_and_triples HE' HG' u.
  Proof using We Wg. destruct u; cbn [shape_pattern_and_triples]; mono. Qed.
  Hint Resolve pattern_and_triples_mono : mono.
  Lemma group_sub_mono u : shape_group_sub HE HG u -> shape_group_sub HE' HG' u. Proof using We Wg. destruct u; cbn [shape_group_sub]; mono. Qed.
End Mono.
Lemma shape_expression_iff e : shape_expression e <-> shape_expression_step shape_expression shape_ggp e.
Proof.
  split; [|now apply shape_expression_intro]. intros [HE HG e' We Wg H]. destruct e' as [l]. revert H. cbn [shape_expression_step].
  apply some_mono. intros a. now apply and_mono.
Qed.
Lemma shape_ggp_iff g : shape_ggp g <-> shape_ggp_step shape_expression shape_ggp g.
Proof.
  split; [|now apply shape_ggp_intro]. intros [HE HG g' We Wg H]. destruct g' as [s|s]; revert H; cbn [shape_ggp_step].
  - now apply sub_select_mono.
  - now apply group_sub_mono.
Qed.

(** ** Queries *)
#[export] Hint Resolve en_expression en_ggp : shape.
Lemma en_mods : ens solution_modifier shape_mods.
Proof. exact (en_modifier _ _ _ _ en_expression en_ggp). Qed.
Lemma en_select : ens select_clause (shape_select_clause shape_expression).
Proof. exact (en_select_clause _ _ en_expression). Qed.
Lemma en_where_clause : ens where_clause shape_ggp.
Proof. exact (en_where _ _ en_ggp). Qed.
Lemma en_targets : ens var_or_iris_or_all shape_targets. Proof. ea var_or_iris_or_all. Qed.
#[export] Hint Resolve en_mods en_select en_where_clause en_targets : shape.
Lemma en_select_query : ens select_query (fun q => shape_query (SqSelect q)). Proof. em select_query. Qed.
Lemma en_ask_query : ens ask_query (fun q => shape_query (SqAsk q)). Proof. em ask_query. Qed.
Lemma en_describe_query : ens describe_query (fun q => shape_query (SqDescribe q)). Proof. em describe_query. Qed.
Lemma en_sub_triples : ens sub_triples (fun q => shape_query (SqConstruct (CqSubTriples q))). Proof. em sub_triples. Qed.
Lemma en_sub_construct : ens sub_construct (fun q => shape_query (SqConstruct (CqSubConstruct q))).
Proof. unfold sub_construct. eapply ens_map; [ev|]. intros [[l] [d [w m]]] H. cbn in H |- *. break. repeat split; assumption. Qed.
#[export] Hint Resolve en_select_query en_ask_query en_describe_query en_sub_triples en_sub_construct : shape.
Lemma en_construct_query : ens construct_query (fun q => shape_query (SqConstruct q)).
Proof. unfold construct_query, preceded_tag1. eapply ens_preceded. alts; (eapply ens_map; [ev|]); intros a H; exact H. Qed.
#[export] Hint Resolve en_construct_query : shape.
Lemma en_query : ens sparql_query shape_query.
Proof. unfold sparql_query. alts; (eapply ens_map; [ev|]); intros a H; exact H. Qed.
#[export] Hint Resolve en_query : shape.
Lemma en_query_stmt : ens sparql_query_stmt shape_query_stmt.
Proof. em sparql_query_stmt. Qed.

(** ** Updates *)
Lemma en_braced_template : ens braced_template (if_ shape_template). Proof. unfold braced_template. ev. Qed.
#[export] Hint Resolve en_braced_template : shape.
Lemma en_quads_not_triples : ens quads_not_triples (fun '(MkQuadsNotTriples _ t) => if_ shape_template t). Proof. em quads_not_triples. Qed.
#[export] Hint Resolve en_quads_not_triples : shape.
Lemma en_quads_entry : ens quads_entry shape_quads_entry.
Proof. unfold quads_entry. eapply ens_map; [ev|]. intros [[v t] t'] H. cbn in H |- *. break. split; assumption. Qed.
#[export] Hint Resolve en_quads_entry : shape.
Lemma en_quads : ens quads shape_quads. Proof. em quads. Qed.
#[export] Hint Resolve en_quads : shape.
Lemma en_quads_pattern : ens quads_pattern shape_quads. Proof. unfold quads_pattern. ev. Qed.
#[export] Hint Resolve en_quads_pattern : shape.
Lemma en_insert_clause : ens insert_clause shape_quads. Proof. unfold insert_clause. ev. Qed.
Lemma en_delete_clause : ens delete_clause shape_quads. Proof. unfold delete_clause. ev. Qed.
#[export] Hint Resolve en_insert_clause en_delete_clause : shape.
Lemma en_delete_insert : ens delete_insert shape_delete_insert. Proof. ea delete_insert. Qed.
#[export] Hint Resolve en_delete_insert : shape.
Lemma en_modify : ens modify_stmt (fun m => shape_update_stmt (UsModify m)).
Proof.
  intros i r [x d u w] E. pose proof (modify_using _ _ _ _ _ _ E) as N.
  assert (K : ens modify_stmt (fun '(MkModify _ d u w) => shape_delete_insert d /\ shape_ggp w)) by em modify_stmt.
  apply K in E. destruct E as [E1 E2]. repeat split; assumption.
Qed.
Lemma en_insert_data : ens insert_data shape_quads. Proof. unfold insert_data, quad_data. ev. Qed.
Lemma en_delete_data : ens delete_data shape_quads. Proof. unfold delete_data, quad_data. ev. Qed.
Lemma en_delete_where : ens delete_where_data shape_quads. Proof. unfold delete_where_data, quad_data. ev. Qed.
#[export] Hint Resolve en_modify en_insert_data en_delete_data en_delete_where : shape.
Lemma en_update_stmt : ens update_stmt shape_update_stmt.
Proof. unfold update_stmt. alts; (eapply ens_map; [ev|]); intros a H; exact H. Qed.
#[export] Hint Resolve en_update_stmt : shape.
Lemma en_update_body u : ens u shape_update -> ens (update_body u) shape_update.
Proof.
  intros Hu. unfold update_body. eapply ens_map; [ev|]. intros [p [[s inner]|]]; cbn; [|reflexivity]. intros [_ [H1 H2]]. now split.
Qed.
Lemma en_update : ens update shape_update.
Proof.
  intros i. unfold update, fixp.
  assert (K : forall n, ens (iter n update_body) shape_update).
  { apply (ens_iter update_body (fun p => ens p shape_update)); [discriminate|]. intros p. apply en_update_body. }
  exact (K _ i).
Qed.
