(** Soundness: the knot, queries and updates. *)
From Verif Require Export LSound3.
Notation length := List.length (only parsing).
Open Scope N_scope.
Open Scope list_scope.

Lemma R_expression_rule e t : expression_rule R_expression R_ggp e t -> R_expression e t.
Proof. apply R_expression_intro; auto. Qed.
Lemma R_ggp_rule g t : ggp_rule R_expression R_ggp g t -> R_ggp g t.
Proof. apply R_ggp_intro; auto. Qed.

Lemma sd_ggp_body e g : sound e R_expression -> sound g R_ggp -> sound (ggp_body e g) R_ggp.
Proof.
  intros He Hg. unfold ggp_body, sp_enc. eapply sound_weaken.
  - eapply sound_delimited; [sde| |sde]. eapply sound_delimited; [sde| |sde].
    apply (sound_alt_cons _ _ (fun g => match g with GgpSubSelect s => R_sub_select R_expression R_ggp s
                                        | GgpSub s => R_group_sub R_expression R_ggp s end)); [|alts].
    + eapply sound_map; [exact (sd_sub_select_of _ _ _ _ He Hg)|]. intros x t H. exact H.
    + eapply sound_map; [exact (sd_ggp_sub_of _ _ _ _ He Hg)|]. intros x t H. exact H.
  - intros [s|s] t H; apply R_ggp_rule; cbn [ggp_rule]; write.
Qed.
Lemma sd_ggp_of e : sound e R_expression -> sound (ggp_of e) R_ggp.
Proof. intros He. apply sound_fixp. intros g Hg. exact (sd_ggp_body _ _ He Hg). Qed.
Lemma sd_expression_body e g : sound e R_expression -> sound g R_ggp -> sound (expression_body e g) R_expression.
Proof.
  intros He Hg. unfold expression_body. eapply sound_map.
  - apply sound_separated_nonempty_list; [sde|]. exact (sd_conditional_and_expression_of _ _ _ _ He Hg).
  - intros l t [N H]. apply R_expression_rule. split; [assumption|]. revert H. apply sepby_mono; [auto|].
    intros u [Hu _]. exact Hu.
Qed.
Lemma sd_expression : sound expression R_expression.
Proof. apply sound_fixp. intros e He. exact (sd_expression_body _ _ He (sd_ggp_of _ He)). Qed.
Lemma sd_group_graph_pattern : sound group_graph_pattern R_ggp.
Proof. exact (sd_ggp_of _ sd_expression). Qed.
#[export] Hint Resolve sd_expression sd_group_graph_pattern : sound.
Lemma sd_built_in_call : sound built_in_call (R_built_in R_expression R_ggp).
Proof. exact (sd_built_in_call_of _ _ _ _ sd_expression sd_group_graph_pattern). Qed.
Lemma sd_constraint : sound constraint (R_constraint R_expression R_ggp).
Proof. exact (sd_constraint_of _ _ _ _ sd_expression sd_group_graph_pattern). Qed.
Lemma sd_select_clause : sound select_clause (R_select_clause R_expression).
Proof. exact (sd_select_clause_of _ _ sd_expression). Qed.
Lemma sd_solution_modifier : sound solution_modifier R_mods.
Proof. exact (sd_solution_modifier_of _ _ _ _ sd_expression sd_group_graph_pattern). Qed.
Lemma sd_where_clause : sound where_clause (R_where R_ggp).
Proof. exact (sd_where_clause_of _ _ sd_group_graph_pattern). Qed.
#[export] Hint Resolve sd_select_clause sd_solution_modifier sd_where_clause : sound.

(** ** Queries *)
Lemma sd_datasets : sound (separated_list sp data_set_clause) R_datasets.
Proof. eapply sound_weaken; [sdv|]. auto. Qed.
#[export] Hint Resolve sd_datasets : sound.
Lemma sd_select_query : sound select_query R_select_query.
Proof. sdm @select_query. Qed.
Lemma sd_ask_query : sound ask_query R_ask_query.
Proof. sdm @ask_query. Qed.
Lemma sd_describe_query : sound describe_query R_describe_query.
Proof. sdm @describe_query. Qed.
Lemma sd_braced_template : sound braced_template R_braced_template.
Proof. sdw @braced_template. Qed.
#[export] Hint Resolve sd_braced_template : sound.
Lemma sd_sub_triples : sound sub_triples R_sub_triples.
Proof.
  unfold sub_triples.
  change (delimited (chr (c_ "{")) (sp_enc (opt triples_template)) (chr (c_ "}"))) with braced_template.
  eapply sound_map; [sdv|]. write.
Qed.
Lemma sd_sub_construct : sound sub_construct R_sub_construct.
Proof. sdm @sub_construct. Qed.
#[export] Hint Resolve sd_select_query sd_ask_query sd_describe_query sd_sub_triples sd_sub_construct : sound.
Lemma sd_construct_query : sound construct_query R_construct_query.
Proof.
  unfold construct_query, preceded_tag1. eapply sound_weaken.
  - eapply sound_preceded; [sde|].
    apply (sound_alt_cons _ _ (fun q => match q with CqSubConstruct s => R_sub_construct s | CqSubTriples s => R_sub_triples s end)); [|alts];
    eapply sound_map; [sdv|auto|sdv|auto].
  - intros [q|q]; write.
Qed.
#[export] Hint Resolve sd_construct_query : sound.
Lemma sd_sparql_query : sound sparql_query R_query.
Proof. unfold sparql_query. alts; (eapply sound_map; [sdv|]); auto. Qed.
#[export] Hint Resolve sd_sparql_query : sound.
Lemma sd_sparql_query_stmt : sound sparql_query_stmt R_query_stmt.
Proof.
  unfold sparql_query_stmt. eapply sound_map.
  - unfold tuple3. eapply sound_pair; [sdv|]. eapply sound_pair; [sdv|]. apply sound_opt.
    eapply sound_preceded; [sde|]. apply sd_values.
  - write.
Qed.

(** ** Updates *)
Lemma sd_quads_not_triples : sound quads_not_triples R_quads_not_triples.
Proof. sdm @quads_not_triples. Qed.
#[export] Hint Resolve sd_quads_not_triples : sound.
Lemma sd_quads_entry : sound quads_entry R_quads_entry.
Proof. sdm @quads_entry. Qed.
#[export] Hint Resolve sd_quads_entry : sound.
Lemma sd_quads : sound quads R_quads.
Proof. sdm @quads. Qed.
#[export] Hint Resolve sd_quads : sound.
Lemma sd_quads_pattern : sound quads_pattern R_quads_pattern.
Proof. sdw @quads_pattern. Qed.
Lemma sd_quad_data : sound quad_data R_quads_pattern.
Proof. exact sd_quads_pattern. Qed.
#[export] Hint Resolve sd_quads_pattern sd_quad_data : sound.
Lemma sd_insert_clause : sound insert_clause R_insert_clause.
Proof. sdw @insert_clause. Qed.
Lemma sd_delete_clause : sound delete_clause R_delete_clause.
Proof. sdw @delete_clause. Qed.
#[export] Hint Resolve sd_insert_clause sd_delete_clause : sound.
Lemma sd_delete_insert : sound delete_insert R_delete_insert.
Proof. unfold delete_insert. alts; (eapply sound_map; [sdv|]); first [intros; assumption | write]. Qed.
#[export] Hint Resolve sd_delete_insert : sound.
Lemma sd_modify_stmt : sound modify_stmt R_modify.
Proof. sdm @modify_stmt. Qed.
#[export] Hint Resolve sd_modify_stmt : sound.
Lemma sound_stmt {A} w (p : parser A) P : kw_ok w = true -> sound p P ->
  sound (stmt w p) (fun a => kwd w ;; blank1 ;; P a).
Proof.
  intros K Hp. unfold stmt. eapply sound_map.
  - eapply (sound_pair _ _ (fun _ => kwd w ;; blank1)); [|exact Hp].
    apply eats_pair; [now apply eats_tag_no_case|sde].
  - intros [x a] t. write.
Qed.
Ltac sds := eapply sound_map; [apply sound_stmt; [reflexivity|sdv]|]; write.
Lemma sd_load_stmt : sound load_stmt (fun s => R_update_stmt (UsLoad s)).
Proof. sdm @load_stmt. Qed.
Lemma sd_clear_stmt : sound clear_stmt (fun s => R_update_stmt (UsClear s)).
Proof. unfold clear_stmt, silent_graph_ref_all. sds. Qed.
Lemma sd_drop_stmt : sound drop_stmt (fun s => R_update_stmt (UsDrop s)).
Proof. unfold drop_stmt, silent_graph_ref_all. sds. Qed.
Lemma sd_create_stmt : sound create_stmt (fun s => R_update_stmt (UsCreate s)).
Proof. sdm @create_stmt. Qed.
Lemma sd_copy_stmt : sound copy_stmt (fun s => R_update_stmt (UsCopy s)).
Proof. unfold copy_stmt, silent_from_to. eapply sound_map; [apply sound_stmt; [reflexivity|sdv]|].
  intros [s [f u]] t. cbn [R_update_stmt]. unfold R_from_to. write. Qed.
Lemma sd_move_stmt : sound move_stmt (fun s => R_update_stmt (UsMove s)).
Proof. unfold move_stmt, silent_from_to. eapply sound_map; [apply sound_stmt; [reflexivity|sdv]|].
  intros [s [f u]] t. cbn [R_update_stmt]. unfold R_from_to. write. Qed.
Lemma sd_add_stmt : sound add_stmt (fun s => R_update_stmt (UsAdd s)).
Proof. unfold add_stmt, silent_from_to. eapply sound_map; [apply sound_stmt; [reflexivity|sdv]|].
  intros [s [f u]] t. cbn [R_update_stmt]. unfold R_from_to. write. Qed.
Lemma sd_insert_data : sound insert_data (fun s => R_update_stmt (UsInsertData s)).
Proof. sdw @insert_data. Qed.
Lemma sd_delete_data : sound delete_data (fun s => R_update_stmt (UsDeleteData s)).
Proof. sdw @delete_data. Qed.
Lemma sd_delete_where_data : sound delete_where_data (fun s => R_update_stmt (UsDeleteWhere s)).
Proof. sdw @delete_where_data. Qed.
Lemma sd_update_stmt : sound update_stmt R_update_stmt.
Proof.
  unfold update_stmt. alts.
  all: eapply sound_map; [first [exact sd_load_stmt | exact sd_clear_stmt | exact sd_drop_stmt
    | exact sd_create_stmt | exact sd_copy_stmt | exact sd_insert_data | exact sd_delete_data
    | exact sd_delete_where_data | exact sd_modify_stmt]|intros x t H; exact H].
Qed.
#[export] Hint Resolve sd_update_stmt : sound.
Lemma sd_update_body u : sound u R_update -> sound (update_body u) R_update.
Proof.
  intros Hu. unfold update_body. eapply sound_map; [sdv|].
  intros [p [[s inner]|]] t; cbn [R_update opt_ fst snd].
  - write.
  - intros (x & y & -> & Hx & Hy). red in Hy. subst y. rewrite app_nil_r. exact Hx.
Qed.
Lemma sd_update : sound update R_update.
Proof. apply sound_fixp. exact sd_update_body. Qed.
#[export] Hint Resolve sd_update : sound.
