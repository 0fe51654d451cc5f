(** Safely laid out queries and updates are read. *)
From Verif Require Export LayoutQuery LC7.
Notation length := List.length (only parsing).
Notation ex := expression (only parsing).
Notation gg := group_graph_pattern (only parsing).
Open Scope N_scope.
Open Scope list_scope.

Lemma rd_mods m : rd solution_modifier m (W_mods m).
Proof. exact (rd_modifier W_expression W_ggp rd_expression rd_ggp m). Qed.
Lemma rd_where_ g : rd where_clause g (W_where W_ggp g).
Proof. exact (rd_where W_ggp rd_ggp g). Qed.
Lemma rd_select_clause_ s : rd select_clause s (W_select_clause W_expression s).
Proof. exact (rd_select_clause W_expression rd_expression s). Qed.
Lemma rd_dss l : rd (separated_list sp data_set_clause) l (W_datasets l).
Proof. exact (rd_datasets l). Qed.

Lemma rd_select_query q : rd select_query q (W_select_query q).
Proof.
  destruct q as [s d w m]. unfold select_query. cbn [W_select_query]. apply (rd_map _ _ (s, (d, (w, m)))); [|reflexivity].
  apply rd_assoc. apply rd_pair; [apply rd_terminated; [apply rd_select_clause_|apply rdx_sp1]|].
  apply rd_pair; [apply rd_dss|].
  eapply rd_sub; [|intros t r; apply then_l3]. apply rd_pair; [apply rd_sp_enc, rd_where_|apply rd_mods].
Qed.
Lemma rd_body d w m : rd (tuple3 (terminated (separated_list sp data_set_clause) sp) (terminated where_clause sp) solution_modifier) (d, (w, m))
  (W_datasets d >> gap >> W_where W_ggp w >> gap >> W_mods m).
Proof.
  apply rd_assoc. apply rd_pair; [apply rd_terminated; [apply rd_dss|apply rdx_sp]|]. apply rd_assoc.
  apply rd_pair; [apply rd_terminated; [apply rd_where_|apply rdx_sp]|apply rd_mods].
Qed.
Lemma rd_ask_query q : rd ask_query q (W_ask_query q).
Proof.
  destruct q as [d w m]. unfold ask_query. cbn [W_ask_query]. apply rd_assoc. intros t r (x & y & -> & Hx & Hy). rewrite <- app_assoc.
  destruct (rdx_terminated _ _ _ _ (rdx_kw "ask" eq_refl) rdx_sp1 _ _ Hx) as [z E]. apply (map_ok _ _ _ _ (z, (d, (w, m)))); [|reflexivity].
  eapply pair_ok; [exact E|]. now apply rd_body.
Qed.
Lemma no_target_fails r : no_target r -> fails var_or_iri r.
Proof.
  intros (H1 & H2 & H3). unfold var_or_iri. apply alt_fails_cons; [|apply alt_fails_cons; [|apply alt_fails_nil]].
  - apply map_fails, var_first. destruct r as [|c r]; [exact I|]. cbn in *. apply N.eqb_neq in H1, H2. unfold oneof. cbn. now rewrite H1, H2.
  - now apply map_fails, no_iri_fails.
Qed.
Lemma rd_targets v : rd var_or_iris_or_all v (W_targets v).
Proof.
  unfold var_or_iris_or_all. destruct v as [l|]; cbn [W_targets].
  - alt1. eapply rd_map; [|reflexivity]. apply rd_sep1; [exact rd_var_or_iri|mv|mv|apply gap1_sp|apply gap1_ne|].
    intros r. apply sp_back, no_target_fails.
  - alt_skip; [intros t r ->; apply sepne_fails, no_target_fails; split; [discriminate|]; split; [discriminate|apply no_iri_fails; now apply iri_fails_first]|].
    alt1. intros t r ->. apply (map_ok _ _ _ _ 42); [apply chr_ok|reflexivity].
Qed.
Lemma no_where_fails r : ~ begins "where" r -> not_first 123 r -> fails where_clause r.
Proof.
  intros H1 H2. unfold where_clause, where_clause_of. eapply preceded_fails2; [apply opt_none, terminated_fails1; now apply (kw_fails "where")|now apply gg_first].
Qed.
Lemma rd_describe_query q : rd describe_query q (W_describe_query q).
Proof.
  destruct q as [d v w m]. unfold describe_query. cbn [W_describe_query]. intros t r (x & y & -> & Hx & Hy). rewrite <- app_assoc.
  destruct (rdx_kw "describe" eq_refl _ _ Hx) as [z E]. apply (map_ok _ _ _ _ (z, (v, (d, (w, m))))); [|reflexivity].
  eapply pair_ok; [exact E|]. apply then_l3 in Hy. clear Hx E. revert y r Hy. apply rd_pair; [apply rd_sp_enc1, rd_targets|].
  apply rd_assoc. apply rd_pair; [apply rd_terminated; [apply rd_dss|apply rdx_sp]|]. apply rd_pair; [|apply rd_mods].
  apply rd_opt; [intros a; apply rd_terminated; [apply rd_where_|apply rdx_sp]|]. intros r [H1 H2]. now apply terminated_fails1, no_where_fails.
Qed.
Lemma rd_sub_construct q : rd sub_construct q (W_sub_construct q).
Proof.
  destruct q as [t d w m]. unfold sub_construct. cbn [W_sub_construct]. apply (rd_map _ _ (t, (d, (w, m)))); [|reflexivity].
  apply rd_assoc. apply rd_pair; [apply rd_terminated; [apply rd_construct_template|apply rdx_sp1]|apply rd_body].
Qed.
Lemma rd_sub_triples q : rd sub_triples q (W_sub_triples q).
Proof.
  destruct q as [d t m]. unfold sub_triples. cbn [W_sub_triples]. apply rd_assoc. intros u r (x & y & -> & Hx & Hy). rewrite <- app_assoc.
  apply then_l in Hy. destruct Hy as (a & b & -> & Ha & Hb). rewrite <- app_assoc.
  destruct (rdx_terminated _ _ _ _ (rdx_kw "where" eq_refl) rdx_sp1 _ _ Ha) as [z E]. apply (map_ok _ _ _ _ (d, (z, (t, m)))); [|reflexivity].
  eapply pair_ok; [|eapply pair_ok; [exact E|]].
  - rewrite <- app_assoc in Hx. revert x Hx. assert (X := rd_terminated _ _ _ _ _ (rd_dss d) rdx_sp). intros x Hx. exact (X _ _ Hx).
  - clear Hx Ha E. revert b r Hb. apply rd_pair; [exact (rd_braced_template t)|]. apply rd_preceded; [apply rdx_sp|apply rd_mods].
Qed.
Lemma word_not c k w x : word_like k = true -> kw k w ->
  forallb (fun d => negb (oneof [c] d)) (List.map N.of_nat (seq 65 26 ++ seq 97 26)) = true -> not_first c (w ++ x).
Proof. intros W K F. apply (stops_oneof [c]); [|now left]. apply (begins_stops _ k); [exact W|exact F|]. exists w, x. auto. Qed.
Lemma blank_not c b x : blank b -> ~ In c [32; 9; 10; 13; 35] -> not_first c x -> not_first c (b ++ x).
Proof. intros B N H. destruct B as [|y b Hy _|bd nl b _ _ _]; [exact H| |]; cbn in *; intros E; apply N; subst; intuition. Qed.
Lemma rd_construct_query q : rd construct_query q (W_construct_query q).
Proof.
  unfold construct_query. destruct q as [q|q]; cbn [W_construct_query]; (apply rd_preceded_tag1; [reflexivity|]).
  - alt1. eapply rd_map; [|reflexivity]. apply rd_sub_construct.
  - alt_skip; [|alt1; eapply rd_map; [|reflexivity]; apply rd_sub_triples].
    intros t r H. apply map_fails, pair_fails1, terminated_fails1, map_fails, delimited_fails1, terminated_fails1, chr_fails.
    destruct q as [[|c d] x m]; cbn [W_sub_triples W_datasets sepW] in H.
    + destruct H as (a & b & -> & [-> H] & c & e & -> & [Hc _] & w & f & -> & Hw & _). cbn [app]. rewrite <- !app_assoc.
      apply blank_not; [exact Hc|cbn; clear; intuition discriminate|]. now apply (word_not 123 "where").
    + destruct H as (a & b & -> & (u & v & -> & (w & y & -> & Hw & _) & _) & _). rewrite <- !app_assoc. now apply (word_not 123 "from").
Qed.
Lemma rd_query q : rd sparql_query q (W_query q).
Proof.
  unfold sparql_query. destruct q as [q|q|q|q]; cbn [W_query].
  - alt_skip; [|alt_skip; [|alt_skip; [|alt1; eapply rd_map; [|reflexivity]; apply rd_ask_query]]]; destruct q as [d w m]; cbn [W_ask_query]; apply nf_then.
    + apply nf_map, nf_pair1, nf_terminated1. apply nf_map, nf_pair1. now apply (nf_kw "select" "ask").
    + apply nf_tag1. now apply (nf_kw "construct" "ask").
    + apply nf_map, nf_pair1. now apply (nf_kw "describe" "ask").
  - alt1. eapply rd_map; [|reflexivity]. apply rd_select_query.
  - alt_skip; [|alt_skip; [|alt1; eapply rd_map; [|reflexivity]; apply rd_describe_query]]; destruct q as [d v w m]; cbn [W_describe_query]; apply nf_then.
    + apply nf_map, nf_pair1, nf_terminated1. apply nf_map, nf_pair1. now apply (nf_kw "select" "describe").
    + apply nf_tag1. now apply (nf_kw "construct" "describe").
  - alt_skip; [|alt1; eapply rd_map; [|reflexivity]; apply rd_construct_query].
    apply nf_map, nf_pair1, nf_terminated1. apply nf_map, nf_pair1. destruct q as [q|q]; cbn [W_construct_query]; apply nf_then; now apply (nf_kw "select" "construct").
Qed.
Lemma no_values_fails r : no_values r -> fails (preceded sp1 (preceded_tag1 (s_ "values") datablock)) r.
Proof.
  intros [H|(b & x & -> & Hb & S & H)]; [now apply preceded_fails1, sp1_fails|].
  eapply preceded_fails2; [now apply sp1_ok|]. apply tag1_fails. now apply (kw_fails "values").
Qed.
Lemma rd_query_stmt q : rd sparql_query_stmt q (W_query_stmt q).
Proof.
  destruct q as [p q v]. unfold sparql_query_stmt. cbn [W_query_stmt]. apply (rd_map _ _ (p, (q, v))); [|reflexivity].
  apply rd_assoc. apply rd_pair; [apply rd_terminated; [apply rd_prologue|apply rdx_sp]|]. apply rd_pair; [apply rd_query|].
  apply rd_opt; [intros d; apply rd_preceded; [apply rdx_sp1|exact (rd_values d)]|apply no_values_fails].
Qed.

(** ** Updates *)
Lemma no_using_fails r : ~ begins "using" r -> fails using_clause r.
Proof. intros H. apply tag1_fails. now apply (kw_fails "using"). Qed.
Lemma rd_modify m : rd modify_stmt m (W_modify m).
Proof.
  destruct m as [i d u w]. unfold modify_stmt. cbn [W_modify].
  intros t r (x & y & -> & Hx & Hy). apply then_l in Hy. destruct Hy as (a & b & -> & Ha & b' & c & -> & Hb & Hc).
  apply then_l3 in Hc. destruct Hc as (k & e & -> & Hk & He).
  destruct (rdx_sp_enc1 _ _ (rdx_kw "where" eq_refl) _ _ Hk) as [z E].
  apply (map_ok _ _ _ _ (i, (d, (u, (z, w))))); [|reflexivity]. rewrite <- !app_assoc in *.
  eapply pair_ok; [|eapply pair_ok; [|eapply pair_ok; [|eapply pair_ok; [exact E|apply rd_ggp; exact He]]]].
  - clear -Hx. assert (X : rd (opt (delimited (tag_no_case (s_ "where")) iri sp1)) i
      (optW (fun i => word "where" >> W_iri i >> gap1) (fun r => ~ begins "where" r) i)).
    { apply rd_opt; [intros j; apply rd_delimited; [now apply rdx_kw|apply rd_iri|apply rdx_sp1]|]. intros v H. apply delimited_fails1. now apply (kw_fails "where"). }
    exact (X _ _ Hx).
  - exact (rd_terminated _ _ _ _ _ (rd_delete_insert d) rdx_sp _ _ Ha).
  - clear -Hb. assert (X : rd (separated_list sp using_clause) u (sepW W_using gap1 (fun r => ~ begins "using" r) (nxt1 (fun r => ~ begins "using" r)) u)).
    { apply rd_sep; [exact rd_using|mv|mv|apply gap1_sp|apply gap1_ne| |exact no_using_fails]. intros v. apply sp_back, no_using_fails. }
    exact (X _ _ Hb).
Qed.
Lemma nf_tag_modify k m : low_ascii (s_ k) = true -> differ (s_ "where") (s_ k) = true -> differ (s_ "offset") (s_ k) = true ->
  differ (s_ "insert") (s_ k) = true -> nf (tag_no_case (s_ k)) (W_modify m).
Proof.
  intros A D1 D2 D3. destruct m as [i d u w]. cbn [W_modify]. intros t r H. destruct i as [i|]; cbn [optW] in H.
  - revert t r H. apply nf_then, nf_then. now apply (nf_kw k "where").
  - destruct H as (x & y & -> & [-> _] & H). cbn [app]. revert y r H. apply nf_then. destruct d as [q o|q]; cbn [W_delete_insert].
    + apply nf_then, nf_then. now apply (nf_kw k "offset").
    + apply nf_then. now apply (nf_kw k "insert").
Qed.
Lemma nf_brace_word k (P : lang) : word_like k = true -> forallb (fun c => negb (c =? 107)) (s_ k) = true -> nf (tag_no_case (s_ k)) (sym "{" >> P).
Proof.
  intros W N t r (x & y & -> & -> & _). apply (kw_fails k); [now apply word_low|exact N|]. intros B.
  pose proof (begins_stops (fun c => c =? 123) k _ W eq_refl B) as S. discriminate S.
Qed.
Lemma nf_insert_data_modify m : nf insert_data (W_modify m).
Proof.
  destruct m as [i d u w]. cbn [W_modify]. intros t r H. destruct i as [i|]; cbn [optW] in H.
  - revert t r H. apply nf_then, nf_then. apply nf_tag1. now apply (nf_kw "insert" "where").
  - destruct H as (x & y & -> & [-> _] & H). cbn [app]. revert y r H. apply nf_then. destruct d as [q o|q]; cbn [W_delete_insert].
    + apply nf_then. apply nf_tag1, nf_then. now apply (nf_kw "insert" "offset").
    + unfold W_insert_clause, insert_data. unfold preceded_tag1 at 1. apply nf_assoc, nf_preceded2; [apply rdx_terminated; [now apply rdx_kw|apply rdx_sp1]|]. apply nf_tag1. unfold W_quads_pattern. now apply nf_brace_word.
Qed.
Ltac to_tag := unfold load_stmt, clear_stmt, drop_stmt, create_stmt, copy_stmt, insert_data, delete_data, delete_where_data, stmt;
  repeat first [apply nf_tag1 | apply nf_map | apply nf_pair1].
Ltac kw2 k w := to_tag; apply nf_then; now apply (nf_kw k w).
Lemma nf_del_data (P : lang) : nf delete_data (word "delete" >> gap1 >> word "where" >> P).
Proof.
  unfold delete_data. unfold preceded_tag1 at 1. apply nf_assoc, nf_preceded2; [apply rdx_terminated; [now apply rdx_kw|apply rdx_sp1]|].
  apply nf_tag1, nf_then. now apply (nf_kw "data" "where").
Qed.
Lemma rd_update_stmt u : rd update_stmt u (W_update_stmt u).
Proof.
  unfold update_stmt. destruct u as [a|a|a|a|a|a|a|q|q|q|m]; cbn [W_update_stmt].
  - alt1. eapply rd_map; [|reflexivity]. apply rd_load.
  - alt_skip. { destruct a as [s g]. kw2 "load"%string "clear"%string. } alt1. eapply rd_map; [|reflexivity]. apply rd_clear.
  - alt_skip. { destruct a as [s g]. kw2 "load"%string "drop"%string. }
    alt_skip. { destruct a as [s g]. kw2 "clear"%string "drop"%string. } alt1. eapply rd_map; [|reflexivity]. apply rd_drop.
  - alt_skip. { destruct a as [s g]. kw2 "load"%string "create"%string. }
    alt_skip. { destruct a as [s g]. kw2 "clear"%string "create"%string. }
    alt_skip. { destruct a as [s g]. kw2 "drop"%string "create"%string. } alt1. eapply rd_map; [|reflexivity]. apply rd_create.
  - intros t r [].
  - intros t r [].
  - alt_skip. { destruct a as [s g]. kw2 "load"%string "copy"%string. }
    alt_skip. { destruct a as [s g]. kw2 "clear"%string "copy"%string. }
    alt_skip. { destruct a as [s g]. kw2 "drop"%string "copy"%string. }
    alt_skip. { destruct a as [s g]. kw2 "create"%string "copy"%string. } alt1. eapply rd_map; [|reflexivity]. apply rd_copy.
  - alt_skip. { kw2 "load"%string "insert"%string. }
    alt_skip. { kw2 "clear"%string "insert"%string. }
    alt_skip. { kw2 "drop"%string "insert"%string. }
    alt_skip. { kw2 "create"%string "insert"%string. }
    alt_skip. { kw2 "copy"%string "insert"%string. } alt1. eapply rd_map; [|reflexivity]. apply rd_insert_data.
  - alt_skip. { kw2 "load"%string "delete"%string. }
    alt_skip. { kw2 "clear"%string "delete"%string. }
    alt_skip. { kw2 "drop"%string "delete"%string. }
    alt_skip. { kw2 "create"%string "delete"%string. }
    alt_skip. { kw2 "copy"%string "delete"%string. }
    alt_skip. { kw2 "insert"%string "delete"%string. } alt1. eapply rd_map; [|reflexivity]. apply rd_delete_data.
  - alt_skip. { kw2 "load"%string "delete"%string. }
    alt_skip. { kw2 "clear"%string "delete"%string. }
    alt_skip. { kw2 "drop"%string "delete"%string. }
    alt_skip. { kw2 "create"%string "delete"%string. }
    alt_skip. { kw2 "copy"%string "delete"%string. }
    alt_skip. { kw2 "insert"%string "delete"%string. }
    alt_skip. { apply nf_del_data. } alt1. eapply rd_map; [|reflexivity]. apply rd_delete_where.
  - alt_skip. { to_tag. now apply nf_tag_modify. }
    alt_skip. { to_tag. now apply nf_tag_modify. }
    alt_skip. { to_tag. now apply nf_tag_modify. }
    alt_skip. { to_tag. now apply nf_tag_modify. }
    alt_skip. { to_tag. now apply nf_tag_modify. }
    alt_skip. { apply nf_insert_data_modify. }
    alt_skip. { to_tag. now apply nf_tag_modify. }
    alt_skip. { to_tag. now apply nf_tag_modify. }
    alt1. eapply rd_map; [|reflexivity]. apply rd_modify.
Qed.
Lemma no_stmt_fails r : no_stmt r -> fails update_stmt r.
Proof.
  intros H. assert (F : forall k, In k stmt_words -> low_ascii (s_ k) = true -> forallb (fun c => negb (c =? 107)) (s_ k) = true -> fails (tag_no_case (s_ k)) r).
  { intros k I A N. apply (kw_fails k); auto. }
  unfold update_stmt. unfold load_stmt, clear_stmt, drop_stmt, create_stmt, copy_stmt, insert_data, delete_data, delete_where_data, stmt.
  repeat first [apply alt_fails_cons; [apply map_fails|] | apply alt_fails_nil].
  1-8: repeat first [apply tag1_fails | apply map_fails | apply pair_fails1]; apply F; [cbn; clear; tauto|reflexivity|reflexivity].
  unfold modify_stmt. apply map_fails. eapply pair_fails2.
  - apply opt_none. apply delimited_fails1. apply (F "where"%string); [cbn; clear; tauto|reflexivity|reflexivity].
  - apply pair_fails1, terminated_fails1. unfold delete_insert. apply alt_fails_cons; [apply map_fails, pair_fails1|apply alt_fails_cons; [apply map_fails|apply alt_fails_nil]].
    + apply tag1_fails. apply (F "offset"%string); [cbn; clear; tauto|reflexivity|reflexivity].
    + apply tag1_fails. apply (F "insert"%string); [cbn; clear; tauto|reflexivity|reflexivity].
Qed.
Lemma nxt_fails {A} (p : parser A) (C : str -> Prop) r : (forall x, C x -> fails p x) -> nxt C r -> fails (preceded sp p) r.
Proof. intros H (b & x & -> & Hb & S & HC). eapply preceded_fails2; [now apply sp_ok|]. now apply H. Qed.
Lemma rd_update : forall u, rd update u (W_update u).
Proof.
  fix IH 1. intros u t r H. rewrite update_eq. unfold update_body. destruct u as [p [s|] [u|]]; cbn [W_update] in H.
  - destruct H as (a & b & -> & Ha & b' & c & -> & Hb & d & e & -> & Hd & He). apply then_l3 in He. destruct He as (f & g & -> & Hf & Hg).
    destruct (rdx_sp_enc _ _ (rdx_chr (c_ ";") ";" eq_refl) _ _ Hf) as [z E]. destruct Hb as [Hb S].
    rewrite <- !app_assoc in *. apply (map_ok _ _ _ _ (p, Some (s, Some u))); [|reflexivity].
    eapply pair_ok; [apply rd_prologue; exact Ha|]. apply opt_some. eapply pair_ok.
    + eapply preceded_ok; [apply (sp_ok _ _ Hb S)|]. apply rd_update_stmt. exact Hd.
    + apply opt_some. eapply preceded_ok; [exact E|exact (IH u _ _ Hg)].
  - destruct H as (a & b & -> & Ha & b' & c & -> & [Hb S] & d & e & -> & Hd & -> & He). cbn [app] in *. rewrite app_nil_r in *. rewrite <- !app_assoc in *.
    apply (map_ok _ _ _ _ (p, Some (s, None))); [|reflexivity].
    eapply pair_ok; [apply rd_prologue; exact Ha|]. apply opt_some. eapply pair_ok.
    + eapply preceded_ok; [apply (sp_ok _ _ Hb S)|]. apply rd_update_stmt. exact Hd.
    + apply opt_none. apply preceded_fails1. unfold sp_enc. eapply nxt_fails; [|exact He]. intros x N. now apply terminated_fails1, chr_fails.
  - destruct H.
  - destruct H as (a & b & -> & Ha & -> & He). cbn [app] in *. rewrite app_nil_r in *.
    apply (map_ok _ _ _ _ (p, None)); [|reflexivity]. eapply pair_ok; [apply rd_prologue; exact Ha|].
    apply opt_none. apply pair_fails1. eapply nxt_fails; [|exact He]. apply no_stmt_fails.
Qed.
