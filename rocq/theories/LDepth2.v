(** The depth of recursion: paths, nodes, updates, whole queries; and no constant bound. *)
From Verif Require Import LMods LC8 SpecDepth.
From Verif Require Export LDepth.
Notation length := List.length (only parsing).
Open Scope N_scope.
Open Scope list_scope.

(** ** the other recursive parsers *)
Section Nodes.
  Context (n : nat) (p p' : parser GraphNode).
  Lemma ag_collection : ag (pred n) false p p' -> ag n false (collection_of p) (collection_of p').
  Proof. agp collection_of. Qed.
  Lemma ag_object_list : ag n false p p' -> ag n false (object_list_of p) (object_list_of p').
  Proof. agp object_list_of. Qed.
  Hint Resolve ag_object_list : agdb.
  Lemma ag_property_list : ag n false p p' -> ag n false (property_list_not_empty_of p) (property_list_not_empty_of p').
  Proof.
    intros H. unfold property_list_not_empty_of. eapply ag_weaken, ag_map, ag_terminated; [agt|].
    eapply (ag_many0_closed _ true INever false). intros m. eapply sim_weaken; [sg | reflexivity ..].
  Qed.
End Nodes.
#[export] Hint Resolve ag_collection ag_property_list : agdb.
Lemma ag_blank_node_property_list n p p' : ag (pred n) false p p' ->
  ag n false (blank_node_property_list_of p) (blank_node_property_list_of p').
Proof. agp blank_node_property_list_of. Qed.
#[export] Hint Resolve ag_blank_node_property_list : agdb.
Lemma ag_triples_node n p p' : ag (pred n) false p p' -> ag n false (triples_node_of p) (triples_node_of p').
Proof. agp triples_node_of. Qed.
#[export] Hint Resolve ag_triples_node : agdb.
Lemma ag_graph_node_body n p p' : ag (pred n) false p p' -> ag n false (graph_node_body p) (graph_node_body p').
Proof. agp graph_node_body. Qed.

Lemma ag_path_primary n p p' : ag (pred n) false p p' -> ag n false (path_primary_of p) (path_primary_of p').
Proof. agp path_primary_of. Qed.
#[export] Hint Resolve ag_path_primary : agdb.
Lemma ag_path_elt n p p' : ag (pred n) false p p' -> ag n false (path_elt_of p) (path_elt_of p').
Proof. agp path_elt_of. Qed.
#[export] Hint Resolve ag_path_elt : agdb.
Lemma ag_path_elt_or_inverse n p p' : ag (pred n) false p p' -> ag n false (path_elt_or_inverse_of p) (path_elt_or_inverse_of p').
Proof. agp path_elt_or_inverse_of. Qed.
#[export] Hint Resolve ag_path_elt_or_inverse : agdb.
Lemma ag_path_sequence n p p' : ag (pred n) false p p' -> ag n false (path_sequence_of p) (path_sequence_of p').
Proof. agp path_sequence_of. Qed.
#[export] Hint Resolve ag_path_sequence : agdb.
Lemma ag_path_alternative_body n p p' : ag (pred n) false p p' ->
  ag n false (path_alternative_body p) (path_alternative_body p').
Proof. agp path_alternative_body. Qed.

Section NodePaths.
  Context (n : nat) (p p' : parser GraphNodePath).
  Lemma ag_object_list_path : ag n false p p' -> ag n false (object_list_path_of p) (object_list_path_of p').
  Proof. agp object_list_path_of. Qed.
  Hint Resolve ag_object_list_path : agdb.
  Lemma ag_property_list_path : ag n false p p' ->
    ag n false (property_list_path_not_empty_of p) (property_list_path_not_empty_of p').
  Proof.
    intros H. unfold property_list_path_not_empty_of, tuple3. eapply ag_weaken, ag_map, ag_pair; [agt|].
    cbn [orb]. eapply ag_pair; [agt|]. eapply (ag_many0_closed _ true IAny true). intros m.
    eapply sim_weaken; [sg | reflexivity ..].
  Qed.
End NodePaths.
#[export] Hint Resolve ag_property_list_path : agdb.
Lemma ag_blank_node_property_list_path n p p' : ag (pred n) false p p' ->
  ag n false (blank_node_property_list_path_of p) (blank_node_property_list_path_of p').
Proof. agp blank_node_property_list_path_of. Qed.
#[export] Hint Resolve ag_blank_node_property_list_path : agdb.
Lemma ag_triples_node_path n p p' : ag (pred n) false p p' -> ag n false (triples_node_path_of p) (triples_node_path_of p').
Proof. agp triples_node_path_of. Qed.
#[export] Hint Resolve ag_triples_node_path : agdb.
Lemma ag_graph_node_path_body n p p' : ag (pred n) false p p' ->
  ag n false (graph_node_path_body p) (graph_node_path_body p').
Proof. agp graph_node_path_body. Qed.

Lemma ag_iter {A} (body : parser A -> parser A) (p : parser A) :
  (forall i, p i = body p i) ->
  (forall n q q', ag (pred n) false q q' -> ag n false (body q) (body q')) ->
  forall n m, (n <= m)%nat -> ag n false (iter m body) p.
Proof.
  intros Eq B. induction n as [|n IH]; intros m Hm i Hi; [lia|]. destruct m as [|m]; [lia|]. rewrite Eq.
  apply (B (S n) (iter m body) p); [apply IH; lia | exact Hi].
Qed.
Lemma path_alternative_depth n i : (openings i < n)%nat -> path_alternative_within n i = path_alternative i.
Proof. intros H. apply (ag_iter _ _ path_alternative_eq ag_path_alternative_body n n); lia. Qed.
Lemma graph_node_depth n i : (openings i < n)%nat -> graph_node_within n i = graph_node i.
Proof. intros H. apply (ag_iter _ _ graph_node_eq ag_graph_node_body n n); lia. Qed.
Lemma graph_node_path_depth n i : (openings i < n)%nat -> graph_node_path_within n i = graph_node_path i.
Proof. intros H. apply (ag_iter _ _ graph_node_path_eq ag_graph_node_path_body n n); lia. Qed.

(** ** queries *)
Section Query.
  Context (n : nat) (e e' : parser Expression) (g g' : parser GroupGraphPattern).
  Hypothesis He : ag n false e e'.
  Hypothesis Hg : ag n false g g'.
  Lemma ag_pred_e : ag (pred n) false e e'.
  Proof. eapply ag_mono; [exact He | lia]. Qed.
  Hint Resolve ag_pred_e : agdb.
  Lemma ag_modifier : ag n false (solution_modifier_of e g) (solution_modifier_of e' g').
  Proof. apply ag_solution_modifier; [exact ag_pred_e | exact Hg]. Qed.
  Hint Resolve ag_modifier : agdb.
  Lemma ag_select : ag n false (select_clause_of e) (select_clause_of e').
  Proof. apply ag_select_clause; exact ag_pred_e. Qed.
  Hint Resolve ag_select : agdb.
  Lemma ag_select_query : ag n false (select_query_of e g) (select_query_of e' g').
  Proof. agp select_query_of. Qed.
  Lemma ag_ask_query : ag n false (ask_query_of e g) (ask_query_of e' g').
  Proof. agp ask_query_of. Qed.
  Lemma ag_describe_query : ag n false (describe_query_of e g) (describe_query_of e' g').
  Proof. agp describe_query_of. Qed.
  Lemma ag_sub_triples : ag n false (sub_triples_of e g) (sub_triples_of e' g').
  Proof.
    assert (T : forall m, ag m false (delimited (chr (c_ "{")) (sp_enc (opt triples_template)) (chr (c_ "}")))
      (delimited (chr (c_ "{")) (sp_enc (opt triples_template)) (chr (c_ "}")))).
    { intros m. eapply ag_weaken. unfold delimited. agt. }
    unfold sub_triples_of. eapply ag_weaken, ag_map. unfold tuple4. eapply ag_pair; [agt|]. cbn [orb].
    eapply ag_pair; [agt|]. cbn [orb]. eapply ag_pair; [apply T|]. cbn [orb]. agt.
  Qed.
  Lemma ag_sub_construct : ag n false (sub_construct_of e g) (sub_construct_of e' g').
  Proof. agp sub_construct_of. Qed.
  Hint Resolve ag_sub_construct ag_sub_triples : agdb.
  Lemma ag_construct_query : ag n false (construct_query_of e g) (construct_query_of e' g').
  Proof. agp construct_query_of. Qed.
  Hint Resolve ag_select_query ag_ask_query ag_describe_query ag_construct_query : agdb.
  Lemma ag_sparql_query : ag n false (sparql_query_of e g) (sparql_query_of e' g').
  Proof. agp sparql_query_of. Qed.
  Hint Resolve ag_sparql_query : agdb.
  Lemma ag_sparql_query_stmt : ag n false (sparql_query_stmt_of e g) (sparql_query_stmt_of e' g').
  Proof. agp sparql_query_stmt_of. Qed.
End Query.
Lemma sparql_query_stmt_depth n i : (2 * openings i + 2 <= n)%nat ->
  sparql_query_stmt_within n i = sparql_query_stmt i.
Proof.
  intros H. rewrite sparql_query_stmt_of_model. destruct (ag_nested (S (openings i)) n) as [He Hg].
  specialize (He ltac:(lia)). specialize (Hg ltac:(lia)).
  destruct (ag_sparql_query_stmt _ _ _ _ _ He Hg i ltac:(lia)) as [E _]. exact E.
Qed.

(** ** updates *)
Lemma semicolons_app a b : semicolons (a ++ b) = (semicolons a + semicolons b)%nat.
Proof.
  induction a as [|c a IH]; cbn [app semicolons]; [reflexivity|]. destruct (c =? 59); rewrite IH; reflexivity.
Qed.
Lemma semicolons_suffix r i : suffix r i -> (semicolons r <= semicolons i)%nat.
Proof. intros [t ->]. rewrite semicolons_app. lia. Qed.
Lemma good_suffix {A} b c d (p : parser A) i r a : good b c d p -> p i = Ok r a -> suffix r i.
Proof. intros G H. pose proof (good_elim _ _ _ _ G i) as O. rewrite H in O. exact (proj1 O). Qed.
Lemma sep_semi i r a : sp_enc (chr (c_ ";")) i = Ok r a -> (semicolons r < semicolons i)%nat.
Proof.
  intros H. apply delimited_inv in H. destruct H as (i1 & i2 & x & y & H1 & H2 & H3).
  apply (good_suffix _ _ _ sp _ _ _ gd_sp), semicolons_suffix in H1.
  apply (good_suffix _ _ _ sp _ _ _ gd_sp), semicolons_suffix in H3.
  destruct i1 as [|c i1]; [discriminate|]. cbn [chr] in H2. destruct (c =? c_ ";") eqn:C; [|discriminate].
  injection H2 as <- _. change (c_ ";") with 59 in C. cbn [semicolons] in H1. rewrite C in H1. lia.
Qed.
Lemma update_depth n i : (semicolons i < n)%nat -> update_within n i = update i.
Proof.
  revert i. induction n as [|n IH]; intros i Hi; [lia|]. rewrite update_eq.
  change (update_within (S n) i) with (update_body (update_within n) i).
  unfold update_body, Nom.map.
  assert (X : forall j, suffix j i ->
    opt (pair (preceded sp update_stmt) (opt (preceded (sp_enc (chr (c_ ";"))) (update_within n)))) j =
    opt (pair (preceded sp update_stmt) (opt (preceded (sp_enc (chr (c_ ";"))) update))) j).
  { intros j Hj. unfold opt at 1 3. unfold pair at 1 2.
    assert (G : good true IOpen true (preceded sp update_stmt)) by (intros m; eapply sim_weaken; [sg | reflexivity ..]).
    destruct (preceded sp update_stmt j) as [j1 x | e] eqn:E; [|reflexivity].
    apply (good_suffix _ _ _ _ _ _ _ G) in E.
    assert (Y : preceded (sp_enc (chr (c_ ";"))) (update_within n) j1 = preceded (sp_enc (chr (c_ ";"))) update j1).
    { unfold preceded, Nom.map, pair. destruct (sp_enc (chr (c_ ";")) j1) as [j2 y | e] eqn:E2; [|reflexivity].
      apply sep_semi in E2. apply semicolons_suffix in E. apply semicolons_suffix in Hj. rewrite (IH j2) by lia. reflexivity. }
    unfold opt. rewrite Y. reflexivity. }
  unfold pair at 1 3. destruct (prologue i) as [j x | e] eqn:E; [|reflexivity].
  apply (good_suffix _ _ _ _ _ _ _ gd_prologue) in E. rewrite (X j E). reflexivity.
Qed.

(** ** no constant bound *)
Definition stuck {A} (p : parser A) (i : str) : Prop := p i = Err OutOfFuel.
Lemma map_stuck {A B} (p : parser A) (f : A -> B) i : stuck p i -> stuck (Nom.map p f) i.
Proof. intros H. unfold stuck, Nom.map. rewrite H. reflexivity. Qed.
Lemma pair_stuck1 {A B} (p : parser A) (q : parser B) i : stuck p i -> stuck (pair p q) i.
Proof. intros H. unfold stuck, pair. rewrite H. reflexivity. Qed.
Lemma pair_stuck2 {A B} (p : parser A) (q : parser B) i r a : p i = Ok r a -> stuck q r -> stuck (pair p q) i.
Proof. intros H E. unfold stuck, pair. rewrite H, E. reflexivity. Qed.
Lemma opt_stuck {A} (p : parser A) i : stuck p i -> stuck (opt p) i.
Proof. intros H. unfold stuck, opt. rewrite H. reflexivity. Qed.
Lemma alt_stuck {A} (p : parser A) ps i : stuck p i -> stuck (alt (p :: ps)) i.
Proof. intros H. unfold stuck. destruct ps; cbn [alt]; rewrite H; reflexivity. Qed.
Lemma alt_stuck_next {A} (p q : parser A) ps i : fails p i -> stuck (alt (q :: ps)) i -> stuck (alt (p :: q :: ps)) i.
Proof. intros (x & k & H) E. unfold stuck. rewrite alt_cons by discriminate. rewrite H. exact E. Qed.
Lemma sepne_stuck {A B} (s : parser B) (p : parser A) i : stuck p i -> stuck (separated_nonempty_list s p) i.
Proof. intros H. unfold stuck, separated_nonempty_list. rewrite H. reflexivity. Qed.
Lemma sepl_stuck {A B} (s : parser B) (p : parser A) i : stuck p i -> stuck (separated_list s p) i.
Proof. intros H. unfold stuck, separated_list. rewrite H. reflexivity. Qed.

Lemma sp_solid i : solid i -> sp i = Ok i [].
Proof. intros S. exact (sp_ok [] i blank_nil S). Qed.
Lemma solid_open i : solid (123 :: i).
Proof. split; [cbn; intuition discriminate | discriminate]. Qed.
Lemma solid_close i : solid (125 :: i).
Proof. split; [cbn; intuition discriminate | discriminate]. Qed.
Lemma brace_no_block i : fails triples_block (123 :: i).
Proof. apply triples_block_fails, tssp_fails; [now apply triples_node_path_fails1|now apply var_or_term_first]. Qed.
Lemma ggp_stuck e g i : stuck g (123 :: i) -> stuck (ggp_body e g) (123 :: 123 :: i).
Proof.
  intros H. unfold ggp_body, delimited. apply map_stuck. eapply pair_stuck2; [reflexivity|]. apply map_stuck, pair_stuck1.
  apply map_stuck. eapply pair_stuck2; [apply sp_solid, solid_open|]. apply map_stuck, pair_stuck1.
  apply alt_stuck_next; [apply map_fails, map_fails, pair_fails1, map_fails, pair_fails1; eexists _, _; reflexivity|].
  apply alt_stuck. apply map_stuck, map_stuck. eapply pair_stuck2; [apply opt_none, terminated_fails1, brace_no_block|].
  apply sepl_stuck, map_stuck, pair_stuck1. apply alt_stuck, map_stuck, map_stuck. apply sepne_stuck. exact H.
Qed.
Lemma braces_stuck n i : stuck (group_graph_pattern_within (S n)) (repeat 123 (S (S n)) ++ i).
Proof.
  induction n as [|n IH].
  - apply ggp_stuck. reflexivity.
  - apply ggp_stuck. exact IH.
Qed.

(** the nested braces are accepted *)
Fixpoint braces_tree (n : nat) : GroupGraphPattern :=
  match n with
  | O => GgpSub (MkGroupGraphPatternSub None [])
  | S n => GgpSub (MkGroupGraphPatternSub None [MkGraphPatternAndTriples (GpGroupOrUnion (MkGroupOrUnion [braces_tree n])) None])
  end.
Lemma close_no_block i : fails triples_block (125 :: i).
Proof. apply triples_block_fails, tssp_fails; [now apply triples_node_path_fails1|now apply var_or_term_first]. Qed.
Lemma blank_one : blank [32].
Proof. assert (H : sp [32] = Ok [] [32]) by reflexivity. now apply sp_iff in H. Qed.
Lemma sp_one i : solid i -> sp (32 :: i) = Ok i [32].
Proof. intros S. exact (sp_ok [32] i blank_one S). Qed.
Lemma close_no_pattern i : fails (ggp_and_triples_of expression group_graph_pattern) (125 :: i).
Proof.
  apply map_fails, pair_fails1. unfold graph_pattern_not_triples_of.
  apply alt_fails_cons; [apply map_fails, map_fails, sepne_fails, gg_first; discriminate|].
  repeat (apply alt_fails_cons; [apply map_fails; first [apply tag1_fails | apply map_fails, pair_fails1, terminated_fails1 | apply pair_fails1, terminated_fails1]; eexists _, _; reflexivity|]).
  apply alt_fails_nil.
Qed.
Lemma brace_step i r x : group_graph_pattern (123 :: i) = Ok (32 :: 125 :: r) x ->
  group_graph_pattern (123 :: 123 :: i) =
    Ok r (GgpSub (MkGroupGraphPatternSub None [MkGraphPatternAndTriples (GpGroupOrUnion (MkGroupOrUnion [x])) None])).
Proof.
  intros H. rewrite group_graph_pattern_eq. unfold ggp_body. apply (delimited_ok _ _ _ _ (123 :: i) (125 :: r) r 123 _ 125); [reflexivity| |reflexivity].
  eapply delimited_ok; [apply sp_solid, solid_open| |apply sp_one, solid_close].
  apply alt_next; [apply map_fails, map_fails, pair_fails1, map_fails, pair_fails1; eexists _, _; reflexivity|].
  apply alt_first. eapply map_ok; [|reflexivity].
  apply (map_ok _ _ _ _ (None, [MkGraphPatternAndTriples (GpGroupOrUnion (MkGroupOrUnion [x])) None])); [|reflexivity].
  eapply pair_ok; [apply opt_none, terminated_fails1, brace_no_block|].
  assert (L : 32 :: 125 :: r <> 123 :: i) by discriminate.
  eapply sepl_cons; [eapply gd_shrinks, gd_sp|eapply (gd_shrinks true IAny true); intros k; sm @ggp_and_triples_of| |exact L|].
  - apply (map_ok _ _ _ _ (GpGroupOrUnion (MkGroupOrUnion [x]), None)); [|reflexivity]. eapply separated_pair_ok.
    + apply alt_first. eapply map_ok; [|reflexivity]. eapply map_ok; [|reflexivity].
      eapply sepne_cons; [eapply (gd_shrinks true INever false); intros k; eapply sim_weaken; [sg|reflexivity ..]|eapply gd_shrinks, gd_group_graph_pattern|exact H|exact L|].
      apply sep_stop. eapply delimited_fails2; [apply (sp1_ok [32] (125 :: r)); [split; [exact blank_one|discriminate]|apply solid_close]|].
      eexists _, _; reflexivity.
    + apply opt_none. eapply preceded_fails2; [apply sp_one, solid_close|]. eexists _, _; reflexivity.
    + apply opt_none. eapply preceded_fails2; [apply sp_one, solid_close|]. apply close_no_block.
  - eapply sep_back; [apply sp_one, solid_close|discriminate|apply close_no_pattern].
Qed.
Lemma braces_read n r : group_graph_pattern (braces n ++ r) = Ok r (braces_tree n).
Proof.
  assert (X : forall n r, group_graph_pattern (repeat 123 (S n) ++ 125 :: List.concat (repeat [32; 125] n) ++ r) = Ok r (braces_tree n)).
  { clear n r. induction n as [|n IH]; intros r.
    - cbn [repeat List.concat app braces_tree]. rewrite group_graph_pattern_eq. unfold ggp_body.
      apply (delimited_ok _ _ _ _ (125 :: r) (125 :: r) r 123 _ 125); [reflexivity| |reflexivity].
      eapply delimited_ok; [apply sp_solid, solid_close| |apply sp_solid, solid_close].
      apply alt_next; [apply map_fails, map_fails, pair_fails1, map_fails, pair_fails1; eexists _, _; reflexivity|].
      apply alt_first. eapply map_ok; [|reflexivity]. apply (map_ok _ _ _ _ (None, [])); [|reflexivity].
      eapply pair_ok; [apply opt_none, terminated_fails1, close_no_block|]. apply LEval.sepl_nil, close_no_pattern.
    - change (repeat 123 (S (S n))) with (123 :: repeat 123 (S n)). cbn [app braces_tree].
      apply (brace_step (repeat 123 n ++ 125 :: List.concat (repeat [32; 125] (S n)) ++ r) r).
      specialize (IH (32 :: 125 :: r)). rewrite <- IH. f_equal. cbn [repeat app]. do 3 f_equal.
      assert (Y : forall n, List.concat (repeat [32; 125] (S n)) ++ r = List.concat (repeat [32; 125] n) ++ 32 :: 125 :: r).
      { clear. induction n as [|n IH]; [reflexivity|]. change (32 :: 125 :: List.concat (repeat [32; 125] (S n)) ++ r = 32 :: 125 :: List.concat (repeat [32; 125] n) ++ 32 :: 125 :: r). now rewrite IH. }
      apply Y. }
  unfold braces. rewrite <- app_assoc. cbn [app]. apply X.
Qed.
Lemma ask_stuck n : sparql_query_stmt_within (S n) (ask_braces (S n)) = Err OutOfFuel.
Proof.
  change (stuck (sparql_query_stmt_within (S n)) (ask_braces (S n))). unfold ask_braces, braces.
  set (t := 125 :: _). change (repeat 123 (S (S n)) ++ t) with (123 :: repeat 123 (S n) ++ t).
  assert (P : prologue (s_ "ASK " ++ 123 :: repeat 123 (S n) ++ t) = Ok (s_ "ASK " ++ 123 :: repeat 123 (S n) ++ t) (MkPrologue [])).
  { reflexivity. }
  unfold sparql_query_stmt_within, sparql_query_stmt_of. apply map_stuck. eapply pair_stuck2.
  { eapply terminated_ok; [exact P|]. apply (sp_ok []); [exact blank_nil|]. split; [cbn; intuition discriminate | discriminate]. }
  apply pair_stuck1. unfold sparql_query_of.
  apply alt_stuck_next; [apply map_fails, map_fails, pair_fails1, terminated_fails1, map_fails, pair_fails1; eexists _, _; reflexivity|].
  apply alt_stuck_next; [apply map_fails, tag1_fails; eexists _, _; reflexivity|].
  apply alt_stuck_next; [apply map_fails, map_fails, pair_fails1; eexists _, _; reflexivity|].
  apply alt_stuck, map_stuck, map_stuck. eapply pair_stuck2.
  { eapply terminated_ok; [apply (tnc_ok (s_ "ask") (s_ "ASK")); reflexivity|]. apply (sp1_ok [32] (123 :: _)); [split; [exact blank_one|discriminate]|apply solid_open]. }
  eapply pair_stuck2.
  { eapply terminated_ok; [|apply sp_solid, solid_open]. apply LEval.sepl_nil, tag1_fails. eexists _, _; reflexivity. }
  apply pair_stuck1, map_stuck, pair_stuck1. apply map_stuck. eapply pair_stuck2.
  { apply opt_none, terminated_fails1. eexists _, _; reflexivity. }
  apply (braces_stuck n t).
Qed.
Definition ask_tree (n : nat) : SparqlQueryStatement :=
  MkSparqlQueryStatement (MkPrologue []) (SqAsk (MkAskQuery [] (braces_tree n) (MkSolutionModifier None None None None))) None.
Lemma ask_read n : sparql_query_stmt (ask_braces n) = Ok [] (ask_tree n).
Proof.
  unfold ask_braces. assert (B : exists t, braces n = 123 :: t) by (eexists; reflexivity).
  pose proof (braces_read n []) as R. rewrite app_nil_r in R. destruct B as [t B]. rewrite B in *.
  assert (P : prologue (s_ "ASK " ++ 123 :: t) = Ok (s_ "ASK " ++ 123 :: t) (MkPrologue [])) by reflexivity.
  unfold sparql_query_stmt. apply (map_ok _ _ _ _ (MkPrologue [], (SqAsk (MkAskQuery [] (braces_tree n) (MkSolutionModifier None None None None)), None))); [|reflexivity].
  eapply pair_ok.
  { eapply terminated_ok; [exact P|]. apply (sp_ok []); [exact blank_nil|]. split; [cbn; intuition discriminate | discriminate]. }
  eapply (pair_ok _ _ _ []); [|reflexivity]. unfold sparql_query.
  apply alt_next; [apply map_fails, map_fails, pair_fails1, terminated_fails1, map_fails, pair_fails1; eexists _, _; reflexivity|].
  apply alt_next; [apply map_fails, tag1_fails; eexists _, _; reflexivity|].
  apply alt_next; [apply map_fails, map_fails, pair_fails1; eexists _, _; reflexivity|].
  apply alt_first. eapply map_ok; [|reflexivity]. apply (map_ok _ _ _ _ (s_ "ASK", ([], (braces_tree n, MkSolutionModifier None None None None)))); [|reflexivity].
  eapply pair_ok.
  { eapply terminated_ok; [apply (tnc_ok (s_ "ask") (s_ "ASK")); reflexivity|]. apply (sp1_ok [32] (123 :: _)); [split; [exact blank_one|discriminate]|apply solid_open]. }
  eapply pair_ok.
  { eapply terminated_ok; [|apply sp_solid, solid_open]. apply LEval.sepl_nil, tag1_fails. eexists _, _; reflexivity. }
  eapply (pair_ok _ _ _ []); [|reflexivity]. eapply (terminated_ok _ _ _ []); [|reflexivity]. eapply preceded_ok; [|exact R].
  apply opt_none, terminated_fails1. eexists _, _; reflexivity.
Qed.

(** updates *)
Lemma clears_solid n : solid (clears n).
Proof. destruct n as [|n]; [exact I|]. split; [cbn; intuition discriminate | discriminate]. Qed.
Lemma clear_stmt_read i : preceded sp update_stmt (s_ "CLEAR ALL;" ++ i) = Ok (59 :: i) (UsClear (MkClear false GraAll)).
Proof. reflexivity. Qed.
Lemma clears_prologue n : prologue (clears n) = Ok (clears n) (MkPrologue []).
Proof. destruct n; reflexivity. Qed.
Lemma clears_stuck n : update_within n (clears n) = Err OutOfFuel.
Proof.
  induction n as [|n IH]; [reflexivity|]. change (stuck (update_body (update_within n)) (clears (S n))).
  apply map_stuck. eapply pair_stuck2; [apply clears_prologue|]. apply opt_stuck.
  eapply pair_stuck2; [apply clear_stmt_read|]. apply opt_stuck, map_stuck. eapply pair_stuck2; [|exact IH].
  eapply delimited_ok; [apply sp_solid; split; [cbn; intuition discriminate | discriminate]|reflexivity|apply sp_solid, clears_solid].
Qed.
Fixpoint clears_tree (n : nat) : Update :=
  match n with
  | O => MkUpdate (MkPrologue []) None None
  | S n => MkUpdate (MkPrologue []) (Some (UsClear (MkClear false GraAll))) (Some (clears_tree n))
  end.
Lemma clears_read n : update (clears n) = Ok [] (clears_tree n).
Proof.
  induction n as [|n IH]; [reflexivity|]. rewrite update_eq.
  apply (map_ok _ _ _ _ (MkPrologue [], Some (UsClear (MkClear false GraAll), Some (clears_tree n)))); [|reflexivity].
  eapply pair_ok; [apply clears_prologue|]. apply opt_some. eapply pair_ok; [apply clear_stmt_read|]. apply opt_some.
  eapply preceded_ok; [|exact IH].
  eapply delimited_ok; [apply sp_solid; split; [cbn; intuition discriminate | discriminate]|reflexivity|apply sp_solid, clears_solid].
Qed.

Lemma ask_deep n : exists i q, (length i <= 3 * n + 9)%nat /\ sparql_query_stmt i = Ok [] q /\
  sparql_query_stmt_within n i = Err OutOfFuel.
Proof.
  assert (L : forall n, (length (ask_braces n) <= 3 * n + 6)%nat).
  { intros m. unfold ask_braces, braces. rewrite !app_length, repeat_length. cbn [length s_].
    assert (X : length (List.concat (repeat [32; 125] m)) = (2 * m)%nat).
    { induction m as [|m IH]; [reflexivity|]. cbn [repeat List.concat app length]. lia. }
    rewrite X. cbn. lia. }
  destruct n as [|n].
  - exists (ask_braces 1), (ask_tree 1). split; [apply (L 1%nat)|]. split; [apply ask_read | vm_compute; reflexivity].
  - exists (ask_braces (S n)), (ask_tree (S n)). split; [pose proof (L (S n)); lia|]. split; [apply ask_read | apply ask_stuck].
Qed.
Lemma clears_deep n : exists i u, length i = (10 * n)%nat /\ update i = Ok [] u /\ update_within n i = Err OutOfFuel.
Proof.
  exists (clears n), (clears_tree n). split; [|split; [apply clears_read | apply clears_stuck]].
  induction n as [|n IH]; [reflexivity|]. cbn [clears]. rewrite app_length, IH. cbn. lia.
Qed.
