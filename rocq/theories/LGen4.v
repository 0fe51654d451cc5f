(** Whole queries that are not read, or read without their last clause, for every text of a kind. *)
From Verif Require Import LMods LC8.
From Verif Require Export LMore4 LGen LayoutThen LNever.
Notation length := List.length (only parsing).
Open Scope N_scope.
Open Scope list_scope.

(** ** Lists of conditions with no blank after the last *)
Lemma loop_stuck {A} (p : parser A) (W : A -> lang) y : (forall a, rd p a (W a)) -> solid y -> forall l n t,
  (length (t ++ y) < n)%nat -> tailW W gap1 solid l t y -> exists x k, sep_loop n sp p (t ++ y) = Err (Error x k).
Proof.
  intros R S. induction l as [|a l IH]; intros n t L H; (destruct n as [|n]; [inversion L|]); cbn [sep_loop].
  - destruct H as [-> _]. cbn [app]. rewrite sp_nil by exact S. assert (X : str_eqb y y = true) by now apply str_eqb_eq. rewrite X. eauto.
  - destruct H as (b & u & -> & [B Sb] & t1 & t2 & -> & Ha & H). rewrite <- !app_assoc in *. rewrite (sp_ok b _ (proj1 B) Sb).
    assert (N : b <> []) by apply B. assert (LB : (0 < length b)%nat) by (destruct b; [congruence|cbn; lia]).
    rewrite !app_length in L.
    destruct (str_eqb (t1 ++ t2 ++ y) (b ++ t1 ++ t2 ++ y)) eqn:E1; [eauto|]. rewrite (R a t1 _ Ha).
    destruct (str_eqb (t2 ++ y) (b ++ t1 ++ t2 ++ y)) eqn:E2; [eauto|].
    destruct (IH n t2) as (x & k & E); [rewrite app_length; lia|exact H|]. rewrite E. eauto.
Qed.
Lemma list_fails {A} (p : parser A) (W : A -> lang) y l t : (forall a, rd p a (W a)) -> solid y -> sep1W W gap1 solid l t y ->
  fails (separated_nonempty_list sp p) (t ++ y).
Proof.
  intros R S H. destruct l as [|a l]; [destruct H|]. destruct H as (t1 & t2 & -> & Ha & H). rewrite <- app_assoc.
  unfold separated_nonempty_list, fails. rewrite (R a t1 _ Ha). destruct (str_eqb _ _); [eauto|].
  destruct (loop_stuck p W y R S l (Datatypes.S (length (t2 ++ y))) t2) as (x & k & E); [lia|exact H|]. rewrite E. eauto.
Qed.

Lemma sep_end {A} (W : A -> lang) l u r : sep1W W gap1 solid l u r -> solid r.
Proof.
  destruct l as [|a l]; [intros []|]. intros (x & y & -> & _ & H). clear x. revert y H.
  induction l as [|c l IH]; intros y; [intros [_ H]; exact H|]. intros (x & z & -> & _ & u' & v & -> & _ & H). eauto.
Qed.
Lemma by_fails {A} k (p : parser A) (W : A -> lang) l t r : low_ascii (s_ k) = true -> (forall a, rd p a (W a)) ->
  (word k >> gap1 >> word "by" >> gap1 >> sep1W W gap1 solid l) t r ->
  fails (preceded (kw_by (s_ k)) (separated_nonempty_list sp p)) (t ++ r).
Proof.
  intros K R (w & t1 & -> & Hw & b & t2 & -> & Hb & w2 & t3 & -> & Hw2 & b2 & u & -> & Hb2 & HL).
  assert (X : (word k >> gap1 >> word "by" >> gap1) (w ++ b ++ w2 ++ b2) (u ++ r)).
  { exists w, (b ++ w2 ++ b2). split; [reflexivity|]. rewrite <- !app_assoc in *. split; [exact Hw|]. exists b, (w2 ++ b2). split; [reflexivity|].
    rewrite <- !app_assoc. split; [exact Hb|]. exists w2, b2. auto. }
  destruct (rdx_by k K _ _ X) as [z E]. replace ((w ++ b ++ w2 ++ b2 ++ u) ++ r) with ((w ++ b ++ w2 ++ b2) ++ u ++ r) by (now rewrite <- !app_assoc).
  eapply preceded_fails2; [exact E|]. apply (list_fails p W r l); [exact R|now apply sep_end in HL|exact HL].
Qed.
Lemma having_fails l t r : (word "having" >> gap1 >> sep1W (W_constraint W_expression W_ggp) gap1 solid l) t r -> fails having_clause (t ++ r).
Proof.
  intros (w & t1 & -> & Hw & b & u & -> & Hb & HL). rewrite <- !app_assoc. apply map_fails.
  destruct (rdx_terminated _ _ _ _ (rdx_kw "having" eq_refl) rdx_sp1 (w ++ b) (u ++ r)) as [z E]; [exists w, b; auto|]. rewrite <- app_assoc in E.
  eapply preceded_fails2; [exact E|]. apply (list_fails _ (W_constraint W_expression W_ggp) r l); [|now apply sep_end in HL|exact HL].
  exact (rd_constraint W_expression W_ggp rd_expression rd_ggp).
Qed.
Lemma clause_word t r : clause_then t r -> exists k, In k ["group"; "having"; "order"]%string /\ begins k (t ++ r).
Proof.
  intros [l u r' (w & t1 & -> & Hw & _)|l u r' (w & t1 & -> & Hw & _)|l u r' (w & t1 & -> & Hw & _)].
  - exists "group"%string. cbn [In]. split; [auto|]. exists w, (t1 ++ r'). now rewrite <- app_assoc.
  - exists "having"%string. cbn [In]. split; [auto|]. exists w, (t1 ++ r'). now rewrite <- app_assoc.
  - exists "order"%string. cbn [In]. split; [auto|]. exists w, (t1 ++ r'). now rewrite <- app_assoc.
Qed.
Lemma clause_solid t r : clause_then t r -> solid (t ++ r).
Proof.
  intros H. apply clause_word in H. destruct H as (k & I & H). 
  apply (begins_solid k); [|exact H]. cbn in I. destruct I as [<-|[<-|[<-|[]]]]; reflexivity.
Qed.
(** no clause is read there *)
Lemma clause_dropped t r : clause_then t r -> solution_modifier (t ++ r) = Ok (t ++ r) no_modifiers.
Proof.
  intros H. pose proof (clause_word t r H) as (k & I & BG). pose proof (clause_solid t r H) as S.
  assert (G : fails group_clause (t ++ r)).
  { destruct H as [l u r' H|l u r' H|l u r' H].
    - apply map_fails. exact (by_fails "group" _ _ l u r' eq_refl (rd_group_condition W_expression W_ggp rd_expression rd_ggp) H).
    - apply map_fails, preceded_fails1. destruct H as (w & t1 & -> & Hw & _). rewrite <- app_assoc. apply terminated_fails1, delimited_fails1. now apply (nf_kw "group" "having").
    - apply map_fails, preceded_fails1. destruct H as (w & t1 & -> & Hw & _). rewrite <- app_assoc. apply terminated_fails1, delimited_fails1. now apply (nf_kw "group" "order"). }
  assert (Hv : fails having_clause (t ++ r)).
  { destruct H as [l u r' H|l u r' H|l u r' H].
    - apply map_fails, preceded_fails1. destruct H as (w & t1 & -> & Hw & _). rewrite <- app_assoc. apply terminated_fails1. now apply (nf_kw "having" "group").
    - now apply (having_fails l).
    - apply map_fails, preceded_fails1. destruct H as (w & t1 & -> & Hw & _). rewrite <- app_assoc. apply terminated_fails1. now apply (nf_kw "having" "order"). }
  assert (O : fails order_clause (t ++ r)).
  { destruct H as [l u r' H|l u r' H|l u r' H].
    - apply map_fails, preceded_fails1. destruct H as (w & t1 & -> & Hw & _). rewrite <- app_assoc. apply terminated_fails1, delimited_fails1. now apply (nf_kw "order" "group").
    - apply map_fails, preceded_fails1. destruct H as (w & t1 & -> & Hw & _). rewrite <- app_assoc. apply terminated_fails1, delimited_fails1. now apply (nf_kw "order" "having").
    - apply map_fails. exact (by_fails "order" _ _ l u r' eq_refl (rd_order_condition W_expression W_ggp rd_expression rd_ggp) H). }
  assert (N : ~ begins "limit" (t ++ r) /\ ~ begins "offset" (t ++ r)).
  { cbn in I. repeat (destruct I as [<-|I]; [split; intros X; revert BG X; apply begins_differ; reflexivity|]). destruct I. }
  clear H I BG k. set (c := t ++ r) in *. apply (map_ok _ _ _ _ (None, (None, (None, None)))); [|reflexivity].
  eapply pair_ok; [apply opt_none; exact G|]. eapply pair_ok; [apply opt_none; eapply preceded_fails2; [now apply sp_nil|exact Hv]|].
  eapply pair_ok; [apply opt_none; eapply preceded_fails2; [now apply sp_nil|exact O]|].
  apply opt_none. eapply preceded_fails2; [now apply sp_nil|].
  now apply limit_offset_fails.
Qed.

(** ** Query forms up to the modifiers *)
Definition W_read (m : SolutionModifier Expression GroupGraphPattern) : lang := fun t r => solution_modifier (t ++ r) = Ok r m.
Lemma rd_read m : rd solution_modifier m (W_read m). Proof. intros t r H. exact H. Qed.
Lemma rd_body' d w m : rd (tuple3 (terminated (separated_list sp data_set_clause) sp) (terminated where_clause sp) solution_modifier) (d, (w, m))
  (W_datasets d >> gap >> W_where W_ggp w >> gap >> W_read m).
Proof.
  apply rd_assoc. apply rd_pair; [apply rd_terminated; [apply rd_dss|apply rdx_sp]|]. apply rd_assoc.
  apply rd_pair; [apply rd_terminated; [apply rd_where_|apply rdx_sp]|apply rd_read].
Qed.
Lemma rd_read_ask d w m : rd ask_query (MkAskQuery d w m) (word "ask" >> gap1 >> W_datasets d >> gap >> W_where W_ggp w >> gap >> W_read m).
Proof.
  unfold ask_query. apply rd_assoc. intros t r (x & y & -> & Hx & Hy). rewrite <- app_assoc.
  destruct (rdx_terminated _ _ _ _ (rdx_kw "ask" eq_refl) rdx_sp1 _ _ Hx) as [z E]. apply (map_ok _ _ _ _ (z, (d, (w, m)))); [|reflexivity].
  eapply pair_ok; [exact E|]. now apply rd_body'.
Qed.
Lemma rd_read_select s d w m : rd select_query (MkSelectQuery s d w m)
  (W_select_clause W_expression s >> gap1 >> W_datasets d >> gap >> W_where W_ggp w >> gap >> W_read m).
Proof.
  unfold select_query. apply (rd_map _ _ (s, (d, (w, m)))); [|reflexivity].
  apply rd_assoc. apply rd_pair; [apply rd_terminated; [apply rd_select_clause_|apply rdx_sp1]|].
  apply rd_pair; [apply rd_dss|].
  eapply rd_sub; [|intros t r; apply then_l3]. apply rd_pair; [apply rd_sp_enc, rd_where_|apply rd_read].
Qed.
Lemma rd_read_describe d v w m : rd describe_query (MkDescribeQuery d v w m)
  (word "describe" >> gap1 >> W_targets v >> gap1 >> W_datasets d >> gap >>
   optW (fun w => W_where W_ggp w >> gap) (fun r => ~ begins "where" r /\ not_first 123 r) w >> W_read m).
Proof.
  unfold describe_query. intros t r (x & y & -> & Hx & Hy). rewrite <- app_assoc.
  destruct (rdx_kw "describe" eq_refl _ _ Hx) as [z E]. apply (map_ok _ _ _ _ (z, (v, (d, (w, m))))); [|reflexivity].
  eapply pair_ok; [exact E|]. apply then_l3 in Hy. clear Hx E. revert y r Hy. apply rd_pair; [apply rd_sp_enc1, rd_targets|].
  apply rd_assoc. apply rd_pair; [apply rd_terminated; [apply rd_dss|apply rdx_sp]|]. apply rd_pair; [|apply rd_read].
  apply rd_opt; [intros a; apply rd_terminated; [apply rd_where_|apply rdx_sp]|]. intros r [H1 H2]. now apply terminated_fails1, no_where_fails.
Qed.
Lemma rd_read_sub_construct t d w m : rd sub_construct (MkSubConstruct t d w m)
  (W_construct_template t >> gap1 >> W_datasets d >> gap >> W_where W_ggp w >> gap >> W_read m).
Proof.
  unfold sub_construct. apply (rd_map _ _ (t, (d, (w, m)))); [|reflexivity].
  apply rd_assoc. apply rd_pair; [apply rd_terminated; [apply rd_construct_template|apply rdx_sp1]|apply rd_body'].
Qed.
Lemma rd_read_sub_triples d t m : rd sub_triples (MkSubTriples d t m)
  (W_datasets d >> gap >> word "where" >> gap1 >> W_braced_template t >> gap >> W_read m).
Proof.
  unfold sub_triples. apply rd_assoc. intros u r (x & y & -> & Hx & Hy). rewrite <- app_assoc.
  apply then_l in Hy. destruct Hy as (a & b & -> & Ha & Hb). rewrite <- app_assoc.
  destruct (rdx_terminated _ _ _ _ (rdx_kw "where" eq_refl) rdx_sp1 _ _ Ha) as [z E]. apply (map_ok _ _ _ _ (d, (z, (t, m)))); [|reflexivity].
  eapply pair_ok; [|eapply pair_ok; [exact E|]].
  - rewrite <- app_assoc in Hx. revert x Hx. assert (X := rd_terminated _ _ _ _ _ (rd_dss d) rdx_sp). intros x Hx. exact (X _ _ Hx).
  - clear Hx Ha E. revert b r Hb. apply rd_pair; [exact (rd_braced_template t)|]. apply rd_preceded; [apply rdx_sp|apply rd_read].
Qed.
Definition W_query_read (q : SparqlQuery) : lang :=
  match q with
  | SqAsk (MkAskQuery d w m) => word "ask" >> gap1 >> W_datasets d >> gap >> W_where W_ggp w >> gap >> W_read m
  | SqSelect (MkSelectQuery s d w m) => W_select_clause W_expression s >> gap1 >> W_datasets d >> gap >> W_where W_ggp w >> gap >> W_read m
  | SqDescribe (MkDescribeQuery d v w m) =>
      word "describe" >> gap1 >> W_targets v >> gap1 >> W_datasets d >> gap >>
      optW (fun w => W_where W_ggp w >> gap) (fun r => ~ begins "where" r /\ not_first 123 r) w >> W_read m
  | SqConstruct (CqSubConstruct (MkSubConstruct t d w m)) =>
      word "construct" >> gap1 >> W_construct_template t >> gap1 >> W_datasets d >> gap >> W_where W_ggp w >> gap >> W_read m
  | SqConstruct (CqSubTriples (MkSubTriples d t m)) =>
      word "construct" >> gap1 >> W_datasets d >> gap >> word "where" >> gap1 >> W_braced_template t >> gap >> W_read m
  end.
Lemma rd_read_construct q : rd construct_query q (W_query_read (SqConstruct q)).
Proof.
  unfold construct_query. destruct q as [[t d w m]|[d x m]]; cbn [W_query_read]; (apply rd_preceded_tag1; [reflexivity|]).
  - alt1. eapply rd_map; [|reflexivity]. apply rd_read_sub_construct.
  - alt_skip; [|alt1; eapply rd_map; [|reflexivity]; apply rd_read_sub_triples].
    intros t r H. apply map_fails, pair_fails1, terminated_fails1, map_fails, delimited_fails1, terminated_fails1, chr_fails.
    destruct d as [|c d]; cbn [W_datasets sepW] in H.
    + destruct H as (a & b & -> & [-> H] & c & e & -> & [Hc _] & w & f & -> & Hw & _). cbn [app]. rewrite <- !app_assoc.
      apply blank_not; [exact Hc|cbn; clear; intuition discriminate|]. now apply (word_not 123 "where").
    + destruct H as (a & b & -> & (u & v & -> & (w & y & -> & Hw & _) & _) & _). rewrite <- !app_assoc. now apply (word_not 123 "from").
Qed.
Lemma rd_query_read q : rd sparql_query q (W_query_read q).
Proof.
  unfold sparql_query. destruct q as [q|q|q|q].
  - destruct q as [d w m]. alt_skip; [|alt_skip; [|alt_skip; [|alt1; eapply rd_map; [|reflexivity]; apply rd_read_ask]]]; cbn [W_query_read]; apply nf_then.
    + apply nf_map, nf_pair1, nf_terminated1. apply nf_map, nf_pair1. now apply (nf_kw "select" "ask").
    + apply nf_tag1. now apply (nf_kw "construct" "ask").
    + apply nf_map, nf_pair1. now apply (nf_kw "describe" "ask").
  - destruct q as [s d w m]. alt1. eapply rd_map; [|reflexivity]. apply rd_read_select.
  - destruct q as [d v w m]. alt_skip; [|alt_skip; [|alt1; eapply rd_map; [|reflexivity]; apply rd_read_describe]]; cbn [W_query_read]; apply nf_then.
    + apply nf_map, nf_pair1, nf_terminated1. apply nf_map, nf_pair1. now apply (nf_kw "select" "describe").
    + apply nf_tag1. now apply (nf_kw "construct" "describe").
  - alt_skip; [|alt1; eapply rd_map; [|reflexivity]; apply rd_read_construct].
    apply nf_map, nf_pair1, nf_terminated1. apply nf_map, nf_pair1. destruct q as [[t d w m]|[d x m]]; cbn [W_query_read]; apply nf_then; now apply (nf_kw "select" "construct").
Qed.
Lemma then_at (P Q Q' : lang) t u : (forall t, Q t u -> Q' t u) -> (P >> Q) t u -> (P >> Q') t u.
Proof. intros H (x & y & -> & Hx & Hy). exists x, y. auto. Qed.
Lemma then_end (P Q : lang) t u : Q [] u -> P t u -> (P >> Q) t u.
Proof. intros H Ht. exists t, []. rewrite app_nil_r. auto. Qed.
Lemma head_read q t u : W_query_head q t u -> solution_modifier u = Ok u (mods_of q) -> W_query_read q t u.
Proof.
  intros H M. destruct q as [[d w m]|[s d w m]|[d v w m]|[[x d w m]|[d x m]]]; cbn [W_query_head W_query_read mods_of] in *; revert t H;
    repeat match goal with |- forall t, (_ >> _) t u -> _ => intros t; apply then_at; clear t end; intros t; (apply then_end; exact M).
Qed.
(** the clause is left where it stands, and nothing after it is read *)
Lemma query_drops p q t c r : (W_prologue p >> gap >> W_query_head q) t (c ++ r) -> clause_then c r -> mods_of q = no_modifiers ->
  sparql_query_stmt (t ++ c ++ r) = Ok (c ++ r) (MkSparqlQueryStatement p q None).
Proof.
  intros H C M. unfold sparql_query_stmt. assert (X : rd (tuple3 (terminated prologue sp) sparql_query (opt (preceded sp1 (preceded_tag1 (s_ "values") datablock)))) (p, (q, None))
    (W_prologue p >> gap >> W_query_read q >> ahead solid)).
  { apply rd_assoc. apply rd_pair; [apply rd_terminated; [apply rd_prologue|apply rdx_sp]|]. apply rd_pair; [apply rd_query_read|].
    intros x y [-> S]. cbn [app]. now apply opt_none, preceded_fails1, sp1_fails. }
  apply (map_ok _ _ _ _ (p, (q, None))); [|reflexivity]. apply X. destruct H as (t1 & t2 & -> & Hp & b & t3 & -> & Hb & Hq).
  exists t1, (b ++ t3). split; [reflexivity|]. split; [exact Hp|]. exists b, t3. split; [reflexivity|]. split; [exact Hb|].
  exists t3, []. rewrite app_nil_r. split; [reflexivity|]. split; [apply head_read; [exact Hq|rewrite M; exact (clause_dropped c r C)]|]. split; [reflexivity|]. exact (clause_solid c r C).
Qed.
Lemma values_left p q t c : (W_prologue p >> gap >> W_query q) t c -> solid c ->
  sparql_query_stmt (t ++ c) = Ok c (MkSparqlQueryStatement p q None).
Proof.
  intros (t1 & t2 & -> & Hp & b & t3 & -> & Hb & Hq) S. apply rd_query_stmt. cbn [W_query_stmt optW]. exists t1, (b ++ t3). split; [reflexivity|].
  split; [exact Hp|]. exists b, t3. split; [reflexivity|]. split; [exact Hb|]. apply then_end; [|exact Hq]. split; [reflexivity|now left].
Qed.

(** ** Queries without a group *)
Lemma ask_inv p t0 b0 w b x r q : W_prologue p t0 (b0 ++ w ++ b ++ 123 :: x) -> blank b0 -> kw "ask" w -> blank1 b ->
  sparql_query_stmt (t0 ++ b0 ++ w ++ b ++ 123 :: x) = Ok r q -> exists k g, group_graph_pattern (123 :: x) = Ok k g.
Proof.
  intros P B0 K B E. assert (BG : begins "ask" (w ++ b ++ 123 :: x)) by now exists w, (b ++ 123 :: x).
  apply map_inv in E. destruct E as ([p' [z v]] & E & _). apply pair_inv in E. destruct E as (j & E1 & E2). apply pair_inv in E2. destruct E2 as (k & E2 & _).
  rewrite (terminated_ok _ _ _ _ _ _ _ (rd_prologue p t0 _ P) (sp_ok b0 _ B0 (begins_solid "ask" _ eq_refl BG))) in E1. injection E1 as <- _.
  pose proof (query_form _ _ _ E2) as F. destruct z; cbn [form_word] in F; try (exfalso; revert BG F; apply begins_differ; reflexivity).
  apply alt_inv in E2. destruct E2 as (f & I & E2). cbn [In] in I. repeat (destruct I as [<-|I]; [apply map_inv in E2; destruct E2 as (y' & E2 & X); try discriminate X|]); [|destruct I].
  clear X F. apply map_inv in E2. destruct E2 as ([s [d [g m]]] & E2 & _). apply pair_inv in E2. destruct E2 as (i1 & E1 & E2).
  assert (T : terminated (tag_no_case (s_ "ask")) sp1 (w ++ b ++ 123 :: x) = Ok (123 :: x) w).
  { eapply terminated_ok; [now apply (tnc_ok (s_ "ask") w)|]. apply sp1_ok; [exact B|now apply char_solid]. }
  rewrite T in E1. injection E1 as <- <-. apply pair_inv in E2. destruct E2 as (i2 & E1 & E2). rewrite no_datasets in E1. injection E1 as <- <-.
  apply pair_inv in E2. destruct E2 as (i3 & E1 & _). apply terminated_inv in E1. destruct E1 as (i4 & u & E1 & _).
  apply preceded_inv in E1. destruct E1 as (i5 & o & E1 & E2).
  rewrite opt_none in E1 by (apply terminated_fails1; eexists _, _; reflexivity). injection E1 as <- <-. eauto.
Qed.
Lemma ask_unread p t0 b0 w b x r q : W_prologue p t0 (b0 ++ w ++ b ++ 123 :: x) -> blank b0 -> kw "ask" w -> blank1 b ->
  (forall k g, group_graph_pattern (123 :: x) <> Ok k g) -> sparql_query_stmt (t0 ++ b0 ++ w ++ b ++ 123 :: x) <> Ok r q.
Proof. intros P B0 K B N E. destruct (ask_inv p t0 b0 w b x r q P B0 K B E) as (k & g & X). exact (N k g X). Qed.
(** ** Sequences of a path *)
Lemma group_slash b v tv b1 e t x k g : blank b -> W_var v tv (b1 ++ t ++ 47 :: x) -> blank1 b1 -> solid (t ++ 47 :: x) ->
  W_elt_or_inverse W_path e t (47 :: x) -> group_graph_pattern (123 :: b ++ tv ++ b1 ++ t ++ 47 :: x) <> Ok k g.
Proof.
  intros B V B1 S H E. assert (F : fails triples_block (tv ++ b1 ++ t ++ 47 :: x)).
  { apply map_fails, sepne_fails. apply alt_fails_cons; [|apply alt_fails_cons; [|apply alt_fails_nil]]; apply map_fails.
    - eapply pair_fails2; [apply alt_first; eapply map_ok; [exact (rd_var v tv _ V)|reflexivity]|].
      eapply preceded_fails2; [apply (sp1_ok b1); [exact B1|exact S]|]. apply map_fails, pair_fails1.
      eapply terminated_fails2; [|apply sp1_fails; now apply (char_solid 47 x)]. apply alt_first. eapply map_ok; [exact (slash_unread e t x H)|reflexivity].
    - apply pair_fails1. destruct V as [V _]. apply R_var_text in V. destruct V as (b' & -> & _). apply triples_node_path_fails1; destruct v; discriminate. }
  destruct V as [V _]. apply R_var_text in V. destruct V as (b' & -> & _).
  cbn [app] in *. apply group_start in E; [|exact B|destruct v; cbn; auto]. destruct E as (tb & j & l & k' & b3 & E & _). revert E. now apply fails_not_ok.
Qed.

(** ** Products directly before a bracket *)
Lemma product_fails u tu b m tm y : W_unary W_expression W_ggp u tu (b ++ tm ++ y) -> blank b -> W_mult W_expression W_ggp m tm y -> solid (tm ++ y) -> solid y ->
  fails expression (tu ++ b ++ tm ++ y).
Proof.
  intros U B M S Sy. unfold fails. rewrite expression_eq. apply map_fails, sepne_fails, map_fails, sepne_fails, map_fails, pair_fails1, map_fails, pair_fails1, map_fails.
  eapply pair_fails2; [exact (rd_unary W_expression W_ggp rd_expression rd_ggp u tu _ U)|]. eapply preceded_fails2; [now apply sp_ok|].
  eapply LFlags3.sepl_stuck; [exact (rd_mult W_expression W_ggp rd_expression rd_ggp m tm y M)| |exact Sy].
  intros X. assert (T : tm <> []). { destruct m; cbn [W_mult] in M; destruct M as (a & c & -> & Ha & _); unfold sym, tok, lit in Ha; subst a; discriminate. }
  destruct tm as [|d tm]; [now apply T|]. apply (f_equal (@List.length char)) in X. rewrite app_length in X. cbn in X. lia.
Qed.
Lemma filter_fails w b x : kw "filter" w -> blank1 b -> solid x -> fails constraint x -> fails graph_pattern_not_triples (w ++ b ++ x).
Proof.
  intros W B S H. unfold graph_pattern_not_triples, graph_pattern_not_triples_of.
  assert (BG : begins "filter" (w ++ b ++ x)) by now exists w, (b ++ x).
  assert (F : forall k, differ (s_ "filter") (s_ k) = true -> low_ascii (s_ k) = true -> word_like k = true -> fails (tag_no_case (s_ k)) (w ++ b ++ x)).
  { intros k D L K. apply (nf_kw k "filter"); auto. }
  apply alt_fails_cons; [apply map_fails, map_fails, sepne_fails, gg_first; apply (stops_oneof [123]); [now apply (begins_stops _ "filter")|now left]|].
  apply alt_fails_cons; [apply map_fails, tag1_fails; now apply F|].
  apply alt_fails_cons; [apply map_fails, tag1_fails; now apply F|].
  apply alt_fails_cons; [apply map_fails, map_fails, pair_fails1, terminated_fails1; now apply F|].
  apply alt_fails_cons; [apply map_fails, map_fails, pair_fails1, terminated_fails1; now apply F|].
  apply alt_fails_cons; [apply map_fails; eapply preceded_fails2; [|exact H]|].
  - eapply terminated_ok; [now apply (tnc_ok (s_ "filter") w)|now apply sp1_ok].
  - apply alt_fails_cons; [apply map_fails, tag1_fails; now apply F|].
    apply alt_fails_cons; [apply map_fails, tag1_fails; now apply F|]. apply alt_fails_nil.
Qed.
Lemma filter_group_fails b0 w b x r g : blank b0 -> kw "filter" w -> blank1 b -> solid x -> not_first 58 x -> fails constraint x ->
  group_graph_pattern (123 :: b0 ++ w ++ b ++ x) <> Ok r g.
Proof.
  intros B0 W B S N H E. assert (BG : begins "filter" (w ++ b ++ x)) by now exists w, (b ++ x).
  assert (SL : solid (w ++ b ++ x)) by now apply (begins_solid "filter").
  assert (NS : ~ begins "select" (w ++ b ++ x)) by (intros X; revert BG X; apply begins_differ; reflexivity).
  apply group_text in E; [|assumption|exact SL|exact NS].
  destruct E as (s & b1 & -> & E & B1). apply map_inv in E. destruct E as ([o l'] & E & _). apply pair_inv in E. destruct E as (i1 & E1 & E2).
  assert (NI : no_iri (w ++ b ++ x)).
  { apply no_iri_fails, iri_fails_word; auto; [now apply (letter_kw_prefix "filter")|apply brk_name; now apply blank1_brk|apply B]. }
  rewrite (opt_none (terminated triples_block sp)) in E1; [|apply terminated_fails1; now apply (no_block_word "filter")]. injection E1 as <- <-.
  apply sepl_inv in E2. destruct E2 as [[_ E2]|(i2 & a & E2)].
  - rewrite <- E2 in SL, BG. destruct b1 as [|d b1].
    + apply (begins_stops (N.eqb 125) "filter") in BG; [discriminate|reflexivity|reflexivity].
    + apply (blank1_no_begins "filter" (d :: b1) (125 :: r)); [reflexivity|split; [exact B1|discriminate]|exact BG].
  - revert E2. apply fails_not_ok, map_fails, pair_fails1. now apply filter_fails.
Qed.
Lemma bracketted_fails b x : blank b -> solid x -> fails expression x -> fails constraint (40 :: b ++ x).
Proof.
  intros B S H. unfold constraint, constraint_of. apply alt_fails_cons; [apply map_fails; eapply delimited_fails2; [apply chr_ok|]; eapply delimited_fails2; [now apply sp_ok|exact H]|].
  apply alt_fails_cons; [apply map_fails, built_in_first; reflexivity|]. apply alt_fails_cons; [|apply alt_fails_nil].
  apply map_fails, map_fails, pair_fails1. apply iri_fails_first; reflexivity.
Qed.
Lemma group_product b0 w b1 b2 u tu b m tm y k g : blank b0 -> kw "filter" w -> blank1 b1 -> blank b2 ->
  W_unary W_expression W_ggp u tu (b ++ tm ++ y) -> solid (tu ++ b ++ tm ++ y) -> blank b -> W_mult W_expression W_ggp m tm y -> solid (tm ++ y) -> solid y ->
  group_graph_pattern (123 :: b0 ++ w ++ b1 ++ 40 :: b2 ++ tu ++ b ++ tm ++ y) <> Ok k g.
Proof.
  intros B0 W B1 B2 U Su B M S Sy. apply filter_group_fails; auto; [now apply char_solid|discriminate|]. apply bracketted_fails; auto. now apply (product_fails u tu b m).
Qed.

(** ** Brackets with content *)
Definition bracket_text (i : str) : Prop := exists o c b j, i = o :: b ++ j /\ ((o = 40 /\ c = 41) \/ (o = 91 /\ c = 93)) /\ blank b /\ solid j /\ not_first c j.
Lemma block_subject i : bracket_text i -> hardly triples_block i.
Proof.
  intros (o & c & b & j & -> & D & B & S & N). destruct (brackets_hard o c b j D B S N) as (_ & _ & H). apply map_hard, sepne_hardly. exact H.
Qed.
Lemma block_object v tv b1 p tp b2 i : W_var v tv (b1 ++ tp ++ b2 ++ i) -> blank1 b1 -> solid (tp ++ b2 ++ i) ->
  W_verb_path p tp (b2 ++ i) -> blank1 b2 -> bracket_text i -> hardly triples_block (tv ++ b1 ++ tp ++ b2 ++ i).
Proof.
  intros V B1 S P B2 (o & c & b & j & -> & D & B & Sj & N). destruct (brackets_hard o c b j D B Sj N) as (_ & H & _).
  assert (SO : solid (o :: b ++ j)) by (destruct D as [[-> _]|[-> _]]; now apply char_solid).
  apply map_hard, sepne_hardly, alt_hard, map_hard.
  eapply pair_hardly2; [apply alt_first; eapply map_ok; [exact (rd_var v tv _ V)|reflexivity]|].
  eapply preceded_hardly2; [apply (sp1_ok b1); [exact B1|exact S]|]. apply map_hard.
  eapply pair_hardly2; [eapply terminated_ok; [exact (rd_verb_path p tp _ P)|now apply sp1_ok]|]. apply pair_hard1, map_hard, sepne_hardly. exact H.
Qed.
Lemma group_hardly b c x : blank b -> In c [63; 36; 40; 91] -> hardly triples_block (c :: x) -> hardly group_graph_pattern (123 :: b ++ c :: x).
Proof.
  intros B C H. assert (S : solid (c :: x)) by (apply char_solid; cbn in C; destruct C as [<-|[<-|[<-|[<-|[]]]]]; reflexivity).
  assert (NB : ~ begins "select" (c :: x)) by (intros X; apply (begins_stops (oneof [63; 36; 40; 91]) "select") in X; [|reflexivity..]; cbn in C; destruct C as [<-|[<-|[<-|[<-|[]]]]]; discriminate X).
  unfold hardly. rewrite group_graph_pattern_eq. eapply delimited_hardly2; [apply chr_ok|]. eapply delimited_hardly2; [now apply sp_ok|].
  apply alt_hard_next; [apply map_fails, map_fails, pair_fails1, map_fails, pair_fails1; now apply (kw_fails "select")|].
  apply alt_hard, map_hard, map_hard, pair_hard1. apply opt_hardly. now apply terminated_hardly1.
Qed.
Lemma ask_hardly p t0 b0 w b x : W_prologue p t0 (b0 ++ w ++ b ++ 123 :: x) -> blank b0 -> kw "ask" w -> blank1 b ->
  hardly group_graph_pattern (123 :: x) -> hardly sparql_query_stmt (t0 ++ b0 ++ w ++ b ++ 123 :: x).
Proof.
  intros P B0 K B H. assert (BG : begins "ask" (w ++ b ++ 123 :: x)) by now exists w, (b ++ 123 :: x).
  assert (F : forall k, differ (s_ "ask") (s_ k) = true -> low_ascii (s_ k) = true -> word_like k = true -> fails (tag_no_case (s_ k)) (w ++ b ++ 123 :: x)).
  { intros k D L _. apply (nf_kw k "ask"); auto. }
  unfold sparql_query_stmt. apply map_hard.
  eapply pair_hardly2; [eapply terminated_ok; [exact (rd_prologue p t0 _ P)|apply (sp_ok b0 _ B0), (begins_solid "ask" _ eq_refl BG)]|]. apply pair_hard1.
  unfold sparql_query.
  apply alt_hard_next; [apply map_fails, map_fails, pair_fails1, terminated_fails1, map_fails, pair_fails1; now apply F|].
  apply alt_hard_next; [apply map_fails, tag1_fails; now apply F|].
  apply alt_hard_next; [apply map_fails, map_fails, pair_fails1; now apply F|].
  apply alt_hard, map_hard, map_hard.
  eapply pair_hardly2; [eapply terminated_ok; [now apply (tnc_ok (s_ "ask") w)|apply sp1_ok; [exact B|now apply char_solid]]|].
  eapply pair_hardly2; [apply no_datasets|]. apply pair_hard1, terminated_hardly1. eapply preceded_hardly2; [|exact H].
  apply opt_none, terminated_fails1. eexists _, _; reflexivity.
Qed.

(** ** ASK queries *)
Lemma open_inv t x : W_ask_open t x -> exists p t0 b0 w b, t = t0 ++ b0 ++ w ++ b /\ W_prologue p t0 (b0 ++ w ++ b ++ x) /\ blank b0 /\ kw "ask" w /\ blank1 b.
Proof.
  intros (p & t0 & t1 & -> & P & b0 & t2 & -> & [B0 _] & w & b & -> & W & [B _]). rewrite <- !app_assoc in *. exists p, t0, b0, w, b. auto 6.
Qed.
Lemma open_unread t x r q : W_ask_open t (123 :: x) -> (forall k g, group_graph_pattern (123 :: x) <> Ok k g) -> sparql_query_stmt (t ++ 123 :: x) <> Ok r q.
Proof.
  intros H N. apply open_inv in H. destruct H as (p & t0 & b0 & w & b & -> & P & B0 & W & B). rewrite <- !app_assoc. now apply (ask_unread p).
Qed.
Lemma open_hardly t x : W_ask_open t (123 :: x) -> hardly group_graph_pattern (123 :: x) -> hardly sparql_query_stmt (t ++ 123 :: x).
Proof.
  intros H N. apply open_inv in H. destruct H as (p & t0 & b0 & w & b & -> & P & B0 & W & B). rewrite <- !app_assoc. now apply (ask_hardly p).
Qed.
Lemma ask_question t b v tv b1 i ti b2 c x r q : W_ask_open t (123 :: b ++ tv ++ b1 ++ ti ++ b2 ++ 63 :: c :: x) -> blank b ->
  W_var v tv (b1 ++ ti ++ b2 ++ 63 :: c :: x) -> blank1 b1 -> solid (ti ++ b2 ++ 63 :: c :: x) -> W_iri i ti (b2 ++ 63 :: c :: x) -> blank1 b2 ->
  var_char c = true -> sparql_query_stmt (t ++ 123 :: b ++ tv ++ b1 ++ ti ++ b2 ++ 63 :: c :: x) <> Ok r q.
Proof. intros H B V B1 S I B2 C. apply open_unread; [exact H|]. intros k g. now apply (group_question b v tv b1 i). Qed.
Lemma ask_dot t b0 l tt b b' x r q : W_ask_open t (123 :: b0 ++ tt ++ b ++ 46 :: b' ++ x) -> blank b0 ->
  sep1W W_tssp dotsW (fun r => r = b ++ 46 :: b' ++ x) l tt (b ++ 46 :: b' ++ x) -> blank b -> blank b' -> solid x -> not_first 46 x -> no_block x ->
  solid (tt ++ b ++ 46 :: b' ++ x) -> ~ begins "select" (tt ++ b ++ 46 :: b' ++ x) ->
  sparql_query_stmt (t ++ 123 :: b0 ++ tt ++ b ++ 46 :: b' ++ x) <> Ok r q.
Proof. intros H B0 L B B' S N NB S' NS. apply open_unread; [exact H|]. intros k g. now apply (group_dot b0 l tt b b' x). Qed.
Lemma ask_brace t b0 o l tt y r q : W_ask_open t (123 :: b0 ++ tt ++ 125 :: y) -> blank b0 ->
  (optW (fun t => W_triples_block t >> gap) no_block o >> sep1W (W_pattern_and_triples W_expression W_ggp) gap1 (fun r => r = 125 :: y) l) tt (125 :: y) ->
  solid (tt ++ 125 :: y) -> ~ begins "select" (tt ++ 125 :: y) -> sparql_query_stmt (t ++ 123 :: b0 ++ tt ++ 125 :: y) <> Ok r q.
Proof. intros H B0 L S NS. apply open_unread; [exact H|]. intros k g. now apply (group_stuck b0 o l tt y). Qed.
Lemma ask_slash t b v tv b1 e te x r q : W_ask_open t (123 :: b ++ tv ++ b1 ++ te ++ 47 :: x) -> blank b -> W_var v tv (b1 ++ te ++ 47 :: x) ->
  blank1 b1 -> solid (te ++ 47 :: x) -> W_elt_or_inverse W_path e te (47 :: x) -> sparql_query_stmt (t ++ 123 :: b ++ tv ++ b1 ++ te ++ 47 :: x) <> Ok r q.
Proof. intros H B V B1 S E. apply open_unread; [exact H|]. intros k g. now apply (group_slash b v tv b1 e). Qed.
Lemma ask_product t b0 w b1 b2 u tu b m tm y r q : W_ask_open t (123 :: b0 ++ w ++ b1 ++ 40 :: b2 ++ tu ++ b ++ tm ++ y) ->
  blank b0 -> kw "filter" w -> blank1 b1 -> blank b2 -> W_unary W_expression W_ggp u tu (b ++ tm ++ y) -> solid (tu ++ b ++ tm ++ y) -> blank b ->
  W_mult W_expression W_ggp m tm y -> solid (tm ++ y) -> solid y ->
  sparql_query_stmt (t ++ 123 :: b0 ++ w ++ b1 ++ 40 :: b2 ++ tu ++ b ++ tm ++ y) <> Ok r q.
Proof. intros H B0 W B1 B2 U Su B M S Sy. apply open_unread; [exact H|]. intros k g. now apply (group_product b0 w b1 b2 u tu b m). Qed.
Lemma ask_subject t b o c x : W_ask_open t (123 :: b ++ o :: x) -> blank b -> (o = 40 /\ c = 41) \/ (o = 91 /\ c = 93) -> other c x ->
  exists p k, sparql_query_stmt (t ++ 123 :: b ++ o :: x) = Err (Failure p k).
Proof.
  intros H B D (b' & j & -> & B' & S & N). apply open_hardly; [exact H|]. apply group_hardly; [exact B|destruct D as [[-> _]|[-> _]]; cbn; auto|].
  apply block_subject. exists o, c, b', j. auto.
Qed.
Lemma ask_object t b v tv b1 p tp b2 o c x : W_ask_open t (123 :: b ++ tv ++ b1 ++ tp ++ b2 ++ o :: x) -> blank b ->
  W_var v tv (b1 ++ tp ++ b2 ++ o :: x) -> blank1 b1 -> solid (tp ++ b2 ++ o :: x) -> W_verb_path p tp (b2 ++ o :: x) -> blank1 b2 ->
  (o = 40 /\ c = 41) \/ (o = 91 /\ c = 93) -> other c x ->
  exists z k, sparql_query_stmt (t ++ 123 :: b ++ tv ++ b1 ++ tp ++ b2 ++ o :: x) = Err (Failure z k).
Proof.
  intros H B V B1 S P B2 D (b' & j & -> & B' & Sj & N). apply open_hardly; [exact H|].
  assert (R : hardly triples_block (tv ++ b1 ++ tp ++ b2 ++ o :: b' ++ j)).
  { apply (block_object v tv b1 p tp b2); auto. exists o, c, b', j. auto. }
  clear H. destruct V as [V _]. apply R_var_text in V. destruct V as (n & -> & _). cbn [app] in *. apply group_hardly; [exact B|destruct v; cbn; auto|exact R].
Qed.
