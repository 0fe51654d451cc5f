(** What the parsers return can be written, unless Print.v does not write it: queries and updates. *)
From Verif Require Import LMono LC8 LMods LSafe LMore1 SpecDepth LDepth2 LShape.
From Verif Require Export LTame2.
From Verif Require Import Nom.
Notation length := List.length (only parsing).
Open Scope N_scope.
Open Scope list_scope.

Create HintDb wmono.
(** ** Writing deeper *)
Section Mono.
  Context {E G : Type} (WE WE' : E -> Prop) (WG WG' : G -> Prop) (op : E -> bool) (Me : forall e, WE e -> WE' e) (Mg : forall g, WG g -> WG' g).
  Lemma fa_mono {A} (P Q : A -> Prop) l : (forall a, P a -> Q a) -> Forall P l -> Forall Q l.
  Proof. intros H. apply Forall_impl. exact H. Qed.
  Lemma so_mono {A} (P Q : A -> Prop) o : (forall a, P a -> Q a) -> Print.some_ P o -> Print.some_ Q o.
  Proof. destruct o; cbn; auto. Qed.
  Ltac mono := repeat match goal with
    | |- _ /\ _ -> _ => let H := fresh in intros H; destruct H
    | H : _ /\ _ |- _ => destruct H
    | |- _ /\ _ => split
    | |- Forall _ _ -> Forall _ _ => apply fa_mono; intros ?
    | |- Print.some_ _ _ -> Print.some_ _ _ => apply so_mono; intros ?
    | H : Forall ?P ?o |- Forall _ ?o => revert H; apply fa_mono; intros ?
    | H : Print.some_ ?P ?o |- Print.some_ _ ?o => revert H; apply so_mono; intros ?
    end; auto with wmono nocore.
  Lemma m_args l : wf_args WE op l -> wf_args WE' op l.
  Proof using Me. intros [H1 H2]. split; [mono|exact H2]. Qed.
  Hint Resolve m_args Me Mg : wmono.
  Lemma m_distinct d : wf_distinct_expression WE op d -> wf_distinct_expression WE' op d.
  Proof using Me. destruct d; cbn [wf_distinct_expression]; mono. Qed.
  Hint Resolve m_distinct : wmono.
  Lemma m_aggregate a : wf_aggregate WE op a -> wf_aggregate WE' op a.
  Proof using Me. destruct a as [[d []]|d|d|d|d|d|[[d x] []]]; cbn [wf_aggregate]; mono. Qed.
  Hint Resolve m_aggregate : wmono.
  Lemma m_built_in b : wf_built_in WE WG op b -> wf_built_in WE' WG' op b.
  Proof using Me Mg.
    destruct b; cbn [wf_built_in]; repeat match goal with |- context [match ?x with _ => _ end] => is_var x; destruct x end;
    unfold wf_expr3, wf_str_replace; repeat match goal with |- context [match ?x with _ => _ end] => is_var x; destruct x end; mono.
  Qed.
  Hint Resolve m_built_in : wmono.
  Lemma m_primary p : wf_primary WE WG op p -> wf_primary WE' WG' op p. Proof using Me Mg. destruct p; cbn [wf_primary]; mono. Qed.
  Hint Resolve m_primary : wmono.
  Lemma m_unary u : wf_unary WE WG op u -> wf_unary WE' WG' op u. Proof using Me Mg. destruct u; cbn [wf_unary]; mono. Qed.
  Hint Resolve m_unary : wmono.
  Lemma m_mult u : wf_mult WE WG op u -> wf_mult WE' WG' op u. Proof using Me Mg. destruct u; cbn [wf_mult]; mono. Qed.
  Hint Resolve m_mult : wmono.
  Lemma m_multiplicative u : wf_multiplicative WE WG op u -> wf_multiplicative WE' WG' op u. Proof using Me Mg. destruct u; cbn [wf_multiplicative]; mono. Qed.
  Lemma m_add u : wf_add WE WG op u -> wf_add WE' WG' op u. Proof using Me Mg. destruct u as [[]|[]|]; cbn [wf_add]; mono. Qed.
  Hint Resolve m_multiplicative m_add : wmono.
  Lemma m_additive u : wf_additive WE WG op u -> wf_additive WE' WG' op u. Proof using Me Mg. destruct u; cbn [wf_additive]; mono. Qed.
  Hint Resolve m_additive : wmono.
  Lemma m_op u : wf_op WE WG op u -> wf_op WE' WG' op u. Proof using Me Mg. destruct u; cbn [wf_op]; mono. Qed.
  Hint Resolve m_op : wmono.
  Lemma m_relational u : wf_relational WE WG op u -> wf_relational WE' WG' op u. Proof using Me Mg. destruct u as [a []]; cbn [wf_relational]; mono. Qed.
  Hint Resolve m_relational : wmono.
  Lemma m_and u : wf_and WE WG op u -> wf_and WE' WG' op u. Proof using Me Mg. destruct u; cbn [wf_and]; mono. Qed.
  Lemma m_constraint u : wf_constraint WE WG op u -> wf_constraint WE' WG' op u. Proof using Me Mg. destruct u; cbn [wf_constraint]; mono. Qed.
  Lemma m_as u : wf_as WE u -> wf_as WE' u. Proof using Me. destruct u; cbn [wf_as]; mono. Qed.
  Hint Resolve m_and m_constraint m_as : wmono.
  Lemma m_order_condition u : wf_order_condition WE WG op u -> wf_order_condition WE' WG' op u. Proof using Me Mg. destruct u as [[]| |]; cbn [wf_order_condition]; mono. Qed.
  Lemma m_group_condition u : wf_group_condition WE WG op u -> wf_group_condition WE' WG' op u. Proof using Me Mg. destruct u as [| |[x []]|]; cbn [wf_group_condition]; mono. Qed.
  Hint Resolve m_order_condition m_group_condition : wmono.
  Lemma m_mods u : wf_mods WE WG op u -> wf_mods WE' WG' op u.
  Proof using Me Mg. destruct u as [ob gb h lo]; cbn [wf_mods]; mono; destruct a; mono. Qed.
  Lemma m_select u : wf_select WE u -> wf_select WE' u.
  Proof using Me. destruct u as [m [l|]]; cbn [wf_select]; mono. destruct a; mono. Qed.
  Hint Resolve m_mods m_select : wmono.
  Lemma m_sub_select u : wf_sub_select WE WG op u -> wf_sub_select WE' WG' op u. Proof using Me Mg. destruct u; cbn [wf_sub_select]; mono. Qed.
  Lemma m_pattern u : wf_pattern WE WG op u -> wf_pattern WE' WG' op u.
  Proof using Me Mg. destruct u; cbn [wf_pattern]; repeat match goal with |- context [match ?x with _ => _ end] => is_var x; destruct x end; mono. Qed.
  Hint Resolve m_pattern : wmono.
  Lemma m_sub u : wf_sub WE WG op u -> wf_sub WE' WG' op u. Proof using Me Mg. destruct u; cbn [wf_sub]; mono. destruct a; mono. Qed.
End Mono.
Lemma expression_wf_mono (WE WE' : Expression -> Prop) (WG WG' : GroupGraphPattern -> Prop) :
  (forall e, WE e -> WE' e) -> (forall g, WG g -> WG' g) -> forall e, expression_wf WE WG e -> expression_wf WE' WG' e.
Proof. intros H1 H2 e. case e. intros l [N H]. split; [exact N|]. revert H. apply fa_mono. intros a. exact (m_and _ _ _ _ _ H1 H2 a). Qed.
Lemma ggp_wf_mono (WE WE' : Expression -> Prop) (WG WG' : GroupGraphPattern -> Prop) :
  (forall e, WE e -> WE' e) -> (forall g, WG g -> WG' g) -> forall g, ggp_wf WE WG g -> ggp_wf WE' WG' g.
Proof. intros H1 H2 g. case g; intros s; [exact (m_sub_select _ _ _ _ _ H1 H2 s)|exact (m_sub _ _ _ _ _ H1 H2 s)]. Qed.
Lemma wf_expression_s n : wf_expression (S n) = expression_wf (wf_expression n) (wf_ggp n).
Proof. unfold wf_expression, wf_ggp. cbn [wfs]. now destruct (wfs n). Qed.
Lemma wf_ggp_s n : wf_ggp (S n) = ggp_wf (wf_expression n) (wf_ggp n).
Proof. unfold wf_expression, wf_ggp. cbn [wfs]. now destruct (wfs n). Qed.
Lemma wfs_step n : (forall e, wf_expression n e -> wf_expression (S n) e) /\ (forall g, wf_ggp n g -> wf_ggp (S n) g).
Proof.
  induction n as [|n [IH1 IH2]]; [split; intros ? []|]. rewrite (wf_expression_s (S n)), (wf_ggp_s (S n)). split.
  - intros e H. rewrite wf_expression_s in H. exact (expression_wf_mono _ _ _ _ IH1 IH2 e H).
  - intros e H. rewrite wf_ggp_s in H. exact (ggp_wf_mono _ _ _ _ IH1 IH2 e H).
Qed.
Lemma wf_ggp_mono n m g : (n <= m)%nat -> wf_ggp n g -> wf_ggp m g.
Proof. induction 1 as [|m L IH]; [auto|]. intros H. apply wfs_step. auto. Qed.

(** ** Queries *)
Lemma te_prologue : ens prologue wf_prologue.
Proof.
  unfold prologue. eapply ens_map.
  - eapply ens_sepl. refine (ens_sound _ _ wf_decl sd_decl _). intros [b|[p b]] t; cbn.
    + intros (x & y & -> & _ & z & u & -> & _ & _ & H). exact H.
    + intros (x & y & -> & _ & z & u & -> & _ & v & k & -> & H1 & l & m & -> & _ & _ & H). split; [exact (prefix_wf _ _ H1)|exact H].
  - intros l H. exact (each_all _ _ H).
Qed.
Lemma te_don : ens default_or_named_iri (tame_don ~~> wf_don). Proof. unfold default_or_named_iri, named_iri. alts; (eapply ens_map; [tv|]); intros a H; exact H. Qed.
#[export] Hint Resolve te_prologue te_don : tame.
Lemma te_data_set_clause : ens data_set_clause (tame_don ~~> wf_don). Proof. unfold data_set_clause. tv. Qed.
#[export] Hint Resolve te_data_set_clause : tame.
Lemma te_var_or_iris_or_all : ens var_or_iris_or_all
  ((fun v => match v with VoiAll => True | VoiList l => Forall tame_voi l end) ~~> (fun v => match v with VoiAll => True | VoiList l => l <> [] /\ Forall wf_voi l end)).
Proof. ta var_or_iris_or_all. Qed.
#[export] Hint Resolve te_var_or_iris_or_all : tame.
Section Query.
  Context (n : nat).
  Notation e := (expression_within n). Notation g := (group_graph_pattern_within n).
  Lemma te_mods_n : ens (solution_modifier_of e g) (tamem n ~~> wfm n).
  Proof. destruct (te_nested n) as ((S1 & S2) & (H1 & H2) & F & O). exact (te_modifier e g _ _ _ _ _ _ H1 H2 F O). Qed.
  Lemma te_where_n : ens (where_clause_of g) (tame_ggp n ~~> wf_ggp n).
  Proof. destruct (te_nested n) as ((S1 & S2) & (H1 & H2) & F & O). exact (te_where g _ _ H2). Qed.
  Lemma te_select_n : ens (select_clause_of e) (tame_select (tame_expression n) ~~> wf_select (wf_expression n)).
  Proof. destruct (te_nested n) as ((S1 & S2) & (H1 & H2) & F & O). exact (te_select_clause e _ _ H1). Qed.
  Hint Resolve te_mods_n te_where_n te_select_n : tame.
  Lemma te_select_query : ens (select_query_of e g) ((fun q => tame_query n (SqSelect q)) ~~> (fun q => wf_query n (SqSelect q))).
  Proof.
    unfold select_query_of. eapply ens_map; [tv|]. intros [s [d [w m]]] (H1 & H2 & H3 & H4) (T1 & T2 & T3 & T4). cbn [fst snd] in *.
    split; [auto|]. split; [exact (each_forall _ _ _ H2 T2)|]. split; auto.
  Qed.
  Lemma te_ask_query : ens (ask_query_of e g) ((fun q => tame_query n (SqAsk q)) ~~> (fun q => wf_query n (SqAsk q))).
  Proof.
    unfold ask_query_of. eapply ens_map; [tv|]. intros [s [d [w m]]] (_ & H2 & H3 & H4) (T2 & T3 & T4). cbn [fst snd] in *.
    split; [exact (each_forall _ _ _ H2 T2)|]. split; auto.
  Qed.
  Lemma te_describe_query : ens (describe_query_of e g) ((fun q => tame_query n (SqDescribe q)) ~~> (fun q => wf_query n (SqDescribe q))).
  Proof.
    unfold describe_query_of. eapply ens_map; [tv|]. intros [s [v [d [w m]]]] (_ & H1 & H2 & H3 & H4) (T1 & T0 & T2 & T3 & T4). cbn [fst snd] in *.
    split; [exact (H1 T1)|]. split; [exact T0|]. split; [exact (each_forall _ _ _ H2 T2)|]. split; [exact (if_some _ _ _ H3 T3)|auto].
  Qed.
  Lemma te_sub_construct : ens (sub_construct_of e g) ((fun q => tame_query n (SqConstruct (CqSubConstruct q))) ~~> (fun q => wf_query n (SqConstruct (CqSubConstruct q)))).
  Proof.
    unfold sub_construct_of. eapply ens_map; [tv|]. intros [[t] [d [w m]]] (H1 & H2 & H3 & H4) (T1 & T2 & T3 & T4). cbn [fst snd] in *.
    split; [auto|]. split; [exact (each_forall _ _ _ H2 T2)|]. split; auto.
  Qed.
  Lemma te_sub_triples : ens (sub_triples_of e g) ((fun q => tame_query n (SqConstruct (CqSubTriples q))) ~~> (fun q => wf_query n (SqConstruct (CqSubTriples q)))).
  Proof.
    unfold sub_triples_of. eapply ens_map; [tv|]. intros [d [k [t m]]] (H1 & _ & H2 & H3) (T1 & T2 & T3). cbn [fst snd] in *.
    split; [exact (each_forall _ _ _ H1 T1)|]. split; [exact (if_some _ _ _ H2 T2)|auto].
  Qed.
  Hint Resolve te_select_query te_ask_query te_describe_query te_sub_construct te_sub_triples : tame.
  Lemma te_construct_query : ens (construct_query_of e g) ((fun q => tame_query n (SqConstruct q)) ~~> (fun q => wf_query n (SqConstruct q))).
  Proof. unfold construct_query_of, preceded_tag1. eapply ens_preceded. alts; (eapply ens_map; [tv|]); intros a H; exact H. Qed.
  Hint Resolve te_construct_query : tame.
  Lemma te_query : ens (sparql_query_of e g) (tame_query n ~~> wf_query n).
  Proof. unfold sparql_query_of. alts; (eapply ens_map; [tv|]); intros a H; exact H. Qed.
  Hint Resolve te_query : tame.
  Lemma te_query_stmt : ens (sparql_query_stmt_within n)
    (tame n ~~> (fun '(MkSparqlQueryStatement p q v) => wf_prologue p /\ wf_query n q /\ Print.some_ wf_block v)).
  Proof.
    unfold sparql_query_stmt_within, sparql_query_stmt_of. eapply ens_map; [tv|]. intros [p [q v]] (H1 & H2 & H3) [T1 T2]. cbn [fst snd] in *.
    split; [exact H1|]. split; [auto|exact (if_some _ _ _ H3 T2)].
  Qed.
End Query.
Lemma values_keep i r p q v : sparql_query_stmt i = Ok r (MkSparqlQueryStatement p q (Some v)) -> keeps_blank (mods_of q) = true.
Proof.
  intros H. apply values_after in H. unfold limit_of, order_of, group_of, having_of in H. destruct (mods_of q) as [ob gb h lo].
  destruct lo as [[a [b|]|a [b|]]|]; [now destruct ob, gb, h|exfalso; exact (H I)|now destruct ob, gb, h|exfalso; exact (H I)|].
  destruct ob; [now destruct gb, h|]. destruct gb; [now destruct h|]. destruct h; [reflexivity|]. exfalso. destruct H as [H|[H|H]]; now apply H.
Qed.
(** the query statements returned can be written *)
Lemma returned_printable i r q : sparql_query_stmt i = Ok r q -> docile q -> printable (2 * openings i + 2) q.
Proof.
  intros H D. pose proof H as K. rewrite <- (sparql_query_stmt_depth _ i (le_n _)) in K. apply te_query_stmt in K. specialize (K (D _)).
  destruct q as [p q v]. destruct K as (K1 & K2 & K3). split; [exact K1|]. split; [exact K2|]. destruct v as [v|]; [|exact I].
  split; [exact K3|exact (values_keep _ _ _ _ _ H)].
Qed.

(** ** Updates *)
Lemma te_braced_template : ens braced_template (if_ (Forall tame_tss ~~> wf_tmpl)). Proof. unfold braced_template. tv. Qed.
#[export] Hint Resolve te_braced_template : tame.
Lemma te_quads_not_triples : ens quads_not_triples
  ((fun '(MkQuadsNotTriples v t) => tame_voi v /\ Print.some_ (Forall tame_tss) t) ~~> (fun '(MkQuadsNotTriples v t) => wf_voi v /\ Print.some_ wf_tmpl t)).
Proof.
  unfold quads_not_triples. eapply ens_map; [tv|]. intros [a [v t]] (_ & H1 & H2) [T1 T2]. cbn [fst snd] in *. split; [auto|exact (if_some _ _ _ H2 T2)].
Qed.
#[export] Hint Resolve te_quads_not_triples : tame.
Lemma te_quads_entry : ens quads_entry (tame_quads_entry ~~> wf_quads_entry).
Proof.
  unfold quads_entry. eapply ens_map; [tv|]. intros [[v t] t'] [H1 H2] (T1 & T2 & T3). cbn [fst snd] in *. destruct (H1 (conj T1 T2)) as [K1 K2].
  split; [exact K1|]. split; [exact K2|exact (if_some _ _ _ H2 T3)].
Qed.
#[export] Hint Resolve te_quads_entry : tame.
Lemma te_quads : ens quads (tame_quads ~~> wf_quads).
Proof.
  unfold quads. eapply ens_map; [tv|]. intros [f l] [H1 H2] [T1 T2]. cbn [fst snd] in *. split; [exact (if_some _ _ _ H1 T1)|exact (each_forall _ _ _ H2 T2)].
Qed.
#[export] Hint Resolve te_quads : tame.
Lemma te_quads_pattern : ens quads_pattern (tame_quads ~~> wf_quads). Proof. unfold quads_pattern. tv. Qed.
#[export] Hint Resolve te_quads_pattern : tame.
Lemma te_insert_clause : ens insert_clause (tame_quads ~~> wf_quads). Proof. unfold insert_clause. tv. Qed.
Lemma te_delete_clause : ens delete_clause (tame_quads ~~> wf_quads). Proof. unfold delete_clause. tv. Qed.
#[export] Hint Resolve te_insert_clause te_delete_clause : tame.
Lemma te_delete_insert : ens delete_insert (tame_delete_insert ~~> wf_delete_insert).
Proof.
  unfold delete_insert. alts; (eapply ens_map; [tv|]); [|intros a H; exact H].
  intros [d i] [H1 H2] [T1 T2]. cbn [fst snd] in *. split; [auto|exact (if_some _ _ _ H2 T2)].
Qed.
#[export] Hint Resolve te_delete_insert : tame.
(** the statement can be written at some depth *)
Definition everywhere {A} (P : nat -> A -> Prop) (a : A) : Prop := forall n, P n a.
Definition somewhere {A} (P : nat -> A -> Prop) (a : A) : Prop := exists n, P n a.
Lemma te_ggp_some : ens group_graph_pattern (everywhere tame_ggp ~~> somewhere wf_ggp).
Proof.
  intros i r x H T. exists (2 * openings i + 2)%nat. destruct (te_nested (2 * openings i + 2)) as (_ & (_ & K) & _).
  rewrite <- (group_graph_pattern_depth (2 * openings i + 2) i ltac:(lia)) in H. exact (K _ _ _ H (T _)).
Qed.
#[export] Hint Resolve te_ggp_some : tame.
Lemma te_using_clause : ens using_clause (tame_don ~~> wf_don). Proof. unfold using_clause. tv. Qed.
#[export] Hint Resolve te_using_clause : tame.
Lemma te_modify : ens modify_stmt ((fun m => everywhere tame_stmt (UsModify m)) ~~> (fun m => somewhere wf_stmt (UsModify m))).
Proof.
  intros i r [x d u w] E. pose proof (modify_using _ _ _ _ _ _ E) as N.
  assert (K : ens modify_stmt (fun '(MkModify x d u w) => if_ (tame_iri ~~> wf_iri) x /\ (tame_delete_insert d -> wf_delete_insert d) /\
    each (tame_don ~~> wf_don) u /\ (everywhere tame_ggp w -> somewhere wf_ggp w))).
  { unfold modify_stmt. eapply ens_map; [tv|]. intros [x' [d' [u' [a w']]]] (H1 & H2 & H3 & _ & H4). cbn [fst snd] in *. repeat (split; [assumption|]). assumption. }
  apply K in E. destruct E as (E1 & E2 & E3 & E4). intros T. assert (T4 : everywhere tame_ggp w) by (intros n; exact (proj2 (proj2 (proj2 (T n))))).
  destruct (T O) as (T1 & T2 & T3 & _). destruct (E4 T4) as [n W]. exists n. cbn [wf_stmt].
  split; [exact (if_some _ _ _ E1 T1)|]. split; [auto|]. split; [split; [exact N|exact (each_forall _ _ _ E3 T3)]|exact W].
Qed.
Lemma te_insert_data : ens insert_data (tame_quads ~~> wf_quads). Proof. unfold insert_data, quad_data. tv. Qed.
Lemma te_delete_data : ens delete_data (tame_quads ~~> wf_quads). Proof. unfold delete_data, quad_data. tv. Qed.
Lemma te_delete_where : ens delete_where_data (tame_quads ~~> wf_quads). Proof. unfold delete_where_data, quad_data. tv. Qed.
#[export] Hint Resolve te_modify te_insert_data te_delete_data te_delete_where : tame.
Lemma te_graph_ref : ens graph_ref (tame_iri ~~> wf_iri).
Proof. unfold graph_ref. eapply ens_map; [tv|]. intros [a b] [_ H]. exact H. Qed.
#[export] Hint Resolve te_graph_ref : tame.
Lemma te_graph_ref_all : ens graph_ref_all (tame_gra ~~> wf_gra). Proof. unfold graph_ref_all. alts; (eapply ens_map; [tv|]); intros a H; first [exact H|now intros _]. Qed.
Lemma te_graph_or_default : ens graph_or_default (tame_god ~~> wf_god).
Proof. unfold graph_or_default. alts; (eapply ens_map; [tv|]); [now intros a _ _|]. intros [a b] [_ H]. exact H. Qed.
#[export] Hint Resolve te_graph_ref_all te_graph_or_default : tame.
Lemma te_stmt_of {A} w (p : parser A) Q : ens p Q -> ens (stmt w p) Q.
Proof. intros H. unfold stmt. eapply ens_map; [tv|]. intros [a b] [_ K]. exact K. Qed.
#[export] Hint Resolve te_stmt_of : tame.
(** the statements without a group *)
Lemma te_flat {A} (p : parser A) (f : A -> UpdateStatement) :
  ens p ((fun a => tame_stmt O (f a)) ~~> (fun a => wf_stmt O (f a))) -> ens (map p f) (everywhere tame_stmt ~~> somewhere wf_stmt).
Proof. intros H. eapply ens_map; [exact H|]. intros a K T. exists O. exact (K (T O)). Qed.
Lemma te_update_stmt : ens update_stmt (everywhere tame_stmt ~~> somewhere wf_stmt).
Proof.
  unfold update_stmt. alts.
  - apply te_flat. unfold load_stmt. eapply ens_map; [tv|]. intros [a [b [i g]]] (_ & _ & H1 & H2) [T1 T2]. cbn [fst snd] in *.
    split; [auto|exact (if_some _ _ _ H2 T2)].
  - apply te_flat. unfold clear_stmt. eapply ens_map; [apply te_stmt_of; unfold silent_graph_ref_all; tv|]. intros [a b] [_ H]. exact H.
  - apply te_flat. unfold drop_stmt. eapply ens_map; [apply te_stmt_of; unfold silent_graph_ref_all; tv|]. intros [a b] [_ H]. exact H.
  - apply te_flat. unfold create_stmt. eapply ens_map; [tv|]. intros [a [b g]] (_ & _ & H). exact H.
  - apply te_flat. unfold copy_stmt. eapply ens_map; [apply te_stmt_of; unfold silent_from_to; tv|]. intros [a [f t]] (_ & H1 & H2) [T1 T2].
    cbn [fst snd] in *. split; auto.
  - apply te_flat. exact te_insert_data.
  - apply te_flat. exact te_delete_data.
  - apply te_flat. exact te_delete_where.
  - eapply ens_map; [exact te_modify|]. intros a H. exact H.
Qed.
#[export] Hint Resolve te_update_stmt : tame.
Lemma wf_stmt_mono n m u : (n <= m)%nat -> wf_stmt n u -> wf_stmt m u.
Proof.
  intros L. destruct u as [[]|[]|[]|[]|[]|[]|[]|q|q|q|[x d us g]]; cbn [wf_stmt]; auto.
  intros (H1 & H2 & H3 & H4). repeat (split; [assumption|]). exact (wf_ggp_mono _ _ _ L H4).
Qed.
Fixpoint printable_update_mono n m u (L : (n <= m)%nat) {struct u} : printable_update n u -> printable_update m u.
Proof.
  destruct u as [p [s|] [u|]]; cbn [printable_update Print.some_]; intros (H1 & H2 & H3); [| |contradiction|auto].
  - split; [exact H1|]. split; [exact (wf_stmt_mono _ _ _ L H2)|exact (printable_update_mono n m u L H3)].
  - split; [exact H1|]. split; [exact (wf_stmt_mono _ _ _ L H2)|exact I].
Qed.
Lemma te_update_body u : ens u (docile_update ~~> somewhere printable_update) -> ens (update_body u) (docile_update ~~> somewhere printable_update).
Proof.
  intros Hu. unfold update_body. eapply ens_map; [tv|]. intros [p [[s inner]|]]; cbn [fst snd].
  - intros [Hp [Hs Hi]] D. cbn [fst snd] in *. destruct Hs as [n1 W1]; [intros n; exact (proj1 (D n))|]. destruct inner as [u'|].
    + destruct Hi as [n2 W2]; [intros n; exact (proj2 (D n))|]. exists (Nat.max n1 n2). split; [exact Hp|]. split.
      * exact (wf_stmt_mono _ _ _ (Nat.le_max_l _ _) W1).
      * exact (printable_update_mono _ _ _ (Nat.le_max_r _ _) W2).
    + exists n1. split; [exact Hp|]. now split.
  - intros [Hp _] D. exists O. now repeat split.
Qed.
Lemma te_update : ens update (docile_update ~~> somewhere printable_update).
Proof.
  intros i. unfold update, fixp.
  assert (K : forall n, ens (iter n update_body) (docile_update ~~> somewhere printable_update)).
  { apply (ens_iter update_body (fun p => ens p (docile_update ~~> somewhere printable_update))); [discriminate|]. intros p. apply te_update_body. }
  exact (K _ i).
Qed.
Lemma wf_expression_mono n m e : (n <= m)%nat -> wf_expression n e -> wf_expression m e.
Proof. induction 1 as [|m L IH]; [auto|]. intros H. apply wfs_step. auto. Qed.
Lemma wfm_mono n m x : (n <= m)%nat -> wfm n x -> wfm m x.
Proof. intros L. exact (m_mods _ _ _ _ _ (fun e => wf_expression_mono n m e L) (fun g => wf_ggp_mono n m g L) x). Qed.
Lemma printable_mono n m q : (n <= m)%nat -> printable n q -> printable m q.
Proof.
  intros L. destruct q as [p q v]. intros (H1 & H2 & H3). split; [exact H1|]. split; [|exact H3]. clear H1 H3.
  destruct q as [q|q|q|q]; cbn [wf_query] in *.
  - destruct q as [d g k], H2 as (A2 & A3 & A4). split; [exact A2|]. split; [exact (wf_ggp_mono _ _ _ L A3)|exact (wfm_mono _ _ _ L A4)].
  - destruct q as [s d g k], H2 as (A1 & A2 & A3 & A4). split; [exact (m_select _ _ (fun e => wf_expression_mono n m e L) s A1)|]. split; [exact A2|].
    split; [exact (wf_ggp_mono _ _ _ L A3)|exact (wfm_mono _ _ _ L A4)].
  - destruct q as [d v' g k], H2 as (A1 & A2 & A3 & A4 & A5). split; [exact A1|]. split; [exact A2|]. split; [exact A3|].
    split; [revert A4; apply so_mono; intros x; exact (wf_ggp_mono _ _ _ L)|exact (wfm_mono _ _ _ L A5)].
  - destruct q as [[[t] d g k]|[d t k]].
    + destruct H2 as (A1 & A2 & A3 & A4). split; [exact A1|]. split; [exact A2|]. split; [exact (wf_ggp_mono _ _ _ L A3)|exact (wfm_mono _ _ _ L A4)].
    + destruct H2 as (A1 & A2 & A3). split; [exact A1|]. split; [exact A2|exact (wfm_mono _ _ _ L A3)].
Qed.
Lemma returned_printable_at n i r q : sparql_query_stmt i = Ok r q -> docile q -> (2 * openings i + 2 <= n)%nat -> printable n q.
Proof. intros H D L. exact (printable_mono _ _ _ L (returned_printable i r q H D)). Qed.
