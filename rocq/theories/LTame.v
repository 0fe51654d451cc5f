(** What the parsers return can be written, unless Print.v does not write it: terms, triples and paths. *)
From Verif Require Export SpecTame.
From Verif Require Import LTame0 LMono LC8 LMods LSafe LShape.
From Verif Require Import Nom.
Notation length := List.length (only parsing).
Open Scope N_scope.
Open Scope list_scope.

(** [ens p (T ~~> W)] *)
Notation "T ~~> W" := (fun a => T a -> W a) (at level 70).
Lemma each_forall {A} (T W : A -> Prop) l : each (T ~~> W) l -> Forall T l -> Forall W l.
Proof. induction l as [|a l IH]; [constructor|]. intros [H1 H2] F. inversion F. constructor; auto. Qed.
Lemma each_all {A} (W : A -> Prop) l : each W l -> Forall W l.
Proof. induction l as [|a l IH]; [constructor|]. intros [H1 H2]. constructor; auto. Qed.
Lemma some_forall {A} (T W : A -> Prop) l : SpecShape.some_ (T ~~> W) l -> Forall T l -> Forall W l.
Proof. intros [_ H]. now apply each_forall. Qed.
Lemma some_all {A} (W : A -> Prop) l : SpecShape.some_ W l -> Forall W l.
Proof. intros [_ H]. now apply each_all. Qed.
Lemma if_some {A} (T W : A -> Prop) o : if_ (T ~~> W) o -> Print.some_ T o -> Print.some_ W o.
Proof. destruct o; auto. Qed.
Lemma if_all {A} (W : A -> Prop) o : if_ W o -> Print.some_ W o.
Proof. destruct o; auto. Qed.
Lemma forall_true {A} (l : list A) : Forall (fun _ => True) l. Proof. induction l; now constructor. Qed.

Create HintDb tame.
Ltac tv := lazymatch goal with
  | |- ens (map _ _) ?Q => eapply ens_map; [tv|]
  | |- ens (pair _ _) _ => eapply ens_pair; tv
  | |- ens (tuple3 _ _ _) _ => unfold tuple3; tv
  | |- ens (tuple4 _ _ _ _) _ => unfold tuple4; tv
  | |- ens (tuple5 _ _ _ _ _) _ => unfold tuple5; tv
  | |- ens (preceded _ _) _ => eapply ens_preceded; tv
  | |- ens (terminated _ _) _ => eapply ens_terminated; tv
  | |- ens (delimited _ _ _) _ => unfold delimited; tv
  | |- ens (separated_pair _ _ _) _ => unfold separated_pair; tv
  | |- ens (sp_sep _ _) _ => unfold sp_sep; tv
  | |- ens (sp_sep1 _ _) _ => unfold sp_sep1; tv
  | |- ens (sp_enc _) _ => unfold sp_enc; tv
  | |- ens (sp_enc1 _) _ => unfold sp_enc1; tv
  | |- ens (bracketted _) _ => unfold bracketted; tv
  | |- ens (preceded_tag _ _) _ => unfold preceded_tag; tv
  | |- ens (preceded_tag1 _ _) _ => unfold preceded_tag1; tv
  | |- ens (preceded_bracketted _ _) _ => unfold preceded_bracketted; tv
  | |- ens (opt _) _ => eapply ens_opt; tv
  | |- ens (many0 _) _ => eapply ens_many0; tv
  | |- ens (many1 _) _ => eapply ens_many1; tv
  | |- ens (separated_list _ _) _ => eapply ens_sepl; tv
  | |- ens (separated_nonempty_list _ _) _ => eapply ens_sepne; tv
  | |- _ => first [eassumption | solve [eauto 2 with tame nocore] | eapply ens_true]
  end.
Ltac fin := repeat match goal with
  | |- True => exact I
  | |- _ /\ _ => split
  | H : ?P |- ?P => exact H
  | H : SpecShape.some_ _ ?l |- ?l <> [] => exact (proj1 H)
  | H : SpecShape.some_ _ ?l |- Forall _ ?l => first [refine (some_forall _ _ _ H _) | refine (some_all _ _ H)]
  | H : each _ ?l |- Forall _ ?l => first [refine (each_forall _ _ _ H _) | refine (each_all _ _ H)]
  | H : if_ _ ?l |- Print.some_ _ ?l => first [refine (if_some _ _ _ H _) | refine (if_all _ _ H)]
  | H : _ -> ?P |- ?P => apply H
  end.
Ltac shut := let a := fresh "a" in let H := fresh "H" in intros a H; repeat (progress (cbn [fst snd] in *; break));
  try assumption; repeat match goal with |- context [match ?x with _ => _ end] => is_var x; destruct x end;
  cbn in *; intros; break; fin.
Ltac tm p := unfold p; eapply ens_map; [tv|shut].
Ltac tw p := unfold p; eapply ens_weaken; [tv|shut].
Ltac ta p := unfold p; alts; (eapply ens_map; [tv|shut]).

(** ** Leaves *)
Lemma ens_sound {A} (p : parser A) (R : A -> str -> Prop) (Q : A -> Prop) : sound p R -> (forall a t, R a t -> Q a) -> ens p Q.
Proof. intros S H i r a E. destruct (S _ _ _ E) as (t & _ & Ht). exact (H _ _ Ht). Qed.
Lemma prefix_wf p t : R_pname_ns p t -> wf_prefix p.
Proof. destruct p as [p|]; [|now intros _]. intros (u & v & _ & [_ H] & _). exact H. Qed.
Lemma iri_wf i t : R_iri i t -> tame_iri i -> wf_iri i.
Proof.
  destruct i as [s|[p l|p]]; cbn; [now intros [_ H] _| |contradiction].
  intros (u & v & -> & H1 & x & y & -> & _ & _ & H2) _. split; [exact (prefix_wf p u H1)|exact H2].
Qed.
Lemma te_iri : ens iri (tame_iri ~~> wf_iri). Proof. exact (ens_sound _ _ _ sd_iri iri_wf). Qed.
Lemma var_wf v t : R_var v t -> wf_var v.
Proof. destruct v as [s|s]; cbn; intros (u & x & -> & _ & y & z & -> & _ & _ & H); exact H. Qed.
Lemma te_var : ens var wf_var. Proof. exact (ens_sound _ _ _ sd_var var_wf). Qed.
Lemma voi_wf v t : R_var_or_iri v t -> tame_voi v -> wf_voi v.
Proof. destruct v as [v|i]; cbn; [intros H _; exact (var_wf v t H)|apply iri_wf]. Qed.
Lemma te_var_or_iri : ens var_or_iri (tame_voi ~~> wf_voi). Proof. exact (ens_sound _ _ _ sd_var_or_iri voi_wf). Qed.
Lemma string_wf s t : R_string s t -> wf_string s.
Proof. intros (q & [-> | ->] & _ & H & N); split; auto. Qed.
Lemma te_string : ens string_literal wf_string. Proof. exact (ens_sound _ _ _ sd_string_literal string_wf). Qed.
Lemma lit_wf l t : R_rdf_literal l t -> tame_lit l -> wf_lit l.
Proof.
  destruct l as [s d]. intros (u & v & -> & H1 & H2). split; [exact (string_wf s u H1)|]. destruct d as [[g|i]|]; [|revert H; cbn|exact I].
  - now destruct H2.
  - destruct H2 as (x & y & -> & _ & H2). exact (iri_wf i y H2).
Qed.
Lemma te_rdf_literal : ens rdf_literal (tame_lit ~~> wf_lit). Proof. exact (ens_sound _ _ _ sd_rdf_literal lit_wf). Qed.
Lemma num_wf n t : R_numeric n t -> wf_num n.
Proof. intros H. apply number_safe in H. destruct n as [z|[s m e|s] x]; exact H. Qed.
Lemma te_numeric : ens numeric_literal wf_num. Proof. exact (ens_sound _ _ _ sd_numeric_literal num_wf). Qed.
Lemma bnode_wf b t : R_blank_node b t -> wf_bnode b.
Proof. destruct b as [|s]; cbn; [now intros _|]. intros (u & x & -> & _ & y & z & -> & _ & _ & H). exact H. Qed.
Lemma term_wf g t : R_graph_term g t -> tame_term g -> wf_term g.
Proof.
  destruct g as [i|l|n|b|b|]; cbn; [apply iri_wf|apply lit_wf|intros H _; exact (num_wf n t H)|auto|intros H _; exact (bnode_wf b t H)|auto].
Qed.
Lemma vot_wf v t : R_var_or_term v t -> tame_vot v -> wf_vot v.
Proof. destruct v as [v|g]; cbn; [intros H _; exact (var_wf v t H)|apply term_wf]. Qed.
Lemma te_var_or_term : ens var_or_term (tame_vot ~~> wf_vot). Proof. exact (ens_sound _ _ _ sd_var_or_term vot_wf). Qed.
#[export] Hint Resolve te_iri te_var te_var_or_iri te_string te_rdf_literal te_numeric te_var_or_term : tame.
Lemma te_value : ens datablock_value (tame_value ~~> wf_value). Proof. ta datablock_value. Qed.
#[export] Hint Resolve te_value : tame.
Lemma te_values : ens (many0 (sp_enc datablock_value)) (Forall tame_value ~~> wf_values).
Proof.
  intros i r l E. apply many0_iff in E; [|eapply gd_shrinks; intros k; sg]. exact (values_wf i r l E te_value).
Qed.
#[export] Hint Resolve te_values : tame.
Lemma te_one_var : ens inline_data_one_var ((fun d => tame_block (DbOneVar d)) ~~> (fun d => wf_block (DbOneVar d))).
Proof.
  unfold inline_data_one_var. eapply ens_map.
  - eapply ens_pair; [exact te_var|]. unfold delimited at 1. eapply ens_preceded, ens_terminated. exact te_values.
  - shut.
Qed.
Lemma te_full : ens inline_data_full ((fun d => tame_block (DbFull d)) ~~> (fun d => wf_block (DbFull d))).
Proof.
  unfold inline_data_full. eapply ens_map.
  - eapply ens_pair; [tv|]. unfold delimited at 1. eapply ens_preceded, ens_terminated, ens_many0. unfold sp_enc at 1, bracketted, delimited at 1.
    eapply ens_preceded, ens_terminated. unfold delimited. eapply ens_preceded, ens_terminated, ens_preceded. exact te_values.
  - shut.
Qed.
#[export] Hint Resolve te_one_var te_full : tame.
Lemma te_datablock : ens datablock (tame_block ~~> wf_block). Proof. ta datablock. Qed.
#[export] Hint Resolve te_datablock : tame.

(** ** Triples *)
Lemma te_graph_node : ens graph_node (tame_node ~~> wf_node).
Proof.
  intros i r g E. destruct (graph_node_term _ _ _ E) as [v ->]. destruct (sd_graph_node _ _ _ E) as (t & _ & H).
  cbn in H |- *. exact (vot_wf v t H).
Qed.
#[export] Hint Resolve te_graph_node : tame.
Lemma te_object_list : ens object_list (tame_objects ~~> wf_objects). Proof. unfold object_list. tm object_list_of. Qed.
#[export] Hint Resolve te_object_list : tame.
Definition wf_verb (v : Verb) : Prop := match v with VerbVarOrIri v => wf_voi v | VerbA => True end.
Lemma te_verb : ens verb (tame_verb ~~> wf_verb). Proof. ta verb. Qed.
#[export] Hint Resolve te_verb : tame.
Lemma te_verb_list : ens (map (separated_pair verb sp object_list) (fun '(v, l) => MkVerbList v l)) (tame_verb_list ~~> wf_verb_list).
Proof.
  intros i r x E. apply map_inv in E. destruct E as ([v o] & E & <-). unfold separated_pair in E. apply pair_inv in E. destruct E as (i1 & E1 & E).
  apply preceded_inv in E. destruct E as (i2 & b & E2 & E3). apply sp_iff in E2. destruct E2 as (-> & Hb & S).
  intros [T1 T2]. pose proof (te_object_list _ _ _ E3 T2) as W. split; [exact W|]. destruct v as [v|]; [exact (te_verb _ _ _ E1 T1)|].
  apply after_verb_a in E1. destruct (sd_object_list _ _ _ E3) as (t & -> & Ht). eapply like_colon; [exact (objects_like _ _ _ Ht T2 W S)|].
  apply no_colon in E1; [|assumption]. exact E1.
Qed.
#[export] Hint Resolve te_verb_list : tame.
Lemma te_property_list_not_empty : ens property_list_not_empty (tame_props ~~> wf_props).
Proof.
  unfold property_list_not_empty, property_list_not_empty_of. fold object_list. eapply ens_map; [eapply ens_terminated, ens_sepne; exact te_verb_list|shut].
Qed.
#[export] Hint Resolve te_property_list_not_empty : tame.
Lemma te_collection : ens (collection_of graph_node) ((fun c => tame_triples_node (TnCollection c)) ~~> (fun c => wf_triples_node (TnCollection c))).
Proof.
  unfold collection_of. eapply ens_map; [|intros l H; exact H]. unfold bracketted, delimited. eapply ens_preceded, ens_terminated.
  intros i r l E T. apply many1_iff in E; [|eapply gd_shrinks; intros k; sg]. destruct E as (i1 & a & l' & E & M & ->). split; [discriminate|].
  apply (items_step i i1 r a l' E M te_graph_node T). exact (items_wf i1 r l' M te_graph_node (Forall_inv_tail T)).
Qed.
Lemma te_blank_node_property_list : ens (blank_node_property_list_of graph_node) (tame_props ~~> wf_props).
Proof. unfold blank_node_property_list_of. fold property_list_not_empty. tv. Qed.
#[export] Hint Resolve te_collection te_blank_node_property_list : tame.
Lemma te_triples_node : ens triples_node (tame_triples_node ~~> wf_triples_node).
Proof. unfold triples_node, triples_node_of. alts; (eapply ens_map; [tv|]); intros a H; exact H. Qed.
#[export] Hint Resolve te_triples_node : tame.
Lemma te_triples_same_subject : ens triples_same_subject (tame_tss ~~> wf_tss).
Proof.
  unfold triples_same_subject, property_list. alts.
  - eapply ens_map; [tv|]. intros [n [p|]]; cbn [fst snd]; [|intros _ T; exact T]. intros [H1 H2] [T1 T2]. split; auto.
  - intros i r x E. apply map_inv in E. destruct E as ([v p] & E & <-). unfold sp_sep1, separated_pair in E. apply pair_inv in E.
    destruct E as (i1 & E1 & E). apply preceded_inv in E. destruct E as (i2 & b & E2 & E3). apply sp1_iff in E2. destruct E2 as (-> & Hb & S).
    intros [T1 T2]. split; [exact (te_var_or_term _ _ _ E1 T1)|]. split; [exact (te_property_list_not_empty _ _ _ E3 T2)|]. intros B.
    pose proof (after_boolean _ _ _ E1 B) as C. destruct (sd_property_list_not_empty _ _ _ E3) as (t & -> & Ht).
    eapply like_colon; [exact (props_like _ _ _ Ht T2 S)|]. apply no_colon in C; [|apply Hb]. exact C.
Qed.
#[export] Hint Resolve te_triples_same_subject : tame.
Lemma te_triples_template : ens triples_template (Forall tame_tss ~~> wf_tmpl). Proof. unfold triples_template. eapply ens_weaken; [tv|]. intros l H T. unfold wf_tmpl. fin. Qed.
#[export] Hint Resolve te_triples_template : tame.
Lemma te_construct_template : ens construct_template ((fun '(MkConstructTemplate l) => Forall tame_tss l) ~~> (fun '(MkConstructTemplate l) => Forall wf_tss l)).
Proof. tm construct_template. Qed.
#[export] Hint Resolve te_construct_template : tame.

(** ** Paths *)
Section Paths.
  Context (pa : parser PathAlternative) (Spa : sound pa R_path) (Hpa : ens pa (tame_path ~~> wf_path)).
  Definition tame_ioa (i : IriOrA) : Prop := match i with IoaIri i => tame_iri i | IoaA => True end.
  Definition wf_ioa (i : IriOrA) : Prop := match i with IoaIri i => wf_iri i | IoaA => True end.
  Lemma te_iri_or_a : ens iri_or_a (tame_ioa ~~> wf_ioa). Proof. ta iri_or_a. Qed.
  Hint Resolve te_iri_or_a : tame.
  Lemma te_in_set : ens path_one_in_property_set (tame_in_set ~~> wf_in_set).
  Proof.
    unfold path_one_in_property_set, iri_or_a_or_caret. eapply ens_map; [|intros a H; exact H].
    alts; (eapply ens_map; [tv|]); intros [i|] H; exact H.
  Qed.
  Hint Resolve te_in_set : tame.
  Lemma te_path_negated : ens path_negated_property_set ((fun s => tame_path_primary tame_path (PpNegated s)) ~~> (fun s => wf_path_primary wf_path (PpNegated s))).
  Proof. tm path_negated_property_set. Qed.
  Hint Resolve te_path_negated : tame.
  Lemma te_path_primary : ens (path_primary_of pa) (tame_path_primary tame_path ~~> wf_path_primary wf_path).
  Proof using Hpa. ta path_primary_of. Qed.
  Hint Resolve te_path_primary : tame.
  Lemma te_path_elt : ens (path_elt_of pa) ((fun '(MkPathElt p _) => tame_path_primary tame_path p) ~~> (fun '(MkPathElt p _) => wf_path_primary wf_path p)).
  Proof using Hpa. tm path_elt_of. Qed.
  Hint Resolve te_path_elt : tame.
  Lemma te_path_elt_or_inverse : ens (path_elt_or_inverse_of pa) (tame_elt_or_inverse tame_path ~~> wf_elt_or_inverse wf_path).
  Proof using Hpa. ta path_elt_or_inverse_of. Qed.
  Hint Resolve te_path_elt_or_inverse : tame.
  Lemma te_path_sequence : ens (path_sequence_of pa)
    ((fun '(MkPathSequence l) => Forall (tame_elt_or_inverse tame_path) l) ~~> (fun '(MkPathSequence l) => l <> [] /\ Forall (wf_elt_or_inverse wf_path) l)).
  Proof using Hpa. tm path_sequence_of. Qed.
  Hint Resolve te_path_sequence : tame.
  Lemma te_path_alternative_body : ens (path_alternative_body pa) (tame_path ~~> wf_path).
  Proof using Spa Hpa.
    intros i r p E T. destruct (path_body_one pa Spa _ _ _ E) as [l ->]. apply tame_path_inv in T. inversion_clear T as [|? ? T1 _].
    unfold path_alternative_body in E. apply map_inv in E. destruct E as (l' & E & X). injection X as ->.
    pose proof (ens_sepne (delimited sp (tag (s_ "|")) sp) _ _ te_path_sequence _ _ _ E) as [_ [K _]].
    apply (wf_path_intro wf_path); [auto|]. exact (K T1).
  Qed.
End Paths.
Lemma te_path_alternative : ens path_alternative (tame_path ~~> wf_path).
Proof.
  intros i. unfold path_alternative, fixp.
  assert (K : forall n, sound (iter n path_alternative_body) R_path /\ ens (iter n path_alternative_body) (tame_path ~~> wf_path)).
  { apply (ens_iter path_alternative_body (fun p => sound p R_path /\ ens p (tame_path ~~> wf_path))); [split; discriminate|].
    intros p [Sp Hp]. split; [now apply sd_path_alternative_body|now apply te_path_alternative_body]. }
  exact (proj2 (K _) i).
Qed.
#[export] Hint Resolve te_path_alternative : tame.
Definition wf_verb_only (v : VerbPathOrSimple) : Prop := match v with VpsPath p => wf_path p | VpsSimple v => wf_var v end.
Lemma te_verb_path_or_simple : ens verb_path_or_simple (tame_verb_path ~~> wf_verb_only). Proof. ta verb_path_or_simple. Qed.
#[export] Hint Resolve te_verb_path_or_simple : tame.
Lemma verb_path_wf i i1 i2 b v t r o : verb_path_or_simple i = Ok i1 v -> sp1 i1 = Ok i2 b -> tame_verb_path v -> i2 = t ++ r -> like t o ->
  wf_verb_path v o.
Proof.
  intros E S T -> L. pose proof (te_verb_path_or_simple _ _ _ E T) as W. pose proof (verb_end _ _ _ _ _ E S) as V. destruct v as [p|v]; [|exact W].
  destruct V as [V1 V2]. split; [exact W|]. split; intros H.
  - exact (like_plain t r o L (V1 H)).
  - exact (like_colon t r o L (V2 H)).
Qed.
Lemma te_entry : ens property_list_path_entry (tame_entry ~~> wf_entry).
Proof.
  intros i r x E. apply map_inv in E. destruct E as ([v o] & E & <-). unfold separated_pair in E. apply pair_inv in E. destruct E as (i1 & E1 & E).
  apply preceded_inv in E. destruct E as (i2 & b & E2 & E3). intros [T1 T2]. pose proof (te_object_list _ _ _ E3 T2) as W.
  destruct (sd_object_list _ _ _ E3) as (t & -> & Ht). split; [|exact W]. apply (verb_path_wf _ _ _ _ _ t r _ E1 E2 T1 eq_refl).
  apply sp1_iff in E2. exact (objects_like _ _ _ Ht T2 W (proj2 (proj2 E2))).
Qed.
Lemma te_graph_node_path : ens graph_node_path (tame_node_path ~~> wf_node_path).
Proof.
  intros i r g E. destruct (graph_node_path_term _ _ _ E) as [v ->]. destruct (sd_graph_node_path _ _ _ E) as (t & _ & H).
  cbn in H |- *. exact (vot_wf v t H).
Qed.
#[export] Hint Resolve te_entry te_graph_node_path : tame.
Lemma te_object_list_path : ens (object_list_path_of graph_node_path)
  ((fun '(MkObjectListPath l) => Forall tame_node_path l) ~~> (fun '(MkObjectListPath l) => l <> [] /\ Forall wf_node_path l)).
Proof. tm object_list_path_of. Qed.
#[export] Hint Resolve te_object_list_path : tame.
Lemma te_property_list_path : ens property_list_path_not_empty (tame_props_path ~~> wf_props_path).
Proof.
  intros i r x E. unfold property_list_path_not_empty, property_list_path_not_empty_of in E. apply map_inv in E. destruct E as ([v [o es]] & E & <-).
  unfold tuple3 in E. apply pair_inv in E. destruct E as (i2 & E1 & E). apply terminated_inv in E1. destruct E1 as (i1 & b & E1 & E2).
  apply pair_inv in E. destruct E as (i3 & E3 & E4). intros (T1 & T2 & T3). pose proof (te_object_list_path _ _ _ E3) as W. destruct o as [l]. specialize (W T2).
  destruct (sd_object_list_path _ _ _ E3) as (t & -> & Ht). split; [|split; [exact W|]].
  - apply (verb_path_wf _ _ _ _ _ t i3 _ E1 E2 T1 eq_refl).
    apply sp1_iff in E2. exact (objects_path_like _ _ _ Ht T2 W (proj2 (proj2 E2))).
  - assert (K : ens (many0 (preceded (many1 (sp_enc (chr (c_ ";")))) property_list_path_entry)) (each (tame_entry ~~> wf_entry))) by tv.
    exact (each_forall _ _ _ (K _ _ _ E4) T3).
Qed.
#[export] Hint Resolve te_property_list_path : tame.
Lemma te_triples_same_subject_path : ens triples_same_subject_path (tame_tssp ~~> wf_tssp).
Proof.
  intros i r t E T. destruct (tssp_term _ _ _ E) as (v & p & ->). unfold triples_same_subject_path in E. apply alt_inv in E.
  destruct E as (q & [<-|[<-|[]]] & E); apply map_inv in E; destruct E as ([v' p'] & E & D); [injection D as -> ->|discriminate].
  unfold sp_sep1, separated_pair in E. apply pair_inv in E.
  destruct E as (i1 & E1 & E). apply preceded_inv in E. destruct E as (i2 & b & E2 & E3). apply sp1_iff in E2. destruct E2 as (-> & Hb & S).
  destruct T as [T1 T2]. split; [exact (te_var_or_term _ _ _ E1 T1)|]. split; [exact (te_property_list_path _ _ _ E3 T2)|]. intros B.
  pose proof (after_boolean _ _ _ E1 B) as C. destruct (sd_property_list_path_not_empty _ _ _ E3) as (t & -> & Ht).
  eapply like_colon; [exact (props_path_like _ _ _ Ht T2 S)|]. apply no_colon in C; [|apply Hb]. exact C.
Qed.
#[export] Hint Resolve te_triples_same_subject_path : tame.
Lemma te_triples_block : ens triples_block (tame_triples ~~> wf_triples). Proof. tm triples_block. Qed.
#[export] Hint Resolve te_triples_block : tame.
