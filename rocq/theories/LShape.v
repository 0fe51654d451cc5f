(** What no tree has: triples, paths, expressions and patterns. *)
From Verif Require Export SpecShape.
From Verif Require Import LMono LC8 LMods LSign.
From Verif Require Import Nom.
Notation length := List.length (only parsing).
Open Scope N_scope.
Open Scope list_scope.

(** [ens p Q]: whatever [p] returns satisfies [Q]. *)
Definition ens {A} (p : parser A) (Q : A -> Prop) : Prop := forall i r a, p i = Ok r a -> Q a.
Lemma ens_true {A} (p : parser A) : ens p (fun _ => True). Proof. now intros i r a _. Qed.
Lemma ens_weaken {A} (p : parser A) (P Q : A -> Prop) : ens p P -> (forall a, P a -> Q a) -> ens p Q.
Proof. intros H W i r a E. apply W. exact (H _ _ _ E). Qed.
Lemma ens_map {A B} (p : parser A) (f : A -> B) (P : A -> Prop) (Q : B -> Prop) : ens p P -> (forall a, P a -> Q (f a)) -> ens (map p f) Q.
Proof. intros H W i r b E. apply map_inv in E. destruct E as (a & E & <-). apply W. exact (H _ _ _ E). Qed.
Lemma ens_pair {A B} (p : parser A) (q : parser B) P Q : ens p P -> ens q Q -> ens (pair p q) (fun ab => P (fst ab) /\ Q (snd ab)).
Proof. intros HP HQ i r [a b] E. apply pair_inv in E. destruct E as (i1 & E1 & E2). split; [exact (HP _ _ _ E1)|exact (HQ _ _ _ E2)]. Qed.
Lemma ens_preceded {A B} (p : parser A) (q : parser B) Q : ens q Q -> ens (preceded p q) Q.
Proof. intros HQ i r b E. apply preceded_inv in E. destruct E as (i1 & a & _ & E). exact (HQ _ _ _ E). Qed.
Lemma ens_terminated {A B} (p : parser A) (q : parser B) P : ens p P -> ens (terminated p q) P.
Proof. intros HP i r b E. apply terminated_inv in E. destruct E as (i1 & a & E & _). exact (HP _ _ _ E). Qed.
Lemma ens_opt {A} (p : parser A) P : ens p P -> ens (opt p) (if_ P).
Proof.
  intros HP i r o E. unfold opt in E. destruct (p i) as [i1 a|[]] eqn:Ep; try discriminate; injection E as <- <-; [exact (HP _ _ _ Ep)|exact I].
Qed.
Lemma ens_alt_nil {A} (Q : A -> Prop) : ens (alt []) Q. Proof. discriminate. Qed.
Lemma ens_alt_cons {A} (p : parser A) ps Q : ens p Q -> ens (alt ps) Q -> ens (alt (p :: ps)) Q.
Proof.
  intros Hp Hps i r a E. destruct ps as [|q ps]; [exact (Hp _ _ _ E)|]. rewrite alt_cons in E by discriminate.
  destruct (p i) as [i1 a1|[]] eqn:Ep; try discriminate; [injection E as -> ->; exact (Hp _ _ _ Ep)|]. exact (Hps _ _ _ E).
Qed.
Lemma many0_loop_ens {A} (p : parser A) P : ens p P -> forall n, ens (many0_loop n p) (each P).
Proof.
  intros HP. induction n as [|n IH]; intros i r l E; [discriminate|]. cbn [many0_loop] in E. destruct (p i) as [i1 a|e] eqn:Ep.
  - destruct (str_eqb i1 i); [discriminate|]. destruct (many0_loop n p i1) as [r' l'|] eqn:L; [|discriminate]. injection E as -> <-.
    split; [exact (HP _ _ _ Ep)|exact (IH _ _ _ L)].
  - destruct e; try discriminate. injection E as <- <-. exact I.
Qed.
Lemma ens_many0 {A} (p : parser A) P : ens p P -> ens (many0 p) (each P).
Proof. intros HP i r l E. exact (many0_loop_ens p P HP _ _ _ _ E). Qed.
Lemma many1_loop_ens {A} (p : parser A) P : ens p P -> forall n, ens (many1_loop n p) (each P).
Proof.
  intros HP. induction n as [|n IH]; intros i r l E; [discriminate|]. cbn [many1_loop] in E. destruct (p i) as [i1 a|e] eqn:Ep.
  - destruct (str_eqb i1 i); [discriminate|]. destruct (many1_loop n p i1) as [r' l'|] eqn:L; [|discriminate]. injection E as -> <-.
    split; [exact (HP _ _ _ Ep)|exact (IH _ _ _ L)].
  - destruct e; try discriminate. injection E as <- <-. exact I.
Qed.
Lemma ens_many1 {A} (p : parser A) P : ens p P -> ens (many1 p) (some_ P).
Proof.
  intros HP i r l E. unfold many1 in E. destruct (p i) as [i1 a|e] eqn:Ep; [|destruct e; discriminate].
  destruct (many1_loop _ _ _) as [r' l'|] eqn:L; [|discriminate]. injection E as -> <-.
  split; [discriminate|]. split; [exact (HP _ _ _ Ep)|exact (many1_loop_ens _ _ HP _ _ _ _ L)].
Qed.
Lemma sep_loop_ens {A B} (s : parser B) (p : parser A) P : ens p P -> forall n, ens (sep_loop n s p) (each P).
Proof.
  intros HP. induction n as [|n IH]; intros i r l E; [discriminate|]. cbn [sep_loop] in E. destruct (s i) as [i1 b|e] eqn:Es.
  - destruct (str_eqb i1 i); [discriminate|]. destruct (p i1) as [i2 a|e] eqn:Ep.
    + destruct (str_eqb i2 i); [discriminate|]. destruct (sep_loop n s p i2) as [r' l'|] eqn:L; [|discriminate]. injection E as -> <-.
      split; [exact (HP _ _ _ Ep)|exact (IH _ _ _ L)].
    + destruct e; try discriminate. injection E as <- <-. exact I.
  - destruct e; try discriminate. injection E as <- <-. exact I.
Qed.
Lemma ens_sepl {A B} (s : parser B) (p : parser A) P : ens p P -> ens (separated_list s p) (each P).
Proof.
  intros HP i r l E. unfold separated_list in E. destruct (p i) as [i1 a|e] eqn:Ep.
  - destruct (str_eqb i1 i); [discriminate|]. destruct (sep_loop _ _ _ _) as [r' l'|] eqn:L; [|discriminate]. injection E as -> <-.
    split; [exact (HP _ _ _ Ep)|exact (sep_loop_ens _ _ _ HP _ _ _ _ L)].
  - destruct e; try discriminate. injection E as <- <-. exact I.
Qed.
Lemma ens_sepne {A B} (s : parser B) (p : parser A) P : ens p P -> ens (separated_nonempty_list s p) (some_ P).
Proof.
  intros HP i r l E. unfold separated_nonempty_list in E. destruct (p i) as [i1 a|e] eqn:Ep; [|destruct e; discriminate].
  destruct (str_eqb i1 i); [discriminate|]. destruct (sep_loop _ _ _ _) as [r' l'|] eqn:L; [|discriminate]. injection E as -> <-.
  split; [discriminate|]. split; [exact (HP _ _ _ Ep)|exact (sep_loop_ens _ _ _ HP _ _ _ _ L)].
Qed.
Lemma ens_iter {A} (body : parser A -> parser A) (I : parser A -> Prop) : I (fun _ => Err OutOfFuel) -> (forall p, I p -> I (body p)) ->
  forall n, I (iter n body).
Proof. intros H0 H n. induction n as [|n IH]; [exact H0|]. exact (H _ IH). Qed.
Lemma each_in {A} (P : A -> Prop) l a : each P l -> In a l -> P a.
Proof. induction l as [|b l IH]; [intros _ []|]. intros [H1 H2] [<-|I]; [exact H1|exact (IH H2 I)]. Qed.
Lemma each_mono {A} (P Q : A -> Prop) l : (forall a, P a -> Q a) -> each P l -> each Q l.
Proof. intros W. induction l as [|b l IH]; [auto|]. intros [H1 H2]. split; auto. Qed.

Ltac ev := lazymatch goal with
  | |- ens (map _ _) ?Q => eapply ens_map; [ev|]
  | |- ens (pair _ _) _ => eapply ens_pair; ev
  | |- ens (tuple3 _ _ _) _ => unfold tuple3; ev
  | |- ens (tuple4 _ _ _ _) _ => unfold tuple4; ev
  | |- ens (tuple5 _ _ _ _ _) _ => unfold tuple5; ev
  | |- ens (preceded _ _) _ => eapply ens_preceded; ev
  | |- ens (terminated _ _) _ => eapply ens_terminated; ev
  | |- ens (delimited _ _ _) _ => unfold delimited; ev
  | |- ens (separated_pair _ _ _) _ => unfold separated_pair; ev
  | |- ens (sp_sep _ _) _ => unfold sp_sep; ev
  | |- ens (sp_sep1 _ _) _ => unfold sp_sep1; ev
  | |- ens (sp_enc _) _ => unfold sp_enc; ev
  | |- ens (sp_enc1 _) _ => unfold sp_enc1; ev
  | |- ens (bracketted _) _ => unfold bracketted; ev
  | |- ens (preceded_tag _ _) _ => unfold preceded_tag; ev
  | |- ens (preceded_tag1 _ _) _ => unfold preceded_tag1; ev
  | |- ens (preceded_bracketted _ _) _ => unfold preceded_bracketted; ev
  | |- ens (opt _) _ => eapply ens_opt; ev
  | |- ens (many0 _) _ => eapply ens_many0; ev
  | |- ens (many1 _) _ => eapply ens_many1; ev
  | |- ens (separated_list _ _) _ => eapply ens_sepl; ev
  | |- ens (separated_nonempty_list _ _) _ => eapply ens_sepne; ev
  | |- _ => first [eassumption | solve [eauto 2 with shape nocore] | eapply ens_true]
  end.
Ltac alts := lazymatch goal with
  | |- ens (alt []) _ => apply ens_alt_nil
  | |- ens (alt (_ :: _)) _ => apply ens_alt_cons; [|alts]
  end.
Ltac break := repeat match goal with
  | H : _ /\ _ |- _ => destruct H
  | H : (_ * _)%type |- _ => destruct H
  end.
Ltac close := let a := fresh "a" in let H := fresh "H" in intros a H; repeat (progress (cbn [fst snd] in *; break));
  try assumption; repeat match goal with |- context [match ?x with _ => _ end] => is_var x; destruct x end;
  cbn in *; break; repeat match goal with |- _ /\ _ => split end; try assumption; try exact I; try match goal with H : some_ _ _ |- _ <> [] => exact (proj1 H) end.
(** a parser that is one of several, or one that is mapped *)
Ltac em p := unfold p; eapply ens_map; [ev|close].
Ltac ew p := unfold p; eapply ens_weaken; [ev|close].
Ltac ea p := unfold p; alts; (eapply ens_map; [ev|close]).
Create HintDb shape.

(** ** Triples *)
Lemma en_graph_node : ens graph_node shape_node.
Proof. intros i r g E. apply graph_node_term in E. destruct E as [v ->]. exact I. Qed.
#[export] Hint Resolve en_graph_node : shape.
Lemma en_object_list : ens object_list shape_objects. Proof. unfold object_list. em object_list_of. Qed.
#[export] Hint Resolve en_object_list : shape.
Lemma en_property_list_not_empty : ens property_list_not_empty shape_plist.
Proof.
  unfold property_list_not_empty, property_list_not_empty_of. eapply ens_map; [|intros a H; exact H].
  eapply ens_terminated, ens_sepne, ens_map; [ev|close].
Qed.
#[export] Hint Resolve en_property_list_not_empty : shape.
Lemma en_collection : ens (collection_of graph_node) (fun c => shape_tnode (TnCollection c)). Proof. em collection_of. Qed.
Lemma en_blank_node_property_list : ens (blank_node_property_list_of graph_node) shape_plist.
Proof. unfold blank_node_property_list_of. fold property_list_not_empty. ev. Qed.
#[export] Hint Resolve en_collection en_blank_node_property_list : shape.
Lemma en_triples_node : ens triples_node shape_tnode. Proof. unfold triples_node. ea triples_node_of. Qed.
#[export] Hint Resolve en_triples_node : shape.
Lemma en_property_list : ens property_list (if_ shape_plist). Proof. unfold property_list. ev. Qed.
#[export] Hint Resolve en_property_list : shape.
Lemma en_triples_same_subject : ens triples_same_subject shape_tss. Proof. ea triples_same_subject. Qed.
#[export] Hint Resolve en_triples_same_subject : shape.
Lemma en_triples_template : ens triples_template shape_template. Proof. ew triples_template. Qed.
#[export] Hint Resolve en_triples_template : shape.
Lemma en_construct_template : ens construct_template (fun '(MkConstructTemplate l) => each shape_tss l). Proof. em construct_template. Qed.
#[export] Hint Resolve en_construct_template : shape.

(** ** Paths *)
Section Paths.
  Context (pa : parser PathAlternative) (Spa : sound pa R_path) (Hpa : ens pa shape_path).
  Lemma en_path_negated_property_set : ens path_negated_property_set (fun s => shape_path_primary (PpNegated s)).
  Proof. em path_negated_property_set. Qed.
  Hint Resolve en_path_negated_property_set : shape.
  Lemma en_path_primary_of : ens (path_primary_of pa) shape_path_primary. Proof using Hpa. ea path_primary_of. Qed.
  Hint Resolve en_path_primary_of : shape.
  Lemma en_path_elt_of : ens (path_elt_of pa) shape_elt. Proof using Hpa. em path_elt_of. Qed.
  Hint Resolve en_path_elt_of : shape.
  Lemma en_path_elt_or_inverse_of : ens (path_elt_or_inverse_of pa) shape_elt_or_inverse. Proof using Hpa. ea path_elt_or_inverse_of. Qed.
  Hint Resolve en_path_elt_or_inverse_of : shape.
  Lemma en_path_sequence_of : ens (path_sequence_of pa) (fun '(MkPathSequence l) => some_ shape_elt_or_inverse l).
  Proof using Hpa. em path_sequence_of. Qed.
  Hint Resolve en_path_sequence_of : shape.
  Lemma path_body_one i r p : path_alternative_body pa i = Ok r p -> exists l, p = MkPathAlternative [MkPathSequence l].
  Proof using Spa.
    unfold path_alternative_body. intros H. apply map_inv in H. destruct H as (l & H & <-).
    apply sepne_iff in H; [|eapply gd_shrinks; intros k; sg|eapply sound_shrinks, sd_path_sequence_of, Spa].
    destruct H as (i1 & a & l' & H & N & S & ->). unfold path_sequence_of in H. apply map_inv in H. destruct H as (els & H & <-).
    apply sepne_iff in H; [|eapply gd_shrinks; intros k; sg|eapply sound_shrinks, sd_path_elt_or_inverse_of, Spa].
    destruct H as (i2 & b & l2 & H & N2 & S2 & ->). apply sep_ok_last in S2.
    destruct (sep_end _ _ _ _ _ _ S2 (fun i F => map_fails _ MkPathSequence _ (sepne_fails (delimited sp (tag (s_ "|")) sp) _ _ F)) S) as [-> ->].
    eauto.
  Qed.
  Lemma en_path_alternative_body : ens (path_alternative_body pa) shape_path.
  Proof using Spa Hpa.
    intros i r p E. destruct (path_body_one _ _ _ E) as [l ->]. unfold path_alternative_body in E. apply map_inv in E.
    destruct E as (l' & E & X). injection X as ->.
    assert (K : ens (separated_nonempty_list (delimited sp (tag (s_ "|")) sp) (path_sequence_of pa))
      (some_ (fun '(MkPathSequence l) => some_ shape_elt_or_inverse l))) by ev.
    apply K in E. destruct E as [_ [E _]]. exact E.
  Qed.
End Paths.
Lemma en_path_alternative : ens path_alternative shape_path.
Proof.
  intros i. unfold path_alternative, fixp. revert i.
  refine (fun i => _ i). clear i. intros i.
  assert (K : forall n, sound (iter n path_alternative_body) R_path /\ ens (iter n path_alternative_body) shape_path).
  { apply (ens_iter path_alternative_body (fun p => sound p R_path /\ ens p shape_path)); [split; discriminate|].
    intros p [Sp Hp]. split; [now apply sd_path_alternative_body|now apply en_path_alternative_body]. }
  exact (proj2 (K _) i).
Qed.
#[export] Hint Resolve en_path_alternative : shape.
Lemma en_verb_path_or_simple : ens verb_path_or_simple shape_verb_path. Proof. ea verb_path_or_simple. Qed.
#[export] Hint Resolve en_verb_path_or_simple : shape.
Lemma en_property_list_path_entry : ens property_list_path_entry shape_plpe. Proof. em property_list_path_entry. Qed.
Lemma en_graph_node_path : ens graph_node_path shape_node_path.
Proof. intros i r g E. apply graph_node_path_term in E. destruct E as [v ->]. exact I. Qed.
#[export] Hint Resolve en_property_list_path_entry en_graph_node_path : shape.
Lemma en_object_list_path : ens (object_list_path_of graph_node_path) shape_objects_path. Proof. em object_list_path_of. Qed.
#[export] Hint Resolve en_object_list_path : shape.
Lemma en_property_list_path_not_empty : ens property_list_path_not_empty shape_plist_path.
Proof. unfold property_list_path_not_empty. em property_list_path_not_empty_of. Qed.
#[export] Hint Resolve en_property_list_path_not_empty : shape.
Lemma en_triples_same_subject_path : ens triples_same_subject_path shape_tssp.
Proof.
  intros i r t E. destruct (tssp_term _ _ _ E) as (v & p & ->).
  assert (K : ens triples_same_subject_path (fun t => match t with TsspTerm _ p => shape_plist_path p | TsspNode _ _ => True end)) by ea triples_same_subject_path.
  exact (K _ _ _ E).
Qed.
#[export] Hint Resolve en_triples_same_subject_path : shape.
Lemma en_triples_block : ens triples_block shape_block. Proof. em triples_block. Qed.
#[export] Hint Resolve en_triples_block : shape.

(** ** Expressions and patterns *)
Section Core.
  Context {E G : Type} (e : parser E) (g : parser G) (RE : E -> str -> Prop) (RG : G -> str -> Prop) (HE : E -> Prop) (HG : G -> Prop).
  Context (Se : sound e RE) (Sg : sound g RG) (He : ens e HE) (Hg : ens g HG).
  Lemma en_arg_list : ens (arg_list_of e) shape_args.
  Proof. intros i r a H. now rewrite (arg_list_nil _ _ _ _ H). Qed.
  Lemma en_expression_list : ens (expression_list_of e) shape_expression_list.
  Proof. intros i r a H. now rewrite (expression_list_nil _ _ _ _ H). Qed.
  Lemma en_bracketted_expression : ens (bracketted_expression_of e) HE.
  Proof using He. unfold bracketted_expression_of. ev. Qed.
  Lemma en_expr3 : ens (bracketted_expr3_of e) (fun '(a, (b, c)) => shape_expr3 HE (MkRegex a b c)).
  Proof using He. ew @bracketted_expr3_of. Qed.
  Lemma en_as_var_opt : ens (expression_as_var_opt_of e) (shape_as_var_opt HE).
  Proof using He. unfold expression_as_var_opt_of, delimited, sp_enc, delimited. eapply ens_preceded, ens_terminated, ens_preceded, ens_terminated, ens_map; [ev|close]. Qed.
  Lemma en_as_var : ens (expression_as_var_of e) (shape_as_var HE).
  Proof using He. unfold expression_as_var_of, delimited, sp_enc, delimited. eapply ens_preceded, ens_terminated, ens_preceded, ens_terminated, ens_map; [ev|close]. Qed.
  Hint Resolve en_arg_list en_expression_list en_bracketted_expression en_expr3 en_as_var_opt en_as_var : shape.
  Lemma en_distinct : ens (distinct_expression_of e) (shape_distinct HE). Proof using He. em @distinct_expression_of. Qed.
  Lemma en_bind : ens (bind_of e) (shape_as_var HE). Proof using He. ew @bind_of. Qed.
  Lemma en_function_call : ens (function_call_of e) shape_function_call. Proof. em @function_call_of. Qed.
  Lemma en_iri_or_fun : ens (iri_or_fun_of e) shape_iri_or_fun. Proof. em @iri_or_fun_of. Qed.
  Lemma en_regex : ens (regex_expression_of e) (shape_expr3 HE). Proof using He. em @regex_expression_of. Qed.
  Lemma en_substring : ens (substring_expression_of e) (shape_expr3 HE). Proof using He. em @substring_expression_of. Qed.
  Lemma en_str_replace : ens (str_replace_expression_of e) (shape_str_replace HE). Proof using He. em @str_replace_expression_of. Qed.
  Lemma en_count_target : ens (count_target_of e) (fun t => match t with CtAll => True | CtExpr e => HE e end).
  Proof using He. ea @count_target_of. Qed.
  Hint Resolve en_distinct en_bind en_function_call en_iri_or_fun en_regex en_substring en_str_replace en_count_target : shape.
  Lemma en_count : ens (count_of e) (fun c => shape_aggregate HE (AgCount c)). Proof using He. em @count_of. Qed.
  Lemma en_group_concat : ens (group_concat_of e) (fun c => shape_aggregate HE (AgGroupConcat c)). Proof using He. em @group_concat_of. Qed.
  Hint Resolve en_count en_group_concat : shape.
  Lemma en_aggregate : ens (aggregate_of e) (shape_aggregate HE). Proof using He. ea @aggregate_of. Qed.
  Hint Resolve en_aggregate : shape.
  Lemma en_bnode_arg : ens (alt [ map e Some; map nil_ (fun _ => None) ]) (if_ HE).
  Proof using He. alts; (eapply ens_map; [ev|close]). Qed.
  Lemma en_expr2 : ens (expr2_of e) (fun ab => HE (fst ab) /\ HE (snd ab)). Proof using He. unfold expr2_of. ev. Qed.
  Hint Resolve en_bnode_arg en_expr2 : shape.
  Ltac calls := alts; try (unfold call1, call2, call0; eapply ens_map; [ev|close]).
  Lemma en_built_in_1 : ens (built_in_call_1_of e) (shape_built_in HE HG). Proof using He. unfold built_in_call_1_of. calls. Qed.
  Lemma en_built_in_2 : ens (built_in_call_2_of e) (shape_built_in HE HG). Proof using He. unfold built_in_call_2_of. calls. Qed.
  Lemma en_built_in : ens (built_in_call_of e g) (shape_built_in HE HG).
  Proof using He Hg. unfold built_in_call_of. calls; [apply en_built_in_1|apply en_built_in_2]. Qed.
  Hint Resolve en_built_in : shape.
  Lemma en_primary : ens (primary_expression_of e g) (shape_primary HE HG). Proof using He Hg. ea @primary_expression_of. Qed.
  Hint Resolve en_primary : shape.
  Lemma en_unary : ens (unary_expression_of e g) (shape_unary HE HG).
  Proof using He Hg.
    intros i r u H. pose proof (fun n => unary_unsigned e g i r n) as K. rewrite H in K.
    assert (X : ens (unary_expression_of e g) (fun u => match u with UnNot p | UnAdd p | UnSub p | UnDefault p => shape_primary HE HG p end)) by (ea @unary_expression_of).
    apply X in H. destruct u as [p|p|p|p]; try exact H. split; [exact H|]. destruct p; try exact I. now apply K.
  Qed.
  Hint Resolve en_unary : shape.
  Lemma en_mult : ens (mult_expression_of e g) (shape_mult HE HG). Proof using He Hg. ea @mult_expression_of. Qed.
  Hint Resolve en_mult : shape.
  Lemma en_multiplicative : ens (multiplicative_expression_of e g) (shape_multiplicative HE HG). Proof using He Hg. em @multiplicative_expression_of. Qed.
  Hint Resolve en_multiplicative : shape.
  (** every term after the first has a factor of its own *)
  Lemma factors_follow i r l : preceded sp (separated_list sp (mult_expression_of e g)) i = Ok r l -> l = [] -> solid r.
  Proof.
    intros H ->. apply preceded_inv in H. destruct H as (i1 & b & H1 & H2). apply sp_rest in H1.
    unfold separated_list in H2. destruct (mult_expression_of e g i1) as [i2 a|x]; [|destruct x; congruence].
    destruct (str_eqb i2 i1); [discriminate|]. destruct (sep_loop _ _ _ _); discriminate.
  Qed.
  Lemma term_follow i r a : add_expression_of e g i = Ok r a -> factors a = [] -> solid r.
  Proof.
    intros H. unfold add_expression_of in H. apply alt_inv in H. destruct H as (p & I & H). cbn in I.
    destruct I as [<-|[<-|[<-|[]]]]; apply map_inv in H; destruct H as (x & H & <-).
    - apply preceded_inv in H. destruct H as (i1 & b & _ & H). destruct x as [u l]. cbn [factors]. unfold multiplicative_expression_of in H.
      apply map_inv in H. destruct H as ([u' l'] & H & X). injection X as -> ->. apply pair_inv in H. destruct H as (i2 & _ & H). revert H. apply factors_follow.
    - apply preceded_inv in H. destruct H as (i1 & b & _ & H). destruct x as [u l]. cbn [factors]. unfold multiplicative_expression_of in H.
      apply map_inv in H. destruct H as ([u' l'] & H & X). injection X as -> ->. apply pair_inv in H. destruct H as (i2 & _ & H). revert H. apply factors_follow.
    - destruct x as [n l]. apply pair_inv in H. destruct H as (i1 & _ & H). cbn [factors]. revert H. apply factors_follow.
  Qed.
  Lemma terms_have_factors i r m l a : additive_expression_of e g i = Ok r (MkAdditive m l) -> In a l -> factors a <> [].
  Proof using Se Sg.
    intros H I. unfold additive_expression_of in H. apply map_inv in H. destruct H as ([m' l'] & H & X). injection X as -> ->.
    apply pair_inv in H. destruct H as (i1 & _ & H). apply preceded_inv in H. destruct H as (i2 & b & _ & H).
    apply sepl_sp_after in H; [|exact (sound_shrinks _ _ (sd_add_expression_of e g RE RG Se Sg))].
    destruct H as [H _]. destruct (H a I) as (j & s & J & N). intros F. apply N. exact (term_follow _ _ _ J F).
  Qed.
  Definition operand (a : AddExpression E G) : Prop :=
    match a with
    | AddAdd (MkMultiplicative u l) | AddSub (MkMultiplicative u l) => shape_unary HE HG u /\ each (shape_mult HE HG) l
    | AddNumeric n l => no_sign n /\ each (shape_mult HE HG) l
    end.
  Lemma en_add : ens (add_expression_of e g) operand.
  Proof using He Hg.
    intros i r a H. pose proof (fun n l => add_unsigned e g i r n l) as K. rewrite H in K.
    assert (X : ens (add_expression_of e g) (fun a => match a with AddNumeric n l => each (shape_mult HE HG) l | _ => operand a end)).
    { unfold add_expression_of. alts.
      - eapply ens_map; [ev|]. intros [u l] X. exact X.
      - eapply ens_map; [ev|]. intros [u l] X. exact X.
      - eapply ens_map; [ev|]. intros [n l] [_ X]. exact X. }
    apply X in H. destruct a as [m|m|n l]; try exact H. split; [exact (K _ _ eq_refl)|exact H].
  Qed.
  Hint Resolve en_add : shape.
  Lemma operand_shape a : operand a -> factors a <> [] -> shape_add HE HG a.
  Proof. destruct a as [[u l]|[u l]|n l]; cbn; intros [H1 H2] N; now repeat split. Qed.
  Lemma each_intro {A} (P : A -> Prop) l : (forall a, In a l -> P a) -> each P l.
  Proof. induction l as [|b l IH]; intros H; [exact I|]. split; [apply H; now left|]. apply IH. intros a I. apply H. now right. Qed.
  Lemma en_additive : ens (additive_expression_of e g) (shape_additive HE HG).
  Proof using Se Sg He Hg.
    intros i r [m l] H. pose proof (fun a => terms_have_factors i r m l a H) as F.
    assert (K : ens (additive_expression_of e g) (fun '(MkAdditive m l) => shape_multiplicative HE HG m /\ each operand l)).
    { em @additive_expression_of. }
    apply K in H. destruct H as [H1 H2]. split; [exact H1|]. apply each_intro. intros a I. apply operand_shape; [|exact (F a I)].
    exact (each_in _ _ _ H2 I).
  Qed.
  Hint Resolve en_additive : shape.
  Lemma en_op : ens (op_expression_of e g) (shape_op HE HG). Proof using Se Sg He Hg. ea @op_expression_of. Qed.
  Hint Resolve en_op : shape.
  Lemma en_relational : ens (relational_expression_of e g) (shape_relational HE HG). Proof using Se Sg He Hg. em @relational_expression_of. Qed.
  Hint Resolve en_relational : shape.
  Lemma en_and : ens (conditional_and_expression_of e g) (shape_and HE HG). Proof using Se Sg He Hg. em @conditional_and_expression_of. Qed.
  Lemma en_constraint : ens (constraint_of e g) (shape_constraint HE HG). Proof using He Hg. ea @constraint_of. Qed.
  Hint Resolve en_constraint : shape.
  Lemma en_filter : ens (filter_of e g) (shape_constraint HE HG). Proof using He Hg. unfold filter_of. ev. Qed.
  Hint Resolve en_filter : shape.
  Lemma en_order_expression : ens (order_expression_of e) (fun o => shape_order_condition HE HG (OcOrder o)).
  Proof using He. em @order_expression_of. Qed.
  Hint Resolve en_order_expression : shape.
  Lemma en_order_condition : ens (order_condition_of e g) (shape_order_condition HE HG). Proof using He Hg. ea @order_condition_of. Qed.
  Lemma en_group_condition : ens (group_condition_of e g) (shape_group_condition HE HG). Proof using He Hg. ea @group_condition_of. Qed.
  Hint Resolve en_order_condition en_group_condition : shape.
  Lemma en_group_clause : ens (group_clause_of e g) (shape_group_clause HE HG). Proof using He Hg. em @group_clause_of. Qed.
  Lemma en_order_clause : ens (order_clause_of e g) (shape_order_clause HE HG). Proof using He Hg. em @order_clause_of. Qed.
  Lemma en_having_clause : ens (having_clause_of e g) (shape_having_clause HE HG). Proof using He Hg. em @having_clause_of. Qed.
  Hint Resolve en_group_clause en_order_clause en_having_clause : shape.
  Lemma en_modifier : ens (solution_modifier_of e g) (shape_modifier HE HG). Proof using He Hg. em @solution_modifier_of. Qed.
  Lemma en_where : ens (where_clause_of g) HG. Proof using Hg. unfold where_clause_of. ev. Qed.
  Lemma en_select_var : ens (var_or_expression_as_var_of e) (shape_select_var HE). Proof using He. ea @var_or_expression_as_var_of. Qed.
  Hint Resolve en_modifier en_where en_select_var : shape.
  Lemma en_select_vars : ens (select_vars_of e) (shape_select_vars HE). Proof using He. ea @select_vars_of. Qed.
  Hint Resolve en_select_vars : shape.
  Lemma en_select_clause : ens (select_clause_of e) (shape_select_clause HE). Proof using He. em @select_clause_of. Qed.
  Hint Resolve en_select_clause : shape.
  Lemma en_sub_select : ens (sub_select_of e g) (shape_sub_select HE HG). Proof using He Hg. em @sub_select_of. Qed.
  Lemma en_group_or_union : ens (group_or_union_of g) (fun x => shape_pattern HE HG (GpGroupOrUnion x)). Proof using Hg. em @group_or_union_of. Qed.
  Lemma en_graph_graph : ens (graph_graph_pattern_of g) (fun x => shape_pattern HE HG (GpGraph x)). Proof using Hg. em @graph_graph_pattern_of. Qed.
  Lemma en_service : ens (service_graph_pattern_of g) (fun x => shape_pattern HE HG (GpService x)). Proof using Hg. em @service_graph_pattern_of. Qed.
  Hint Resolve en_group_or_union en_graph_graph en_service : shape.
  Lemma en_pattern : ens (graph_pattern_not_triples_of e g) (shape_pattern HE HG).
  Proof using He Hg. unfold graph_pattern_not_triples_of, optional_of, minus_of. alts; (eapply ens_map; [ev|close]). Qed.
  Hint Resolve en_pattern : shape.
  Lemma en_pattern_and_triples : ens (ggp_and_triples_of e g) (shape_pattern_and_triples HE HG). Proof using He Hg. em @ggp_and_triples_of. Qed.
  Hint Resolve en_pattern_and_triples : shape.
  Lemma en_group_sub : ens (ggp_sub_of e g) (shape_group_sub HE HG). Proof using He Hg. em @ggp_sub_of. Qed.
End Core.

(** ** The knot *)
Lemma en_ggp_body e g : ens e shape_expression -> ens g shape_ggp -> ens (ggp_body e g) shape_ggp.
Proof.
  intros He Hg. unfold ggp_body, sp_enc, delimited. eapply ens_preceded, ens_terminated, ens_preceded, ens_terminated. alts.
  - eapply ens_map; [exact (en_sub_select e g _ _ He Hg)|]. intros a H. apply (shape_ggp_intro shape_expression shape_ggp); auto.
  - eapply ens_map; [exact (en_group_sub e g _ _ He Hg)|]. intros a H. apply (shape_ggp_intro shape_expression shape_ggp); auto.
Qed.
Lemma en_ggp_of e : ens e shape_expression -> ens (ggp_of e) shape_ggp.
Proof.
  intros He i. unfold ggp_of, fixp.
  assert (K : forall n, ens (iter n (ggp_body e)) shape_ggp).
  { apply (ens_iter (ggp_body e) (fun p => ens p shape_ggp)); [discriminate|]. intros p Hp. now apply en_ggp_body. }
  exact (K _ i).
Qed.
Lemma en_expression_body e g : sound e R_expression -> sound g R_ggp -> ens e shape_expression -> ens g shape_ggp ->
  ens (expression_body e g) shape_expression.
Proof.
  intros Se Sg He Hg. unfold expression_body. eapply ens_map; [eapply ens_sepne; exact (en_and e g _ _ _ _ Se Sg He Hg)|].
  intros a H. apply (shape_expression_intro shape_expression shape_ggp); auto.
Qed.
Lemma en_expression : ens expression shape_expression.
Proof.
  intros i. unfold expression, fixp. set (body := fun e => expression_body e (ggp_of e)).
  assert (K : forall n, sound (iter n body) R_expression /\ ens (iter n body) shape_expression).
  { apply (ens_iter body (fun p => sound p R_expression /\ ens p shape_expression)); [split; discriminate|].
    intros p [Sp Hp]. split; [exact (sd_expression_body _ _ Sp (sd_ggp_of _ Sp))|].
    exact (en_expression_body _ _ Sp (sd_ggp_of _ Sp) Hp (en_ggp_of _ Hp)). }
  exact (proj2 (K _) i).
Qed.
Lemma en_ggp : ens group_graph_pattern shape_ggp.
Proof. exact (en_ggp_of _ en_expression). Qed.
