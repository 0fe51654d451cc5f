(** What is written in a text stands in it: [R_x tree text] implies [spread (leaves_x tree) text]. *)
From Verif Require Export SpecLeaves.
Notation length := List.length (only parsing).
Open Scope list_scope.

Lemma spread_app l1 l2 u v : spread l1 u -> spread l2 v -> spread (l1 ++ l2) (u ++ v).
Proof.
  induction 1 as [t|x l a s t Hs H IH]; intros H2.
  - cbn. destruct H2 as [|x l a s v Hs H]; [constructor|]. rewrite app_assoc. now constructor.
  - cbn. rewrite <- !app_assoc. constructor; [exact Hs|]. now apply IH.
Qed.
Definition sub (P : str -> Prop) (l : list leaf) : Prop := forall t, P t -> spread l t.
Lemma sub_nil P : sub P []. Proof. intros t _. constructor. Qed.
Lemma sub_seq P Q l1 l2 : sub P l1 -> sub Q l2 -> sub (P ;; Q) (l1 ++ l2).
Proof. intros H1 H2 t (u & v & -> & A & B). apply spread_app; auto. Qed.
Lemma sub_skip P Q l : sub Q l -> sub (P ;; Q) l.
Proof. intros H t (u & v & -> & A & B). apply (spread_app [] l); [constructor|auto]. Qed.
Lemma sub_end P Q l : sub P l -> sub (P ;; Q) l.
Proof. intros H t (u & v & -> & A & B). rewrite <- (app_nil_r l). apply spread_app; [auto|constructor]. Qed.
Lemma sub_one (P : str -> Prop) x : (forall t, P t -> shows x t) -> sub P [x].
Proof. intros H t A. replace t with ([] ++ t ++ []) by apply app_nil_r. constructor; [auto|constructor]. Qed.
Lemma sub_or (P Q : str -> Prop) l : sub P l -> sub Q l -> sub (P || Q)%lang l.
Proof. intros H1 H2 t [A|A]; auto. Qed.
Lemma sub_and (X : Prop) P l : sub P l -> sub (fun t => X /\ P t) l.
Proof. intros H t [_ A]. auto. Qed.
Lemma sub_opt {A} (R : A -> str -> Prop) f o : (forall a, sub (R a) (f a)) -> sub (opt_ R o) (of_opt f o).
Proof. intros H. destruct o; [apply H|apply sub_nil]. Defined.
(** transparent, so that they may be used in recursive proofs on trees *)
Definition sub_star {A} (R : A -> str -> Prop) f (H : forall a, sub (R a) (f a)) : forall l, sub (star R l) (flat_map f l) :=
  fix F l := match l with [] => sub_nil empty | a :: l' => sub_seq (R a) (star R l') (f a) (flat_map f l') (H a) (F l') end.
Lemma sub_flat1 {A} P f (a : A) : sub P (f a) -> sub P (flat_map f [a]).
Proof. intros H. cbn. now rewrite app_nil_r. Qed.
Lemma sub_sep2 (P S Q : str -> Prop) l1 l2 : sub P l1 -> sub Q l2 -> sub (P ;; S ;; Q) (l1 ++ l2).
Proof. intros H1 H2. apply sub_seq; [exact H1|now apply sub_skip]. Qed.
Definition sub_sepby {A} (R : A -> str -> Prop) f S (H : forall a, sub (R a) (f a)) : forall l, sub (sepby R S l) (flat_map f l) :=
  fix F l := match l with
    | [] => sub_nil empty
    | a :: l' =>
        match l' as l' return (sub (sepby R S l') (flat_map f l') -> sub (sepby R S (a :: l')) (flat_map f (a :: l'))) with
        | [] => fun _ => sub_flat1 (R a) f a (H a)
        | b :: l2 => fun IH => sub_sep2 (R a) S (sepby R S (b :: l2)) (f a) (flat_map f (b :: l2)) (H a) IH
        end (F l')
    end.
Lemma sub_sepby1 {A} (R : A -> str -> Prop) f S l : (forall a, sub (R a) (f a)) -> sub (sepby1 R S l) (flat_map f l).
Proof. intros H. apply sub_and, sub_sepby, H. Qed.
Lemma sub_padded P l : sub P l -> sub (padded P) l.
Proof. intros H. apply sub_skip, sub_end, H. Qed.
Lemma sub_text k s : sub (text (lexical k) s) (name k s).
Proof. apply sub_one. auto. Qed.

(** one step: drop what has no leaves, split what has some *)
Ltac is_mute P := match P with
  | lit _ => idtac | kw _ => idtac | blank => idtac | blank1 => idtac | comma_ => idtac | padded (lit _) => idtac | padded (kw _) => idtac
  | padded1 _ => idtac | may _ => idtac | R_distinct _ => idtac | R_silent _ => idtac | R_order _ => idtac | R_nil => idtac | R_mod _ => idtac
  | semis_path => idtac | opt_ (fun m => blank1 ;; R_select_modifier m) _ => idtac | opt_ (fun m => blank1 ;; R_mod m) _ => idtac end.
Ltac lv tac := cbv beta; match goal with
  | |- sub _ [] => apply sub_nil
  | |- sub (fun t => _ /\ _) _ => apply sub_and; lv tac
  | |- sub (?P ;; _) _ => is_mute P; apply sub_skip; lv tac
  | |- sub (_ ;; _) (_ ++ _) => apply sub_seq; lv tac
  | |- sub (_ ;; _) _ => apply sub_end; lv tac
  | |- sub (_ || _)%lang _ => apply sub_or; lv tac
  | |- sub (opt_ _ _) (of_opt _ _) => apply sub_opt; intros; lv tac
  | |- sub (star _ _) (flat_map _ _) => apply sub_star; intros; lv tac
  | |- sub (sepby _ _ _) (flat_map _ _) => apply sub_sepby; intros; lv tac
  | |- sub (sepby1 _ _ _) (flat_map _ _) => apply sub_sepby1; intros; lv tac
  | |- sub (padded _) _ => apply sub_padded; lv tac
  | |- sub (text _ _) (name ?k ?s) => exact (sub_text k s)
  | _ => first [tac | idtac]
  end.

(** ** Terms *)
Lemma sub_iri_ref s : sub (R_iri_ref s) (name KIri s).
Proof. intros t [-> H]. apply (spread_cons (Name KIri s) [] [60%N] s [62%N]); [now split|constructor]. Qed.
Lemma sub_string s : sub (R_string s) (name KString s).
Proof. intros t (q & Q & -> & H & H'). apply (spread_cons (Name KString s) [] [q] s [q]); [|constructor]. repeat split; [|exact H']. destruct Q; subst q; auto. Qed.
Lemma sub_lang s : sub (R_lang s) (name KLang s).
Proof. intros t [-> H]. rewrite <- (app_nil_r s) at 2. apply (spread_cons (Name KLang s) [] [64%N] s []); [now split|constructor]. Qed.
Lemma sub_pname_ns p : sub (R_pname_ns p) (of_opt (name KPrefix) p).
Proof. unfold R_pname_ns. lv ltac:(fail). Qed.
Lemma sub_prefixed n : sub (R_prefixed_name n) (leaves_prefixed n).
Proof. destruct n; cbn [R_prefixed_name leaves_prefixed]; lv ltac:(apply sub_pname_ns). Qed.
Lemma sub_iri i : sub (R_iri i) (leaves_iri i).
Proof. destruct i; [apply sub_iri_ref|apply sub_prefixed]. Qed.
Lemma sub_var v : sub (R_var v) (leaves_var v).
Proof. destruct v; cbn [R_var leaves_var]; lv ltac:(fail). Qed.
Lemma sub_blank_node b : sub (R_blank_node b) (leaves_blank_node b).
Proof. destruct b; cbn [R_blank_node leaves_blank_node]; lv ltac:(fail). Qed.
Lemma sub_descriptor d : sub (R_descriptor d) (leaves_descriptor d).
Proof. destruct d; cbn [R_descriptor leaves_descriptor]; lv ltac:(apply sub_lang || apply sub_iri). Qed.
Lemma sub_literal l : sub (R_rdf_literal l) (leaves_literal l).
Proof. destruct l; cbn [R_rdf_literal leaves_literal]; lv ltac:(apply sub_string || apply sub_descriptor). Qed.
Lemma sub_number n : sub (R_numeric n) [Number n]. Proof. apply sub_one. auto. Qed.
Lemma sub_truth b : sub (R_boolean b) [Truth b]. Proof. apply sub_one. auto. Qed.
Lemma sub_count z : sub (R_u64 z) [Count_ z]. Proof. apply sub_one. auto. Qed.
Ltac t1 := first [apply sub_iri|apply sub_var|apply sub_literal|apply sub_number|apply sub_truth|apply sub_count|apply sub_blank_node|apply sub_iri_ref|apply sub_string|apply sub_pname_ns].
Lemma sub_term g : sub (R_graph_term g) (leaves_term g).
Proof. destruct g; cbn [R_graph_term leaves_term]; lv t1. Qed.
Lemma sub_vot v : sub (R_var_or_term v) (leaves_vot v). Proof. destruct v; [apply sub_var|apply sub_term]. Qed.
Lemma sub_voi v : sub (R_var_or_iri v) (leaves_voi v). Proof. destruct v; [apply sub_var|apply sub_iri]. Qed.
Lemma sub_verb v : sub (R_verb v) (leaves_verb v). Proof. destruct v; [apply sub_voi|apply sub_nil]. Qed.
Lemma sub_targets v : sub (R_var_or_iris_or_all v) (leaves_targets v).
Proof. destruct v; cbn [R_var_or_iris_or_all leaves_targets]; lv ltac:(apply sub_voi). Qed.
Lemma sub_iri_or_a i : sub (R_iri_or_a i) (leaves_iri_or_a i). Proof. destruct i; [apply sub_iri|apply sub_nil]. Qed.
Lemma sub_caret i : sub (R_iri_or_a_or_caret i) (leaves_caret i).
Proof. destruct i; cbn [R_iri_or_a_or_caret leaves_caret]; lv ltac:(apply sub_iri_or_a). Qed.
Lemma sub_decl d : sub (R_decl d) (leaves_decl d).
Proof. destruct d as [|[]]; cbn [R_decl leaves_decl]; lv t1. Qed.
Lemma sub_prologue p : sub (R_prologue p) (leaves_prologue p).
Proof. destruct p; cbn [R_prologue leaves_prologue]; lv ltac:(apply sub_decl). Qed.
Lemma sub_don d : sub (R_default_or_named d) (leaves_don d).
Proof. destruct d; cbn [R_default_or_named leaves_don]; lv t1. Qed.
Lemma sub_value v : sub (R_value v) (leaves_value v).
Proof. destruct v; cbn [R_value leaves_value]; lv t1. Qed.
Lemma sub_datablock d : sub (R_datablock d) (leaves_datablock d).
Proof. destruct d as [[]|[]]; cbn [R_datablock leaves_datablock]; unfold R_row; lv ltac:(apply sub_var || apply sub_value). Qed.
Lemma sub_values d : sub (R_values d) (leaves_datablock d).
Proof. unfold R_values. lv ltac:(apply sub_datablock). Qed.
Lemma sub_limit_offset l : sub (R_limit_offset l) (leaves_limit_offset l).
Proof. destruct l; cbn [R_limit_offset leaves_limit_offset]; unfold R_limit, R_offset; lv t1. Qed.

(** ** Triples and paths *)
Fixpoint sub_node (g : GraphNode) : sub (R_graph_node g) (leaves_node g)
with sub_tnode (n : TriplesNode) : sub (R_triples_node n) (leaves_tnode n)
with sub_collection (c : Collection) : sub (R_collection c) (leaves_collection c)
with sub_plist (p : PropertyList) : sub (R_property_list p) (leaves_plist p)
with sub_verb_list (v : VerbList) : sub (R_verb_list v) (leaves_verb_list v)
with sub_objects (o : ObjectList) : sub (R_object_list o) (leaves_objects o).
Proof.
  - destruct g as [v|n]; [apply sub_vot|apply sub_tnode].
  - destruct n as [c|p]; [apply sub_collection|].
    change (sub (lit "[" ;; blank ;; R_property_list p ;; blank ;; lit "]") (leaves_plist p)). lv ltac:(apply sub_plist).
  - destruct c as [l]. change (sub (lit "(" ;; (fun t => l <> [] /\ star (fun g => padded (R_graph_node g)) l t) ;; lit ")") (flat_map leaves_node l)).
    lv ltac:(apply sub_node).
  - destruct p as [l]. change (sub ((fun t => l <> [] /\ sepby R_verb_list semis l t) ;; trailing_semis) (flat_map leaves_verb_list l)).
    lv ltac:(apply sub_verb_list).
  - destruct v as [v o]. change (sub (R_verb v ;; blank ;; R_object_list o) (leaves_verb v ++ leaves_objects o)). lv ltac:(apply sub_verb || apply sub_objects).
  - destruct o as [l]. change (sub (fun t => l <> [] /\ sepby R_graph_node (padded (lit ",")) l t) (flat_map leaves_node l)). lv ltac:(apply sub_node).
Qed.
Lemma sub_tss t : sub (R_tss t) (leaves_tss t).
Proof. destruct t; cbn [R_tss leaves_tss]; lv ltac:(first [apply sub_vot|apply sub_plist|apply sub_tnode]). Qed.
Lemma sub_template l : sub (R_template l) (leaves_template l).
Proof. unfold R_template, leaves_template. lv ltac:(apply sub_tss). Qed.
Lemma sub_negated s : sub (R_negated s) (leaves_negated s).
Proof. destruct s; cbn [R_negated leaves_negated]. lv ltac:(idtac). destruct a. apply sub_caret. Qed.
Fixpoint sub_path (p : PathAlternative) : sub (R_path p) (leaves_path p)
with sub_sequence (p : PathSequence) : sub (R_sequence p) (leaves_sequence p)
with sub_elt_or_inverse (p : PathEltOrInverse) : sub (R_elt_or_inverse p) (leaves_elt_or_inverse p)
with sub_elt (p : PathElt) : sub (R_elt p) (leaves_elt p)
with sub_path_primary (p : PathPrimary) : sub (R_path_primary p) (leaves_path_primary p).
Proof.
  - destruct p as [l]. change (sub (fun t => l <> [] /\ sepby R_sequence bar l t) (flat_map leaves_sequence l)). lv ltac:(apply sub_sequence).
  - destruct p as [l]. change (sub (fun t => l <> [] /\ sepby R_elt_or_inverse bar l t) (flat_map leaves_elt_or_inverse l)). lv ltac:(apply sub_elt_or_inverse).
  - destruct p as [p|p]; [apply sub_elt|]. change (sub (lit "^" ;; R_elt p) (leaves_elt p)). lv ltac:(apply sub_elt).
  - destruct p as [p m]. change (sub (R_path_primary p ;; opt_ (fun m => blank1 ;; R_mod m) m) (leaves_path_primary p)). lv ltac:(apply sub_path_primary).
  - destruct p as [i| |s|p]; [apply sub_iri|apply sub_nil| |].
    + change (sub (lit "!" ;; R_negated s) (leaves_negated s)). lv ltac:(apply sub_negated).
    + change (sub (lit "(" ;; R_path p ;; lit ")") (leaves_path p)). lv ltac:(apply sub_path).
Qed.
Lemma sub_verb_path v : sub (R_verb_path v) (leaves_verb_path v). Proof. destruct v; [apply sub_path|apply sub_var]. Qed.
Lemma sub_plpe e : sub (R_plpe e) (leaves_plpe e).
Proof. destruct e; cbn [R_plpe leaves_plpe]. lv ltac:(apply sub_verb_path || apply sub_objects). Qed.
Fixpoint sub_node_path (g : GraphNodePath) : sub (R_graph_node_path g) (leaves_node_path g)
with sub_tnode_path (n : TriplesNodePath) : sub (R_triples_node_path n) (leaves_tnode_path n)
with sub_plist_path (p : PropertyListPath) : sub (R_property_list_path p) (leaves_plist_path p)
with sub_objects_path (o : ObjectListPath) : sub (R_object_list_path o) (leaves_objects_path o).
Proof.
  - destruct g as [v|n]; [apply sub_vot|apply sub_tnode_path].
  - destruct n as [l|p].
    + change (sub (lit "(" ;; (fun t => l <> [] /\ star R_graph_node_path l t) ;; lit ")") (flat_map leaves_node_path l)). lv ltac:(apply sub_node_path).
    + change (sub (lit "[" ;; blank ;; R_property_list_path p ;; blank ;; lit "]") (leaves_plist_path p)). lv ltac:(apply sub_plist_path).
  - destruct p as [v o es]. change (sub (R_verb_path v ;; blank1 ;; R_object_list_path o ;; star (fun e => semis_path ;; R_plpe e) es)
      (leaves_verb_path v ++ leaves_objects_path o ++ flat_map leaves_plpe es)). lv ltac:(first [apply sub_verb_path|apply sub_objects_path|apply sub_plpe]).
  - destruct o as [l]. change (sub (fun t => l <> [] /\ sepby R_graph_node_path (padded (lit ";")) l t) (flat_map leaves_node_path l)). lv ltac:(apply sub_node_path).
Qed.
Lemma sub_tssp t : sub (R_tssp t) (leaves_tssp t).
Proof. destruct t; cbn [R_tssp leaves_tssp]; lv ltac:(first [apply sub_vot|apply sub_plist_path|apply sub_tnode_path]). Qed.
Lemma sub_block b : sub (R_triples_block b) (leaves_block b).
Proof. destruct b; cbn [R_triples_block leaves_block]. lv ltac:(apply sub_tssp). Qed.

(** ** Expressions and graph patterns *)
Section Core.
  Context {E G : Type} (RE : E -> str -> Prop) (RG : G -> str -> Prop) (LE : E -> list leaf) (LG : G -> list leaf).
  Context (HE : forall e, sub (RE e) (LE e)) (HG : forall g, sub (RG g) (LG g)).
  Ltac eg := first [apply HE|apply HG|t1].
  Lemma sub_args a : sub (R_arg_list RE a) (leaves_args LE a).
  Proof. destruct a; cbn [R_arg_list leaves_args]; lv eg. Qed.
  Lemma sub_iri_or_fun i : sub (R_iri_or_fun RE i) (leaves_iri_or_fun LE i).
  Proof. destruct i; cbn [R_iri_or_fun leaves_iri_or_fun]; lv ltac:(apply sub_iri || apply sub_args). Qed.
  Lemma sub_function_call f : sub (R_function_call RE f) (leaves_function_call LE f).
  Proof. destruct f; cbn [R_function_call leaves_function_call]; lv ltac:(apply sub_iri || apply sub_args). Qed.
  Lemma sub_expression_list l : sub (R_expression_list RE l) (leaves_expression_list LE l).
  Proof. destruct l; cbn [R_expression_list leaves_expression_list]; lv eg. Qed.
  Lemma sub_expr3 r : sub (R_expr3 RE r) (leaves_expr3 LE r).
  Proof. destruct r; cbn [R_expr3 leaves_expr3]; lv eg. Qed.
  Lemma sub_str_replace r : sub (R_str_replace RE r) (leaves_str_replace LE r).
  Proof. destruct r; cbn [R_str_replace leaves_str_replace]; lv eg. Qed.
  Lemma sub_distinct d : sub (R_distinct_expression RE d) (leaves_distinct LE d).
  Proof. destruct d; cbn [R_distinct_expression leaves_distinct]; lv eg. Qed.
  Lemma sub_aggregate a : sub (R_aggregate RE a) (leaves_aggregate LE a).
  Proof.
    destruct a as [[d []]|d|d|d|d|d|[]]; cbn [R_aggregate leaves_aggregate R_count_target]; lv ltac:(first [eg|apply sub_distinct|unfold R_separator; lv eg]).
  Qed.
  Lemma sub_bracketted e : sub (R_bracketted RE e) (LE e).
  Proof. unfold R_bracketted. lv eg. Qed.
  Lemma sub_built_in b : sub (R_built_in RE RG b) (leaves_built_in LE LG b).
  Proof.
    destruct b; try match goal with |- context [BiBnode ?o] => destruct o end; cbn [R_built_in leaves_built_in of_opt]; unfold fun1, fun2, fun0;
      try (intros t []; fail);
      lv ltac:(first [eg|apply sub_aggregate|apply sub_expression_list|apply sub_expr3|apply sub_str_replace|apply sub_bracketted]).
  Qed.
  Lemma sub_primary p : sub (R_primary RE RG p) (leaves_primary LE LG p).
  Proof. destruct p; cbn [R_primary leaves_primary]; first [apply sub_bracketted|apply sub_built_in|apply sub_iri_or_fun|t1]. Qed.
  Lemma sub_unary u : sub (R_unary RE RG u) (leaves_unary LE LG u).
  Proof. destruct u; cbn [R_unary leaves_unary]; lv ltac:(apply sub_primary). Qed.
  Lemma sub_mult m : sub (R_mult RE RG m) (leaves_mult LE LG m).
  Proof. destruct m; cbn [R_mult leaves_mult]; lv ltac:(apply sub_unary). Qed.
  Lemma sub_multiplicative m : sub (R_multiplicative RE RG m) (leaves_multiplicative LE LG m).
  Proof. destruct m; cbn [R_multiplicative leaves_multiplicative]; lv ltac:(apply sub_unary || apply sub_mult). Qed.
  Lemma sub_add a : sub (R_add RE RG a) (leaves_add LE LG a).
  Proof. destruct a; cbn [R_add leaves_add]; lv ltac:(first [t1|apply sub_mult|apply sub_multiplicative]). Qed.
  Lemma sub_additive a : sub (R_additive RE RG a) (leaves_additive LE LG a).
  Proof. destruct a; cbn [R_additive leaves_additive]; lv ltac:(first [apply sub_add|apply sub_multiplicative]). Qed.
  Lemma sub_op o : sub (R_op RE RG o) (leaves_op LE LG o).
  Proof. destruct o; cbn [R_op leaves_op]; lv ltac:(first [apply sub_additive|apply sub_expression_list]). Qed.
  Lemma sub_relational r : sub (R_relational RE RG r) (leaves_relational LE LG r).
  Proof. destruct r; cbn [R_relational leaves_relational]; lv ltac:(first [apply sub_additive|apply sub_op]). Qed.
  Lemma sub_cond_and c : sub (R_conditional_and RE RG c) (leaves_and LE LG c).
  Proof. destruct c; cbn [R_conditional_and leaves_and]; lv ltac:(apply sub_relational). Qed.
  Lemma sub_constraint c : sub (R_constraint RE RG c) (leaves_constraint LE LG c).
  Proof. destruct c; cbn [R_constraint leaves_constraint]; first [apply sub_bracketted|apply sub_built_in|apply sub_function_call]. Qed.
  Lemma sub_as_var x : sub (R_expr_as_var RE x) (leaves_as_var LE x).
  Proof. destruct x; cbn [R_expr_as_var leaves_as_var]; lv eg. Qed.
  Lemma sub_as_var_opt x : sub (R_expr_as_var_opt RE x) (leaves_as_var_opt LE x).
  Proof. destruct x; cbn [R_expr_as_var_opt leaves_as_var_opt]; lv eg. Qed.
  Lemma sub_order_condition o : sub (R_order_condition RE RG o) (leaves_order_condition LE LG o).
  Proof. destruct o as [[]| |]; cbn [R_order_condition leaves_order_condition]; lv ltac:(first [apply sub_bracketted|apply sub_constraint|t1]). Qed.
  Lemma sub_group_condition g : sub (R_group_condition RE RG g) (leaves_group_condition LE LG g).
  Proof. destruct g; cbn [R_group_condition leaves_group_condition]; first [apply sub_built_in|apply sub_function_call|apply sub_as_var_opt|t1]. Qed.
  Lemma sub_group_clause g : sub (R_group_clause RE RG g) (leaves_group_clause LE LG g).
  Proof. destruct g; cbn [R_group_clause leaves_group_clause]; lv ltac:(apply sub_group_condition). Qed.
  Lemma sub_order_clause g : sub (R_order_clause RE RG g) (leaves_order_clause LE LG g).
  Proof. destruct g; cbn [R_order_clause leaves_order_clause]; lv ltac:(apply sub_order_condition). Qed.
  Lemma sub_having_clause g : sub (R_having_clause RE RG g) (leaves_having_clause LE LG g).
  Proof. destruct g; cbn [R_having_clause leaves_having_clause]; lv ltac:(apply sub_constraint). Qed.
  Lemma sub_modifier m : sub (R_modifier RE RG m) (leaves_modifier LE LG m).
  Proof.
    destruct m; cbn [R_modifier leaves_modifier];
      lv ltac:(first [apply sub_group_clause|apply sub_order_clause|apply sub_having_clause|apply sub_limit_offset]).
  Qed.
  Lemma sub_where g : sub (R_where RG g) (LG g). Proof. unfold R_where. lv eg. Qed.
  Lemma sub_select_var v : sub (R_select_var RE v) (leaves_select_var LE v). Proof. destruct v; [apply sub_var|apply sub_as_var]. Qed.
  Lemma sub_select_vars v : sub (R_select_vars RE v) (leaves_select_vars LE v).
  Proof. destruct v; cbn [R_select_vars leaves_select_vars]; lv ltac:(apply sub_select_var). Qed.
  Lemma sub_select_clause s : sub (R_select_clause RE s) (leaves_select_clause LE s).
  Proof. destruct s; cbn [R_select_clause leaves_select_clause]; lv ltac:(apply sub_select_vars). Qed.
  Lemma sub_sub_select s : sub (R_sub_select RE RG s) (leaves_sub_select LE LG s).
  Proof. destruct s; cbn [R_sub_select leaves_sub_select]; lv ltac:(first [apply sub_select_clause|apply sub_where|apply sub_modifier|apply sub_values]). Qed.
  Lemma sub_pattern p : sub (R_pattern RE RG p) (leaves_pattern LE LG p).
  Proof.
    destruct p as [|[]| |[]|[]| | |]; cbn [R_pattern leaves_pattern];
      lv ltac:(first [eg|apply sub_voi|apply sub_constraint|apply sub_as_var|apply sub_values]).
  Qed.
  Lemma sub_pattern_and_triples p : sub (R_pattern_and_triples RE RG p) (leaves_pattern_and_triples LE LG p).
  Proof. destruct p; cbn [R_pattern_and_triples leaves_pattern_and_triples]; lv ltac:(apply sub_pattern || apply sub_block). Qed.
  Lemma sub_group_sub g : sub (R_group_sub RE RG g) (leaves_group_sub LE LG g).
  Proof. destruct g; cbn [R_group_sub leaves_group_sub]; lv ltac:(apply sub_pattern_and_triples || apply sub_block). Qed.
End Core.

Lemma sub_expression_rule RE RG LE LG e : (forall e, sub (RE e) (LE e)) -> (forall g, sub (RG g) (LG g)) ->
  sub (expression_rule RE RG e) (leaves_expression_step LE LG e).
Proof. intros HE HG. destruct e; cbn [expression_rule leaves_expression_step]. lv ltac:(apply (sub_cond_and RE RG LE LG HE HG)). Qed.
Lemma sub_ggp_rule RE RG LE LG g : (forall e, sub (RE e) (LE e)) -> (forall g, sub (RG g) (LG g)) ->
  sub (ggp_rule RE RG g) (leaves_ggp_step LE LG g).
Proof.
  intros HE HG. destruct g; cbn [ggp_rule leaves_ggp_step];
    lv ltac:(first [apply (sub_sub_select RE RG LE LG HE HG)|apply (sub_group_sub RE RG LE LG HE HG)]).
Qed.
Fixpoint sub_expression_ e t (H : R_expression e t) {struct H} : forall n, spread (leaves_expression n e) t
with sub_ggp_ g t (H : R_ggp g t) {struct H} : forall n, spread (leaves_ggp n g) t.
Proof.
  - destruct H as [RE RG e t HE HG H]. intros [|n]; [apply spread_nil|].
    change (spread (leaves_expression_step (leaves_expression n) (leaves_ggp n) e) t).
    exact (sub_expression_rule RE RG _ _ e (fun e t h => sub_expression_ e t (HE e t h) n) (fun g t h => sub_ggp_ g t (HG g t h) n) t H).
  - destruct H as [RE RG g t HE HG H]. intros [|n]; [apply spread_nil|].
    change (spread (leaves_ggp_step (leaves_expression n) (leaves_ggp n) g) t).
    exact (sub_ggp_rule RE RG _ _ g (fun e t h => sub_expression_ e t (HE e t h) n) (fun g t h => sub_ggp_ g t (HG g t h) n) t H).
Qed.
Lemma sub_expression n e : sub (R_expression e) (leaves_expression n e). Proof. intros t H. now apply sub_expression_. Qed.
Lemma sub_ggp n g : sub (R_ggp g) (leaves_ggp n g). Proof. intros t H. now apply sub_ggp_. Qed.

(** ** Queries and updates *)
Lemma sub_datasets l : sub (R_datasets l) (leaves_datasets l).
Proof. unfold R_datasets, leaves_datasets, R_dataset. lv ltac:(apply sub_don). Qed.
Lemma sub_mods n m : sub (R_mods m) (leaves_mods n m).
Proof. apply sub_modifier; intros; [apply sub_expression|apply sub_ggp]. Qed.
Lemma sub_where_ n w : sub (R_where R_ggp w) (leaves_ggp n w). Proof. apply sub_where, sub_ggp. Qed.
Lemma sub_braced o : sub (R_braced_template o) (of_opt leaves_template o).
Proof. unfold R_braced_template. lv ltac:(apply sub_template). Qed.
Ltac q1 n := first [apply sub_datasets|apply sub_mods|apply (sub_where_ n)|apply sub_braced|apply sub_targets|apply sub_tss|
  apply sub_select_clause; intros; apply sub_expression].
Lemma sub_query n q : sub (R_query q) (leaves_query n q).
Proof.
  destruct q as [[]|[]|[]|[[[]]|[]]];
    cbn [R_query leaves_query R_ask_query leaves_ask_query R_select_query leaves_select_query R_describe_query leaves_describe_query
         R_construct_query leaves_construct_query R_sub_construct R_sub_triples R_construct_template]; lv ltac:(q1 n).
Qed.
Lemma sub_query_stmt n q : sub (R_query_stmt q) (leaves_query_stmt n q).
Proof. destruct q; cbn [R_query_stmt leaves_query_stmt]; lv ltac:(first [apply sub_prologue|apply sub_query|apply sub_values]). Qed.
Lemma sub_quads_entry q : sub (R_quads_entry q) (leaves_quads_entry q).
Proof.
  destruct q as [[v t] t']. cbn [R_quads_entry leaves_quads_entry R_quads_not_triples]. rewrite app_assoc.
  lv ltac:(first [apply sub_voi|apply sub_braced|apply sub_template]).
Qed.
Lemma sub_quads q : sub (R_quads q) (leaves_quads q).
Proof. destruct q; cbn [R_quads leaves_quads]; lv ltac:(apply sub_template || apply sub_quads_entry). Qed.
Lemma sub_quads_pattern q : sub (R_quads_pattern q) (leaves_quads q).
Proof. unfold R_quads_pattern. lv ltac:(apply sub_quads). Qed.
Lemma sub_god g : sub (R_graph_or_default g) (leaves_god g).
Proof. destruct g; cbn [R_graph_or_default leaves_god]; lv t1. Qed.
Lemma sub_graph_ref i : sub (R_graph_ref i) (leaves_iri i). Proof. unfold R_graph_ref. lv t1. Qed.
Lemma sub_gra g : sub (R_graph_ref_all g) (leaves_gra g).
Proof. destruct g; cbn [R_graph_ref_all leaves_gra]; lv ltac:(apply sub_graph_ref). Qed.
Lemma sub_delete_insert d : sub (R_delete_insert d) (leaves_delete_insert d).
Proof. destruct d; cbn [R_delete_insert leaves_delete_insert]; unfold R_delete_clause, R_insert_clause; lv ltac:(apply sub_quads_pattern). Qed.
Lemma sub_update_stmt n u : sub (R_update_stmt u) (leaves_update_stmt n u).
Proof.
  destruct u as [[]|[]|[]|[]|[]|[]|[]| | | |[]]; cbn [R_update_stmt leaves_update_stmt R_modify]; unfold R_from_to, R_using;
    lv ltac:(first [t1|apply sub_graph_ref|apply sub_gra|apply sub_god|apply sub_quads_pattern|apply sub_delete_insert|apply sub_don|apply sub_ggp]).
Qed.
Fixpoint sub_update n (u : Update) : sub (R_update u) (leaves_update n u).
Proof.
  destruct u as [p [s|] [u|]]; cbn [R_update leaves_update of_opt opt_].
  - lv ltac:(first [apply sub_prologue|apply sub_update_stmt|apply (sub_update n)]).
  - lv ltac:(first [apply sub_prologue|apply sub_update_stmt]).
  - intros t [].
  - rewrite !app_nil_r. apply sub_prologue.
Qed.

(** ** Pieces occur in the text, and are together no longer than it *)
Definition names (l : list leaf) : list str := flat_map (fun x => match x with Name _ s => [s] | _ => [] end) l.
Fixpoint total (l : list str) : nat := match l with [] => 0 | s :: l' => (length s + total l')%nat end.
Lemma spread_occurs l t : spread l t -> forall x, In x l -> exists u s v, t = u ++ s ++ v /\ shows x s.
Proof.
  induction 1 as [t|x l u s v Hs H IH]; intros y I; [destruct I|]. destruct I as [<-|I].
  - exists u, s, v. auto.
  - destruct (IH y I) as (u' & s' & v' & -> & Hs'). exists (u ++ s ++ u'), s', v'. split; [now rewrite <- !app_assoc|exact Hs'].
Qed.
Lemma spread_length l t : spread l t -> (total (names l) <= length t)%nat.
Proof.
  induction 1 as [t|x l u s v Hs H IH]; [apply Nat.le_0_l|]. rewrite !app_length. destruct x; cbn [names flat_map app total] in *.
  - destruct Hs as [-> _]. unfold names in IH. lia.
  - unfold names in IH. lia.
  - unfold names in IH. lia.
  - unfold names in IH. lia.
Qed.
