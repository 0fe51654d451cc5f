(** Trees are not larger than their texts: [R_x tree text] bounds [size_x tree] by the length of the text. *)
From Verif Require Export SpecSize.
Notation length := List.length (only parsing).
Open Scope list_scope.
Open Scope nat_scope.

(** the factor; every bound below leaves room for the values around the part *)
Notation K := 16 (only parsing).

Lemma s_len k : length (s_ k) = String.length k.
Proof. unfold s_. rewrite map_length. induction k; [reflexivity|]. cbn. now f_equal. Qed.
Lemma lit_len k t : lit k t -> length t = String.length k.
Proof. intros ->. apply s_len. Qed.
Lemma kw_len k t : kw k t -> length t = String.length k.
Proof. intros H. rewrite <- s_len. unfold kw in H. rewrite <- H. symmetry. apply map_length. Qed.
Lemma blank1_len t : blank1 t -> 1 <= length t.
Proof. intros [_ H]. destruct t; [congruence|cbn; lia]. Qed.
Lemma ne_len {A} (l : list A) : l <> [] -> 1 <= length l.
Proof. destruct l; [congruence|cbn; lia]. Qed.
Lemma num_len n t : R_numeric n t -> 1 <= length t.
Proof.
  assert (X : forall z t, R_i64 z t -> 1 <= length t).
  { intros z u (sg & k & ds & _ & -> & [D _] & _). apply ne_len in D. rewrite app_length. lia. }
  destruct n as [z|q e]; [apply X|]. intros (u & v & -> & (sg & k & ip & fp & pt & _ & -> & _ & _ & _ & D & _) & _).
  apply ne_len in D. rewrite !app_length in *. lia.
Qed.
Lemma u64_len z t : R_u64 z t -> 1 <= length t.
Proof. intros [[D _] _]. now apply ne_len. Qed.
Lemma semis_len t : semis_path t -> 1 <= length t.
Proof. unfold semis_path, padded. induction 1 as [t (u & v & -> & _ & w & x & -> & H & _)|u v (a & b & -> & _ & w & x & -> & H & _)]; apply lit_len in H; rewrite !app_length; cbn in H; lia. Qed.
Lemma boolean_len b t : R_boolean b t -> 1 <= length t.
Proof. destruct b; intros H; apply kw_len in H; cbn in H; lia. Qed.

(** transparent, to be used in recursive proofs on trees; each element leaves room for [c] *)
Section Lists.
  Context {A : Type} (R : A -> str -> Prop) (f : A -> nat) (S : str -> Prop) (c : nat).
  Definition elt_fits (a : A) : Prop := forall t, R a t -> f a + 1 + c <= K * length t.
  Definition list_fits (P : str -> Prop) (l : list A) : Prop := forall t, P t -> sum f l + c * length l <= K * length t.
  Lemma star_step a l : elt_fits a -> list_fits (star R l) l -> list_fits (star R (a :: l)) (a :: l).
  Proof. intros H IH t (u & v & -> & X & Y). apply H in X. apply IH in Y. rewrite app_length. change (sum f (a :: l)) with (1 + f a + sum f l). cbn [List.length]. lia. Qed.
  Lemma star_base : list_fits empty [].
  Proof. intros t _. cbn. lia. Qed.
  Lemma sepby_step a b l : elt_fits a -> list_fits (sepby R S (b :: l)) (b :: l) -> list_fits (sepby R S (a :: b :: l)) (a :: b :: l).
  Proof.
    intros H IH t (u & v & -> & X & w & x & -> & _ & Y). apply H in X. apply IH in Y. rewrite !app_length.
    change (sum f (a :: b :: l)) with (1 + f a + sum f (b :: l)). change (length (a :: b :: l)) with (1 + length (b :: l)). lia.
  Qed.
  Lemma sepby_one a : elt_fits a -> list_fits (sepby R S [a]) [a].
  Proof. intros H t X. apply H in X. cbn. lia. Qed.
  Context (H : forall a t, R a t -> f a + 1 + c <= K * length t).
  Definition star_len : forall l t, star R l t -> sum f l + c * length l <= K * length t :=
    fix F l := match l return list_fits (star R l) l with [] => star_base | a :: l' => star_step a l' (H a) (F l') end.
  Definition sepby_len : forall l t, sepby R S l t -> sum f l + c * length l <= K * length t :=
    fix F l := match l return list_fits (sepby R S l) l with
      | [] => star_base
      | a :: l' => match l' as l' return (list_fits (sepby R S l') l' -> list_fits (sepby R S (a :: l')) (a :: l')) with
                   | [] => fun _ => sepby_one a (H a) | b :: l2 => sepby_step a b l2 (H a) end (F l')
      end.
End Lists.

Ltac pieces :=
  repeat (cbv beta in *; match goal with
  | H : (_ ;; _) _ |- _ => destruct H as (? & ? & ? & ? & ?)
  | H : either _ _ _ |- _ => destruct H as [H|H]
  | H : lit _ _ |- _ => apply lit_len in H; cbn [String.length] in H
  | H : kw _ _ |- _ => apply kw_len in H; cbn [String.length] in H
  | H : blank _ |- _ => clear H
  | H : blank1 _ |- _ => apply blank1_len in H
  | H : semis_path _ |- _ => apply semis_len in H
  | H : R_numeric _ _ |- _ => apply num_len in H
  | H : R_u64 _ _ |- _ => apply u64_len in H
  | H : R_boolean _ _ |- _ => apply boolean_len in H
  | H : empty _ |- _ => red in H
  | H : text _ _ _ |- _ => destruct H as [? _]
  | H : padded _ _ |- _ => unfold padded in H
  | H : padded1 _ _ |- _ => unfold padded1 in H
  | H : may _ _ |- _ => unfold may in H
  | H : comma_ _ |- _ => unfold comma_ in H
  | H : R_nil _ |- _ => unfold R_nil in H
  | H : opt_ _ ?o _ |- _ => destruct o; cbn [opt_] in H; cbn [of_]
  | H : sepby1 _ _ _ _ |- _ => destruct H as [? H]
  | H : _ /\ _ |- _ => destruct H
  | H : False |- _ => destruct H
  | H : ?l <> [] |- _ => apply ne_len in H
  end); cbn [of_]; subst; rewrite ?app_length in *; cbn [List.length] in *.
(** [tac] bounds the parts *)
Ltac sz tac := intros; pieces; tac; unfold chars, size_number in *; rewrite ?app_length in *; cbn [List.length] in *; lia.
(** a bound for the part [H] *)
Ltac by_ L := idtac; repeat match goal with H : _ |- _ => apply L in H; [|rewrite ?app_length; lia..] end.

(** ** Terms *)
Lemma sz_iri_ref s t : R_iri_ref s t -> chars s + 31 <= K * length t.
Proof. intros [-> _]. unfold chars. cbn. rewrite app_length. cbn. lia. Qed.
Lemma sz_string s t : R_string s t -> chars s + 31 <= K * length t.
Proof. intros (q & _ & -> & _ & _). unfold chars. cbn. rewrite app_length. cbn. lia. Qed.
Lemma sz_lang s t : R_lang s t -> chars s + 16 <= K * length t.
Proof. intros [-> _]. unfold chars. cbn. lia. Qed.
Lemma sz_prefixed n t : R_prefixed_name n t -> size_prefixed n + 15 <= K * length t.
Proof. destruct n; cbn [R_prefixed_name size_prefixed]; unfold R_pname_ns; sz idtac. Qed.
Lemma sz_iri i t : R_iri i t -> size_iri i + 14 <= K * length t.
Proof. destruct i; cbn [R_iri size_iri]; intros H; [apply sz_iri_ref in H|apply sz_prefixed in H]; lia. Qed.
Lemma var_ne s t : text var_name_ok s t -> 1 <= length s /\ t = s.
Proof. intros [-> [H _]]. split; [now apply ne_len|reflexivity]. Qed.
Lemma sz_var v t : R_var v t -> size_var v + 20 <= K * length t.
Proof. destruct v; cbn [R_var size_var]; intros (u & w & -> & A & x & y & -> & _ & B); apply var_ne in B; destruct B as [B ->]; apply lit_len in A; cbn in A; unfold chars; rewrite !app_length; lia. Qed.
Lemma sz_blank_node b t : R_blank_node b t -> size_blank_node b + 20 <= K * length t.
Proof. destruct b; cbn [R_blank_node size_blank_node]; sz idtac. Qed.
Lemma sz_descriptor d t : R_descriptor d t -> size_descriptor d + 14 <= K * length t.
Proof. destruct d; cbn [R_descriptor size_descriptor]; [intros H; apply sz_lang in H; lia|sz ltac:(by_ sz_iri)]. Qed.
Lemma sz_literal l t : R_rdf_literal l t -> size_literal l + 20 <= K * length t.
Proof. destruct l; cbn [R_rdf_literal size_literal]; sz ltac:(by_ sz_string; by_ sz_descriptor). Qed.
Ltac t1 := by_ sz_iri; by_ sz_var; by_ sz_literal; by_ sz_blank_node; by_ sz_iri_ref; by_ sz_string.
Lemma sz_term g t : R_graph_term g t -> size_term g + 13 <= K * length t.
Proof. destruct g; cbn [R_graph_term size_term]; sz t1. Qed.
Lemma sz_vot v t : R_var_or_term v t -> size_vot v + 12 <= K * length t.
Proof. destruct v; cbn [R_var_or_term size_vot]; sz ltac:(t1; by_ sz_term). Qed.
Lemma sz_voi v t : R_var_or_iri v t -> size_voi v + 13 <= K * length t.
Proof. destruct v; cbn [R_var_or_iri size_voi]; sz t1. Qed.
Lemma sz_verb v t : R_verb v t -> size_verb v + 12 <= K * length t.
Proof. destruct v; cbn [R_verb size_verb]; sz ltac:(by_ sz_voi). Qed.
(** lists of parts: [elt_ f c tac] bounds the sum of [f]; each element leaves room for [c] *)
Ltac elts c tac := idtac; repeat match goal with
  | H : star ?R ?l ?t |- context [sum ?f ?l] => apply (star_len R f c) in H; [|intros; cbv beta in *; tac]
  | H : sepby ?R ?S ?l ?t |- context [sum ?f ?l] => apply (sepby_len R f S c) in H; [|intros; cbv beta in *; tac]
  end.
Ltac under L := idtac; match goal with H : _ |- _ => apply L in H; lia end.

Lemma sz_targets v t : R_var_or_iris_or_all v t -> size_targets v + 11 <= K * length t.
Proof. destruct v; cbn [R_var_or_iris_or_all size_targets]; sz ltac:(elts 12 ltac:(under sz_voi)). Qed.
Lemma sz_iri_or_a i t : R_iri_or_a i t -> size_iri_or_a i + 13 <= K * length t.
Proof. destruct i; cbn [R_iri_or_a size_iri_or_a]; sz t1. Qed.
Lemma sz_caret i t : R_iri_or_a_or_caret i t -> size_caret i + 12 <= K * length t.
Proof. destruct i; cbn [R_iri_or_a_or_caret size_caret]; sz ltac:(by_ sz_iri_or_a). Qed.
Lemma sz_decl d t : R_decl d t -> size_decl d + 20 <= K * length t.
Proof. destruct d as [|[]]; cbn [R_decl size_decl]; unfold R_pname_ns; sz t1. Qed.
Lemma sz_prologue p t : R_prologue p t -> size_prologue p <= K * length t + 1.
Proof. destruct p; cbn [R_prologue size_prologue]; sz ltac:(elts 0 ltac:(under sz_decl)). Qed.
Lemma sz_don d t : R_default_or_named d t -> size_don d + 13 <= K * length t.
Proof. destruct d; cbn [R_default_or_named size_don]; sz t1. Qed.
Lemma sz_value v t : R_value v t -> size_value v + 13 <= K * length t.
Proof. destruct v; cbn [R_value size_value]; sz t1. Qed.
Lemma sz_row vs t : R_row vs t -> sum size_value vs + 20 <= K * length t.
Proof. unfold R_row. sz ltac:(elts 0 ltac:(pieces; under sz_value)). Qed.
Lemma sz_datablock d t : R_datablock d t -> size_datablock d + 20 <= K * length t.
Proof.
  destruct d as [[]|[]]; cbn [R_datablock size_datablock].
  - sz ltac:(t1; elts 0 ltac:(pieces; under sz_value)).
  - intros. pieces.
    match goal with H : star ?R data_block_values ?t |- _ => apply (star_len R (sum size_value) 0) in H; [|intros; pieces; under sz_row] end.
    elts 0 ltac:(intros; pieces; under sz_var). lia.
Qed.
Lemma sz_values d t : R_values d t -> size_datablock d + 20 <= K * length t.
Proof. unfold R_values. sz ltac:(by_ sz_datablock). Qed.
Lemma sz_limit_offset l t : R_limit_offset l t -> size_limit_offset l + 20 <= K * length t.
Proof. unfold size_limit_offset. destruct l; cbn [R_limit_offset]; unfold R_limit, R_offset; sz idtac. Qed.

(** ** Triples and paths *)
Fixpoint sz_node (g : GraphNode) : forall t, R_graph_node g t -> size_node g + 11 <= K * length t
with sz_tnode (n : TriplesNode) : forall t, R_triples_node n t -> size_tnode n + 20 <= K * length t
with sz_collection (c : Collection) : forall t, R_collection c t -> size_collection c + 21 <= K * length t
with sz_plist (p : PropertyList) : forall t, R_property_list p t -> size_plist p + 16 <= K * length t
with sz_verb_list (v : VerbList) : forall t, R_verb_list v t -> size_verb_list v + 20 <= K * length t
with sz_objects (o : ObjectList) : forall t, R_object_list o t -> size_objects o + 9 <= K * length t.
Proof.
  - destruct g as [v|n]; intros t H; [apply sz_vot in H|apply (sz_tnode n) in H]; cbn [size_node]; lia.
  - destruct n as [c|p]; intros t H; [apply (sz_collection c) in H; cbn [size_tnode]; lia|].
    change ((lit "[" ;; blank ;; R_property_list p ;; blank ;; lit "]") t) in H. cbn [size_tnode].
    pieces. match goal with H : R_property_list p _ |- _ => apply (sz_plist p) in H end. lia.
  - destruct c as [l]. intros t H. change ((lit "(" ;; (fun t => l <> [] /\ star (fun g => padded (R_graph_node g)) l t) ;; lit ")") t) in H. cbn [size_collection].
    pieces. match goal with H : star ?R ?l ?t |- _ => apply (star_len R size_node 0) in H; [lia|] end.
    intros a t Ha. destruct Ha as (u & v & -> & _ & w & x9 & -> & X & _). apply (sz_node a) in X. rewrite !app_length. lia.
  - destruct p as [l]. intros t H. change (((fun t => l <> [] /\ sepby R_verb_list semis l t) ;; trailing_semis) t) in H. cbn [size_plist].
    pieces. match goal with H : sepby ?R ?S ?l ?t |- _ => apply (sepby_len R size_verb_list S 18) in H; [lia|] end.
    intros a t9 Ha. apply (sz_verb_list a) in Ha. lia.
  - destruct v as [v o]. intros t H. change ((R_verb v ;; blank ;; R_object_list o) t) in H. cbn [size_verb_list].
    pieces. match goal with H : R_object_list o _ |- _ => apply (sz_objects o) in H end. by_ sz_verb. lia.
  - destruct o as [l]. intros t H. change (l <> [] /\ sepby R_graph_node (padded (lit ",")) l t) in H. cbn [size_objects].
    pieces. match goal with H : sepby ?R ?S ?l ?t |- _ => apply (sepby_len R size_node S 10) in H; [lia|] end.
    intros a t9 Ha. apply (sz_node a) in Ha. lia.
Qed.
Lemma sz_tss s t : R_tss s t -> size_tss s + 16 <= K * length t.
Proof. destruct s; cbn [R_tss size_tss]; sz ltac:(by_ sz_vot; by_ sz_plist; by_ sz_tnode). Qed.
Lemma sz_template l t : R_template l t -> size_template l + 15 <= K * length t.
Proof. unfold R_template, size_template. sz ltac:(elts 15 ltac:(under sz_tss)). Qed.
Lemma sz_negated s t : R_negated s t -> size_negated s + 20 <= K * length t.
Proof.
  destruct s; cbn [R_negated size_negated]. intros. pieces.
  match goal with H : sepby ?R ?S ?l ?t |- _ => apply (sepby_len R size_one S 0) in H; [lia|] end.
  intros [i] t9 X. apply sz_caret in X. cbn [size_one]. lia.
Qed.
Lemma sz_mod m t : (blank1 ;; R_mod m) t -> 2 <= length t.
Proof. destruct m; cbn [R_mod]; sz idtac. Qed.
Fixpoint sz_path (p : PathAlternative) : forall t, R_path p t -> size_path p + 7 <= K * length t
with sz_sequence (p : PathSequence) : forall t, R_sequence p t -> size_sequence p + 9 <= K * length t
with sz_elt_or_inverse (p : PathEltOrInverse) : forall t, R_elt_or_inverse p t -> size_elt_or_inverse p + 11 <= K * length t
with sz_elt (p : PathElt) : forall t, R_elt p t -> size_elt p + 12 <= K * length t
with sz_path_primary (p : PathPrimary) : forall t, R_path_primary p t -> size_path_primary p + 13 <= K * length t.
Proof.
  - destruct p as [l]. intros t H. change (l <> [] /\ sepby R_sequence bar l t) in H. cbn [size_path].
    pieces. match goal with H : sepby ?R ?S ?l ?t |- _ => apply (sepby_len R size_sequence S 8) in H; [lia|] end.
    intros a t9 Ha. apply (sz_sequence a) in Ha. lia.
  - destruct p as [l]. intros t H. change (l <> [] /\ sepby R_elt_or_inverse bar l t) in H. cbn [size_sequence].
    pieces. match goal with H : sepby ?R ?S ?l ?t |- _ => apply (sepby_len R size_elt_or_inverse S 10) in H; [lia|] end.
    intros a t9 Ha. apply (sz_elt_or_inverse a) in Ha. lia.
  - destruct p as [p|p]; intros t H; cbn [size_elt_or_inverse]; [apply (sz_elt p) in H; lia|]. change ((lit "^" ;; R_elt p) t) in H.
    pieces. match goal with H : R_elt p _ |- _ => apply (sz_elt p) in H end. lia.
  - destruct p as [p m]. intros t H. change ((R_path_primary p ;; opt_ (fun m => blank1 ;; R_mod m) m) t) in H. cbn [size_elt].
    destruct H as (u & v & -> & A & B). apply (sz_path_primary p) in A. rewrite app_length. destruct m; cbn [of_ opt_] in *; [apply sz_mod in B|]; lia.
  - destruct p as [i| |s|p]; intros t H; cbn [size_path_primary].
    + apply sz_iri in H. lia.
    + apply lit_len in H. cbn in H. lia.
    + change ((lit "!" ;; R_negated s) t) in H. pieces. by_ sz_negated. lia.
    + change ((lit "(" ;; R_path p ;; lit ")") t) in H. pieces. match goal with H : R_path p _ |- _ => apply (sz_path p) in H end. lia.
Qed.
Lemma sz_verb_path v t : R_verb_path v t -> size_verb_path v + 6 <= K * length t.
Proof. destruct v; cbn [R_verb_path size_verb_path]; sz ltac:(by_ sz_path; by_ sz_var). Qed.
Lemma sz_plpe e t : R_plpe e t -> size_plpe e + 14 <= K * length t.
Proof. destruct e; cbn [R_plpe size_plpe]. sz ltac:(by_ sz_verb_path; by_ sz_objects). Qed.
Fixpoint sz_node_path (g : GraphNodePath) : forall t, R_graph_node_path g t -> size_node_path g + 11 <= K * length t
with sz_tnode_path (n : TriplesNodePath) : forall t, R_triples_node_path n t -> size_tnode_path n + 20 <= K * length t
with sz_plist_path (p : PropertyListPath) : forall t, R_property_list_path p t -> size_plist_path p + 14 <= K * length t
with sz_objects_path (o : ObjectListPath) : forall t, R_object_list_path o t -> size_objects_path o + 9 <= K * length t.
Proof.
  - destruct g as [v|n]; intros t H; [apply sz_vot in H|apply (sz_tnode_path n) in H]; cbn [size_node_path]; lia.
  - destruct n as [l|p]; intros t H; cbn [size_tnode_path].
    + change ((lit "(" ;; (fun t => l <> [] /\ star R_graph_node_path l t) ;; lit ")") t) in H. pieces.
      match goal with H : star ?R ?l ?t |- _ => apply (star_len R size_node_path 0) in H; [lia|] end. intros a t9 Ha. apply (sz_node_path a) in Ha. lia.
    + change ((lit "[" ;; blank ;; R_property_list_path p ;; blank ;; lit "]") t) in H. pieces.
      match goal with H : R_property_list_path p _ |- _ => apply (sz_plist_path p) in H end. lia.
  - destruct p as [v o es]. intros t H. change ((R_verb_path v ;; blank1 ;; R_object_list_path o ;; star (fun e => semis_path ;; R_plpe e) es) t) in H. cbn [size_plist_path].
    pieces. match goal with H : R_object_list_path o _ |- _ => apply (sz_objects_path o) in H end. by_ sz_verb_path.
    elts 0 ltac:(pieces; under sz_plpe). lia.
  - destruct o as [l]. intros t H. change (l <> [] /\ sepby R_graph_node_path (padded (lit ";")) l t) in H. cbn [size_objects_path].
    pieces. match goal with H : sepby ?R ?S ?l ?t |- _ => apply (sepby_len R size_node_path S 10) in H; [lia|] end.
    intros a t9 Ha. apply (sz_node_path a) in Ha. lia.
Qed.
Lemma sz_tssp s t : R_tssp s t -> size_tssp s + 18 <= K * length t.
Proof. destruct s; cbn [R_tssp size_tssp]; sz ltac:(by_ sz_vot; by_ sz_plist_path; by_ sz_tnode_path). Qed.
Lemma sz_block b t : R_triples_block b t -> size_block b + 16 <= K * length t.
Proof. destruct b; cbn [R_triples_block size_block]. sz ltac:(elts 17 ltac:(under sz_tssp)). Qed.
