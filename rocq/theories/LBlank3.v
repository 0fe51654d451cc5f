(** Changing blanks: triples and property paths. *)
From Verif Require Export LBlank2 LRecase3.
Notation length := List.length (only parsing).
Open Scope N_scope.
Open Scope list_scope.

(** ** Triples *)
Lemma bs_graph_node_body m gn gn' : bs2 m false (tls m leaves_node) gn gn' -> bs2 m false (tls m leaves_node) (graph_node_body gn) (graph_node_body gn').
Proof.
  intros H.
  assert (O : bs2 m false (tls m leaves_objects) (object_list_of gn) (object_list_of gn')) by (unfold object_list_of; gb).
  assert (P : bs2 m false (tls m leaves_plist) (property_list_not_empty_of gn) (property_list_not_empty_of gn')).
  { unfold property_list_not_empty_of. eapply (bs_map _ _ (Forall2 (tls m leaves_verb_list))); [|vb]. eapply bs_terminated; [|gb]. eapply (bs_sep1 _ _ (tls m leaves_verb_list)); [gb|].
    eapply bs_map; [unfold separated_pair; eapply bs_pair; [gb|eapply bs_preceded; [gb|apply O]]|vb]. }
  unfold graph_node_body. apply bs_alt; [reflexivity| gb|apply bs_alt; [reflexivity| |apply bs_alt_nil]]. eapply (bs_map _ _ (tls m leaves_tnode)); [|vb].
  unfold triples_node_of. apply bs_alt; [reflexivity| |apply bs_alt; [reflexivity| |apply bs_alt_nil]].
  - eapply (bs_map _ _ (tls m leaves_collection)); [unfold collection_of; gb|vb].
  - eapply (bs_map _ _ (tls m leaves_plist)); [|vb]. unfold blank_node_property_list_of, delimited. eapply bs_preceded; [gb|]. eapply bs_terminated; [apply P|gb].
Qed.
Lemma bs_graph_node m : bs2 m false (tls m leaves_node) graph_node graph_node.
Proof. apply bs_fixp. intros p q. apply bs_graph_node_body. Qed.
Global Hint Resolve bs_graph_node : bs.
Lemma bs_object_list m : bs2 m false (tls m leaves_objects) object_list object_list.
Proof. unfold object_list, object_list_of. gb. Qed.
Global Hint Resolve bs_object_list : bs.
Lemma bs_verb_list m : bs2 m false (tls m leaves_verb_list) (Nom.map (separated_pair verb sp object_list) (fun '(v, l) => MkVerbList v l)) (Nom.map (separated_pair verb sp object_list) (fun '(v, l) => MkVerbList v l)).
Proof. gb. Qed.
Lemma bs_property_list m : bs2 m false (tls m leaves_plist) property_list_not_empty property_list_not_empty.
Proof.
  unfold property_list_not_empty, property_list_not_empty_of. eapply (bs_map _ _ (Forall2 (tls m leaves_verb_list))); [|vb]. eapply bs_terminated; [|gb].
  eapply (bs_sep1 _ _ (tls m leaves_verb_list)); [gb|apply bs_verb_list].
Qed.
Global Hint Resolve bs_property_list : bs.
Lemma bs_collection m : bs2 m false (tls m leaves_collection) collection collection.
Proof. unfold collection, collection_of. gb. Qed.
Lemma bs_bnpl m : bs2 m false (tls m leaves_plist) blank_node_property_list blank_node_property_list.
Proof. unfold blank_node_property_list, blank_node_property_list_of. change (property_list_not_empty_of graph_node) with property_list_not_empty. gb. Qed.
Lemma bs_triples_node m : bs2 m false (tls m leaves_tnode) triples_node triples_node.
Proof.
  unfold triples_node, triples_node_of. apply bs_alt; [reflexivity| |apply bs_alt; [reflexivity| |apply bs_alt_nil]].
  - eapply bs_map; [apply bs_collection|vb].
  - eapply bs_map; [apply bs_bnpl|vb].
Qed.
Global Hint Resolve bs_triples_node : bs.
Lemma bs_property_list_opt m : bs2 m false (mayb (tls m leaves_plist)) property_list property_list.
Proof. unfold property_list. gb. Qed.
Global Hint Resolve bs_property_list_opt : bs.
Lemma bs_tss m : bs2 m false (tls m leaves_tss) triples_same_subject triples_same_subject.
Proof. unfold triples_same_subject. gb. Qed.
Global Hint Resolve bs_tss : bs.
Lemma bs_template m : bs2 m false (tsp m (fun _ => leaves_template)) triples_template triples_template.
Proof.
  unfold triples_template. eapply bs_terminated; [|gb]. eapply (bs_txt _ _ (Forall2 (tls m leaves_tss))); [|gb].
  intros x y H. exact (tb_list m (fun _ => leaves_tss) x y H).
Qed.
Global Hint Resolve bs_template : bs.
Lemma bs_construct_template m : bs2 m false (tls m leaves_cons_template) construct_template construct_template.
Proof. unfold construct_template. gb. Qed.
Global Hint Resolve bs_construct_template : bs.


(** ** Paths *)
Lemma bs_path_one m : bs2 m false (tls m leaves_one) path_one_in_property_set path_one_in_property_set.
Proof. unfold path_one_in_property_set. gb. Qed.
Global Hint Resolve bs_path_one : bs.
Lemma bs_path_negated m : bs2 m false (tls m leaves_negated) path_negated_property_set path_negated_property_set.
Proof. unfold path_negated_property_set. gb. Qed.
Global Hint Resolve bs_path_negated : bs.

Lemma bs_path_mod_opt m : bs m false eq (opt (preceded sp1 path_mod)).
Proof. eapply (bs_txt _ _ (mayb eq)); [intros x y; apply may_eq|]. gb. Qed.
Lemma bs_path_body m pa pa' : bs2 m false (tls m leaves_path) pa pa' -> bs2 m false (tls m leaves_path) (path_alternative_body pa) (path_alternative_body pa').
Proof.
  intros H.
  assert (P : bs2 m false (tls m leaves_path_primary) (path_primary_of pa) (path_primary_of pa')).
  { unfold path_primary_of. do 3 (apply bs_alt; [reflexivity|gb|]). apply bs_alt; [reflexivity| |apply bs_alt_nil]. eapply (bs_map _ _ (tls m leaves_path)); [gb|vb]. }
  assert (T : bs2 m false (tls m leaves_elt) (path_elt_of pa) (path_elt_of pa')).
  { unfold path_elt_of. eapply bs_map; [eapply bs_pair; [exact P|apply bs_path_mod_opt]|]. intros [p o] [p' o'] [X Y]. cbn in *. subst o'.
    apply (tb_1 m (fun p => MkPathElt p o) (fun _ => leaves_path_primary)); [reflexivity|exact X]. }
  assert (I : bs2 m false (tls m leaves_elt_or_inverse) (path_elt_or_inverse_of pa) (path_elt_or_inverse_of pa')).
  { unfold path_elt_or_inverse_of. apply bs_alt; [reflexivity| |apply bs_alt; [reflexivity| |apply bs_alt_nil]].
    - eapply bs_map; [exact T|vb].
    - eapply bs_map; [eapply bs_preceded; [gb|exact T]|vb]. }
  assert (Q : bs2 m false (tls m leaves_sequence) (path_sequence_of pa) (path_sequence_of pa')).
  { unfold path_sequence_of. eapply bs_map; [eapply bs_sep1; [gb|exact I]|vb]. }
  unfold path_alternative_body. eapply bs_map; [eapply bs_sep1; [gb|exact Q]|vb].
Qed.
Lemma bs_path m : bs m false (tls m leaves_path) path_alternative.
Proof. apply bs_fixp. intros p q. apply bs_path_body. Qed.
Global Hint Resolve bs_path : bs.
Lemma bs_verb_path m : bs m false (tls m leaves_verb_path) verb_path_or_simple.
Proof. unfold verb_path_or_simple. gb. Qed.
Global Hint Resolve bs_verb_path : bs.
Lemma bs_entry m : bs m false (tls m leaves_plpe) property_list_path_entry.
Proof. unfold property_list_path_entry. gb. Qed.
Global Hint Resolve bs_entry : bs.
Lemma bs_semis m : bs2 m false any (many1 (sp_enc (chr (c_ ";")))) (many1 (sp_enc (chr (c_ ";")))).
Proof. apply (bs_any _ _ (Forall2 eq)). apply bs_many1; gb. Qed.
Lemma bs_plist_path_of m gnp gnp' : bs2 m false (tls m leaves_node_path) gnp gnp' -> bs2 m false (tls m leaves_plist_path) (property_list_path_not_empty_of gnp) (property_list_path_not_empty_of gnp').
Proof.
  intros H.
  unfold property_list_path_not_empty_of, tuple3. eapply (bs_map _ _ (both (tls m leaves_verb_path) (both (tls m leaves_objects_path) (Forall2 (tls m leaves_plpe))))); [|vb].
  eapply bs_pair; [gb|]. eapply bs_pair; [unfold object_list_path_of; gb|]. apply bs_many0. eapply bs_preceded; [apply bs_semis|apply bs_entry].
Qed.
Lemma bs_tnode_path m gnp gnp' : bs2 m false (tls m leaves_node_path) gnp gnp' -> bs2 m false (tls m leaves_tnode_path) (triples_node_path_of gnp) (triples_node_path_of gnp').
Proof.
  intros H. unfold triples_node_path_of. apply bs_alt; [reflexivity| |apply bs_alt; [reflexivity| |apply bs_alt_nil]].
  - eapply bs_map; [unfold blank_node_property_list_path_of, delimited; eapply bs_preceded; [gb|]; eapply bs_terminated; [apply bs_plist_path_of; exact H|gb]|vb].
  - eapply (bs_map _ _ (Forall2 (tls m leaves_node_path))); [|vb]. unfold delimited. eapply bs_preceded; [gb|]. eapply bs_terminated; [|gb]. apply bs_many1. exact H.
Qed.
Lemma bs_node_path m : bs m false (tls m leaves_node_path) graph_node_path.
Proof.
  apply bs_fixp. intros p q H. unfold graph_node_path_body. apply bs_alt; [reflexivity| gb|]. apply bs_alt; [reflexivity| |apply bs_alt_nil].
  eapply (bs_map _ _ (tls m leaves_tnode_path)); [|vb]. apply bs_tnode_path. exact H.
Qed.
Lemma bs_plist_path m : bs m false (tls m leaves_plist_path) property_list_path_not_empty.
Proof. apply bs_plist_path_of, bs_node_path. Qed.
Global Hint Resolve bs_node_path bs_plist_path : bs.
Lemma bs_plist_path_opt m : bs2 m false (mayb (tls m leaves_plist_path)) property_list_path property_list_path.
Proof. unfold property_list_path. gb. Qed.
Lemma bs_triples_node_path m : bs2 m false (tls m leaves_tnode_path) triples_node_path triples_node_path.
Proof. apply bs_tnode_path, bs_node_path. Qed.
Lemma bs_tssp m : bs2 m false (tls m leaves_tssp) triples_same_subject_path triples_same_subject_path.
Proof.
  unfold triples_same_subject_path. apply bs_alt; [reflexivity| |apply bs_alt; [reflexivity| |apply bs_alt_nil]].
  - eapply bs_map; [unfold sp_sep1, separated_pair; eapply bs_pair; [gb|eapply bs_preceded; [apply bs_sp1|apply bs_plist_path]]|vb].
  - eapply bs_map; [unfold sp_sep, separated_pair; eapply bs_pair; [apply bs_triples_node_path|eapply bs_preceded; [apply bs_sp|apply bs_plist_path_opt]]|vb].
Qed.
Global Hint Resolve bs_tssp : bs.
Lemma bs_block m : bs2 m false (tls m leaves_block) triples_block triples_block.
Proof. unfold triples_block. gb. Qed.
Global Hint Resolve bs_block : bs.
