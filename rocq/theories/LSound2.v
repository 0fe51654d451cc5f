(** Soundness of triples and paths. *)
From Verif Require Export LSound1.
Notation length := List.length (only parsing).
Open Scope N_scope.
Open Scope list_scope.

Ltac sdm p := unfold p; eapply sound_map; [sdv|]; write.
Ltac sdw p := unfold p; eapply sound_weaken; [sdv|]; write.

(** ** Triples *)
Section Triples.
  Context (gn : parser GraphNode) (Hgn : sound gn R_graph_node).
  Lemma sd_collection_of : sound (collection_of gn) R_collection.
  Proof using Hgn. sdm @collection_of. Qed.
  Lemma sd_object_list_of : sound (object_list_of gn) R_object_list.
  Proof using Hgn. sdm @object_list_of. Qed.
  Hint Resolve sd_collection_of sd_object_list_of : sound.
  Lemma sd_verb_list : sound (map (separated_pair verb sp (object_list_of gn)) (fun '(v, l) => MkVerbList v l)) R_verb_list.
  Proof using Hgn. eapply sound_map; [sdv|]; write. Qed.
  Hint Resolve sd_verb_list : sound.
  Lemma sd_property_list_not_empty_of : sound (property_list_not_empty_of gn) R_property_list.
  Proof using Hgn.
    unfold property_list_not_empty_of. eapply sound_map; [sdv|]. write.
  Qed.
  Hint Resolve sd_property_list_not_empty_of : sound.
  Lemma sd_blank_node_property_list_of : sound (blank_node_property_list_of gn) (fun p => R_triples_node (TnBlankNodePropertyList p)).
  Proof using Hgn. sdw @blank_node_property_list_of. Qed.
  Hint Resolve sd_blank_node_property_list_of : sound.
  Lemma sd_triples_node_of : sound (triples_node_of gn) R_triples_node.
  Proof using Hgn. unfold triples_node_of. alts; (eapply sound_map; [sdv|]); auto. Qed.
  Hint Resolve sd_triples_node_of : sound.
  Lemma sd_graph_node_body : sound (graph_node_body gn) R_graph_node.
  Proof using Hgn. unfold graph_node_body. alts; (eapply sound_map; [sdv|]); auto. Qed.
End Triples.
Lemma sd_graph_node : sound graph_node R_graph_node.
Proof. apply sound_fixp. exact sd_graph_node_body. Qed.
#[export] Hint Resolve sd_graph_node : sound.
Lemma sd_collection : sound collection R_collection.
Proof. apply sd_collection_of, sd_graph_node. Qed.
Lemma sd_object_list : sound object_list R_object_list.
Proof. apply sd_object_list_of, sd_graph_node. Qed.
Lemma sd_property_list_not_empty : sound property_list_not_empty R_property_list.
Proof. apply sd_property_list_not_empty_of, sd_graph_node. Qed.
Lemma sd_blank_node_property_list : sound blank_node_property_list (fun p => R_triples_node (TnBlankNodePropertyList p)).
Proof. apply sd_blank_node_property_list_of, sd_graph_node. Qed.
Lemma sd_triples_node : sound triples_node R_triples_node.
Proof. apply sd_triples_node_of, sd_graph_node. Qed.
Lemma sd_property_list : sound property_list (opt_ R_property_list).
Proof. apply sound_opt, sd_property_list_not_empty. Qed.
#[export] Hint Resolve sd_object_list sd_property_list_not_empty sd_triples_node sd_property_list : sound.
Lemma sd_triples_same_subject : sound triples_same_subject R_tss.
Proof. sda triples_same_subject. Qed.
#[export] Hint Resolve sd_triples_same_subject : sound.
Lemma sd_triples_template : sound triples_template R_template.
Proof. unfold triples_template, TriplesTemplate. eapply sound_weaken; [sdv|]; write. Qed.
#[export] Hint Resolve sd_triples_template : sound.
Lemma sd_construct_template : sound construct_template R_construct_template.
Proof. sdm @construct_template. Qed.
#[export] Hint Resolve sd_construct_template : sound.

(** ** Paths *)
Lemma sd_path_mod : sound path_mod R_mod.
Proof.
  intros i r m E. unfold path_mod in E. destruct i as [|c i]; [discriminate|].
  destruct (split_at 1 (c :: i)) as [[h r']|] eqn:S; [|discriminate]. apply split_at_app in S. destruct S as [-> _].
  destruct (path_mod_from_str h) as [m'|] eqn:P; [|discriminate]. injection E as -> ->. exists h. split; [reflexivity|].
  unfold path_mod_from_str in P. destruct (str_eqb h (s_ "?")) eqn:E1; [apply str_eqb_eq in E1; now injection P as <-|].
  destruct (str_eqb h (s_ "*")) eqn:E2; [apply str_eqb_eq in E2; now injection P as <-|].
  destruct (str_eqb h (s_ "+")) eqn:E3; [apply str_eqb_eq in E3; now injection P as <-|]. discriminate.
Qed.
#[export] Hint Resolve sd_path_mod : sound.
Lemma sd_path_one : sound path_one_in_property_set (fun '(MkPathOneInPropertySet i) => R_iri_or_a_or_caret i).
Proof. unfold path_one_in_property_set. eapply sound_map; [sdv|]. auto. Qed.
#[export] Hint Resolve sd_path_one : sound.
Lemma sd_path_negated_property_set : sound path_negated_property_set R_negated.
Proof. sdm @path_negated_property_set. Qed.
#[export] Hint Resolve sd_path_negated_property_set : sound.
Section Paths.
  Context (pa : parser PathAlternative) (Hpa : sound pa R_path).
  Lemma sd_path_primary_of : sound (path_primary_of pa) R_path_primary.
  Proof using Hpa. unfold path_primary_of. alts; (eapply sound_map; [sdv|]); write. Qed.
  Hint Resolve sd_path_primary_of : sound.
  Lemma sd_path_elt_of : sound (path_elt_of pa) R_elt.
  Proof using Hpa. sdm @path_elt_of. Qed.
  Hint Resolve sd_path_elt_of : sound.
  Lemma sd_path_elt_or_inverse_of : sound (path_elt_or_inverse_of pa) R_elt_or_inverse.
  Proof using Hpa. unfold path_elt_or_inverse_of. alts; (eapply sound_map; [sdv|]); write. Qed.
  Hint Resolve sd_path_elt_or_inverse_of : sound.
  Lemma sd_path_sequence_of : sound (path_sequence_of pa) R_sequence.
  Proof using Hpa. sdm @path_sequence_of. Qed.
  Hint Resolve sd_path_sequence_of : sound.
  Lemma sd_path_alternative_body : sound (path_alternative_body pa) R_path.
  Proof using Hpa. sdm @path_alternative_body. Qed.
End Paths.
Lemma sd_path_alternative : sound path_alternative R_path.
Proof. apply sound_fixp. exact sd_path_alternative_body. Qed.
#[export] Hint Resolve sd_path_alternative : sound.
Lemma sd_verb_path_or_simple : sound verb_path_or_simple R_verb_path.
Proof. sda verb_path_or_simple. Qed.
#[export] Hint Resolve sd_verb_path_or_simple : sound.
Lemma sd_property_list_path_entry : sound property_list_path_entry R_plpe.
Proof. sdm @property_list_path_entry. Qed.
#[export] Hint Resolve sd_property_list_path_entry : sound.
Section TriplesPath.
  Context (gn : parser GraphNodePath) (Hgn : sound gn R_graph_node_path).
  Lemma sd_object_list_path_of : sound (object_list_path_of gn) R_object_list_path.
  Proof using Hgn. sdm @object_list_path_of. Qed.
  Hint Resolve sd_object_list_path_of : sound.
  Lemma sd_property_list_path_not_empty_of : sound (property_list_path_not_empty_of gn) R_property_list_path.
  Proof using Hgn. sdm @property_list_path_not_empty_of. Qed.
  Hint Resolve sd_property_list_path_not_empty_of : sound.
  Lemma sd_blank_node_property_list_path_of : sound (blank_node_property_list_path_of gn) (fun p => R_triples_node_path (TnpBlankNodePropertyListPath p)).
  Proof using Hgn. sdw @blank_node_property_list_path_of. Qed.
  Hint Resolve sd_blank_node_property_list_path_of : sound.
  Lemma sd_triples_node_path_of : sound (triples_node_path_of gn) R_triples_node_path.
  Proof using Hgn. unfold triples_node_path_of. alts; (eapply sound_map; [sdv|]); [auto|write]. Qed.
  Hint Resolve sd_triples_node_path_of : sound.
  Lemma sd_graph_node_path_body : sound (graph_node_path_body gn) R_graph_node_path.
  Proof using Hgn. unfold graph_node_path_body. alts; (eapply sound_map; [sdv|]); auto. Qed.
End TriplesPath.
Lemma sd_graph_node_path : sound graph_node_path R_graph_node_path.
Proof. apply sound_fixp. exact sd_graph_node_path_body. Qed.
#[export] Hint Resolve sd_graph_node_path : sound.
Lemma sd_object_list_path : sound object_list_path R_object_list_path.
Proof. apply sd_object_list_path_of, sd_graph_node_path. Qed.
Lemma sd_property_list_path_not_empty : sound property_list_path_not_empty R_property_list_path.
Proof. apply sd_property_list_path_not_empty_of, sd_graph_node_path. Qed.
Lemma sd_triples_node_path : sound triples_node_path R_triples_node_path.
Proof. apply sd_triples_node_path_of, sd_graph_node_path. Qed.
Lemma sd_property_list_path : sound property_list_path (opt_ R_property_list_path).
Proof. apply sound_opt, sd_property_list_path_not_empty. Qed.
#[export] Hint Resolve sd_object_list_path sd_property_list_path_not_empty sd_triples_node_path sd_property_list_path : sound.
Lemma sd_triples_same_subject_path : sound triples_same_subject_path R_tssp.
Proof. sda triples_same_subject_path. Qed.
#[export] Hint Resolve sd_triples_same_subject_path : sound.
Lemma sd_triples_block : sound triples_block R_triples_block.
Proof. sdm @triples_block. Qed.
#[export] Hint Resolve sd_triples_block : sound.
