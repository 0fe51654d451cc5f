(** Where hard failures come from: every parser of the crate. *)
From Verif Require Export LFail.
From Verif Require Import LSound1 LTok LMono LC8 LMods.
From Verif Require Import Nom.
Notation length := List.length (only parsing).
Open Scope N_scope.
Open Scope list_scope.

Lemma hf_new_line : hf new_line.
Proof. intros. unfold new_line. hv. Qed.
#[export] Hint Resolve hf_new_line : hf.
Lemma hf_sp : hf sp.
Proof. intros. unfold sp. hv. Qed.
#[export] Hint Resolve hf_sp : hf.
Lemma hf_sp1 : hf sp1.
Proof. intros. unfold sp1. hv. Qed.
#[export] Hint Resolve hf_sp1 : hf.
Lemma hf_bracketted {A} (pat : parser A) : hf pat -> hf (bracketted pat).
Proof. intros. unfold bracketted. hv. Qed.
#[export] Hint Resolve hf_bracketted : hf.
Lemma hf_preceded_tag {A} (t : str) (pat : parser A) : hf pat -> hf (preceded_tag t pat).
Proof. intros. unfold preceded_tag. hv. Qed.
#[export] Hint Resolve hf_preceded_tag : hf.
Lemma hf_preceded_bracketted {A} (t : str) (pat : parser A) : hf pat -> hf (preceded_bracketted t pat).
Proof. intros. unfold preceded_bracketted. hv. Qed.
#[export] Hint Resolve hf_preceded_bracketted : hf.
Lemma hf_preceded_tag1 {A} (t : str) (pat : parser A) : hf pat -> hf (preceded_tag1 t pat).
Proof. intros. unfold preceded_tag1. hv. Qed.
#[export] Hint Resolve hf_preceded_tag1 : hf.
Lemma hf_sp_enc {A} (pat : parser A) : hf pat -> hf (sp_enc pat).
Proof. intros. unfold sp_enc. hv. Qed.
#[export] Hint Resolve hf_sp_enc : hf.
Lemma hf_sp_enc1 {A} (pat : parser A) : hf pat -> hf (sp_enc1 pat).
Proof. intros. unfold sp_enc1. hv. Qed.
#[export] Hint Resolve hf_sp_enc1 : hf.
Lemma hf_sp_sep1 {A B} (p : parser A) (q : parser B) : hf p -> hf q -> hf (sp_sep1 p q).
Proof. intros. unfold sp_sep1. hv. Qed.
#[export] Hint Resolve hf_sp_sep1 : hf.
Lemma hf_sp_sep {A B} (p : parser A) (q : parser B) : hf p -> hf q -> hf (sp_sep p q).
Proof. intros. unfold sp_sep. hv. Qed.
#[export] Hint Resolve hf_sp_sep : hf.
Lemma hf_string_content : hf string_content.
Proof. intros. unfold string_content. hv. Qed.
#[export] Hint Resolve hf_string_content : hf.
Lemma hf_string_literal : hf string_literal.
Proof. intros. unfold string_literal. hv. Qed.
#[export] Hint Resolve hf_string_literal : hf.
Lemma hf_language_tag : hf language_tag.
Proof. intros. unfold language_tag. hv. Qed.
#[export] Hint Resolve hf_language_tag : hf.
Lemma hf_echar : hf echar.
Proof. intros. unfold echar. hv. Qed.
#[export] Hint Resolve hf_echar : hf.
Lemma hf_pn_chars_base_one : hf pn_chars_base_one.
Proof. intros. unfold pn_chars_base_one. hv. Qed.
#[export] Hint Resolve hf_pn_chars_base_one : hf.
Lemma hf_pn_chars_base1 : hf pn_chars_base1.
Proof. intros. unfold pn_chars_base1. hv. Qed.
#[export] Hint Resolve hf_pn_chars_base1 : hf.
Lemma hf_pn_chars_u_one : hf pn_chars_u_one.
Proof. intros. unfold pn_chars_u_one. hv. Qed.
#[export] Hint Resolve hf_pn_chars_u_one : hf.
Lemma hf_pn_chars_u1 : hf pn_chars_u1.
Proof. intros. unfold pn_chars_u1. hv. Qed.
#[export] Hint Resolve hf_pn_chars_u1 : hf.
Lemma hf_pn_chars_one : hf pn_chars_one.
Proof. intros. unfold pn_chars_one. hv. Qed.
#[export] Hint Resolve hf_pn_chars_one : hf.
Lemma hf_pn_chars1 : hf pn_chars1.
Proof. intros. unfold pn_chars1. hv. Qed.
#[export] Hint Resolve hf_pn_chars1 : hf.
Lemma hf_pn_chars_tail : hf pn_chars_tail.
Proof. intros. unfold pn_chars_tail. hv. Qed.
#[export] Hint Resolve hf_pn_chars_tail : hf.
Lemma hf_hex_primary : hf hex_primary.
Proof. intros. unfold hex_primary. hv. Qed.
#[export] Hint Resolve hf_hex_primary : hf.
Lemma hf_plx : hf plx.
Proof. intros. unfold plx. hv. Qed.
#[export] Hint Resolve hf_plx : hf.
Lemma hf_pn_local : hf pn_local.
Proof. intros. unfold pn_local. hv. Qed.
#[export] Hint Resolve hf_pn_local : hf.
Lemma hf_pn_prefix : hf pn_prefix.
Proof. intros. unfold pn_prefix. hv. Qed.
#[export] Hint Resolve hf_pn_prefix : hf.
Lemma hf_pname_ns : hf pname_ns.
Proof. intros. unfold pname_ns. hv. Qed.
#[export] Hint Resolve hf_pname_ns : hf.
Lemma hf_pname_ln : hf pname_ln.
Proof. intros. unfold pname_ln. hv. Qed.
#[export] Hint Resolve hf_pname_ln : hf.
Lemma hf_prefixed_name : hf prefixed_name.
Proof. intros. unfold prefixed_name. hv. Qed.
#[export] Hint Resolve hf_prefixed_name : hf.
Lemma hf_iri_ref : hf iri_ref.
Proof. intros. unfold iri_ref. hv. Qed.
#[export] Hint Resolve hf_iri_ref : hf.
Lemma hf_iri : hf iri.
Proof. intros. unfold iri. hv. Qed.
#[export] Hint Resolve hf_iri : hf.
Lemma hf_named_iri : hf named_iri.
Proof. intros. unfold named_iri. hv. Qed.
#[export] Hint Resolve hf_named_iri : hf.
Lemma hf_default_or_named_iri : hf default_or_named_iri.
Proof. intros. unfold default_or_named_iri. hv. Qed.
#[export] Hint Resolve hf_default_or_named_iri : hf.
Lemma hf_base_decl : hf base_decl.
Proof. intros. unfold base_decl. hv. Qed.
#[export] Hint Resolve hf_base_decl : hf.
Lemma hf_prefix_decl : hf prefix_decl.
Proof. intros. unfold prefix_decl. hv. Qed.
#[export] Hint Resolve hf_prefix_decl : hf.
Lemma hf_prologue : hf prologue.
Proof. intros. unfold prologue. hv. Qed.
#[export] Hint Resolve hf_prologue : hf.
Lemma hf_rdf_literal : hf rdf_literal.
Proof. intros. unfold rdf_literal. hv. Qed.
#[export] Hint Resolve hf_rdf_literal : hf.
Lemma hf_string_literal_arg : hf string_literal_arg.
Proof. intros. unfold string_literal_arg. hv. Qed.
#[export] Hint Resolve hf_string_literal_arg : hf.
Lemma hf_silent : hf silent.
Proof. intros. unfold silent. hv. Qed.
#[export] Hint Resolve hf_silent : hf.
Lemma hf_distinct : hf distinct.
Proof. intros. unfold distinct. hv. Qed.
#[export] Hint Resolve hf_distinct : hf.
Lemma hf_boolean : hf boolean.
Proof. intros. unfold boolean. hv. Qed.
#[export] Hint Resolve hf_boolean : hf.
Lemma hf_opt_silent : hf opt_silent.
Proof. intros. unfold opt_silent. hv. Qed.
#[export] Hint Resolve hf_opt_silent : hf.
Lemma hf_opt_distinct : hf opt_distinct.
Proof. intros. unfold opt_distinct. hv. Qed.
#[export] Hint Resolve hf_opt_distinct : hf.
Lemma hf_sign : hf sign.
Proof. intros. unfold sign. hv. Qed.
#[export] Hint Resolve hf_sign : hf.
Lemma hf_opt_sign : hf opt_sign.
Proof. intros. unfold opt_sign. hv. Qed.
#[export] Hint Resolve hf_opt_sign : hf.
Lemma hf_recognize_sparql_float : hf recognize_sparql_float.
Proof. intros. unfold recognize_sparql_float. hv. Qed.
#[export] Hint Resolve hf_recognize_sparql_float : hf.
Lemma hf_numeric_literal : hf numeric_literal.
Proof. intros. unfold numeric_literal. hv. Qed.
#[export] Hint Resolve hf_numeric_literal : hf.
Lemma hf_var_name : hf var_name.
Proof. intros. unfold var_name. hv. Qed.
#[export] Hint Resolve hf_var_name : hf.
Lemma hf_var : hf var.
Proof. intros. unfold var. hv. Qed.
#[export] Hint Resolve hf_var : hf.
Lemma hf_var_or_iri : hf var_or_iri.
Proof. intros. unfold var_or_iri. hv. Qed.
#[export] Hint Resolve hf_var_or_iri : hf.
Lemma hf_verb : hf verb.
Proof. intros. unfold verb. hv. Qed.
#[export] Hint Resolve hf_verb : hf.
Lemma hf_var_or_iris_or_all : hf var_or_iris_or_all.
Proof. intros. unfold var_or_iris_or_all. hv. Qed.
#[export] Hint Resolve hf_var_or_iris_or_all : hf.
Lemma hf_blank_node : hf blank_node.
Proof. intros. unfold blank_node. hv. Qed.
#[export] Hint Resolve hf_blank_node : hf.
Lemma hf_graph_term : hf graph_term.
Proof. intros. unfold graph_term. hv. Qed.
#[export] Hint Resolve hf_graph_term : hf.
Lemma hf_var_or_term : hf var_or_term.
Proof. intros. unfold var_or_term. hv. Qed.
#[export] Hint Resolve hf_var_or_term : hf.
Lemma hf_graph_ref : hf graph_ref.
Proof. intros. unfold graph_ref. hv. Qed.
#[export] Hint Resolve hf_graph_ref : hf.
Lemma hf_graph_or_default : hf graph_or_default.
Proof. intros. unfold graph_or_default. hv. Qed.
#[export] Hint Resolve hf_graph_or_default : hf.
Lemma hf_graph_ref_all : hf graph_ref_all.
Proof. intros. unfold graph_ref_all. hv. Qed.
#[export] Hint Resolve hf_graph_ref_all : hf.
Lemma hf_iri_or_a : hf iri_or_a.
Proof. intros. unfold iri_or_a. hv. Qed.
#[export] Hint Resolve hf_iri_or_a : hf.
Lemma hf_iri_or_a_or_caret : hf iri_or_a_or_caret.
Proof. intros. unfold iri_or_a_or_caret. hv. Qed.
#[export] Hint Resolve hf_iri_or_a_or_caret : hf.
Lemma hf_data_set_clause : hf data_set_clause.
Proof. intros. unfold data_set_clause. hv. Qed.
#[export] Hint Resolve hf_data_set_clause : hf.
Lemma hf_datablock_value : hf datablock_value.
Proof. intros. unfold datablock_value. hv. Qed.
#[export] Hint Resolve hf_datablock_value : hf.
Lemma hf_inline_data_one_var : hf inline_data_one_var.
Proof. intros. unfold inline_data_one_var. hv. Qed.
#[export] Hint Resolve hf_inline_data_one_var : hf.
Lemma hf_inline_data_full : hf inline_data_full.
Proof. intros. unfold inline_data_full. hv. Qed.
#[export] Hint Resolve hf_inline_data_full : hf.
Lemma hf_datablock : hf datablock.
Proof. intros. unfold datablock. hv. Qed.
#[export] Hint Resolve hf_datablock : hf.
Lemma hf_inline_data : hf inline_data.
Proof. intros. unfold inline_data. hv. Qed.
#[export] Hint Resolve hf_inline_data : hf.
Lemma hf_values_clause : hf values_clause.
Proof. intros. unfold values_clause. hv. Qed.
#[export] Hint Resolve hf_values_clause : hf.
Lemma hf_int_clause (pat : parser str) : hf pat -> hf (int_clause pat).
Proof. intros. unfold int_clause. hv. Qed.
#[export] Hint Resolve hf_int_clause : hf.
Lemma hf_limit_clause : hf limit_clause.
Proof. intros. unfold limit_clause. hv. Qed.
#[export] Hint Resolve hf_limit_clause : hf.
Lemma hf_offset_clause : hf offset_clause.
Proof. intros. unfold offset_clause. hv. Qed.
#[export] Hint Resolve hf_offset_clause : hf.
Lemma hf_limit_offset_clause : hf limit_offset_clause.
Proof. intros. unfold limit_offset_clause. hv. Qed.
#[export] Hint Resolve hf_limit_offset_clause : hf.
Lemma hf_using_clause : hf using_clause.
Proof. intros. unfold using_clause. hv. Qed.
#[export] Hint Resolve hf_using_clause : hf.
Lemma hf_collection_of (gn : parser GraphNode) : hf gn -> hf (collection_of gn).
Proof. intros. unfold collection_of. hv. Qed.
#[export] Hint Resolve hf_collection_of : hf.
Lemma hf_object_list_of (gn : parser GraphNode) : hf gn -> hf (object_list_of gn).
Proof. intros. unfold object_list_of. hv. Qed.
#[export] Hint Resolve hf_object_list_of : hf.
Lemma hf_property_list_not_empty_of (gn : parser GraphNode) : hf gn -> hf (property_list_not_empty_of gn).
Proof. intros. unfold property_list_not_empty_of. hv. Qed.
#[export] Hint Resolve hf_property_list_not_empty_of : hf.
Lemma hf_blank_node_property_list_of (gn : parser GraphNode) : hf gn -> hf (blank_node_property_list_of gn).
Proof. intros. unfold blank_node_property_list_of. hv. Qed.
#[export] Hint Resolve hf_blank_node_property_list_of : hf.
Lemma hf_triples_node_of (gn : parser GraphNode) : hf gn -> hf (triples_node_of gn).
Proof. intros. unfold triples_node_of. hv. Qed.
#[export] Hint Resolve hf_triples_node_of : hf.
Lemma hf_graph_node_body (gn : parser GraphNode) : hf gn -> hf (graph_node_body gn).
Proof. intros. unfold graph_node_body. hv. Qed.
#[export] Hint Resolve hf_graph_node_body : hf.
Lemma hf_graph_node : hf graph_node.
Proof. intros. unfold graph_node. apply hf_fixp. intros. hv. Qed.
#[export] Hint Resolve hf_graph_node : hf.
Lemma hf_collection : hf collection.
Proof. intros. unfold collection. hv. Qed.
#[export] Hint Resolve hf_collection : hf.
Lemma hf_object_list : hf object_list.
Proof. intros. unfold object_list. hv. Qed.
#[export] Hint Resolve hf_object_list : hf.
Lemma hf_property_list_not_empty : hf property_list_not_empty.
Proof. intros. unfold property_list_not_empty. hv. Qed.
#[export] Hint Resolve hf_property_list_not_empty : hf.
Lemma hf_blank_node_property_list : hf blank_node_property_list.
Proof. intros. unfold blank_node_property_list. hv. Qed.
#[export] Hint Resolve hf_blank_node_property_list : hf.
Lemma hf_triples_node : hf triples_node.
Proof. intros. unfold triples_node. hv. Qed.
#[export] Hint Resolve hf_triples_node : hf.
Lemma hf_property_list : hf property_list.
Proof. intros. unfold property_list. hv. Qed.
#[export] Hint Resolve hf_property_list : hf.
Lemma hf_triples_same_subject : hf triples_same_subject.
Proof. intros. unfold triples_same_subject. hv. Qed.
#[export] Hint Resolve hf_triples_same_subject : hf.
Lemma hf_triples_template : hf triples_template.
Proof. intros. unfold triples_template. hv. Qed.
#[export] Hint Resolve hf_triples_template : hf.
Lemma hf_construct_template : hf construct_template.
Proof. intros. unfold construct_template. hv. Qed.
#[export] Hint Resolve hf_construct_template : hf.
Lemma hf_path_one_in_property_set : hf path_one_in_property_set.
Proof. intros. unfold path_one_in_property_set. hv. Qed.
#[export] Hint Resolve hf_path_one_in_property_set : hf.
Lemma hf_path_negated_property_set : hf path_negated_property_set.
Proof. intros. unfold path_negated_property_set. hv. Qed.
#[export] Hint Resolve hf_path_negated_property_set : hf.
Lemma hf_path_primary_of (pa : parser PathAlternative) : hf pa -> hf (path_primary_of pa).
Proof. intros. unfold path_primary_of. hv. Qed.
#[export] Hint Resolve hf_path_primary_of : hf.
Lemma hf_path_elt_of (pa : parser PathAlternative) : hf pa -> hf (path_elt_of pa).
Proof. intros. unfold path_elt_of. hv. Qed.
#[export] Hint Resolve hf_path_elt_of : hf.
Lemma hf_path_elt_or_inverse_of (pa : parser PathAlternative) : hf pa -> hf (path_elt_or_inverse_of pa).
Proof. intros. unfold path_elt_or_inverse_of. hv. Qed.
#[export] Hint Resolve hf_path_elt_or_inverse_of : hf.
Lemma hf_path_sequence_of (pa : parser PathAlternative) : hf pa -> hf (path_sequence_of pa).
Proof. intros. unfold path_sequence_of. hv. Qed.
#[export] Hint Resolve hf_path_sequence_of : hf.
Lemma hf_path_alternative_body (pa : parser PathAlternative) : hf pa -> hf (path_alternative_body pa).
Proof. intros. unfold path_alternative_body. hv. Qed.
#[export] Hint Resolve hf_path_alternative_body : hf.
Lemma hf_path_alternative : hf path_alternative.
Proof. intros. unfold path_alternative. apply hf_fixp. intros. hv. Qed.
#[export] Hint Resolve hf_path_alternative : hf.
Lemma hf_path_primary : hf path_primary.
Proof. intros. unfold path_primary. hv. Qed.
#[export] Hint Resolve hf_path_primary : hf.
Lemma hf_path_elt : hf path_elt.
Proof. intros. unfold path_elt. hv. Qed.
#[export] Hint Resolve hf_path_elt : hf.
Lemma hf_path_elt_or_inverse : hf path_elt_or_inverse.
Proof. intros. unfold path_elt_or_inverse. hv. Qed.
#[export] Hint Resolve hf_path_elt_or_inverse : hf.
Lemma hf_path_sequence : hf path_sequence.
Proof. intros. unfold path_sequence. hv. Qed.
#[export] Hint Resolve hf_path_sequence : hf.
Lemma hf_verb_path_or_simple : hf verb_path_or_simple.
Proof. intros. unfold verb_path_or_simple. hv. Qed.
#[export] Hint Resolve hf_verb_path_or_simple : hf.
Lemma hf_property_list_path_entry : hf property_list_path_entry.
Proof. intros. unfold property_list_path_entry. hv. Qed.
#[export] Hint Resolve hf_property_list_path_entry : hf.
Lemma hf_object_list_path_of (gnp : parser GraphNodePath) : hf gnp -> hf (object_list_path_of gnp).
Proof. intros. unfold object_list_path_of. hv. Qed.
#[export] Hint Resolve hf_object_list_path_of : hf.
Lemma hf_property_list_path_not_empty_of (gnp : parser GraphNodePath) : hf gnp -> hf (property_list_path_not_empty_of gnp).
Proof. intros. unfold property_list_path_not_empty_of. hv. Qed.
#[export] Hint Resolve hf_property_list_path_not_empty_of : hf.
Lemma hf_blank_node_property_list_path_of (gnp : parser GraphNodePath) : hf gnp -> hf (blank_node_property_list_path_of gnp).
Proof. intros. unfold blank_node_property_list_path_of. hv. Qed.
#[export] Hint Resolve hf_blank_node_property_list_path_of : hf.
Lemma hf_triples_node_path_of (gnp : parser GraphNodePath) : hf gnp -> hf (triples_node_path_of gnp).
Proof. intros. unfold triples_node_path_of. hv. Qed.
#[export] Hint Resolve hf_triples_node_path_of : hf.
Lemma hf_graph_node_path_body (gnp : parser GraphNodePath) : hf gnp -> hf (graph_node_path_body gnp).
Proof. intros. unfold graph_node_path_body. hv. Qed.
#[export] Hint Resolve hf_graph_node_path_body : hf.
Lemma hf_graph_node_path : hf graph_node_path.
Proof. intros. unfold graph_node_path. apply hf_fixp. intros. hv. Qed.
#[export] Hint Resolve hf_graph_node_path : hf.
Lemma hf_object_list_path : hf object_list_path.
Proof. intros. unfold object_list_path. hv. Qed.
#[export] Hint Resolve hf_object_list_path : hf.
Lemma hf_property_list_path_not_empty : hf property_list_path_not_empty.
Proof. intros. unfold property_list_path_not_empty. hv. Qed.
#[export] Hint Resolve hf_property_list_path_not_empty : hf.
Lemma hf_blank_node_property_list_path : hf blank_node_property_list_path.
Proof. intros. unfold blank_node_property_list_path. hv. Qed.
#[export] Hint Resolve hf_blank_node_property_list_path : hf.
Lemma hf_triples_node_path : hf triples_node_path.
Proof. intros. unfold triples_node_path. hv. Qed.
#[export] Hint Resolve hf_triples_node_path : hf.
Lemma hf_property_list_path : hf property_list_path.
Proof. intros. unfold property_list_path. hv. Qed.
#[export] Hint Resolve hf_property_list_path : hf.
Lemma hf_triples_same_subject_path : hf triples_same_subject_path.
Proof. intros. unfold triples_same_subject_path. hv. Qed.
#[export] Hint Resolve hf_triples_same_subject_path : hf.
Lemma hf_triples_block : hf triples_block.
Proof. intros. unfold triples_block. hv. Qed.
#[export] Hint Resolve hf_triples_block : hf.
Lemma hf_comma : hf comma.
Proof. intros. unfold comma. hv. Qed.
#[export] Hint Resolve hf_comma : hf.
Lemma hf_expr2_of {E} (e : parser E) : hf e -> hf (expr2_of e).
Proof. intros. unfold expr2_of. hv. Qed.
#[export] Hint Resolve hf_expr2_of : hf.
Lemma hf_bracketted_expr3_of {E} (e : parser E) : hf e -> hf (bracketted_expr3_of e).
Proof. intros. unfold bracketted_expr3_of. hv. Qed.
#[export] Hint Resolve hf_bracketted_expr3_of : hf.
Lemma hf_expression_as_var_opt_of {E} (e : parser E) : hf e -> hf (expression_as_var_opt_of e).
Proof. intros. unfold expression_as_var_opt_of. hv. Qed.
#[export] Hint Resolve hf_expression_as_var_opt_of : hf.
Lemma hf_expression_as_var_of {E} (e : parser E) : hf e -> hf (expression_as_var_of e).
Proof. intros. unfold expression_as_var_of. hv. Qed.
#[export] Hint Resolve hf_expression_as_var_of : hf.
Lemma hf_expression_list_of {E} (e : parser E) : hf e -> hf (expression_list_of e).
Proof. intros. unfold expression_list_of. hv. Qed.
#[export] Hint Resolve hf_expression_list_of : hf.
Lemma hf_distinct_expression_of {E} (e : parser E) : hf e -> hf (distinct_expression_of e).
Proof. intros. unfold distinct_expression_of. hv. Qed.
#[export] Hint Resolve hf_distinct_expression_of : hf.
Lemma hf_bracketted_expression_of {E} (e : parser E) : hf e -> hf (bracketted_expression_of e).
Proof. intros. unfold bracketted_expression_of. hv. Qed.
#[export] Hint Resolve hf_bracketted_expression_of : hf.
Lemma hf_bind_of {E} (e : parser E) : hf e -> hf (bind_of e).
Proof. intros. unfold bind_of. hv. Qed.
#[export] Hint Resolve hf_bind_of : hf.
Lemma hf_arg_list_of {E} (e : parser E) : hf e -> hf (arg_list_of e).
Proof. intros. unfold arg_list_of. hv. Qed.
#[export] Hint Resolve hf_arg_list_of : hf.
Lemma hf_function_call_of {E} (e : parser E) : hf e -> hf (function_call_of e).
Proof. intros. unfold function_call_of. hv. Qed.
#[export] Hint Resolve hf_function_call_of : hf.
Lemma hf_iri_or_fun_of {E} (e : parser E) : hf e -> hf (iri_or_fun_of e).
Proof. intros. unfold iri_or_fun_of. hv. Qed.
#[export] Hint Resolve hf_iri_or_fun_of : hf.
Lemma hf_regex_expression_of {E} (e : parser E) : hf e -> hf (regex_expression_of e).
Proof. intros. unfold regex_expression_of. hv. Qed.
#[export] Hint Resolve hf_regex_expression_of : hf.
Lemma hf_substring_expression_of {E} (e : parser E) : hf e -> hf (substring_expression_of e).
Proof. intros. unfold substring_expression_of. hv. Qed.
#[export] Hint Resolve hf_substring_expression_of : hf.
Lemma hf_str_replace_expression_of {E} (e : parser E) : hf e -> hf (str_replace_expression_of e).
Proof. intros. unfold str_replace_expression_of. hv. Qed.
#[export] Hint Resolve hf_str_replace_expression_of : hf.
Lemma hf_count_target_of {E} (e : parser E) : hf e -> hf (count_target_of e).
Proof. intros. unfold count_target_of. hv. Qed.
#[export] Hint Resolve hf_count_target_of : hf.
Lemma hf_count_of {E} (e : parser E) : hf e -> hf (count_of e).
Proof. intros. unfold count_of. hv. Qed.
#[export] Hint Resolve hf_count_of : hf.
Lemma hf_group_concat_of {E} (e : parser E) : hf e -> hf (group_concat_of e).
Proof. intros. unfold group_concat_of. hv. Qed.
#[export] Hint Resolve hf_group_concat_of : hf.
Lemma hf_aggregate_of {E} (e : parser E) : hf e -> hf (aggregate_of e).
Proof. intros. unfold aggregate_of. hv. Qed.
#[export] Hint Resolve hf_aggregate_of : hf.
Lemma hf_call1 {E G} (e : parser E) (name : str) (k : E -> BuiltInCall E G) : hf e -> hf (call1 e name k).
Proof. intros. unfold call1. hv. Qed.
#[export] Hint Resolve hf_call1 : hf.
Lemma hf_call2 {E G} (e : parser E) (name : str) (k : E -> E -> BuiltInCall E G) : hf e -> hf (call2 e name k).
Proof. intros. unfold call2. hv. Qed.
#[export] Hint Resolve hf_call2 : hf.
Lemma hf_call0 {E G} (name : str) (k : BuiltInCall E G) : hf (call0 name k).
Proof. intros. unfold call0. hv. Qed.
#[export] Hint Resolve hf_call0 : hf.
Lemma hf_built_in_call_1_of {E G} (e : parser E) : hf e -> hf (@built_in_call_1_of E G e).
Proof. intros. unfold built_in_call_1_of. hv. Qed.
#[export] Hint Resolve hf_built_in_call_1_of : hf.
Lemma hf_built_in_call_2_of {E G} (e : parser E) : hf e -> hf (@built_in_call_2_of E G e).
Proof. intros. unfold built_in_call_2_of. hv. Qed.
#[export] Hint Resolve hf_built_in_call_2_of : hf.
Lemma hf_built_in_call_of {E G} (e : parser E) (g : parser G) : hf e -> hf g -> hf (built_in_call_of e g).
Proof. intros. unfold built_in_call_of. hv. Qed.
#[export] Hint Resolve hf_built_in_call_of : hf.
Lemma hf_primary_expression_of {E G} (e : parser E) (g : parser G) : hf e -> hf g -> hf (primary_expression_of e g).
Proof. intros. unfold primary_expression_of. hv. Qed.
#[export] Hint Resolve hf_primary_expression_of : hf.
Lemma hf_unary_expression_of {E G} (e : parser E) (g : parser G) : hf e -> hf g -> hf (unary_expression_of e g).
Proof. intros. unfold unary_expression_of. hv. Qed.
#[export] Hint Resolve hf_unary_expression_of : hf.
Lemma hf_mult_expression_of {E G} (e : parser E) (g : parser G) : hf e -> hf g -> hf (mult_expression_of e g).
Proof. intros. unfold mult_expression_of. hv. Qed.
#[export] Hint Resolve hf_mult_expression_of : hf.
Lemma hf_multiplicative_expression_of {E G} (e : parser E) (g : parser G) : hf e -> hf g -> hf (multiplicative_expression_of e g).
Proof. intros. unfold multiplicative_expression_of. hv. Qed.
#[export] Hint Resolve hf_multiplicative_expression_of : hf.
Lemma hf_add_expression_of {E G} (e : parser E) (g : parser G) : hf e -> hf g -> hf (add_expression_of e g).
Proof. intros. unfold add_expression_of. hv. Qed.
#[export] Hint Resolve hf_add_expression_of : hf.
Lemma hf_additive_expression_of {E G} (e : parser E) (g : parser G) : hf e -> hf g -> hf (additive_expression_of e g).
Proof. intros. unfold additive_expression_of. hv. Qed.
#[export] Hint Resolve hf_additive_expression_of : hf.
Lemma hf_op_expression_of {E G} (e : parser E) (g : parser G) : hf e -> hf g -> hf (op_expression_of e g).
Proof. intros. unfold op_expression_of. hv. Qed.
#[export] Hint Resolve hf_op_expression_of : hf.
Lemma hf_relational_expression_of {E G} (e : parser E) (g : parser G) : hf e -> hf g -> hf (relational_expression_of e g).
Proof. intros. unfold relational_expression_of. hv. Qed.
#[export] Hint Resolve hf_relational_expression_of : hf.
Lemma hf_conditional_and_expression_of {E G} (e : parser E) (g : parser G) : hf e -> hf g -> hf (conditional_and_expression_of e g).
Proof. intros. unfold conditional_and_expression_of. hv. Qed.
#[export] Hint Resolve hf_conditional_and_expression_of : hf.
Lemma hf_expression_body (e : parser Expression) (g : parser GroupGraphPattern) : hf e -> hf g -> hf (expression_body e g).
Proof. intros. unfold expression_body. hv. Qed.
#[export] Hint Resolve hf_expression_body : hf.
Lemma hf_constraint_of {E G} (e : parser E) (g : parser G) : hf e -> hf g -> hf (constraint_of e g).
Proof. intros. unfold constraint_of. hv. Qed.
#[export] Hint Resolve hf_constraint_of : hf.
Lemma hf_filter_of {E G} (e : parser E) (g : parser G) : hf e -> hf g -> hf (filter_of e g).
Proof. intros. unfold filter_of. hv. Qed.
#[export] Hint Resolve hf_filter_of : hf.
Lemma hf_order : hf MExpr.order.
Proof. intros. unfold MExpr.order. hv. Qed.
#[export] Hint Resolve hf_order : hf.
Lemma hf_order_expression_of {E} (e : parser E) : hf e -> hf (order_expression_of e).
Proof. intros. unfold order_expression_of. hv. Qed.
#[export] Hint Resolve hf_order_expression_of : hf.
Lemma hf_order_condition_of {E G} (e : parser E) (g : parser G) : hf e -> hf g -> hf (order_condition_of e g).
Proof. intros. unfold order_condition_of. hv. Qed.
#[export] Hint Resolve hf_order_condition_of : hf.
Lemma hf_group_condition_of {E G} (e : parser E) (g : parser G) : hf e -> hf g -> hf (group_condition_of e g).
Proof. intros. unfold group_condition_of. hv. Qed.
#[export] Hint Resolve hf_group_condition_of : hf.
Lemma hf_kw_by (w : str) : hf (kw_by w).
Proof. intros. unfold kw_by. hv. Qed.
#[export] Hint Resolve hf_kw_by : hf.
Lemma hf_group_clause_of {E G} (e : parser E) (g : parser G) : hf e -> hf g -> hf (group_clause_of e g).
Proof. intros. unfold group_clause_of. hv. Qed.
#[export] Hint Resolve hf_group_clause_of : hf.
Lemma hf_order_clause_of {E G} (e : parser E) (g : parser G) : hf e -> hf g -> hf (order_clause_of e g).
Proof. intros. unfold order_clause_of. hv. Qed.
#[export] Hint Resolve hf_order_clause_of : hf.
Lemma hf_having_clause_of {E G} (e : parser E) (g : parser G) : hf e -> hf g -> hf (having_clause_of e g).
Proof. intros. unfold having_clause_of. hv. Qed.
#[export] Hint Resolve hf_having_clause_of : hf.
Lemma hf_solution_modifier_of {E G} (e : parser E) (g : parser G) : hf e -> hf g -> hf (solution_modifier_of e g).
Proof. intros. unfold solution_modifier_of. hv. Qed.
#[export] Hint Resolve hf_solution_modifier_of : hf.
Lemma hf_where_clause_of {G} (g : parser G) : hf g -> hf (where_clause_of g).
Proof. intros. unfold where_clause_of. hv. Qed.
#[export] Hint Resolve hf_where_clause_of : hf.
Lemma hf_select_modifier : hf select_modifier.
Proof. intros. unfold select_modifier. hv. Qed.
#[export] Hint Resolve hf_select_modifier : hf.
Lemma hf_var_or_expression_as_var_of {E} (e : parser E) : hf e -> hf (var_or_expression_as_var_of e).
Proof. intros. unfold var_or_expression_as_var_of. hv. Qed.
#[export] Hint Resolve hf_var_or_expression_as_var_of : hf.
Lemma hf_select_vars_of {E} (e : parser E) : hf e -> hf (select_vars_of e).
Proof. intros. unfold select_vars_of. hv. Qed.
#[export] Hint Resolve hf_select_vars_of : hf.
Lemma hf_select_clause_of {E} (e : parser E) : hf e -> hf (select_clause_of e).
Proof. intros. unfold select_clause_of. hv. Qed.
#[export] Hint Resolve hf_select_clause_of : hf.
Lemma hf_sub_select_of {E G} (e : parser E) (g : parser G) : hf e -> hf g -> hf (sub_select_of e g).
Proof. intros. unfold sub_select_of. hv. Qed.
#[export] Hint Resolve hf_sub_select_of : hf.
Lemma hf_group_or_union_of {G} (g : parser G) : hf g -> hf (group_or_union_of g).
Proof. intros. unfold group_or_union_of. hv. Qed.
#[export] Hint Resolve hf_group_or_union_of : hf.
Lemma hf_optional_of {G} (g : parser G) : hf g -> hf (optional_of g).
Proof. intros. unfold optional_of. hv. Qed.
#[export] Hint Resolve hf_optional_of : hf.
Lemma hf_minus_of {G} (g : parser G) : hf g -> hf (minus_of g).
Proof. intros. unfold minus_of. hv. Qed.
#[export] Hint Resolve hf_minus_of : hf.
Lemma hf_graph_graph_pattern_of {G} (g : parser G) : hf g -> hf (graph_graph_pattern_of g).
Proof. intros. unfold graph_graph_pattern_of. hv. Qed.
#[export] Hint Resolve hf_graph_graph_pattern_of : hf.
Lemma hf_service_graph_pattern_of {G} (g : parser G) : hf g -> hf (service_graph_pattern_of g).
Proof. intros. unfold service_graph_pattern_of. hv. Qed.
#[export] Hint Resolve hf_service_graph_pattern_of : hf.
Lemma hf_graph_pattern_not_triples_of {E G} (e : parser E) (g : parser G) : hf e -> hf g -> hf (graph_pattern_not_triples_of e g).
Proof. intros. unfold graph_pattern_not_triples_of. hv. Qed.
#[export] Hint Resolve hf_graph_pattern_not_triples_of : hf.
Lemma hf_ggp_and_triples_of {E G} (e : parser E) (g : parser G) : hf e -> hf g -> hf (ggp_and_triples_of e g).
Proof. intros. unfold ggp_and_triples_of. hv. Qed.
#[export] Hint Resolve hf_ggp_and_triples_of : hf.
Lemma hf_ggp_sub_of {E G} (e : parser E) (g : parser G) : hf e -> hf g -> hf (ggp_sub_of e g).
Proof. intros. unfold ggp_sub_of. hv. Qed.
#[export] Hint Resolve hf_ggp_sub_of : hf.
Lemma hf_ggp_body (e : parser Expression) (g : parser GroupGraphPattern) : hf e -> hf g -> hf (ggp_body e g).
Proof. intros. unfold ggp_body. hv. Qed.
#[export] Hint Resolve hf_ggp_body : hf.
Lemma hf_ggp_of (e : parser Expression) : hf e -> hf (ggp_of e).
Proof. intros. unfold ggp_of. apply hf_fixp. intros. hv. Qed.
#[export] Hint Resolve hf_ggp_of : hf.
Lemma hf_expression : hf expression.
Proof. intros. unfold expression. apply hf_fixp. intros. hv. Qed.
#[export] Hint Resolve hf_expression : hf.
Lemma hf_group_graph_pattern : hf group_graph_pattern.
Proof. intros. unfold group_graph_pattern. hv. Qed.
#[export] Hint Resolve hf_group_graph_pattern : hf.
Lemma hf_select_query : hf select_query.
Proof. intros. unfold select_query. hv. Qed.
#[export] Hint Resolve hf_select_query : hf.
Lemma hf_ask_query : hf ask_query.
Proof. intros. unfold ask_query. hv. Qed.
#[export] Hint Resolve hf_ask_query : hf.
Lemma hf_describe_query : hf describe_query.
Proof. intros. unfold describe_query. hv. Qed.
#[export] Hint Resolve hf_describe_query : hf.
Lemma hf_sub_triples : hf sub_triples.
Proof. intros. unfold sub_triples. hv. Qed.
#[export] Hint Resolve hf_sub_triples : hf.
Lemma hf_sub_construct : hf sub_construct.
Proof. intros. unfold sub_construct. hv. Qed.
#[export] Hint Resolve hf_sub_construct : hf.
Lemma hf_construct_query : hf construct_query.
Proof. intros. unfold construct_query. hv. Qed.
#[export] Hint Resolve hf_construct_query : hf.
Lemma hf_sparql_query : hf sparql_query.
Proof. intros. unfold sparql_query. hv. Qed.
#[export] Hint Resolve hf_sparql_query : hf.
Lemma hf_sparql_query_stmt : hf sparql_query_stmt.
Proof. intros. unfold sparql_query_stmt. hv. Qed.
#[export] Hint Resolve hf_sparql_query_stmt : hf.
Lemma hf_braced_template : hf braced_template.
Proof. intros. unfold braced_template. hv. Qed.
#[export] Hint Resolve hf_braced_template : hf.
Lemma hf_quads_not_triples : hf quads_not_triples.
Proof. intros. unfold quads_not_triples. hv. Qed.
#[export] Hint Resolve hf_quads_not_triples : hf.
Lemma hf_quads_entry : hf quads_entry.
Proof. intros. unfold quads_entry. hv. Qed.
#[export] Hint Resolve hf_quads_entry : hf.
Lemma hf_quads : hf quads.
Proof. intros. unfold quads. hv. Qed.
#[export] Hint Resolve hf_quads : hf.
Lemma hf_quads_pattern : hf quads_pattern.
Proof. intros. unfold quads_pattern. hv. Qed.
#[export] Hint Resolve hf_quads_pattern : hf.
Lemma hf_quad_data : hf quad_data.
Proof. intros. unfold quad_data. hv. Qed.
#[export] Hint Resolve hf_quad_data : hf.
Lemma hf_insert_clause : hf insert_clause.
Proof. intros. unfold insert_clause. hv. Qed.
#[export] Hint Resolve hf_insert_clause : hf.
Lemma hf_delete_clause : hf delete_clause.
Proof. intros. unfold delete_clause. hv. Qed.
#[export] Hint Resolve hf_delete_clause : hf.
Lemma hf_silent_from_to : hf silent_from_to.
Proof. intros. unfold silent_from_to. hv. Qed.
#[export] Hint Resolve hf_silent_from_to : hf.
Lemma hf_stmt {A} (w : str) (p : parser A) : hf p -> hf (stmt w p).
Proof. intros. unfold stmt. hv. Qed.
#[export] Hint Resolve hf_stmt : hf.
Lemma hf_add_stmt : hf add_stmt.
Proof. intros. unfold add_stmt. hv. Qed.
#[export] Hint Resolve hf_add_stmt : hf.
Lemma hf_move_stmt : hf move_stmt.
Proof. intros. unfold move_stmt. hv. Qed.
#[export] Hint Resolve hf_move_stmt : hf.
Lemma hf_copy_stmt : hf copy_stmt.
Proof. intros. unfold copy_stmt. hv. Qed.
#[export] Hint Resolve hf_copy_stmt : hf.
Lemma hf_create_stmt : hf create_stmt.
Proof. intros. unfold create_stmt. hv. Qed.
#[export] Hint Resolve hf_create_stmt : hf.
Lemma hf_silent_graph_ref_all : hf silent_graph_ref_all.
Proof. intros. unfold silent_graph_ref_all. hv. Qed.
#[export] Hint Resolve hf_silent_graph_ref_all : hf.
Lemma hf_drop_stmt : hf drop_stmt.
Proof. intros. unfold drop_stmt. hv. Qed.
#[export] Hint Resolve hf_drop_stmt : hf.
Lemma hf_clear_stmt : hf clear_stmt.
Proof. intros. unfold clear_stmt. hv. Qed.
#[export] Hint Resolve hf_clear_stmt : hf.
Lemma hf_load_stmt : hf load_stmt.
Proof. intros. unfold load_stmt. hv. Qed.
#[export] Hint Resolve hf_load_stmt : hf.
Lemma hf_insert_data : hf insert_data.
Proof. intros. unfold insert_data. hv. Qed.
#[export] Hint Resolve hf_insert_data : hf.
Lemma hf_delete_data : hf delete_data.
Proof. intros. unfold delete_data. hv. Qed.
#[export] Hint Resolve hf_delete_data : hf.
Lemma hf_delete_where_data : hf delete_where_data.
Proof. intros. unfold delete_where_data. hv. Qed.
#[export] Hint Resolve hf_delete_where_data : hf.
Lemma hf_delete_insert : hf delete_insert.
Proof. intros. unfold delete_insert. hv. Qed.
#[export] Hint Resolve hf_delete_insert : hf.
Lemma hf_modify_stmt : hf modify_stmt.
Proof. intros. unfold modify_stmt. hv. Qed.
#[export] Hint Resolve hf_modify_stmt : hf.
Lemma hf_update_stmt : hf update_stmt.
Proof. intros. unfold update_stmt. hv. Qed.
#[export] Hint Resolve hf_update_stmt : hf.
Lemma hf_update_body (u : parser Update) : hf u -> hf (update_body u).
Proof. intros. unfold update_body. hv. Qed.
#[export] Hint Resolve hf_update_body : hf.
Lemma hf_update : hf update.
Proof. intros. unfold update. apply hf_fixp. intros. hv. Qed.
#[export] Hint Resolve hf_update : hf.

(** ** Entry points *)
Lemma hf_at {A} (p : parser A) : hf p -> forall i pos k, p i = Err (Failure pos k) -> spot i pos k.
Proof. intros H i pos k E. pose proof (H i) as P. rewrite E in P. exact P. Qed.
Lemma spot_cause i pos k : spot i pos k -> In 40 i \/ In 91 i \/ number_letter i.
Proof.
  intros [(_ & [(t & b & -> & _)|(t & b & -> & _)])|(_ & t & d & e & s & -> & D & E & _)].
  - left. apply in_or_app. right. now left.
  - right. left. apply in_or_app. right. now left.
  - right. right. exists t, d, e, (s ++ pos). now split.
Qed.
Lemma quiet_soft {A} (p : parser A) : hf p -> forall i, ~ In 40 i -> ~ In 91 i -> ~ number_letter i -> forall pos k, p i <> Err (Failure pos k).
Proof. intros H i N1 N2 N3 pos k E. destruct (spot_cause _ _ _ (hf_at p H _ _ _ E)) as [C|[C|C]]; contradiction. Qed.
(** a decidable reading of [number_letter] for the examples *)
Fixpoint letter_b (i : str) : bool :=
  match i with d :: (e :: _) as r => ((in_ranges digits d || (d =? 46)) && ((e =? 101) || (e =? 69))) || letter_b r | _ => false end.
Lemma letter_b_ok i : letter_b i = false -> ~ number_letter i.
Proof.
  intros B (t & d & e & u & -> & D & E). induction t as [|x t IH].
  - cbn -[in_ranges] in B. apply orb_false_iff in B. destruct B as [B _]. apply andb_false_iff in B. destruct B as [B|B]; apply orb_false_iff in B; destruct B as [B1 B2].
    + destruct D as [D| ->]; [congruence|discriminate].
    + destruct E as [-> | ->]; discriminate.
  - apply IH. cbn [app] in B. destruct (t ++ d :: e :: u) as [|y r] eqn:Q; [now destruct t|].
    change (letter_b (x :: y :: r)) with (((in_ranges digits x || (x =? 46)) && ((y =? 101) || (y =? 69))) || letter_b (y :: r)) in B.
    apply orb_false_iff in B. exact (proj2 B).
Qed.
Lemma not_in_b (c : char) i : existsb (N.eqb c) i = false -> ~ In c i.
Proof. intros B H. assert (existsb (N.eqb c) i = true); [apply existsb_exists; exists c; split; [exact H|apply N.eqb_refl]|congruence]. Qed.
Lemma soft_sample : let i := s_ "SELECT ?a { ?a ?b 5e1 } LIMIT x" in
  let j := s_ "SELECT ?a { ?a ?b, 1 }" in
  number_letter i /\ ~ In 40 j /\ ~ In 91 j /\ ~ number_letter j /\ exists pos k, sparql_query_stmt j = Err (Error pos k).
Proof.
  cbv zeta. split; [|split; [|split; [|split]]].
  - exists (s_ "SELECT ?a { ?a ?b "), 53, 101, (s_ "1 } LIMIT x"). split; [reflexivity|]. split; [left; reflexivity|now left].
  - apply not_in_b. reflexivity.
  - apply not_in_b. reflexivity.
  - apply letter_b_ok. reflexivity.
  - eexists _, _. vm_compute. reflexivity.
Qed.
(** all the splits of a literal text *)
Ltac splits t E := vm_compute in E; repeat (destruct t as [|? t]; [cbn [app] in E|cbn [app] in E; try discriminate E; injection E as _ E]); try discriminate E.
Lemma places : spot (s_ "1.5e+x }") (s_ "x }") KDigit /\ ~ spot (s_ "1.5e+x }") (s_ "+x }") KDigit /\
  ~ spot (s_ "a ( ) b") (s_ ") b") KChar /\ spot (s_ "( 1 )") (s_ "1 )") KChar.
Proof.
  split; [|split; [|split]].
  - right. split; [reflexivity|]. exists (s_ "1."), 53, 101, [43]. split; [reflexivity|]. split; [left; reflexivity|]. split; [now left|]. split; [right; now left|reflexivity].
  - intros [(K & _)|(_ & t & d & e & s & E & _ & He & [(-> & N & _)|[-> | ->]] & _)]; [discriminate|now apply N| |]; change (s_ "+x }") with [43; 120; 32; 125] in E;
      change (s_ "1.5e+x }") with (s_ "1.5e" ++ [43; 120; 32; 125]) in E; rewrite !app_comm_cons, app_assoc in E; apply app_inv_tail in E; splits t E.
  - intros [(_ & [(t & b & E & _ & _ & N)|(t & b & E & _)])|(K & _)]; [now apply N| |discriminate].
    rewrite app_comm_cons, app_assoc in E. change (s_ "a ( ) b") with (s_ "a ( " ++ s_ ") b") in E. apply app_inv_tail in E. splits t E.
  - left. split; [reflexivity|]. left. exists [], [32]. split; [reflexivity|]. split; [apply blank_space; [now left|apply blank_nil]|]. split; [apply solid_first; cbn; intuition discriminate|discriminate].
Qed.
