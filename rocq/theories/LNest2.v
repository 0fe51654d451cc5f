(** What a parser takes from the text has matching brackets: the parsers of the grammar. *)
From Verif Require Export LNest.
From Verif Require Import LSound LSound1 LSound2 MUpdate LTerm LGood2 LEval.
From Verif Require Import Nom.
Notation length := List.length (only parsing).
Open Scope N_scope.
Open Scope list_scope.
Ltac bau p := unfold p; ba.

Lemma body_inside q u : body q u -> inside q u.
Proof. induction 1; now constructor. Qed.
Lemma bal_string_literal : bal string_literal.
Proof.
  eapply eats_of; [apply sd_string_literal|]. intros s t (q & Q & -> & B & _). apply body_inside in B.
  apply (nested_string q s []); [tauto|exact B|constructor].
Qed.
Lemma bal_iri_ref : bal iri_ref.
Proof. eapply eats_of; [apply sd_iri_ref|]. intros s t [-> A]. apply (nested_iri s []); [exact A|constructor]. Qed.
Lemma bal_plx : bal plx.
Proof.
  eapply eats_of; [apply sd_plx|]. intros _ t [(a & b & -> & A & B)|(c & -> & I)].
  - apply plain_nested. repeat constructor; [revert A|revert B]; now apply (plain_by hex_digit).
  - apply (nested_escape c []); [exact I|constructor].
Qed.
#[export] Hint Resolve bal_string_literal bal_iri_ref bal_plx : bal.
Lemma bal_pn_local : bal pn_local. Proof. unfold pn_local, pn_chars_u_one, pn_chars_base_one. ba. Qed.
Lemma bal_pn_chars_tail : bal pn_chars_tail. Proof. unfold pn_chars_tail, pn_chars1. ba. Qed.
#[export] Hint Resolve bal_pn_local bal_pn_chars_tail : bal.
Lemma bal_pn_prefix : bal pn_prefix. Proof. unfold pn_prefix, pn_chars_base_one. ba. Qed.
#[export] Hint Resolve bal_pn_prefix : bal.
Lemma bal_pname_ns : bal pname_ns. Proof. bau pname_ns. Qed.
#[export] Hint Resolve bal_pname_ns : bal.
Lemma bal_prefixed_name : bal prefixed_name. Proof. unfold prefixed_name, pname_ln. ba. Qed.
#[export] Hint Resolve bal_prefixed_name : bal.
Lemma bal_iri : bal iri. Proof. bau iri. Qed.
Lemma bal_language_tag : bal language_tag. Proof. unfold language_tag, alpha1, alphanumeric1. ba. Qed.
#[export] Hint Resolve bal_iri bal_language_tag : bal.
Lemma bal_rdf_literal : bal rdf_literal. Proof. bau rdf_literal. Qed.
Lemma empty_brackets o c : In (o, c) [(40, 41); (91, 93); (123, 125)] -> bal (preceded (chr o) (cut (terminated sp (chr c)))).
Proof.
  intros I. eapply eats_of; [apply sound_preceded; [apply eats_chr|apply sound_cut, sound_terminated; [apply bal_sp|apply eats_chr]]|].
  intros _ t (a & b & -> & -> & d & e & -> & N & ->). apply (nested_brackets o c d []); [exact I|exact N|constructor].
Qed.
Lemma bal_anon : bal anon. Proof. apply empty_brackets. now right; left. Qed.
Lemma bal_nil : bal nil_. Proof. apply empty_brackets. now left. Qed.
Lemma bal_boolean : bal boolean. Proof. bau boolean. Qed.
Lemma bal_opt_silent : bal opt_silent. Proof. unfold opt_silent, silent. ba. Qed.
Lemma bal_opt_distinct : bal opt_distinct. Proof. unfold opt_distinct, distinct. ba. Qed.
Lemma bal_var : bal var. Proof. unfold var, var_name. ba. Qed.
#[export] Hint Resolve bal_rdf_literal bal_anon bal_nil bal_boolean bal_opt_silent bal_opt_distinct bal_var : bal.
Lemma bal_exponent : bal exponent. Proof. unfold exponent, opt_sign, digit1. ba. Qed.
Lemma bal_decimal : bal sparql_decimal.
Proof.
  assert (K : bal recognize_sparql_float) by (unfold recognize_sparql_float, opt_sign, digit1; ba).
  intros i r a E. unfold sparql_decimal in E. destruct (recognize_sparql_float i) as [r' s|] eqn:F; [|discriminate].
  destruct (parse_decimal s); [|discriminate]. injection E as <- _. exact (K _ _ _ F).
Qed.
Lemma bal_int : bal sparql_int.
Proof.
  assert (K : bal (recognize (pair opt_sign digit1))) by (unfold opt_sign, digit1; ba).
  intros i r a E. unfold sparql_int in E. destruct (recognize (pair opt_sign digit1) i) as [r' s|] eqn:F; [|discriminate].
  destruct (K _ _ _ F) as (t & -> & N). exists t. split; [|exact N]. f_equal.
  destruct r' as [|c r']; [|destruct (contains (s_ ".eE") c); [discriminate|]]; (destruct (parse_i64 s); [|discriminate]); now injection E as <- _.
Qed.
#[export] Hint Resolve bal_exponent bal_decimal bal_int : bal.
Lemma bal_numeric_literal : bal numeric_literal. Proof. unfold numeric_literal, sparql_double. ba. Qed.
#[export] Hint Resolve bal_numeric_literal : bal.
Lemma bal_path_mod : bal path_mod.
Proof. eapply eats_of; [apply sd_path_mod|]. intros [] t X; cbn in X; hnf in X; subst; apply plain_nested; repeat constructor. Qed.
#[export] Hint Resolve bal_path_mod : bal.
Lemma bal_blank_node : bal blank_node. Proof. unfold blank_node, pn_chars_u_one, pn_chars_base_one. ba. Qed.
#[export] Hint Resolve bal_blank_node : bal.
Lemma bal_graph_term : bal graph_term. Proof. bau graph_term. Qed.
#[export] Hint Resolve bal_graph_term : bal.
Lemma bal_var_or_term : bal var_or_term. Proof. bau var_or_term. Qed.
Lemma bal_var_or_iri : bal var_or_iri. Proof. bau var_or_iri. Qed.
#[export] Hint Resolve bal_var_or_term bal_var_or_iri : bal.
Lemma bal_verb : bal verb. Proof. bau verb. Qed.
Lemma bal_iri_or_a : bal iri_or_a. Proof. bau iri_or_a. Qed.
#[export] Hint Resolve bal_verb bal_iri_or_a : bal.
Lemma bal_iri_or_a_or_caret : bal iri_or_a_or_caret. Proof. bau iri_or_a_or_caret. Qed.
Lemma bal_datablock_value : bal datablock_value. Proof. bau datablock_value. Qed.
#[export] Hint Resolve bal_iri_or_a_or_caret bal_datablock_value : bal.
Lemma bal_datablock : bal datablock. Proof. unfold datablock, inline_data_one_var, inline_data_full. ba. Qed.
#[export] Hint Resolve bal_datablock : bal.
Lemma bal_inline_data : bal inline_data. Proof. bau inline_data. Qed.
Lemma bal_values_clause : bal values_clause. Proof. bau values_clause. Qed.
Lemma bal_limit_offset : bal limit_offset_clause. Proof. unfold limit_offset_clause, limit_clause, offset_clause, int_clause. ba. Qed.
#[export] Hint Resolve bal_inline_data bal_values_clause bal_limit_offset : bal.
Lemma bal_graph_node : bal graph_node.
Proof.
  unfold graph_node. apply sound_fixp. intros p H.
  unfold graph_node_body, triples_node_of, collection_of, blank_node_property_list_of, property_list_not_empty_of, object_list_of. ba.
Qed.
#[export] Hint Resolve bal_graph_node : bal.
Lemma bal_object_list : bal object_list. Proof. unfold object_list, object_list_of. ba. Qed.
#[export] Hint Resolve bal_object_list : bal.
Lemma bal_tss : bal triples_same_subject.
Proof.
  unfold triples_same_subject, triples_node, property_list, property_list_not_empty, triples_node_of, collection_of, blank_node_property_list_of, property_list_not_empty_of, object_list_of. ba.
Qed.
#[export] Hint Resolve bal_tss : bal.
Lemma bal_template : bal triples_template. Proof. bau triples_template. Qed.
#[export] Hint Resolve bal_template : bal.
Lemma bal_construct_template : bal construct_template. Proof. bau construct_template. Qed.
#[export] Hint Resolve bal_construct_template : bal.
Lemma bal_path : bal path_alternative.
Proof.
  unfold path_alternative. apply sound_fixp. intros p H.
  unfold path_alternative_body, path_sequence_of, path_elt_or_inverse_of, path_elt_of, path_primary_of, path_negated_property_set, path_one_in_property_set. ba.
Qed.
#[export] Hint Resolve bal_path : bal.
Lemma bal_verb_path : bal verb_path_or_simple. Proof. bau verb_path_or_simple. Qed.
#[export] Hint Resolve bal_verb_path : bal.
Lemma bal_entry : bal property_list_path_entry. Proof. bau property_list_path_entry. Qed.
#[export] Hint Resolve bal_entry : bal.
Lemma bal_graph_node_path : bal graph_node_path.
Proof.
  unfold graph_node_path. apply sound_fixp. intros p H.
  unfold graph_node_path_body, triples_node_path_of, blank_node_property_list_path_of, property_list_path_not_empty_of, object_list_path_of. ba.
Qed.
#[export] Hint Resolve bal_graph_node_path : bal.
Lemma bal_triples_block : bal triples_block.
Proof.
  unfold triples_block, triples_same_subject_path, triples_node_path, property_list_path, property_list_path_not_empty, triples_node_path_of,
    blank_node_property_list_path_of, property_list_path_not_empty_of, object_list_path_of. ba.
Qed.
#[export] Hint Resolve bal_triples_block : bal.
