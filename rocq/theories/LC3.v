(** Safely laid out paths and WHERE triples are read. *)
From Verif Require Export LayoutPath LC2.
Notation length := List.length (only parsing).
Open Scope N_scope.
Open Scope list_scope.

(** ** Paths *)
Lemma path_mod_other c r : c < 128 -> ~ In c (s_ "?*+") -> fails path_mod (c :: r).
Proof.
  intros L N. exists (c :: r), KChar. pose proof (split_at_ascii [c] r) as Y. cbn [app length] in Y.
  unfold path_mod. rewrite Y by (constructor; [assumption|constructor]).
  destruct (path_mod_from_str [c]) as [m|] eqn:E; [|reflexivity]. apply path_mod_from_str_iff in E.
  elim N. destruct m; injection E as ->; cbn; auto.
Qed.
Lemma no_mod_fails r : no_mod r -> fails (preceded sp1 path_mod) r.
Proof.
  intros [H|(b & r' & -> & Hb & Hs & c & r'' & -> & L & N)].
  - now apply preceded_fails1, sp1_fails.
  - eapply preceded_fails2; [now apply sp1_ok|]. now apply path_mod_other.
Qed.
Lemma rd_iri_or_a i : rd iri_or_a i (W_iri_or_a i).
Proof.
  unfold iri_or_a. destruct i as [i|]; cbn [W_iri_or_a].
  - alt1. eapply rd_map; [apply rd_iri|reflexivity].
  - alt_skip; [apply nf_iri_plain|]. alt1. intros t r [H _]. now apply (rd_word "a").
Qed.
Lemma rd_iri_or_a_or_caret i : rd iri_or_a_or_caret i (W_iri_or_a_or_caret i).
Proof.
  unfold iri_or_a_or_caret. destruct i as [i|i]; cbn [W_iri_or_a_or_caret].
  - alt1. eapply rd_map; [apply rd_iri_or_a|reflexivity].
  - alt_skip.
    + apply nf_then. intros t r ->. unfold iri_or_a. apply alt_fails_cons; [now apply map_fails, iri_fails_first|].
      apply alt_fails_cons; [|apply alt_fails_nil]. apply map_fails. now apply (kwf_fails_base "a").
    + alt1. eapply rd_map; [|reflexivity]. apply rd_preceded; [now apply rdx_chr|apply rd_iri_or_a].
Qed.
Lemma barW_ne t r : barW t r -> t <> [].
Proof. intros (a & b & -> & _ & c & d & -> & -> & _) E. apply app_eq_nil in E. destruct E as [_ E]. discriminate. Qed.
Lemma bar_tag_fails i : not_first 124 i -> fails (tag (s_ "|")) i. Proof. apply tag_fails_first. Qed.
Lemma bar_chr_fails i : not_first 124 i -> fails (chr (c_ "|")) i. Proof. apply chr_fails. Qed.
Lemma rd_negated n : rd path_negated_property_set n (W_negated n).
Proof.
  destruct n as [l]. cbn [W_negated]. unfold path_negated_property_set. eapply rd_map; [|reflexivity].
  apply rd_assoc, rd_delimited; [apply rdx_terminated; [apply (rdx_tag "(")|apply rdx_sp]| |apply rdx_preceded; [apply rdx_sp|apply (rdx_tag ")")]].
  apply rd_sep1.
  - intros [i]. unfold path_one_in_property_set. eapply rd_map; [apply rd_iri_or_a_or_caret|reflexivity].
  - mv1 path_one_in_property_set.
  - mv.
  - apply rdx_sp_enc. now apply rdx_chr.
  - exact barW_ne.
  - intros r H. exact (sp_enc_stop _ _ _ _ bar_chr_fails H).
Qed.
Definition path_first : char -> bool := orc iri_first (oneof (s_ "a!(^")).
Lemma primary_first i : stops iri_first i -> stops (oneof (s_ "a!(")) i -> fails path_primary i.
Proof.
  intros S1 S2. unfold path_primary, path_primary_of.
  apply alt_fails_cons; [now apply map_fails, iri_fails_first|].
  apply alt_fails_cons; [apply map_fails, tag_fails_first; eapply stops_oneof; [exact S2|cbn; auto]|].
  apply alt_fails_cons; [apply map_fails, preceded_fails1, tag_fails_first; eapply stops_oneof; [exact S2|cbn; auto]|].
  apply alt_fails_cons; [|apply alt_fails_nil]. apply map_fails, delimited_fails1, tag_fails_first. eapply stops_oneof; [exact S2|cbn; auto].
Qed.
Lemma path_first_fails i : stops path_first i -> fails path_alternative i.
Proof.
  intros S. apply stops_orc in S. destruct S as [S1 S2]. unfold fails. rewrite path_alternative_eq.
  change (fails (path_alternative_body path_alternative) i). apply map_fails, sepne_fails, map_fails, sepne_fails.
  assert (F : fails path_primary i) by (apply primary_first; [assumption|]; now apply (sub_oneof (s_ "a!(^"))).
  unfold path_elt_or_inverse_of. apply alt_fails_cons; [now apply map_fails, map_fails, pair_fails1|].
  apply alt_fails_cons; [|apply alt_fails_nil]. apply map_fails, preceded_fails1, tag_fails_first. eapply stops_oneof; [exact S2|cbn; auto].
Qed.
Section Path.
  Context (WP : PathAlternative -> lang) (HP : forall p, rd path_alternative p (WP p)).
  Lemma rd_primary p : rd path_primary p (W_path_primary WP p).
  Proof.
    unfold path_primary, path_primary_of. destruct p as [i| |s|p]; cbn [W_path_primary].
    - alt1. eapply rd_map; [apply rd_iri|reflexivity].
    - alt_skip; [intros t r [_ H]; now apply no_iri_fails|]. alt1. intros t r [-> _]. eapply map_ok; [apply tag_ok|reflexivity].
    - alt_skip; [apply nf_then; intros t r ->; now apply iri_fails_first|].
      alt_skip; [apply nf_then; intros t r ->; now apply tag_fails_first|].
      alt1. eapply rd_map; [|reflexivity]. apply rd_preceded; [apply (rdx_tag "!")|apply rd_negated].
    - alt_skip; [apply nf_then; intros t r ->; now apply iri_fails_first|].
      alt_skip; [apply nf_then; intros t r ->; now apply tag_fails_first|].
      alt_skip; [apply nf_then; intros t r ->; now apply preceded_fails1, tag_fails_first|].
      alt1. eapply rd_map; [|reflexivity]. apply rd_delimited; [apply (rdx_tag "(")|apply HP|apply (rdx_tag ")")].
  Qed.
  Lemma rd_elt e : rd path_elt e (W_elt WP e).
  Proof.
    destruct e as [p m]. cbn [W_elt]. unfold path_elt, path_elt_of. apply (rd_map _ _ (p, m)); [|reflexivity].
    apply rd_pair; [apply rd_primary|]. apply rd_opt; [|exact no_mod_fails].
    intros m0. apply rd_preceded; [apply rdx_sp1|]. intros t r H. apply path_mod_iff. eauto.
  Qed.
  Lemma rd_elt_or_inverse e : rd path_elt_or_inverse e (W_elt_or_inverse WP e).
  Proof.
    unfold path_elt_or_inverse, path_elt_or_inverse_of. destruct e as [e|e]; cbn [W_elt_or_inverse].
    - alt1. eapply rd_map; [apply rd_elt|reflexivity].
    - alt_skip; [apply nf_then; intros t r ->; apply map_fails, pair_fails1; now apply primary_first|].
      alt1. eapply rd_map; [|reflexivity]. apply rd_preceded; [apply (rdx_tag "^")|apply rd_elt].
  Qed.
  Lemma rd_path_layout p : rd path_alternative p (path_layout WP p).
  Proof.
    destruct p as [[|[l] [|s p]]]; try (intros t r []). cbn [path_layout]. intros t r H. rewrite path_alternative_eq.
    unfold path_alternative_body. apply (map_ok _ _ _ _ [MkPathSequence l]); [|reflexivity].
    assert (X : rd path_sequence (MkPathSequence l) (sep1W (W_elt_or_inverse WP) barW (nxt (not_first 124)) l)).
    { unfold path_sequence, path_sequence_of. eapply rd_map; [|reflexivity].
      apply rd_sep1; [exact rd_elt_or_inverse|mv|mv|apply rdx_sp_enc, (rdx_tag "|")|exact barW_ne|].
      intros r0 H0. exact (sp_enc_stop _ _ _ _ bar_tag_fails H0). }
    pose proof (X _ _ H) as E. eapply sepne_cons; [eapply gd_shrinks; intros k; sg|eapply gd_shrinks; intros k; sg|exact E| |].
    - intros K. eapply (gd_moves IAny true path_sequence); [|exact E|exact K]. unfold path_sequence, path_sequence_of. mv.
    - assert (Y : nxt (not_first 124) r).
      { destruct l as [|e l]; [destruct H|]. destruct H as (u & v & -> & _ & H). clear -H. revert v H.
        induction l as [|e l IH]; intros v; [intros [-> H]; exact H|]. intros (a & b & -> & _ & c & d & -> & _ & H). exact (IH _ H). }
      exact (sp_enc_stop _ _ _ _ bar_tag_fails Y).
  Qed.
End Path.
Lemma rd_path p : rd path_alternative p (W_path p).
Proof.
  intros t r H. induction H as [WP p t r _ IH H]. revert H. apply rd_path_layout. exact IH.
Qed.

(** ** WHERE triples *)
Lemma rd_verb_path v : rd verb_path_or_simple v (W_verb_path v).
Proof.
  unfold verb_path_or_simple. destruct v as [p|v]; cbn [W_verb_path].
  - alt1. eapply rd_map; [apply rd_path|reflexivity].
  - alt_skip; [|alt1; eapply rd_map; [apply rd_var|reflexivity]].
    intros t r [H _]. apply path_first_fails. eapply starts_stops; [eapply var_starts, H|reflexivity].
Qed.
Lemma triples_node_path_fails1 i : not_first 40 i -> not_first 91 i -> fails triples_node_path i.
Proof.
  intros H1 H2. unfold triples_node_path, triples_node_path_of. apply alt_fails_cons; [|apply alt_fails_cons; [|apply alt_fails_nil]]; apply map_fails.
  - apply delimited_fails1, terminated_fails1, tag_fails_first. exact H2.
  - apply delimited_fails1, tag_fails_first. exact H1.
Qed.
Lemma graph_node_path_fails i : fails var_or_term i -> fails triples_node_path i -> fails graph_node_path i.
Proof.
  intros H1 H2. unfold fails. rewrite graph_node_path_eq. change (fails (graph_node_path_body graph_node_path) i). unfold graph_node_path_body.
  apply alt_fails_cons; [now apply map_fails|]. apply alt_fails_cons; [now apply map_fails|apply alt_fails_nil].
Qed.
Lemma rd_graph_node_path g : rd graph_node_path g (W_graph_node_path g).
Proof.
  destruct g as [v|n]; cbn [W_graph_node_path]; [|intros t r []].
  intros t r H. rewrite graph_node_path_eq. unfold graph_node_path_body. apply alt_first. apply (map_ok _ _ _ _ v); [|reflexivity].
  now apply rd_var_or_term.
Qed.
Lemma semi_tag_fails i : not_first 59 i -> fails (tag (s_ ";")) i. Proof. apply tag_fails_first. Qed.
Lemma node_path_word_fails k i : word_like k = true -> begins k i -> fails triples_node_path i.
Proof.
  intros W B. apply triples_node_path_fails1; [apply (stops_oneof [40])|apply (stops_oneof [91])]; try (now left); now apply (begins_stops _ k).
Qed.
Lemma rd_object_list_path o : rd object_list_path o (W_object_list_path o).
Proof.
  destruct o as [l]. cbn [W_object_list_path]. unfold object_list_path, object_list_path_of. eapply rd_map; [|reflexivity].
  apply rd_sep1; [exact rd_graph_node_path|mv|mv|apply rdx_sp_enc, (rdx_tag ";")| |].
  - intros t r (a & b & -> & _ & c & d & -> & -> & _) E. apply app_eq_nil in E. destruct E as [_ E]. discriminate.
  - intros r [H|(s & r' & -> & H1 & H2)]; [exact (sp_enc_stop _ _ _ _ semi_tag_fails H)|].
    destruct (rdx_sp_enc _ _ (rdx_tag ";") _ _ H1) as [x E]. eapply sep_back; [exact E| |].
    + apply app_ne. destruct H1 as (a & b & -> & _ & c & d & -> & -> & _). intros K. apply app_eq_nil in K. destruct K as [_ K]. discriminate.
    + destruct H2 as [[r'' ->]|[B N]].
      * apply graph_node_path_fails; [now apply var_or_term_first|now apply triples_node_path_fails1].
      * apply graph_node_path_fails; [now apply (vot_word_fails "a")|now apply (node_path_word_fails "a")].
Qed.
Lemma rd_path_entry e : rd property_list_path_entry e (W_path_entry e).
Proof.
  destruct e as [v o]. cbn [W_path_entry]. unfold property_list_path_entry. apply (rd_map _ _ (v, o)); [|reflexivity].
  apply rd_separated_pair; [apply rd_verb_path|apply rdx_sp1|apply rd_object_list].
Qed.
Lemma rd_tuple3 {A B C} (p : parser A) (q : parser B) (s : parser C) a b c P Q S :
  rd p a P -> rd q b Q -> rd s c S -> rd (tuple3 p q s) (a, (b, c)) (P >> Q >> S).
Proof. intros H1 H2 H3. unfold tuple3. apply rd_pair; [assumption|]. now apply rd_pair. Qed.
Lemma rd_property_list_path p : rd property_list_path_not_empty p (W_property_list_path p).
Proof.
  destruct p as [v o es]. cbn [W_property_list_path]. unfold property_list_path_not_empty, property_list_path_not_empty_of.
  apply (rd_map _ _ (v, (o, es))); [|reflexivity].
  apply rd_assoc, rd_tuple3; [apply rd_terminated; [apply rd_verb_path|apply rdx_sp1]|apply rd_object_list_path|].
  apply rd_many0.
  - intros e. apply rd_preceded; [now apply rdx_marks|apply rd_path_entry].
  - mv.
  - intros r H. apply preceded_fails1. now apply many1_mark_fails.
Qed.
Lemma rd_tssp t : rd triples_same_subject_path t (W_tssp t).
Proof.
  unfold triples_same_subject_path. destruct t as [v p|n p]; cbn [W_tssp]; [|intros t r []].
  alt1. apply (rd_map _ _ (v, p)); [|reflexivity].
  apply rd_separated_pair; [apply rd_var_or_term|apply rdx_sp1|apply rd_property_list_path].
Qed.
Lemma tssp_fails i : fails triples_node_path i -> fails var_or_term i -> fails triples_same_subject_path i.
Proof.
  intros H1 H2. unfold triples_same_subject_path. apply alt_fails_cons; [|apply alt_fails_cons; [|apply alt_fails_nil]]; apply map_fails; now apply pair_fails1.
Qed.
Lemma rd_triples_block b : rd triples_block b (W_triples_block b).
Proof.
  destruct b as [l]. cbn [W_triples_block]. unfold triples_block. eapply rd_map; [|reflexivity].
  apply rd_sep1; [exact rd_tssp|mv|mv|now apply rdx_marks|intros t r; now apply (many1W_ne' ".")|].
  intros r H. apply sep_stop. now apply many1_mark_fails.
Qed.
Lemma triples_block_fails i : fails triples_same_subject_path i -> fails triples_block i.
Proof. intros H. now apply map_fails, sepne_fails. Qed.
