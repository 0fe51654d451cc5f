(** Every parser of the crate satisfies the structural invariants of [LNom]. *)
From Verif Require Export LNom MUpdate.
Notation length := List.length (only parsing).

Lemma sim_of_good {A} n b c d (p : parser A) : good b c d p -> sim n b c d p p.
Proof. intros H. apply H. Qed.

Lemma good_tag_t t : negb (Nat.eqb (length t) 0) = true -> good true INever false (tag t).
Proof. intros H. rewrite <- H. apply good_tag. Qed.
Lemma good_tnc t : ascii_b t && kelvin_free t && negb (Nat.eqb (length t) 0) = true ->
  good true INever false (tag_no_case t).
Proof.
  intros H. apply andb_true_iff in H as [H H3]. apply andb_true_iff in H as [H1 H2].
  intros n. eapply sim_weaken; [now apply good_tag_no_case | rewrite H3 | | rewrite H2];
    reflexivity.
Qed.
Lemma good_tnc_k t : ascii_b t && negb (Nat.eqb (length t) 0) = true ->
  good true INever true (tag_no_case t).
Proof.
  intros H. apply andb_true_iff in H as [H1 H2]. intros n.
  eapply sim_weaken; [now apply good_tag_no_case | rewrite H2 | | ]; try reflexivity.
  destruct (kelvin_free t); reflexivity.
Qed.
Lemma good_tnc_s t : ascii_b t && kelvin_free t && negb (Nat.eqb (length t) 0) = true ->
  good true IAny false (tag_no_case_streaming t).
Proof.
  intros H. apply andb_true_iff in H as [H H3]. apply andb_true_iff in H as [H1 H2]. intros n.
  eapply sim_weaken; [now apply good_tag_no_case_streaming | rewrite H3 | | rewrite H2];
    reflexivity.
Qed.

Lemma preceded_terminated_assoc {A B C} (p : parser A) (x : parser B) (q : parser C) i :
  preceded (terminated p x) q i = preceded p (preceded x q) i.
Proof.
  unfold preceded, terminated, map, pair. destruct (p i) as [i1 a | ]; [|reflexivity].
  destruct (x i1) as [i2 b | ]; [|reflexivity]. destruct (q i2); reflexivity.
Qed.
Lemma sim_open2 {A B} n o d (x x' : parser A) (q q' : parser B) b2 c2 :
  (o = 40 \/ o = 123) -> sim (pred n) b2 c2 d (preceded x q) (preceded x' q') ->
  sim n true (iopen c2) d (preceded (terminated (chr o) x) q) (preceded (terminated (chr o) x') q').
Proof.
  intros Ho H i Hi. rewrite !preceded_terminated_assoc.
  exact (sim_open n o d _ _ b2 c2 snd Ho H i Hi).
Qed.

Create HintDb good discriminated.
Create HintDb simdb discriminated.
#[export] Hint Constants Opaque : good.
#[export] Hint Constants Opaque : simdb.
#[export] Hint Transparent DataSetClause TriplesTemplate : good simdb.

Ltac sg_mono := match goal with
  | H : sim _ _ _ _ ?p ?q |- sim _ _ _ _ ?p ?q => eapply sim_mono; [exact H | lia]
  | H : forall n, sim n _ _ _ ?p ?q |- sim _ _ _ _ ?p ?q => apply H
  end.

Ltac sg_leaf := first
  [ sg_mono
  | lazymatch goal with
    | |- sim _ _ _ _ (chr _) _ => apply good_chr
    | |- sim _ _ _ _ (one_of _) _ => apply good_one_of
    | |- sim _ _ _ _ (none_of _) _ => apply good_none_of
    | |- sim _ _ _ _ (take_while _) _ => apply good_take_while
    | |- sim _ _ _ _ (take_while1 _) _ => apply good_take1
    | |- sim _ _ _ _ digit1 _ => apply good_take1
    | |- sim _ _ _ _ alpha1 _ => apply good_take1
    | |- sim _ _ _ _ alphanumeric1 _ => apply good_take1
    | |- sim _ _ _ _ pn_chars1 _ => apply good_take1
    | |- sim _ _ _ _ (take1 _ _) _ => apply good_take1
    | |- sim _ _ _ _ (tag _) _ => apply good_tag_t; reflexivity
    | |- sim _ _ _ _ (tag_no_case _) _ =>
        first [apply good_tnc; reflexivity | apply good_tnc_k; reflexivity]
    | |- sim _ _ _ _ (tag_no_case_streaming _) _ => apply good_tnc_s; reflexivity
    | |- sim _ _ _ _ ?p ?q => constr_eq p q; apply sim_of_good; solve [eauto 1 with good nocore]
    end ].

Ltac sg := cbn [orb andb negb imax iopen]; first
  [ sg_leaf
  | lazymatch goal with
    | |- sim _ _ _ _ (map (pair (chr (c_ "(")) _) _) _ =>
        eapply sim_open; [left; reflexivity | sg]
    | |- sim _ _ _ _ (map (pair (chr (c_ "{")) _) _) _ =>
        eapply sim_open; [right; reflexivity | sg]
    | |- sim _ _ _ _ (preceded (chr (c_ "(")) _) _ =>
        eapply sim_open; [left; reflexivity | sg]
    | |- sim _ _ _ _ (preceded (chr (c_ "{")) _) _ =>
        eapply sim_open; [right; reflexivity | sg]
    | |- sim _ _ _ _ (preceded (terminated (chr (c_ "(")) _) _) _ =>
        eapply sim_open2; [left; reflexivity | sg]
    | |- sim _ _ _ _ (preceded (terminated (chr (c_ "{")) _) _) _ =>
        eapply sim_open2; [right; reflexivity | sg]
    | |- sim _ _ _ _ (pair _ _) _ => eapply sim_pair; [sg | sg]
    | |- sim _ _ _ _ (map _ _) _ => eapply sim_map; sg
    | |- sim _ _ _ _ (preceded _ _) _ => eapply sim_preceded; [sg | sg]
    | |- sim _ _ _ _ (terminated _ _) _ => eapply sim_terminated; [sg | sg]
    | |- sim _ _ _ _ (delimited _ _ _) _ => unfold delimited; sg
    | |- sim _ _ _ _ (separated_pair _ _ _) _ => unfold separated_pair; sg
    | |- sim _ _ _ _ (tuple3 _ _ _) _ => unfold tuple3; sg
    | |- sim _ _ _ _ (tuple4 _ _ _ _) _ => unfold tuple4; sg
    | |- sim _ _ _ _ (tuple5 _ _ _ _ _) _ => unfold tuple5; sg
    | |- sim _ _ _ _ (alt [_]) _ => eapply sim_alt_one; sg
    | |- sim _ _ _ _ (alt _) _ => eapply sim_alt_cons; [sg | sg]
    | |- sim _ _ _ _ (opt _) _ => eapply sim_opt; sg
    | |- sim _ _ _ _ (cut _) _ => eapply sim_cut; sg
    | |- sim _ _ _ _ (map_res _ _) _ => eapply sim_map_res; sg
    | |- sim _ _ _ _ (recognize _) _ => eapply sim_recognize; sg
    | |- sim _ _ _ _ (many0 _) _ => eapply sim_many0; sg
    | |- sim _ _ _ _ (many1 _) _ => eapply sim_many1; sg
    | |- sim _ _ _ _ (separated_list _ _) _ => eapply sim_separated_list; [sg | sg]
    | |- sim _ _ _ _ (separated_nonempty_list _ _) _ =>
        eapply sim_separated_nonempty_list; [sg | sg]
    | |- sim _ _ _ _ (sp_enc _) _ => unfold sp_enc; sg
    | |- sim _ _ _ _ (sp_enc1 _) _ => unfold sp_enc1; sg
    | |- sim _ _ _ _ (sp_sep _ _) _ => unfold sp_sep; sg
    | |- sim _ _ _ _ (sp_sep1 _ _) _ => unfold sp_sep1; sg
    | |- sim _ _ _ _ (bracketted _) _ => unfold bracketted; sg
    | |- sim _ _ _ _ (preceded_tag _ _) _ => unfold preceded_tag; sg
    | |- sim _ _ _ _ (preceded_tag1 _ _) _ => unfold preceded_tag1; sg
    | |- sim _ _ _ _ (preceded_bracketted _ _) _ => unfold preceded_bracketted; sg
    | |- sim _ _ _ _ (call1 _ _ _) _ => unfold call1; sg
    | |- sim _ _ _ _ (call2 _ _ _) _ => unfold call2; sg
    | |- sim _ _ _ _ (call0 _ _) _ => unfold call0; sg
    | |- sim _ _ _ _ (int_clause _) _ => unfold int_clause; sg
    | |- sim _ _ _ _ (stmt _ _) _ => unfold stmt; sg
    | |- sim _ _ _ _ (kw_by _) _ => unfold kw_by; sg
    | |- sim _ _ _ _ (expr2_of _) _ => unfold expr2_of; sg
    | |- sim _ _ _ _ _ _ => solve [eauto 2 with simdb nocore]
    end ].

Ltac gd p := let n := fresh "n" in intros n; unfold p; eapply sim_weaken; [sg | reflexivity ..].
Ltac sm p := intros; unfold p; eapply sim_weaken; [sg | reflexivity ..].
#[export] Hint Extern 1 (sim _ _ _ _ _ _) => sg_mono : simdb.
#[export] Hint Extern 1 (sim _ _ _ _ ?p ?q) =>
  constr_eq p q; apply sim_of_good; solve [eauto 1 with good nocore] : simdb.

(** ** terminals *)
Lemma gd_new_line : good true INever false new_line.
Proof. gd new_line. Qed.
#[export] Hint Resolve gd_new_line : good.
Lemma gd_sp : good false INever false sp.
Proof. gd sp. Qed.
#[export] Hint Resolve gd_sp : good.
Lemma gd_sp1 : good true INever false sp1.
Proof. gd sp1. Qed.
#[export] Hint Resolve gd_sp1 : good.

Lemma gd_esc1 : good false INever false (escaped (none_of (s_ "'\")) (c_ "\") (one_of esc_chars)).
Proof. apply good_escaped; [apply good_none_of | apply good_one_of]. Qed.
Lemma gd_esc2 : good false INever false (escaped (none_of (s_ """\")) (c_ "\") (one_of esc_chars)).
Proof. apply good_escaped; [apply good_none_of | apply good_one_of]. Qed.
#[export] Hint Resolve gd_esc1 gd_esc2 : good.
Lemma gd_string_content : good false INever false string_content.
Proof. apply good_escaped; [apply good_none_of | apply good_one_of]. Qed.
Lemma gd_echar : good false INever false echar.
Proof. apply good_escaped; [apply good_none_of | apply good_one_of]. Qed.
Lemma gd_string_literal : good true INever false string_literal.
Proof. gd string_literal. Qed.
#[export] Hint Resolve gd_string_literal : good.
Lemma gd_language_tag : good true INever false language_tag.
Proof. gd language_tag. Qed.
#[export] Hint Resolve gd_language_tag : good.

Lemma good_tw11 f : good true INever false (take_while_m_n 1 1 f).
Proof. apply (good_take_while_m_n 1 1 f). Qed.
#[export] Hint Resolve good_tw11 : good.
Lemma gd_pn_chars_u_one : good true INever false pn_chars_u_one.
Proof. unfold pn_chars_u_one, pn_chars_base_one. gd pn_chars_u_one. Qed.
#[export] Hint Resolve gd_pn_chars_u_one : good.
Lemma gd_pn_chars_tail : good false INever false pn_chars_tail.
Proof. unfold pn_chars_tail, pn_chars1, take_while1. gd pn_chars_tail. Qed.
#[export] Hint Resolve gd_pn_chars_tail : good.
Lemma gd_hex_primary : good true INever false hex_primary.
Proof. apply (good_take_while_m_n 2 2 char_is_hex). Qed.
#[export] Hint Resolve gd_hex_primary : good.
Lemma gd_plx : good true INever false plx.
Proof. gd plx. Qed.
#[export] Hint Resolve gd_plx : good.
Lemma gd_pn_local : good true INever false pn_local.
Proof. unfold pn_local, take_while1. gd pn_local. Qed.
#[export] Hint Resolve gd_pn_local : good.
Lemma gd_pn_prefix : good true INever false pn_prefix.
Proof. unfold pn_prefix, pn_chars_base_one. gd pn_prefix. Qed.
#[export] Hint Resolve gd_pn_prefix : good.
Lemma gd_pname_ns : good true INever false pname_ns.
Proof. gd pname_ns. Qed.
#[export] Hint Resolve gd_pname_ns : good.
Lemma gd_pname_ln : good true INever false pname_ln.
Proof. gd pname_ln. Qed.
#[export] Hint Resolve gd_pname_ln : good.
Lemma gd_prefixed_name : good true INever false prefixed_name.
Proof. gd prefixed_name. Qed.
#[export] Hint Resolve gd_prefixed_name : good.
Lemma gd_iri_ref : good true INever false iri_ref.
Proof. gd iri_ref. Qed.
#[export] Hint Resolve gd_iri_ref : good.
Lemma gd_iri : good true INever false iri.
Proof. gd iri. Qed.
#[export] Hint Resolve gd_iri : good.
Lemma gd_named_iri : good true INever false named_iri.
Proof. gd named_iri. Qed.
#[export] Hint Resolve gd_named_iri : good.
Lemma gd_default_or_named_iri : good true INever false default_or_named_iri.
Proof. gd default_or_named_iri. Qed.
#[export] Hint Resolve gd_default_or_named_iri : good.
Lemma gd_base_decl : good true INever false base_decl.
Proof. gd base_decl. Qed.
Lemma gd_prefix_decl : good true INever false prefix_decl.
Proof. gd prefix_decl. Qed.
#[export] Hint Resolve gd_base_decl gd_prefix_decl : good.
Lemma gd_prologue : good false INever false prologue.
Proof. gd prologue. Qed.
#[export] Hint Resolve gd_prologue : good.
Lemma gd_rdf_literal : good true INever false rdf_literal.
Proof. gd rdf_literal. Qed.
#[export] Hint Resolve gd_rdf_literal : good.
Lemma gd_anon : good true INever false anon.
Proof. gd anon. Qed.
Lemma gd_nil : good true INever false nil_.
Proof. gd nil_. Qed.
#[export] Hint Resolve gd_anon gd_nil : good.
Lemma gd_string_literal_arg : good true INever false string_literal_arg.
Proof. gd string_literal_arg. Qed.
Lemma gd_opt_silent : good false INever false opt_silent.
Proof. unfold opt_silent, silent. gd opt_silent. Qed.
Lemma gd_opt_distinct : good false INever false opt_distinct.
Proof. unfold opt_distinct, distinct. gd opt_distinct. Qed.
Lemma gd_boolean : good true INever false boolean.
Proof. gd boolean. Qed.
#[export] Hint Resolve gd_opt_silent gd_opt_distinct gd_boolean : good.
Lemma gd_opt_sign : good false INever false opt_sign.
Proof. gd opt_sign. Qed.
#[export] Hint Resolve gd_opt_sign : good.
Lemma gd_exponent : good true INever false exponent.
Proof. gd exponent. Qed.
#[export] Hint Resolve gd_exponent : good.
Lemma gd_recognize_sparql_float : good true INever false recognize_sparql_float.
Proof. gd recognize_sparql_float. Qed.
Lemma gd_sparql_decimal : good true INever false sparql_decimal.
Proof.
  apply good_intro. intros i. unfold sparql_decimal.
  pose proof (good_elim _ _ _ _ gd_recognize_sparql_float i) as O.
  destruct (recognize_sparql_float i) as [r x | []]; try exact O.
  destruct (parse_decimal x); [exact O | apply O].
Qed.
#[export] Hint Resolve gd_sparql_decimal : good.
Lemma gd_sparql_double : good true INever false sparql_double.
Proof. gd sparql_double. Qed.
Lemma gd_int_text : good true INever false (recognize (pair opt_sign digit1)).
Proof. gd digit1. Qed.
Lemma gd_sparql_int : good true INever false sparql_int.
Proof.
  apply good_intro. intros i. unfold sparql_int.
  pose proof (good_elim _ _ _ _ gd_int_text i) as O.
  destruct (recognize _ i) as [r x | []]; try exact O.
  destruct (match r with [] => false | c :: _ => contains (s_ ".eE") c end); [apply O|].
  destruct (parse_i64 x); [exact O | apply O].
Qed.
#[export] Hint Resolve gd_sparql_double gd_sparql_int : good.
Lemma gd_numeric_literal : good true INever false numeric_literal.
Proof. gd numeric_literal. Qed.
#[export] Hint Resolve gd_numeric_literal : good.
Lemma gd_var_name : good true INever false var_name.
Proof. gd var_name. Qed.
#[export] Hint Resolve gd_var_name : good.
Lemma gd_var : good true INever false var.
Proof. gd var. Qed.
#[export] Hint Resolve gd_var : good.
Lemma gd_var_or_iri : good true INever false var_or_iri.
Proof. gd var_or_iri. Qed.
#[export] Hint Resolve gd_var_or_iri : good.
Lemma gd_verb : good true INever false verb.
Proof. gd verb. Qed.
#[export] Hint Resolve gd_verb : good.
Lemma gd_var_or_iris_or_all : good true INever false var_or_iris_or_all.
Proof. gd var_or_iris_or_all. Qed.
#[export] Hint Resolve gd_var_or_iris_or_all : good.
Lemma gd_blank_node : good true INever false blank_node.
Proof. gd blank_node. Qed.
#[export] Hint Resolve gd_blank_node : good.
Lemma gd_graph_term : good true INever false graph_term.
Proof. gd graph_term. Qed.
#[export] Hint Resolve gd_graph_term : good.
Lemma gd_var_or_term : good true INever false var_or_term.
Proof. gd var_or_term. Qed.
#[export] Hint Resolve gd_var_or_term : good.
Lemma gd_graph_ref : good true INever false graph_ref.
Proof. gd graph_ref. Qed.
#[export] Hint Resolve gd_graph_ref : good.
Lemma gd_graph_or_default : good true INever false graph_or_default.
Proof. gd graph_or_default. Qed.
Lemma gd_graph_ref_all : good true INever false graph_ref_all.
Proof. gd graph_ref_all. Qed.
#[export] Hint Resolve gd_graph_or_default gd_graph_ref_all : good.
Lemma gd_iri_or_a : good true INever false iri_or_a.
Proof. gd iri_or_a. Qed.
#[export] Hint Resolve gd_iri_or_a : good.
Lemma gd_iri_or_a_or_caret : good true INever false iri_or_a_or_caret.
Proof. gd iri_or_a_or_caret. Qed.
#[export] Hint Resolve gd_iri_or_a_or_caret : good.
Lemma gd_data_set_clause : good true INever false data_set_clause.
Proof. gd data_set_clause. Qed.
#[export] Hint Resolve gd_data_set_clause : good.
Lemma gd_datablock_value : good true INever false datablock_value.
Proof. gd datablock_value. Qed.
#[export] Hint Resolve gd_datablock_value : good.
Lemma gd_datablock : good true INever false datablock.
Proof. unfold datablock, inline_data_one_var, inline_data_full. gd datablock. Qed.
#[export] Hint Resolve gd_datablock : good.
Lemma gd_inline_data : good true INever false inline_data.
Proof. gd inline_data. Qed.
Lemma gd_values_clause : good false INever false values_clause.
Proof. gd values_clause. Qed.
#[export] Hint Resolve gd_inline_data gd_values_clause : good.
Lemma gd_limit_clause : good true INever false limit_clause.
Proof. gd limit_clause. Qed.
Lemma gd_offset_clause : good true INever false offset_clause.
Proof. gd offset_clause. Qed.
#[export] Hint Resolve gd_limit_clause gd_offset_clause : good.
Lemma gd_limit_offset_clause : good true INever false limit_offset_clause.
Proof. gd limit_offset_clause. Qed.
#[export] Hint Resolve gd_limit_offset_clause : good.
Lemma gd_using_clause : good true INever false using_clause.
Proof. gd using_clause. Qed.
#[export] Hint Resolve gd_using_clause : good.

(** ** path modifiers: a blank was read just before *)
Definition after_blank (i r : str) : Prop := exists u b, i = u ++ b :: r /\ blank_char b.

Lemma after_blank_trans i j r : suffix j i -> after_blank j r -> after_blank i r.
Proof.
  intros [t ->] (u & b & -> & Hb). exists (t ++ u), b. now rewrite app_assoc.
Qed.
Lemma one_of_after_blank cs i r x :
  one_of cs i = Ok r x -> (forall y, In y cs -> blank_char y) -> after_blank i r.
Proof.
  destruct i as [|y i]; [discriminate|]. unfold one_of.
  destruct (contains cs y) eqn:E; [|discriminate]. intros [= <- <-] H.
  exists [], y. split; [reflexivity|]. apply H.
  unfold contains in E. apply existsb_exists in E as (z & Hz & E).
  apply N.eqb_eq in E. now subst.
Qed.
Lemma blank_after_blank i r x :
  alt [recognize (one_of [32; 9]); new_line] i = Ok r x -> after_blank i r.
Proof.
  cbn [alt]. unfold recognize at 1. destruct (one_of [32; 9] i) as [r1 x1 | e] eqn:E.
  - intros [= <- _]. apply (one_of_after_blank _ _ _ _ E).
    intros y [<- | [<- | []]]; unfold blank_char; auto.
  - destruct e; try discriminate. unfold new_line, recognize, pair.
    destruct (opt _ i) as [i1 o | e] eqn:E1; [|discriminate].
    destruct (one_of [13; 10] i1) as [r2 x2 | e] eqn:E2; [|discriminate].
    intros [= <- _]. apply after_blank_trans with i1.
    + assert (G : good false INever false (opt (preceded (chr (c_ "#")) (many0 (none_of [10; 13]))))).
      { intros n. eapply sim_weaken; [sg | reflexivity ..]. }
      pose proof (good_elim _ _ _ _ G i) as O. rewrite E1 in O. apply O.
    + apply (one_of_after_blank _ _ _ _ E2).
      intros y [<- | [<- | []]]; unfold blank_char; auto.
Qed.
Lemma many1_loop_after_blank {A} (p : parser A) :
  (forall i r x, p i = Ok r x -> after_blank i r) ->
  forall n i r l, many1_loop n p i = Ok r l -> r = i \/ after_blank i r.
Proof.
  intros H. induction n as [|n IH]; intros i r l; [discriminate|]. cbn [many1_loop].
  destruct (p i) as [i1 a | []] eqn:E; try discriminate; [|intros [= <- _]; now left].
  destruct (str_eqb i1 i); [discriminate|].
  destruct (many1_loop n p i1) as [r' l' | e] eqn:E'; [|discriminate]. intros [= <- _].
  right. apply H in E. apply IH in E'. destruct E' as [-> | E']; [assumption|].
  apply after_blank_trans with i1; [|assumption].
  destruct E as (u & b & -> & _). exists (u ++ [b]). now rewrite <- app_assoc.
Qed.
Lemma sp1_after_blank i r x : sp1 i = Ok r x -> after_blank i r.
Proof.
  unfold sp1, recognize, many1.
  destruct (alt _ i) as [i1 a | e] eqn:E; [|discriminate].
  destruct (many1_loop _ _ i1) as [r' l | e] eqn:E'; [|discriminate].
  intros [= <- _]. apply blank_after_blank in E.
  destruct (many1_loop_after_blank _ blank_after_blank _ _ _ _ E') as [-> | E'']; [assumption|].
  apply after_blank_trans with i1; [|assumption].
  destruct E as (u & b & -> & _). exists (u ++ [b]). now rewrite <- app_assoc.
Qed.

Lemma path_mod_ok i : path_mod i = Err Panic \/ ok_res true IAny false i (path_mod i).
Proof.
  unfold path_mod. destruct i as [|c i]; [right; exact I|].
  destruct (split_at 1 (c :: i)) as [[h r]|] eqn:E; [|now left]. right.
  apply split_at_app in E as [E L].
  destruct (path_mod_from_str h); [|apply suffix_refl].
  split; [now exists h|]. rewrite E, app_length. destruct h; simpl in *; [discriminate | lia].
Qed.
Lemma path_mod_panic i : path_mod i = Err Panic -> exists c v, i = c :: v /\ 128 <= c.
Proof.
  unfold path_mod. destruct i as [|c i]; [discriminate|]. cbn [split_at].
  unfold utf8_len at 1. destruct (N.ltb_spec c 128) as [L | L].
  - unfold utf8_len. apply N.ltb_lt in L. rewrite L. cbn.
    destruct i; cbn; destruct (path_mod_from_str [c]); discriminate.
  - intros _. now exists c, i.
Qed.

Lemma gd_blank_path_mod : good true IAny true (preceded sp1 path_mod).
Proof.
  apply good_intro. intros i. unfold preceded, map, pair.
  pose proof (good_elim _ _ _ _ gd_sp1 i) as O. pose proof (sp1_after_blank i) as B.
  destruct (sp1 i) as [i1 x | []]; try exact O; try (simpl in *; tauto).
  specialize (B _ _ eq_refl). destruct O as [S L].
  destruct (path_mod_ok i1) as [P | P].
  - rewrite P. destruct (path_mod_panic _ P) as (c & v & -> & Hc). split; [reflexivity|].
    destruct B as (u & b & -> & Hb). exists (u ++ [b]), c, v. split; [now rewrite <- app_assoc|].
    right. split; [assumption|]. now exists u, b.
  - destruct (path_mod i1) as [i2 m | e].
    + destruct P as [S2 L2]. split; [eapply suffix_trans; eauto|]. intros _.
      apply suffix_length in S2. specialize (L eq_refl). lia.
    + eapply (ok_res_suffix_err (A := PathMod) true IAny true true i i1 e S).
      eapply ok_res_err_weaken; [exact P | auto | auto].
Qed.
#[export] Hint Resolve gd_blank_path_mod : good.

(** ** triples *)
Section Triple.
  Variables (n : nat) (gn gn' : parser GraphNode).

  Lemma sm_collection : sim (pred n) true INever false gn gn' ->
    sim n true INever false (collection_of gn) (collection_of gn').
  Proof. sm @collection_of. Qed.
  Lemma sm_object_list : sim n true INever false gn gn' ->
    sim n true INever false (object_list_of gn) (object_list_of gn').
  Proof. sm @object_list_of. Qed.
End Triple.
#[export] Hint Resolve sm_collection sm_object_list : simdb.
Lemma sm_property_list_not_empty n gn gn' : sim n true INever false gn gn' ->
  sim n true INever false (property_list_not_empty_of gn) (property_list_not_empty_of gn').
Proof. sm @property_list_not_empty_of. Qed.
#[export] Hint Resolve sm_property_list_not_empty : simdb.
Lemma sm_blank_node_property_list n gn gn' : sim (pred n) true INever false gn gn' ->
  sim n true INever false (blank_node_property_list_of gn) (blank_node_property_list_of gn').
Proof. sm @blank_node_property_list_of. Qed.
#[export] Hint Resolve sm_blank_node_property_list : simdb.
Lemma sm_triples_node n gn gn' : sim (pred n) true INever false gn gn' ->
  sim n true INever false (triples_node_of gn) (triples_node_of gn').
Proof. sm @triples_node_of. Qed.
#[export] Hint Resolve sm_triples_node : simdb.
Lemma sm_graph_node_body n gn gn' : sim n true INever false gn gn' ->
  sim (S n) true INever false (graph_node_body gn) (graph_node_body gn').
Proof. sm @graph_node_body. Qed.
Lemma gd_graph_node : good true INever false graph_node.
Proof. apply good_fixp. intros. now apply sm_graph_node_body. Qed.
Lemma graph_node_eq i : graph_node i = graph_node_body graph_node i.
Proof. apply (fixp_eq true INever false). intros. now apply sm_graph_node_body. Qed.
#[export] Hint Resolve gd_graph_node : good.
Lemma gd_collection : good true INever false collection.
Proof. gd collection. Qed.
Lemma gd_object_list : good true INever false object_list.
Proof. gd object_list. Qed.
Lemma gd_property_list_not_empty : good true INever false property_list_not_empty.
Proof. gd property_list_not_empty. Qed.
Lemma gd_triples_node : good true INever false triples_node.
Proof. gd triples_node. Qed.
#[export] Hint Resolve gd_object_list gd_property_list_not_empty gd_triples_node : good.
Lemma gd_blank_node_property_list : good true INever false blank_node_property_list.
Proof. gd blank_node_property_list. Qed.
Lemma gd_property_list : good false INever false property_list.
Proof. gd property_list. Qed.
#[export] Hint Resolve gd_property_list : good.
Lemma gd_triples_same_subject : good true INever false triples_same_subject.
Proof. gd triples_same_subject. Qed.
#[export] Hint Resolve gd_triples_same_subject : good.
Lemma gd_triples_template : good true INever false triples_template.
Proof. gd triples_template. Qed.
Lemma gd_construct_template : good true INever false construct_template.
Proof. gd construct_template. Qed.
#[export] Hint Resolve gd_triples_template gd_construct_template : good.

(** ** paths *)
Lemma gd_path_negated_property_set : good true INever false path_negated_property_set.
Proof. unfold path_negated_property_set, path_one_in_property_set. gd path_negated_property_set. Qed.
#[export] Hint Resolve gd_path_negated_property_set : good.
Lemma sm_path_primary n pa pa' : sim (pred n) true IAny true pa pa' ->
  sim n true IAny true (path_primary_of pa) (path_primary_of pa').
Proof. sm @path_primary_of. Qed.
#[export] Hint Resolve sm_path_primary : simdb.
Lemma sm_path_elt n pa pa' : sim (pred n) true IAny true pa pa' ->
  sim n true IAny true (path_elt_of pa) (path_elt_of pa').
Proof. sm @path_elt_of. Qed.
#[export] Hint Resolve sm_path_elt : simdb.
Lemma sm_path_elt_or_inverse n pa pa' : sim (pred n) true IAny true pa pa' ->
  sim n true IAny true (path_elt_or_inverse_of pa) (path_elt_or_inverse_of pa').
Proof. sm @path_elt_or_inverse_of. Qed.
#[export] Hint Resolve sm_path_elt_or_inverse : simdb.
Lemma sm_path_sequence n pa pa' : sim (pred n) true IAny true pa pa' ->
  sim n true IAny true (path_sequence_of pa) (path_sequence_of pa').
Proof. sm @path_sequence_of. Qed.
#[export] Hint Resolve sm_path_sequence : simdb.
Lemma sm_path_alternative_body n pa pa' : sim n true IAny true pa pa' ->
  sim (S n) true IAny true (path_alternative_body pa) (path_alternative_body pa').
Proof. sm @path_alternative_body. Qed.
Lemma gd_path_alternative : good true IAny true path_alternative.
Proof. apply good_fixp. intros. now apply sm_path_alternative_body. Qed.
Lemma path_alternative_eq i : path_alternative i = path_alternative_body path_alternative i.
Proof. apply (fixp_eq true IAny true). intros. now apply sm_path_alternative_body. Qed.
#[export] Hint Resolve gd_path_alternative : good.
Lemma gd_verb_path_or_simple : good true IAny true verb_path_or_simple.
Proof. gd verb_path_or_simple. Qed.
#[export] Hint Resolve gd_verb_path_or_simple : good.
Lemma gd_property_list_path_entry : good true IAny true property_list_path_entry.
Proof. gd property_list_path_entry. Qed.
#[export] Hint Resolve gd_property_list_path_entry : good.
Lemma sm_object_list_path n gn gn' : sim n true IAny true gn gn' ->
  sim n true IAny true (object_list_path_of gn) (object_list_path_of gn').
Proof. sm @object_list_path_of. Qed.
#[export] Hint Resolve sm_object_list_path : simdb.
Lemma sm_property_list_path_not_empty n gn gn' : sim n true IAny true gn gn' ->
  sim n true IAny true (property_list_path_not_empty_of gn) (property_list_path_not_empty_of gn').
Proof. sm @property_list_path_not_empty_of. Qed.
#[export] Hint Resolve sm_property_list_path_not_empty : simdb.
Lemma sm_blank_node_property_list_path n gn gn' : sim (pred n) true IAny true gn gn' ->
  sim n true IAny true (blank_node_property_list_path_of gn) (blank_node_property_list_path_of gn').
Proof. sm @blank_node_property_list_path_of. Qed.
#[export] Hint Resolve sm_blank_node_property_list_path : simdb.
Lemma sm_triples_node_path n gn gn' : sim (pred n) true IAny true gn gn' ->
  sim n true IAny true (triples_node_path_of gn) (triples_node_path_of gn').
Proof. sm @triples_node_path_of. Qed.
#[export] Hint Resolve sm_triples_node_path : simdb.
Lemma sm_graph_node_path_body n gn gn' : sim n true IAny true gn gn' ->
  sim (S n) true IAny true (graph_node_path_body gn) (graph_node_path_body gn').
Proof. sm @graph_node_path_body. Qed.
Lemma gd_graph_node_path : good true IAny true graph_node_path.
Proof. apply good_fixp. intros. now apply sm_graph_node_path_body. Qed.
Lemma graph_node_path_eq i : graph_node_path i = graph_node_path_body graph_node_path i.
Proof. apply (fixp_eq true IAny true). intros. now apply sm_graph_node_path_body. Qed.
#[export] Hint Resolve gd_graph_node_path : good.
Lemma gd_object_list_path : good true IAny true object_list_path.
Proof. gd object_list_path. Qed.
Lemma gd_property_list_path_not_empty : good true IAny true property_list_path_not_empty.
Proof. gd property_list_path_not_empty. Qed.
Lemma gd_triples_node_path : good true IAny true triples_node_path.
Proof. gd triples_node_path. Qed.
#[export] Hint Resolve gd_property_list_path_not_empty gd_triples_node_path : good.
Lemma gd_property_list_path : good false IAny true property_list_path.
Proof. gd property_list_path. Qed.
#[export] Hint Resolve gd_property_list_path : good.
Lemma gd_triples_same_subject_path : good true IAny true triples_same_subject_path.
Proof. gd triples_same_subject_path. Qed.
#[export] Hint Resolve gd_triples_same_subject_path : good.
Lemma gd_triples_block : good true IAny true triples_block.
Proof. gd triples_block. Qed.
#[export] Hint Resolve gd_triples_block : good.

(** ** expressions and graph patterns *)
Lemma gd_comma : good true INever false comma.
Proof. gd comma. Qed.
#[export] Hint Resolve gd_comma : good.

Section Expr.
  Context {E : Type} (n : nat) (e e' : parser E).
  Hypothesis He : sim (pred n) true IAny true e e'.

  Lemma sm_bracketted_expr3 :
    sim n true IOpen true (bracketted_expr3_of e) (bracketted_expr3_of e').
  Proof. sm @bracketted_expr3_of. Qed.
  Lemma sm_expression_as_var_opt :
    sim n true IOpen true (expression_as_var_opt_of e) (expression_as_var_opt_of e').
  Proof. sm @expression_as_var_opt_of. Qed.
  Lemma sm_expression_as_var :
    sim n true IOpen true (expression_as_var_of e) (expression_as_var_of e').
  Proof. sm @expression_as_var_of. Qed.
  Lemma sm_expression_list : sim n true IOpen true (expression_list_of e) (expression_list_of e').
  Proof. sm @expression_list_of. Qed.
  Lemma sm_bracketted_expression :
    sim n true IOpen true (bracketted_expression_of e) (bracketted_expression_of e').
  Proof. sm @bracketted_expression_of. Qed.
  Lemma sm_arg_list : sim n true IOpen true (arg_list_of e) (arg_list_of e').
  Proof. sm @arg_list_of. Qed.
  Lemma sm_str_replace_expression :
    sim n true IOpen true (str_replace_expression_of e) (str_replace_expression_of e').
  Proof. sm @str_replace_expression_of. Qed.
End Expr.
#[export] Hint Resolve sm_bracketted_expr3 sm_expression_as_var_opt sm_expression_as_var
  sm_expression_list sm_bracketted_expression sm_arg_list sm_str_replace_expression : simdb.
