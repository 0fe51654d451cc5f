(** Safely laid out comparisons, constraints, modifiers and graph patterns are read. *)
From Verif Require Export LC5.
Notation length := List.length (only parsing).
Notation ex := expression (only parsing).
Notation gg := group_graph_pattern (only parsing).
Open Scope N_scope.
Open Scope list_scope.

Lemma tncs_fails_zip k i : zip_same i k = false -> fails (tag_no_case_streaming k) i.
Proof. intros H. exists i, KTag. unfold tag_no_case_streaming, compare_no_case. now rewrite H. Qed.
Lemma rdx_kws k : low_ascii (s_ k) = true -> rdx (tag_no_case_streaming (s_ k)) (word k).
Proof. intros K t r H. exists t. now apply tncs_ok. Qed.
Lemma kwf_letter k i c r : s_ k = c :: r -> low_ascii (s_ k) = true -> 97 <= c <= 122 -> c <> 107 -> not_first c i -> not_first (c - 32) i ->
  fails (tag_no_case (s_ k)) i.
Proof.
  intros E L C K N1 N2. rewrite E in *. apply tnc_fails_first; [exact L|]. destruct i as [|y i]; [exact I|]. cbn in *. clear E L.
  unfold to_lower. destruct ((65 <=? y) && (y <=? 90)) eqn:Y.
  - apply andb_true_iff in Y. rewrite !N.leb_le in Y. lia.
  - destruct (y =? 8490); [lia|]. exact N1.
Qed.
Lemma kws_letter k i c r : s_ k = c :: r -> low_ascii (s_ k) = true -> 97 <= c <= 122 -> c <> 107 -> i <> [] -> not_first c i -> not_first (c - 32) i ->
  fails (tag_no_case_streaming (s_ k)) i.
Proof.
  intros E L C K N N1 N2. rewrite E in *. apply tncs_fails_zip. destruct i as [|y i]; [congruence|]. cbn in N1, N2. cbn [zip_same].
  unfold low_ascii in L. cbn [forallb] in L. apply andb_true_iff in L. destruct L as [L _]. rewrite (to_lower_low c L).
  apply andb_false_iff. left. apply N.eqb_neq. clear E L N.
  unfold to_lower. destruct ((65 <=? y) && (y <=? 90)) eqn:Y.
  - apply andb_true_iff in Y. rewrite !N.leb_le in Y. lia.
  - destruct (y =? 8490); lia.
Qed.
Lemma limit_offset_fails r : ~ begins "limit" r /\ ~ begins "offset" r -> fails limit_offset_clause r.
Proof.
  intros [H1 H2]. unfold limit_offset_clause. apply alt_fails_cons; [|apply alt_fails_cons; [|apply alt_fails_nil]]; apply map_fails, pair_fails1; unfold int_clause;
    apply map_res_fails1, preceded_fails1, terminated_fails1; [now apply (kw_fails "limit")|now apply (kw_fails "offset")].
Qed.
Lemma property_list_path_first i : stops path_first i -> stops (oneof (s_ "?$")) i -> fails property_list_path_not_empty i.
Proof.
  intros S1 S2. unfold property_list_path_not_empty, property_list_path_not_empty_of. apply map_fails, pair_fails1, terminated_fails1.
  unfold verb_path_or_simple. apply alt_fails_cons; [now apply map_fails, path_first_fails|].
  apply alt_fails_cons; [now apply map_fails, var_first|apply alt_fails_nil].
Qed.
Lemma path_primary_fails i : fails path_primary i -> stops (oneof (s_ "^")) i -> fails path_alternative i.
Proof.
  intros P S. unfold fails. rewrite path_alternative_eq. change (fails (path_alternative_body path_alternative) i).
  apply map_fails, sepne_fails, map_fails, sepne_fails.
  unfold path_elt_or_inverse_of. apply alt_fails_cons; [now apply map_fails, map_fails, pair_fails1|].
  apply alt_fails_cons; [|apply alt_fails_nil]. apply map_fails, preceded_fails1, tag_fails_first. eapply stops_oneof; [exact S|cbn; auto].
Qed.
Lemma blank_close_no_path b x : blank b -> fails path_alternative (b ++ 41 :: x).
Proof.
  intros Hb. assert (X : forall f : char -> bool, forallb (fun c => negb (f c)) [32; 9; 10; 13; 35; 41] = true -> stops f (b ++ 41 :: x)).
  { intros f F. cbn [forallb] in F. rewrite !andb_true_iff in F. destruct F as (F1 & F2 & F3 & F4 & F5 & F6 & _).
    apply blank_stops; [cbn [forallb]; now rewrite F1, F2, F3, F4, F5|assumption|]. cbn. now apply negb_true_iff in F6. }
  assert (Y : forall c, forallb (fun x => negb (oneof [c] x)) [32; 9; 10; 13; 35; 41] = true -> not_first c (b ++ 41 :: x)).
  { intros c F. apply (stops_oneof [c]); [now apply X|now left]. }
  apply path_primary_fails; [|now apply X]. unfold path_primary, path_primary_of.
  apply alt_fails_cons; [apply map_fails, iri_fails; [apply iri_ref_fails; now apply Y|]|].
  { apply pname_ns_fails_blank; [now apply X|assumption|apply solid_first; cbn; intuition discriminate|discriminate]. }
  apply alt_fails_cons; [apply map_fails, tag_fails_first; now apply Y|].
  apply alt_fails_cons; [apply map_fails, preceded_fails1, tag_fails_first; now apply Y|].
  apply alt_fails_cons; [|apply alt_fails_nil]. apply map_fails, delimited_fails1, tag_fails_first; now apply Y.
Qed.
Lemma group_or_nil_fails i : group_or_nil i -> fails property_list_path_not_empty i.
Proof.
  intros [[y ->]|(b & x & -> & Hb)]; [now apply property_list_path_first|].
  assert (P : fails path_primary (40 :: b ++ 41 :: x)).
  { unfold path_primary, path_primary_of. apply alt_fails_cons; [now apply map_fails, iri_fails_first|].
    apply alt_fails_cons; [now apply map_fails, tag_fails_first|].
    apply alt_fails_cons; [now apply map_fails, preceded_fails1, tag_fails_first|].
    apply alt_fails_cons; [|apply alt_fails_nil]. apply map_fails. eapply delimited_fails2; [reflexivity|now apply blank_close_no_path]. }
  unfold property_list_path_not_empty, property_list_path_not_empty_of. apply map_fails, pair_fails1, terminated_fails1.
  unfold verb_path_or_simple. apply alt_fails_cons; [apply map_fails|apply alt_fails_cons; [now apply map_fails, var_first|apply alt_fails_nil]].
  now apply path_primary_fails.
Qed.
Definition pat_words : list string := ["optional"; "minus"; "graph"; "service"; "filter"; "bind"; "values"]%string.
Lemma no_block_word k i : not_bool k = true -> begins k i -> no_iri i -> fails triples_block i.
Proof.
  intros W B N. apply triples_block_fails, tssp_fails; [|now apply (vot_word_fails k)]. apply (node_path_word_fails k); [|exact B].
  unfold not_bool in W. rewrite !andb_true_iff in W. tauto.
Qed.
Lemma no_block_iri k i j t r : word_like k = true -> begins k i -> i = t ++ r -> W_iri j t r -> nxt group_or_nil r -> fails triples_block i.
Proof.
  intros W B -> H (b & x & -> & Hb & S & G). apply triples_block_fails. unfold triples_same_subject_path.
  apply alt_fails_cons; [|apply alt_fails_cons; [|apply alt_fails_nil]]; apply map_fails.
  - unfold sp_sep1. eapply pair_fails2.
    + apply (rd_var_or_term (VotTerm (GtIri j)) t (b ++ x)). exact H.
    + destruct b as [|c b]; [apply preceded_fails1, sp1_fails; exact S|]. eapply preceded_fails2; [apply sp1_ok; [split; [exact Hb|discriminate]|exact S]|].
      now apply group_or_nil_fails.
  - apply pair_fails1. now apply (node_path_word_fails k).
Qed.
Lemma no_block_fails r : no_block r -> fails triples_block r.
Proof.
  intros [[x ->]|[[x ->]|[B [N|(j & t & r' & -> & H & N)]]]].
  - apply triples_block_fails, tssp_fails; [now apply triples_node_path_fails1|now apply var_or_term_first].
  - apply triples_block_fails, tssp_fails; [now apply triples_node_path_fails1|now apply var_or_term_first].
  - destruct B as [B|[B|[B|[B|[B|[B|B]]]]]]; (eapply no_block_word; [|exact B|exact N]; reflexivity).
  - destruct B as [B|[B|[B|[B|[B|[B|B]]]]]]; (eapply no_block_iri; [|exact B|reflexivity|exact H|exact N]; reflexivity).
Qed.
Lemma built_in_mod_end r : mod_end r -> fails built_in_call r.
Proof.
  intros [-> |[[x ->]|[_ B]]]; [now apply built_in_first|now apply built_in_first|].
  destruct B as [(t & x & -> & Ht)|[(t & x & -> & Ht)|[(t & x & -> & Ht)|[(t & x & -> & Ht)|(t & x & -> & Ht)]]]];
    (eapply built_in_other; [exact Ht|reflexivity|reflexivity]).
Qed.
Lemma mod_end_stops f r : mod_end r -> f 125 = false -> forallb (fun c => negb (f c)) (List.map N.of_nat (seq 65 26 ++ seq 97 26)) = true -> stops f r.
Proof.
  intros [-> |[[x ->]|[_ B]]] F L; [exact I|exact F|].
  destruct B as [B|[B|[B|[B|B]]]]; (eapply begins_stops; [|exact L|exact B]; reflexivity).
Qed.
Lemma mod_end_iri r : mod_end r -> fails iri r.
Proof.
  intros [-> |[[x ->]|[N _]]]; [now apply iri_fails_first|now apply iri_fails_first|now apply no_iri_fails].
Qed.
Lemma function_call_iri r : fails iri r -> fails function_call r.
Proof. intros H. now apply map_fails, pair_fails1. Qed.
Lemma mod_end_not c r : mod_end r -> c = 40 -> not_first c r.
Proof. intros H ->. apply (stops_oneof [40]); [now apply mod_end_stops|now left]. Qed.
Lemma constraint_mod_end r : mod_end r -> fails constraint r.
Proof.
  intros H. unfold constraint, constraint_of.
  apply alt_fails_cons; [apply map_fails, bracketted_first; now apply mod_end_not|].
  apply alt_fails_cons; [now apply map_fails, built_in_mod_end|].
  apply alt_fails_cons; [|apply alt_fails_nil]. now apply map_fails, function_call_iri, mod_end_iri.
Qed.
Lemma mod_end_kw k r : mod_end r -> word_like k = true ->
  forallb (fun w => differ (s_ w) (s_ k)) ["having"; "order"; "limit"; "offset"; "values"]%string = true -> fails (tag_no_case (s_ k)) r.
Proof.
  intros H W D. cbn [forallb] in D. rewrite !andb_true_iff in D. pose proof (word_low _ W) as L.
  destruct H as [-> |[[x ->]|[_ B]]]; [now apply kwf_fails_base|now apply kwf_fails_base|].
  destruct B as [(t & x & -> & Ht)|[(t & x & -> & Ht)|[(t & x & -> & Ht)|[(t & x & -> & Ht)|(t & x & -> & Ht)]]]];
    (eapply tnc_fails_kwd; [|exact L| |exact Ht]; [reflexivity|tauto]).
Qed.
Lemma order_condition_mod_end r : mod_end r -> fails order_condition r.
Proof.
  intros H. unfold order_condition, order_condition_of. apply alt_fails_cons.
  - apply map_fails, map_fails, pair_fails1. unfold order. apply alt_fails_cons; [|apply alt_fails_cons; [|apply alt_fails_nil]]; apply map_fails;
      now apply mod_end_kw.
  - apply alt_fails_cons; [now apply map_fails, constraint_mod_end|]. apply alt_fails_cons; [|apply alt_fails_nil].
    apply map_fails, var_first. now apply mod_end_stops.
Qed.
Definition group_condition := group_condition_of ex gg.
Lemma group_condition_mod_end r : mod_end r -> fails group_condition r.
Proof.
  intros H. unfold group_condition, group_condition_of. apply alt_fails_cons; [now apply map_fails, built_in_mod_end|].
  apply alt_fails_cons; [now apply map_fails, function_call_iri, mod_end_iri|].
  apply alt_fails_cons; [apply map_fails, delimited_fails1, chr_fails; now apply mod_end_not|].
  apply alt_fails_cons; [|apply alt_fails_nil]. apply map_fails, var_first. now apply mod_end_stops.
Qed.
Lemma gu_order : guarded ["asc"; "desc"]%string (order_expression_of ex).
Proof.
  intros i H. unfold order_expression_of. apply map_fails. unfold separated_pair, order.
  assert (X : forall k, In k ["asc"; "desc"]%string -> fails (tag_no_case (s_ k)) i \/ exists u x, tag_no_case (s_ k) i = Ok x u /\ fails (preceded sp1 (bracketted_expression_of ex)) x).
  { intros k I. destruct (H k I) as [F|(u & b & c & v & E & B & C & D)]; [now left|right]. exists u, (b ++ c :: v). split; [exact E|].
    assert (S : solid (c :: v)).
    { cbn. unfold oneof in C. cbn [existsb] in C. rewrite !orb_false_iff, !N.eqb_neq in C. clear -C. intuition congruence. }
    destruct b as [|y b]; [now apply preceded_fails1, sp1_fails|]. eapply preceded_fails2; [apply sp1_ok; [split; [exact B|discriminate]|exact S]|].
    apply bracketted_first. cbn. intros ->. discriminate C. }
  destruct (X "asc"%string) as [F|(u & x & E & F)]; [now left| |].
  - destruct (X "desc"%string) as [F'|(u & x & E & F')]; [now right; left| |].
    + apply pair_fails1. apply alt_fails_cons; [now apply map_fails|]. apply alt_fails_cons; [|apply alt_fails_nil]. now apply map_fails.
    + eapply pair_fails2; [|exact F']. apply alt_next; [now apply map_fails|]. apply alt_first. now apply (map_ok _ _ _ _ u).
  - eapply pair_fails2; [|exact F]. apply alt_first. now apply (map_ok _ _ _ _ u).
Qed.
Lemma rd_order o : rd order o (W_order o).
Proof.
  unfold order. destruct o; cbn [W_order].
  - alt1. now apply (rd_word "asc").
  - alt_skip; [now apply (nf_kw "asc" "desc")|]. alt1. now apply (rd_word "desc").
Qed.
Lemma rdx_by k : low_ascii (s_ k) = true -> rdx (kw_by (s_ k)) (word k >> gap1 >> word "by" >> gap1).
Proof.
  intros K. unfold kw_by. intros t r H. apply then_l3 in H. revert t r H. apply rdx_terminated; [|apply rdx_sp1].
  apply rdx_delimited; [now apply rdx_kw|apply rdx_sp1|now apply rdx_kw].
Qed.
Lemma tag_amp_fails i : not_first 38 i -> fails (tag (s_ "&&")) i. Proof. apply tag_fails_first. Qed.
Lemma tag_bars_fails i : not_first 124 i -> fails (tag (s_ "||")) i. Proof. apply tag_fails_first. Qed.
Lemma sym_ne P s Q : s_ s <> [] -> forall t r, (P >> sym s >> Q) t r -> t <> [].
Proof. intros N t r (a & b & -> & _ & c & d & -> & Hc & _) E. hnf in Hc. subst c. apply app_eq_nil in E. destruct E as [_ E]. apply app_eq_nil in E. tauto. Qed.
Lemma no_op_not c r : no_op r -> In c (s_ "=!<>iInN") -> not_first c r.
Proof. intros (x & y & -> & N) I. cbn. intros ->. contradiction. Qed.
Lemma no_op_fails r : no_op r -> fails op_expression r.
Proof.
  intros H. unfold op_expression, op_expression_of.
  apply alt_fails_cons; [apply map_fails, tag0_fails, (nc_first 61 "=" []); try reflexivity; apply no_op_not; [exact H|cbn; auto 10]|].
  apply alt_fails_cons; [apply map_fails, tag0_fails, (nc_first 33 "!=" [61]); try reflexivity; apply no_op_not; [exact H|cbn; auto 10]|].
  apply alt_fails_cons; [apply map_fails, tag0_fails, (nc_first 60 "<" []); try reflexivity; apply no_op_not; [exact H|cbn; auto 10]|].
  apply alt_fails_cons; [apply map_fails, tag0_fails, (nc_first 62 ">" []); try reflexivity; apply no_op_not; [exact H|cbn; auto 10]|].
  apply alt_fails_cons; [apply map_fails, tag0_fails, (nc_first 60 "<=" [61]); try reflexivity; apply no_op_not; [exact H|cbn; auto 10]|].
  apply alt_fails_cons; [apply map_fails, tag0_fails, (nc_first 62 ">=" [61]); try reflexivity; apply no_op_not; [exact H|cbn; auto 10]|].
  apply alt_fails_cons.
  - apply map_fails, tag0_fails. apply (kwf_letter "in" r 105 [110]); try reflexivity; try (split; discriminate); try discriminate; apply no_op_not; try exact H; cbn; auto 10.
  - apply alt_fails_cons; [|apply alt_fails_nil]. apply map_fails, preceded_fails1, terminated_fails1.
    apply (kws_letter "not" r 110 [111; 116]); try reflexivity; try (split; discriminate); try discriminate.
    + destruct H as (x & y & -> & _). discriminate.
    + apply no_op_not; [exact H|cbn; auto 10].
    + apply no_op_not; [exact H|cbn; auto 10].
Qed.
Lemma nf_sym c k l s x y : s_ k = c :: l -> low_ascii (s_ k) = true -> (97 <=? c) && (c <=? 122) = false ->
  s_ s = x :: y -> negb (x =? c) = true -> nf (tag_no_case (s_ k)) (sym s).
Proof.
  intros E L C S D t r H. hnf in H. subst t. eapply nc_first; [exact E|exact L|exact C|]. rewrite S. cbn. intros ->. now rewrite N.eqb_refl in D.
Qed.
Lemma nf_symw c k l s : s_ k = c :: l -> low_ascii (s_ k) = true -> (97 <=? c) && (c <=? 122) = false -> word_like s = true ->
  forallb (fun x => negb (oneof [c] x)) (List.map N.of_nat (seq 65 26 ++ seq 97 26)) = true ->
  nf (tag_no_case (s_ k)) (word s).
Proof.
  intros E L C W F t r H. eapply nc_first; [exact E|exact L|exact C|]. apply (stops_oneof [c]); [|now left].
  apply (begins_stops _ s); [exact W|exact F|]. exists t, r. split; [reflexivity|exact H].
Qed.
Ltac sks := alt_skip; [apply nf_tag0, nf_then; first [eapply nf_sym; reflexivity | eapply nf_symw; reflexivity]|].
Lemma gap_eq x : solid (61 :: x). Proof. cbn. split; [intuition discriminate|discriminate]. Qed.

Section Core.
  Context (WE : Expression -> lang) (WG : GroupGraphPattern -> lang).
  Context (HE : forall x, rd ex x (WE x)) (HG : forall x, rd gg x (WG x)).
  (** a comparison sign followed by [=] is not the shorter sign *)
  Lemma nf_longer c s s2 P : s_ s = [c] -> s_ s2 = [c; 61] -> low_ascii (s_ s) = true -> nf (preceded_tag (s_ s) additive_expression) (sym s2 >> P).
  Proof.
    intros E E2 L t r (u & v & -> & Hu & _). hnf in Hu. subst u. rewrite E2. cbn [app]. unfold preceded_tag.
    eapply preceded_fails2; [eapply terminated_ok|].
    - change (c :: 61 :: v ++ r) with ([c] ++ 61 :: v ++ r). apply tnc_ok; [exact L|]. rewrite <- E. now apply kw_self.
    - apply (sp_ok []); [apply blank_nil|apply gap_eq].
    - now apply additive_first.
  Qed.
  Lemma rd_op o : rd op_expression o (W_op WE WG o).
  Proof.
    unfold op_expression, op_expression_of. destruct o as [a|a|a|a|a|a|l|l]; cbn [W_op].
    - alt1. eapply rd_map; [|reflexivity]. apply rd_preceded_sym; [reflexivity|]. exact (rd_additive WE WG HE HG a).
    - sks. alt1. eapply rd_map; [|reflexivity]. apply rd_preceded_sym; [reflexivity|]. exact (rd_additive WE WG HE HG a).
    - do 2 sks. alt1. eapply rd_map; [|reflexivity]. apply rd_preceded_sym; [reflexivity|]. exact (rd_additive WE WG HE HG a).
    - do 3 sks. alt1. eapply rd_map; [|reflexivity]. apply rd_preceded_sym; [reflexivity|]. exact (rd_additive WE WG HE HG a).
    - do 2 sks. alt_skip; [now apply (nf_longer 60 "<" "<=")|]. sks. alt1. eapply rd_map; [|reflexivity]. apply rd_preceded_sym; [reflexivity|]. exact (rd_additive WE WG HE HG a).
    - do 3 sks. alt_skip; [now apply (nf_longer 62 ">" ">=")|]. sks. alt1. eapply rd_map; [|reflexivity]. apply rd_preceded_sym; [reflexivity|]. exact (rd_additive WE WG HE HG a).
    - do 6 sks. alt1. eapply rd_map; [|reflexivity]. apply rd_preceded_tag; [reflexivity|]. apply rd_expression_list.
    - do 6 sks. alt_skip; [now apply nf_tag0, nf_then, (nf_kw "in" "not")|]. alt1. eapply rd_map; [|reflexivity].
      apply (rd_sub _ _ ((word "not" >> gap1 >> word "in" >> gap1) >> W_expression_list l)).
      + apply rd_preceded; [|apply rd_expression_list]. apply rdx_terminated; [now apply rdx_kws|]. apply rdx_sp_enc1. now apply rdx_kws.
      + intros t r H. now apply then_l4.
  Qed.
  Lemma mv_relational : moves relational_expression. Proof. eapply mv_gd, gd_relational_expression. Qed.
  Lemma mv_conditional_and : moves (conditional_and_expression_of ex gg). Proof. mv. Qed.
  Lemma rd_relational e : rd relational_expression e (W_relational WE WG e).
  Proof.
    destruct e as [a o]. unfold relational_expression, relational_expression_of. apply (rd_map _ _ (a, o)); [|reflexivity].
    apply rd_pair; [exact (rd_additive WE WG HE HG a)|]. apply rd_opt; [intros x; apply rd_preceded; [apply rdx_sp|apply rd_op]|].
    intros r. apply sp_fails, no_op_fails.
  Qed.
  Lemma rd_conditional_and c : rd (conditional_and_expression_of ex gg) c (W_conditional_and WE WG c).
  Proof.
    destruct c as [l]. unfold conditional_and_expression_of. eapply rd_map; [|reflexivity]. cbn [W_conditional_and].
    apply rd_sep1; [exact rd_relational|exact mv_relational|mv|apply rdx_sp_enc, (rdx_tag "&&")|now apply sym_ne|].
    intros r H. exact (sp_enc_stop _ _ _ _ tag_amp_fails H).
  Qed.
  Lemma rd_expression_layout e : rd ex e (expression_layout WE WG e).
  Proof.
    destruct e as [l]. intros t r H. rewrite expression_eq. revert t r H. unfold expression_body. eapply rd_map; [|reflexivity]. cbn [expression_layout].
    apply rd_sep1; [exact rd_conditional_and|exact mv_conditional_and|mv|apply rdx_sp_enc, (rdx_tag "||")|now apply sym_ne|].
    intros r H. exact (sp_enc_stop _ _ _ _ tag_bars_fails H).
  Qed.
End Core.
