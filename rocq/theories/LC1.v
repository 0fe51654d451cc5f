(** Safely laid out terms, prologues, dataset clauses and data blocks are read. *)
From Verif Require Export LFirst.
Notation length := List.length (only parsing).
Open Scope N_scope.
Open Scope list_scope.

Ltac alt1 := apply rd_alt_first.
Ltac alt_skip := apply rd_alt_next; [apply nf_map|].
(** [nf p P]: by the first character of [P] *)
Ltac by_start S L := let t := fresh "t" in let r := fresh "r" in let H := fresh "H" in
  intros t r H; apply L; eapply starts_stops; [eapply S, H|reflexivity].

Lemma rd_iri j : rd iri j (W_iri j).
Proof. intros t r H. now apply iri_iff. Qed.
Lemma rd_var v : rd var v (W_var v).
Proof. intros t r [H S]. now apply var_reads. Qed.
Lemma rd_rdf_literal l : rd rdf_literal l (W_rdf_literal l).
Proof.
  intros t r. destruct l as [s d]. intros (u & x & -> & (q & Hq & -> & Hb & N) & D). apply rdf_literal_iff. exists q, (x ++ r).
  split; [assumption|]. split; [|auto]. cbn. now rewrite <- !app_assoc.
Qed.
Lemma rd_numeric n : rd numeric_literal n (W_numeric n).
Proof.
  intros t r. destruct n as [z|q [z|]]; cbn.
  - intros [H1 H2]. now apply numeric_int.
  - intros [(u & v & -> & Hu & Hv) S]. rewrite <- app_assoc. now apply numeric_exp.
  - intros (H & L & N1 & N2 & NI). pose proof (longest_dec_follow t r L) as F. apply numeric_dec; [assumption..| |].
    + apply (int_fails_dec q); [assumption..|].
      destruct H as (sg & k & ip & fp & pt & S & E & D1 & D2 & P & N & Q1 & Q2).
      destruct P as [->|[-> ->]].
      * left. rewrite E, !has_dot_app. cbn. now rewrite !orb_true_r.
      * right. right. exists sg, k, ip. rewrite !app_nil_r in E. rewrite app_nil_r in N.
        assert (D : digits1 ip) by (split; assumption). repeat split; try assumption; try apply D.
        intros I. apply (NI (k * value ip)%Z). exists sg, k, ip. auto.
    + now apply exponent_fails_first.
Qed.
Lemma rd_word {A} k (a : A) : low_ascii (s_ k) = true -> rd (map (tag_no_case (s_ k)) (fun _ => a)) a (word k).
Proof. intros K t r H. apply (map_ok _ _ _ _ t); [now apply tnc_ok|reflexivity]. Qed.
Lemma rd_boolean b : rd boolean b (W_boolean b).
Proof.
  unfold boolean. destruct b.
  - alt_skip; [|alt1]; intros t r [H _]; [now apply (tnc_fails_kwd (s_ "true"))|now apply (rd_word "true")].
  - alt1. intros t r [H _]. now apply (rd_word "false").
Qed.
Lemma label_ext s r : label_name s -> name_follow s r \/ exists x r', r = x ++ r' /\ x <> [] /\ label_name (s ++ x).
Proof.
  intros (c & t & -> & Hc & Ht). destruct (tail_ext t r Ht) as [F|(x & r' & -> & N & Hx)]; [left; exact F|].
  right. exists x, r'. repeat split; auto. exists c, (t ++ x). auto.
Qed.
Lemma rd_blank_node b : rd blank_node b (W_blank_node b).
Proof.
  intros t r [H L]. destruct b as [|s]; swap 1 2.
  - destruct H as (u & v & -> & -> & b & w & -> & Hb & [-> Hs]).
    change ((s_ "_:" ++ b ++ s) ++ r) with (95 :: 58 :: (b ++ s) ++ r). rewrite <- app_assoc. apply label_reads; [assumption..|].
    apply (longest_follow label_name name_follow); [apply label_ext|assumption|]. apply L.
  - destruct H as (u & v & -> & -> & b & w & -> & Hb & ->).
    change ((s_ "[" ++ b ++ s_ "]") ++ r) with (91 :: (b ++ [93]) ++ r). rewrite <- app_assoc. now apply anon_reads.
Qed.
Lemma rd_nil {A} (a : A) : rd (map nil_ (fun _ => a)) a W_nil.
Proof.
  intros t r (u & v & -> & -> & b & w & -> & Hb & ->). apply (map_ok _ _ _ _ b); [|reflexivity].
  change ((s_ "(" ++ b ++ s_ ")") ++ r) with (40 :: (b ++ [41]) ++ r). rewrite <- app_assoc. now apply nil_ok.
Qed.
Lemma nf_iri_plain k : nf iri (plain_word k).
Proof. intros t r [_ N]. now apply no_iri_fails. Qed.
Lemma plain_starts k t r : word_like k = true -> plain_word k t r -> starts (cap2 k) t.
Proof. intros W [H _]. now apply kw_starts. Qed.

Lemma rd_graph_term g : rd graph_term g (W_graph_term g).
Proof.
  unfold graph_term. destruct g as [i|l|n|b|b|]; cbn [W_graph_term].
  - alt1. eapply rd_map; [apply rd_iri|reflexivity].
  - alt_skip; [by_start rdf_literal_starts iri_fails_first|]. alt1. eapply rd_map; [apply rd_rdf_literal|reflexivity].
  - alt_skip; [by_start numeric_starts iri_fails_first|]. alt_skip; [by_start numeric_starts lit_first|].
    alt1. eapply rd_map; [apply rd_numeric|reflexivity].
  - alt_skip; [apply nf_iri_plain|]. alt_skip; [by_start boolean_starts lit_first|].
    alt_skip; [by_start boolean_starts num_first_fails|]. alt1. eapply rd_map; [apply rd_boolean|reflexivity].
  - assert (S : forall t r, W_blank_node b t r -> starts (s_ "_[") t) by (intros t r [H _]; now apply (blank_node_starts b)).
    alt_skip; [by_start S iri_fails_first|]. alt_skip; [by_start S lit_first|]. alt_skip; [by_start S num_first_fails|].
    alt_skip; [by_start S boolean_first|]. alt1. eapply rd_map; [apply rd_blank_node|reflexivity].
  - assert (S : forall t r, W_nil t r -> starts (s_ "(") t) by (intros t r H; now apply nil_starts).
    alt_skip; [by_start S iri_fails_first|]. alt_skip; [by_start S lit_first|]. alt_skip; [by_start S num_first_fails|].
    alt_skip; [by_start S boolean_first|]. alt_skip; [by_start S blank_node_first|]. alt1. apply rd_nil.
Qed.
(** an IRI at the start excludes a variable *)
Lemma iri_at_not_var j t r : W_iri j t r -> fails var (t ++ r).
Proof.
  intros H. apply iri_iff in H. destruct (var_verdict (t ++ r)) as [(r' & v & E)|F]; [exfalso|assumption].
  apply var_iff in E. destruct E as (b & E & _). rewrite E in H. eapply fails_not_ok; [|exact H].
  apply iri_fails_first. now destruct v.
Qed.
Lemma starts_var_fails cs t r : starts cs t -> forallb (fun c => negb (oneof (s_ "?$") c)) cs = true -> fails var (t ++ r).
Proof. intros S H. apply var_first. eapply starts_stops; eassumption. Qed.
Lemma nf_var_term g : nf var (W_graph_term g).
Proof.
  intros t r H. destruct g as [i|l|n|b|b|]; cbn in H.
  - eapply iri_at_not_var, H.
  - eapply starts_var_fails; [eapply rdf_literal_starts, H|reflexivity].
  - eapply starts_var_fails; [eapply numeric_starts, H|reflexivity].
  - eapply starts_var_fails; [eapply boolean_starts, H|reflexivity].
  - destruct H as [H _]. eapply starts_var_fails; [eapply blank_node_starts, H|reflexivity].
  - eapply starts_var_fails; [eapply nil_starts, H|reflexivity].
Qed.
Lemma rd_var_or_term v : rd var_or_term v (W_var_or_term v).
Proof.
  unfold var_or_term. destruct v as [v|g]; cbn [W_var_or_term].
  - alt1. eapply rd_map; [apply rd_var|reflexivity].
  - alt_skip; [apply nf_var_term|]. alt1. eapply rd_map; [apply rd_graph_term|reflexivity].
Qed.
Lemma rd_var_or_iri v : rd var_or_iri v (W_var_or_iri v).
Proof.
  unfold var_or_iri. destruct v as [v|i]; cbn [W_var_or_iri].
  - alt1. eapply rd_map; [apply rd_var|reflexivity].
  - alt_skip; [intros t r; apply iri_at_not_var|]. alt1. eapply rd_map; [apply rd_iri|reflexivity].
Qed.
Lemma rd_verb v : rd verb v (W_verb v).
Proof.
  unfold verb. destruct v as [v|]; cbn [W_verb].
  - alt1. eapply rd_map; [apply rd_var_or_iri|reflexivity].
  - alt_skip; [|alt1; intros t r [H _]; now apply (rd_word "a")].
    intros t r H. unfold var_or_iri. apply alt_fails_cons; [|apply alt_fails_cons; [|apply alt_fails_nil]]; apply map_fails.
    + eapply starts_var_fails; [eapply plain_starts; [|exact H]; reflexivity|reflexivity].
    + now apply (nf_iri_plain "a").
Qed.
Lemma rd_value v : rd datablock_value v (W_value v).
Proof.
  unfold datablock_value. destruct v as [i|l|n|b|]; cbn [W_value].
  - alt1. eapply rd_map; [apply rd_iri|reflexivity].
  - alt_skip; [by_start rdf_literal_starts iri_fails_first|]. alt1. eapply rd_map; [apply rd_rdf_literal|reflexivity].
  - alt_skip; [by_start numeric_starts iri_fails_first|]. alt_skip; [by_start numeric_starts lit_first|].
    alt1. eapply rd_map; [apply rd_numeric|reflexivity].
  - alt_skip; [apply nf_iri_plain|]. alt_skip; [by_start boolean_starts lit_first|].
    alt_skip; [by_start boolean_starts num_first_fails|]. alt1. eapply rd_map; [apply rd_boolean|reflexivity].
  - assert (S : forall t r, plain_word "undef" t r -> starts (cap2 "undef") t) by (intros t r; now apply plain_starts).
    alt_skip; [apply nf_iri_plain|]. alt_skip; [by_start S lit_first|]. alt_skip; [by_start S num_first_fails|].
    alt_skip; [|alt1; intros t r [H _]; now apply (rd_word "undef")].
    intros t r [H _]. unfold boolean. apply alt_fails_cons; [|apply alt_fails_cons; [|apply alt_fails_nil]]; apply map_fails;
      eapply (tnc_fails_kwd (s_ "undef")); try exact H; reflexivity.
Qed.

(** ** Prologue *)
Lemma rd_iri_ref s : rd iri_ref s (tok (R_iri_ref s)).
Proof. intros t r [-> H]. change ((60 :: s ++ [62]) ++ r) with (60 :: (s ++ [62]) ++ r). rewrite <- app_assoc. now apply iri_ref_ok. Qed.
Lemma rd_pname_ns p : rd pname_ns p (tok (R_pname_ns p)).
Proof. intros t r H. apply pname_ns_iff. eauto. Qed.
Definition decl_p : parser BaseOrPrefixDecl := alt [ map base_decl DeclBase; map prefix_decl DeclPrefix ].
Lemma rd_decl d : rd decl_p d (W_decl d).
Proof.
  unfold decl_p. destruct d as [s|[p s]]; cbn [W_decl].
  - alt1. eapply rd_map; [|reflexivity]. unfold base_decl.
    apply rd_assoc, rd_preceded; [|apply rd_iri_ref]. apply rdx_terminated; [now apply (rdx_kw "base")|apply rdx_sp1].
  - alt_skip.
    + apply nf_then. apply nf_preceded1, nf_terminated1. now apply (nf_kw "base" "prefix").
    + alt1. eapply rd_map; [|reflexivity]. unfold prefix_decl, tuple3.
      intros t r (w & t1 & -> & Hw & H). rewrite <- app_assoc.
      apply (map_ok _ _ _ _ (w, (p, s))); [|reflexivity]. eapply pair_ok; [now apply (tnc_ok (s_ "prefix"))|].
      revert H. generalize r. intros r0 H.
      assert (X : rd (pair (sp_enc pname_ns) iri_ref) (p, s) ((gap >> tok (R_pname_ns p) >> gap) >> tok (R_iri_ref s))).
      { apply rd_pair; [apply rd_sp_enc, rd_pname_ns|apply rd_iri_ref]. }
      apply X. apply then_assoc. destruct H as (a & b & -> & Ha & H). exists a, b. split; [reflexivity|]. split; [assumption|].
      now apply then_assoc.
Qed.
Lemma no_decl_fails r : no_decl r -> fails decl_p r.
Proof.
  intros [H1 H2]. unfold decl_p. apply alt_fails_cons; [|apply alt_fails_cons; [|apply alt_fails_nil]]; apply map_fails.
  - apply preceded_fails1, terminated_fails1. now apply (kw_fails "base").
  - apply map_fails, pair_fails1. now apply (kw_fails "prefix").
Qed.
Lemma mv_decl : moves decl_p. Proof. mv1 decl_p. Qed.
Lemma rd_prologue p : rd prologue p (W_prologue p).
Proof.
  destruct p as [l]. unfold prologue. cbn [W_prologue]. eapply rd_map; [|reflexivity].
  apply rd_sep; [exact rd_decl|exact mv_decl|mv|exact rdx_sp1|intros t r H; now apply (gap1_ne t r)| |exact no_decl_fails].
  intros r H. now apply (sp1_stop _ _ _ no_decl_fails).
Qed.

(** ** Dataset clauses *)
Lemma rd_default_or_named d : rd default_or_named_iri d (W_default_or_named d).
Proof.
  unfold default_or_named_iri. destruct d as [i|i]; cbn [W_default_or_named].
  - alt_skip; [|alt1; eapply rd_map; [|reflexivity]; intros t r [H _]; now apply rd_iri].
    intros t r [_ H]. unfold named_iri. 
    destruct (begins_dec (s_ "named") (t ++ r) eq_refl) as [(w & v & E & Hw)|F]; [apply nokel; cbn; intuition discriminate| |].
    + rewrite E. destruct (blank_split v) as (b & v' & -> & Hb & Hv). destruct b as [|c b].
      * apply preceded_fails1. eapply terminated_fails2; [now apply (tnc_ok (s_ "named"))|now apply sp1_fails].
      * eapply preceded_fails2; [eapply terminated_ok; [now apply (tnc_ok (s_ "named"))|apply sp1_ok; [split; [assumption|discriminate]|assumption]]|].
        apply no_iri_fails. eapply H; [exact E|exact Hw|split; [assumption|discriminate]].
    + apply preceded_fails1, terminated_fails1. apply tnc_fails_begins; [reflexivity| |assumption].
      apply nokel; cbn; intuition discriminate.
  - alt1. eapply rd_map; [|reflexivity]. apply (rd_preceded_tag1 "named"); [reflexivity|apply rd_iri].
Qed.
Lemma rd_dataset d : rd data_set_clause d (W_dataset d).
Proof. apply (rd_preceded_tag1 "from"); [reflexivity|apply rd_default_or_named]. Qed.
Lemma no_from_fails r : ~ begins "from" r -> fails data_set_clause r.
Proof. intros H. apply tag1_fails. now apply (kw_fails "from"). Qed.
Definition datasets : parser (list DataSetClause) := separated_list sp data_set_clause.
Lemma rd_datasets l : rd datasets l (W_datasets l).
Proof.
  apply rd_sep; [exact rd_dataset|mv1 data_set_clause|mv|exact gap1_sp|intros t r H; now apply (gap1_ne t r)| |exact no_from_fails].
  intros r H. exact (sp_back _ _ _ no_from_fails H).
Qed.

(** ** Data blocks *)
Lemma rd_padded_many {A} (p : parser A) W (stop : str -> Prop) l : (forall a, rd p a (W a)) -> moves p ->
  (forall r, stop r -> solid r) -> (forall r, stop r -> fails p r) ->
  rd (preceded sp (many0 (sp_enc p))) l (gap >> manyW (fun a => W a >> gap) stop l).
Proof.
  intros H M S F t r Ht. apply gap_pad_many in Ht. revert t r Ht. apply rd_preceded; [exact rdx_sp|].
  apply rd_many0; [intros a; now apply rd_sp_enc| |].
  - unfold sp_enc. intros n. eapply sim_weaken; [apply sim_delimited; [sg|apply M|sg]|reflexivity..].
  - intros r Hr. eapply delimited_fails2; [apply sp_nil; now apply S|now apply F].
Qed.
Lemma rd_row vs : rd (bracketted (preceded sp (many0 (sp_enc datablock_value)))) vs (W_row vs).
Proof.
  unfold W_row. intros t r H.
  assert (X : rd (bracketted (preceded sp (many0 (sp_enc datablock_value)))) vs (sym "(" >> (gap >> manyW (fun v => W_value v >> gap) (first 41) vs) >> sym ")")).
  { apply rd_bracketted. apply rd_padded_many; [exact rd_value|mv1 datablock_value| |].
    - intros r0 H0. now apply (first_solid 41).
    - intros r0 H0. apply value_first_fails. now apply (first_stops _ 41). }
  apply X. destruct H as (a & b & -> & Ha & Hb). exists a, b. split; [reflexivity|]. split; [assumption|]. now apply then_assoc.
Qed.
Lemma rd_braced_many {A} (p : parser A) W l : (forall a, rd p a (W a)) -> moves p ->
  (forall r, first 125 r -> fails p r) ->
  rd (delimited (sp_enc (chr (c_ "{"))) (many0 (sp_enc p)) (preceded sp (chr (c_ "}")))) l
     (gap >> sym "{" >> gap >> manyW (fun a => W a >> gap) (first 125) l >> sym "}").
Proof.
  intros H M F t r Ht.
  assert (X : rd (delimited (sp_enc (chr (c_ "{"))) (many0 (sp_enc p)) (preceded sp (chr (c_ "}")))) l
                 ((gap >> sym "{" >> gap) >> manyW (fun a => gap >> W a >> gap) (first 125) l >> sym "}")).
  { apply rd_delimited; [apply rdx_sp_enc; now apply rdx_chr| |].
    - apply rd_many0; [intros a; now apply rd_sp_enc| |].
      + unfold sp_enc. intros n. eapply sim_weaken; [apply sim_delimited; [sg|apply M|sg]|reflexivity..].
      + intros r0 Hr. eapply delimited_fails2; [apply sp_nil; now apply (first_solid 125)|now apply F].
    - intros t0 r0 ->. exists 125. eapply preceded_ok; [apply sp_nil, solid_first; cbn; intuition discriminate|]. apply chr_ok. }
  apply X. destruct Ht as (a & x & -> & Ha & b & y & -> & Hb & c & z & -> & Hc & d & e & -> & Hd & He).
  exists (a ++ b ++ c), (d ++ e). split; [now rewrite <- !app_assoc|]. split.
  - exists a, (b ++ c). split; [reflexivity|]. rewrite <- !app_assoc in Ha. rewrite <- !app_assoc. split; [assumption|].
    exists b, c. rewrite <- !app_assoc in Hb, Hc. auto.
  - exists d, e. split; [reflexivity|]. split; [|assumption]. apply pad_many; [|assumption].
    rewrite <- app_assoc in Hc. apply Hc.
Qed.
Lemma rd_datablock d : rd datablock d (W_datablock d).
Proof.
  unfold datablock. destruct d as [[v vs]|[vs rows]]; cbn [W_datablock].
  - alt1. eapply rd_map; [|reflexivity]. unfold inline_data_one_var. apply (rd_map _ _ (v, vs)); [|reflexivity].
    apply rd_pair; [apply rd_var|]. apply rd_braced_many; [exact rd_value|mv1 datablock_value|].
    intros r H. apply value_first_fails. now apply (first_stops _ 125).
  - alt_skip.
    + unfold inline_data_one_var. apply nf_map, nf_pair1, nf_then, nf_then. intros t r ->. now apply var_first.
    + alt1. eapply rd_map; [|reflexivity]. unfold inline_data_full. apply (rd_map _ _ (vs, rows)); [|reflexivity].
      apply rd_pair.
      * intros t r H. cbv beta in H.
        assert (X : rd (bracketted (preceded sp (many0 (sp_enc var)))) vs (sym "(" >> (gap >> manyW (fun v => W_var v >> gap) (first 41) vs) >> sym ")")).
        { apply rd_bracketted. apply rd_padded_many; [exact rd_var|mv1 var| |].
          - intros r0 H0. now apply (first_solid 41).
          - intros r0 H0. apply var_first. now apply (first_stops _ 41). }
        apply X. destruct H as (a & b & -> & Ha & Hb). exists a, b. split; [reflexivity|]. split; [assumption|]. now apply then_assoc.
      * apply rd_braced_many; [exact rd_row| |].
        -- unfold bracketted. mv.
        -- intros r [r' ->]. now apply delimited_fails1, chr_fails.
Qed.
Lemma rd_values d : rd inline_data d (W_values d).
Proof. apply (rd_preceded_tag1 "values"); [reflexivity|apply rd_datablock]. Qed.
Lemma rd_limit_offset l : rd limit_offset_clause l (W_limit_offset l).
Proof. intros t r [H1 H2]. now apply limit_offset_ok. Qed.
