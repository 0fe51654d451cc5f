(** Safely laid out templates, quads and update operations are read. *)
From Verif Require Export LC1.
Notation length := List.length (only parsing).
Open Scope N_scope.
Open Scope list_scope.

(** ** Separators *)
Lemma mv_sp_enc {A} (p : parser A) : moves p -> moves (sp_enc p).
Proof. intros M n. unfold sp_enc. eapply sim_weaken; [apply sim_delimited; [sg|apply M|sg]|reflexivity..]. Qed.
Lemma mv_map {A B} (p : parser A) (f : A -> B) : moves p -> moves (map p f).
Proof. intros M n. apply sim_map, M. Qed.
Lemma runs_mv {A} (p : parser A) : moves p -> runs p.
Proof. intros M n. eapply sim_weaken; [apply M|reflexivity..]. Qed.
Lemma mv_gd {A} c d (p : parser A) : good true c d p -> moves p.
Proof. intros M n. eapply sim_weaken; [apply M|reflexivity|now destruct c|now destruct d]. Qed.
Lemma chr_mark_fails c i : not_first c i -> fails (chr c) i. Proof. apply chr_fails. Qed.
Lemma rdx_marks c s : s_ s = [c] -> rdx (many1 (sp_enc (chr c))) (many1W (gap >> sym s >> gap) (nxt (not_first c))).
Proof.
  intros E. apply rdx_many1W.
  - apply mv_sp_enc. mv.
  - apply rdx_sp_enc. now apply rdx_chr.
  - intros r H. exact (sp_enc_fails _ _ _ (chr_mark_fails c) H).
Qed.
Lemma marks_ne s t r : s_ s <> [] -> many1W (gap >> sym s >> gap) (nxt (not_first 46)) t r -> t <> [].
Proof.
  intros N. apply many1W_ne. intros u v (a & b & -> & _ & c & d & -> & -> & _) E.
  apply app_eq_nil in E. destruct E as [_ E]. apply app_eq_nil in E. destruct E as [E _]. contradiction.
Qed.
Lemma many1W_ne' s stop t r : s_ s <> [] -> many1W (gap >> sym s >> gap) stop t r -> t <> [].
Proof.
  intros N. apply many1W_ne. intros u v (a & b & -> & _ & c & d & -> & -> & _) E.
  apply app_eq_nil in E. destruct E as [_ E]. apply app_eq_nil in E. destruct E as [E _]. contradiction.
Qed.
(** the leading blank moves to the outside *)
Lemma many1W_lead c s stop t r : s_ s = [c] -> negb (oneof [32; 9; 10; 13; 35] c) = true ->
  many1W (gap >> sym s >> gap) stop t r ->
  exists b t', t = b ++ t' /\ gap b (t' ++ r) /\ many1W (gap >> sym s >> gap) stop t' r.
Proof.
  intros E N (n & u & v & -> & (b & x & -> & Hb & Hx) & Hv). exists b, (x ++ v). split; [symmetry; apply app_assoc|].
  split; [now rewrite <- app_assoc|]. exists n. exists x, v. split; [reflexivity|]. split; [|assumption].
  exists [], x. split; [reflexivity|]. split; [|assumption]. split; [constructor|]. apply Hb.
Qed.
Lemma manyW_last_solid {A} (P : lang) (stop : str -> Prop) (n : list A) u v r :
  (forall t r, P t r -> solid r) -> P u (v ++ r) -> manyW (fun _ => P) stop n v r -> solid r.
Proof.
  intros S. revert u v. induction n as [|x n IH]; intros u v Hu.
  - intros [-> _]. now apply S in Hu.
  - intros (a & b & -> & Ha & Hb). eapply IH; eassumption.
Qed.
Lemma pad_solid (P : lang) t r : (gap >> P >> gap) t r -> solid r.
Proof. intros (a & b & -> & _ & c & d & -> & _ & H). apply H. Qed.
Definition semis_p : parser (list char) := sp_enc (many1 (sp_enc (chr (c_ ";")))).
Lemma rdx_semis : rdx semis_p semisW.
Proof.
  intros t r H. apply (many1W_lead 59) in H; [|reflexivity|reflexivity]. destruct H as (b & t' & -> & [Hb Hs] & H).
  assert (Sr : solid r).
  { destruct H as (n & u & v & -> & Hu & Hv). eapply (manyW_last_solid _ _ n u v r (pad_solid _)); eassumption. }
  rewrite <- app_assoc. destruct (rdx_marks 59 ";" eq_refl _ _ H) as [l E]. exists l.
  eapply delimited_ok; [now apply sp_ok|exact E|now apply sp_nil].
Qed.
Lemma many1_mark_fails c r : nxt (not_first c) r -> fails (many1 (sp_enc (chr c))) r.
Proof. intros H. apply many1_fails. exact (sp_enc_fails _ _ _ (chr_mark_fails c) H). Qed.
Lemma nxt_solid (P : str -> Prop) r : solid r -> P r -> nxt P r.
Proof. intros S H. exists [], r. split; [reflexivity|]. split; [constructor|]. auto. Qed.
Lemma semis_fails r : nxt (not_first 59) r -> fails semis_p r.
Proof.
  intros (b & r' & -> & Hb & Hs & H). eapply delimited_fails2; [now apply sp_ok|]. apply many1_mark_fails.
  now apply nxt_solid.
Qed.

(** ** Nodes *)
Lemma iri_reads_first j t r c : W_iri j t r -> iri_first c = false -> not_first c (t ++ r).
Proof.
  intros H F. apply iri_iff in H. destruct (t ++ r) as [|x i]; [exact I|]. cbn. intros ->. eapply fails_not_ok; [|exact H].
  now apply iri_fails_first.
Qed.
Lemma triples_node_fails1 i : not_first 40 i -> not_first 91 i -> fails triples_node i.
Proof.
  intros H1 H2. unfold triples_node, triples_node_of. apply alt_fails_cons; [|apply alt_fails_cons; [|apply alt_fails_nil]]; apply map_fails.
  - apply map_fails, delimited_fails1, chr_fails. exact H1.
  - apply delimited_fails1, terminated_fails1, chr_fails. exact H2.
Qed.
Lemma graph_node_fails i : fails var_or_term i -> fails triples_node i -> fails graph_node i.
Proof.
  intros H1 H2. unfold fails. rewrite graph_node_eq. change (fails (graph_node_body graph_node) i). unfold graph_node_body.
  apply alt_fails_cons; [now apply map_fails|]. apply alt_fails_cons; [now apply map_fails|apply alt_fails_nil].
Qed.
Lemma graph_node_first i : stops vot_first i -> fails graph_node i.
Proof.
  intros S. apply graph_node_fails; [now apply var_or_term_first|]. apply stops_orc in S. destruct S as [S _].
  apply stops_orc in S. destruct S as [_ S]. apply triples_node_fails1; eapply stops_oneof; try exact S; cbn; auto.
Qed.
Lemma property_list_first i : stops voi_first i -> fails property_list_not_empty i.
Proof.
  intros S. unfold property_list_not_empty, property_list_not_empty_of. apply map_fails, terminated_fails1, sepne_fails, map_fails.
  apply pair_fails1. now apply verb_first.
Qed.
Lemma nf_triples_node_vot v : nf triples_node (W_var_or_term v).
Proof.
  intros t r H. assert (X : forall cs, starts cs t -> negb (existsb (N.eqb 40) cs) && negb (existsb (N.eqb 91) cs) = true -> fails triples_node (t ++ r)).
  { intros cs S N. apply andb_true_iff in N. destruct N as [N1 N2]. apply triples_node_fails1; eapply starts_not; eassumption. }
  destruct v as [v|g]; cbn in H.
  - destruct H as [H _]. eapply X; [eapply var_starts, H|reflexivity].
  - destruct g as [i|l|n|b|b|]; cbn in H.
    + apply triples_node_fails1; eapply iri_reads_first; try exact H; reflexivity.
    + eapply X; [eapply rdf_literal_starts, H|reflexivity].
    + eapply X; [eapply numeric_starts, H|reflexivity].
    + eapply X; [eapply boolean_starts, H|reflexivity].
    + destruct H as [H _]. destruct b as [|s].
      * destruct H as (u & w & -> & -> & b & z & -> & Hb & ->). rewrite <- !app_assoc.
        unfold triples_node, triples_node_of. apply alt_fails_cons; [|apply alt_fails_cons; [|apply alt_fails_nil]]; apply map_fails.
        -- now apply map_fails, delimited_fails1, chr_fails.
        -- eapply delimited_fails2; [eapply terminated_ok; [apply chr_ok|apply sp_ok; [exact Hb|]]|].
           ++ apply solid_first. cbn. intuition discriminate.
           ++ apply property_list_first. reflexivity.
      * destruct H as (u & w & -> & -> & _). rewrite <- !app_assoc. now apply triples_node_fails1.
    + destruct H as (u & w & -> & -> & b & z & -> & Hb & ->). rewrite <- !app_assoc.
      unfold triples_node, triples_node_of. apply alt_fails_cons; [|apply alt_fails_cons; [|apply alt_fails_nil]]; apply map_fails.
      * apply map_fails. eapply delimited_fails2; [apply chr_ok|]. apply many1_fails. eapply delimited_fails2; [apply sp_ok; [exact Hb|]|].
        -- apply solid_first. cbn. intuition discriminate.
        -- apply graph_node_first. reflexivity.
      * now apply delimited_fails1, terminated_fails1, chr_fails.
Qed.
Lemma rd_graph_node g : rd graph_node g (W_graph_node g).
Proof.
  destruct g as [v|n]; cbn [W_graph_node]; [|intros t r []].
  intros t r H. rewrite graph_node_eq. unfold graph_node_body. apply alt_first. apply (map_ok _ _ _ _ v); [|reflexivity].
  now apply rd_var_or_term.
Qed.
Lemma comma_fails i : not_first 44 i -> fails (tag (s_ ",")) i. Proof. apply tag_fails_first. Qed.
Lemma rd_object_list o : rd object_list o (W_object_list o).
Proof.
  destruct o as [l]. cbn [W_object_list]. unfold object_list, object_list_of. eapply rd_map; [|reflexivity].
  apply rd_sep1; [exact rd_graph_node|mv|mv|apply rdx_sp_enc, (rdx_tag ",")| |].
  - intros t r (a & b & -> & _ & c & d & -> & -> & _) E. apply app_eq_nil in E. destruct E as [_ E]. discriminate.
  - intros r H. exact (sp_enc_stop _ _ _ _ comma_fails H).
Qed.
Definition verb_list_p : parser VerbList := map (separated_pair verb sp object_list) (fun '(v, l) => MkVerbList v l).
Lemma rd_verb_list v : rd verb_list_p v (W_verb_list v).
Proof.
  destruct v as [v o]. cbn [W_verb_list]. unfold verb_list_p. apply (rd_map _ _ (v, o)); [|reflexivity].
  apply rd_separated_pair; [apply rd_verb|apply rdx_sp|apply rd_object_list].
Qed.
Lemma verb_list_first i : stops voi_first i -> fails verb_list_p i.
Proof. intros S. apply map_fails, pair_fails1. now apply verb_first. Qed.
Lemma closes_first f r : f 46 || f 93 || f 125 = false -> closes r -> stops f r.
Proof.
  intros F [->|[[x ->]|[[x ->]|[x ->]]]]; [exact I|cbn..]; apply orb_false_iff in F; destruct F as [F F3]; apply orb_false_iff in F; tauto.
Qed.
Lemma rd_props l : rd (separated_nonempty_list semis_p verb_list_p) l (sep1W W_verb_list semisW props_end l).
Proof.
  apply rd_sep1; [exact rd_verb_list|unfold verb_list_p; mv|unfold semis_p; mv|exact rdx_semis|intros t r; now apply (many1W_ne' ";")|].
  intros r [H|(s & r' & -> & H1 & H2)].
  - apply sep_stop. now apply semis_fails.
  - destruct (rdx_semis _ _ H1) as [x E]. eapply sep_back; [exact E| |].
    + apply app_ne. revert H1. now apply (many1W_ne' ";").
    + apply verb_list_first. now apply closes_first.
Qed.
Lemma rd_property_list p : rd property_list_not_empty p (W_property_list p).
Proof.
  destruct p as [l]. cbn [W_property_list]. unfold property_list_not_empty, property_list_not_empty_of. eapply rd_map; [|reflexivity].
  apply rd_terminated; [apply rd_props|]. intros t r [n H].
  assert (X : exists l, many_ok (preceded sp (chr (c_ ";"))) (t ++ r) r l).
  { revert t H. induction n as [|x n IH]; intros t.
    - intros [-> H]. exists []. apply many_stop. exact (sp_fails _ _ _ (chr_mark_fails 59) H).
    - intros (u & v & -> & (a & b & -> & [Ha Hb] & ->) & Hv). destruct (IH v Hv) as [l' Hl]. exists (59 :: l').
      rewrite <- !app_assoc in *. eapply many_step; [eapply preceded_ok; [now apply sp_ok|apply chr_ok]| |exact Hl].
      intros E. apply (f_equal (@length char)) in E. rewrite !app_length in E. cbn in E. lia. }
  destruct X as [l' X]. exists l'. apply many0_iff; [|exact X]. eapply gd_shrinks. intros k. sg.
Qed.
Lemma gap_many1 {A} (W : A -> lang) stop l t r : (gap >> (fun t r => l <> [] /\ manyW (fun a => W a >> gap) stop l t r)) t r ->
  l <> [] /\ manyW (fun a => gap >> W a >> gap) stop l t r.
Proof.
  intros (b & v & -> & [Hb Hs] & N & H). split; [assumption|]. apply pad_many in H; [|assumption].
  destruct l as [|a l]; [congruence|]. destruct H as (x & y & -> & (c & d & -> & Hc & Hd) & Hy).
  rewrite <- !app_assoc in *. exists (b ++ c ++ d), y. split; [now rewrite <- !app_assoc|]. split; [|assumption].
  assert (c = []). { destruct Hc as [Hc _]. destruct (solid_longest [] ((c ++ d) ++ y ++ r)) as [_ M]; [constructor|now rewrite <- !app_assoc|].
    specialize (M c (d ++ y ++ r)). rewrite <- !app_assoc in M. specialize (M eq_refl Hc). destruct c; [reflexivity|cbn in M; lia]. }
  subst c. exists b, d. split; [reflexivity|]. split; [|assumption]. split; [assumption|]. exact Hs.
Qed.
Lemma rd_triples_node n : rd triples_node n (W_triples_node n).
Proof.
  unfold triples_node, triples_node_of. destruct n as [[l]|p]; cbn [W_triples_node].
  - alt1. eapply rd_map; [|reflexivity]. unfold collection_of. eapply rd_map; [|reflexivity].
    intros t r H.
    assert (X : rd (bracketted (many1 (sp_enc graph_node))) l (sym "(" >> (fun t r => l <> [] /\ manyW (fun a => gap >> W_graph_node a >> gap) (first 41) l t r) >> sym ")")).
    { apply rd_bracketted. apply rd_many1; [intros a; apply rd_sp_enc, rd_graph_node|apply mv_sp_enc; mv|].
      intros r0 H0. eapply delimited_fails2; [apply sp_nil; now apply (first_solid 41)|]. apply graph_node_first. now apply (first_stops _ 41). }
    apply X. destruct H as (a & b & -> & Ha & Hb). exists a, b. split; [reflexivity|]. split; [assumption|].
    apply then_assoc in Hb. destruct Hb as (c & d & -> & Hc & Hd). exists c, d. split; [reflexivity|]. split; [|assumption].
    now apply gap_many1.
  - alt_skip.
    + apply nf_then. intros t r ->. now apply map_fails, delimited_fails1, chr_fails.
    + alt1. eapply rd_map; [|reflexivity]. unfold blank_node_property_list_of. apply rd_assoc.
      apply rd_delimited; [apply rdx_terminated; [now apply rdx_chr|apply rdx_sp]|apply rd_property_list|].
      apply rdx_preceded; [apply rdx_sp|now apply rdx_chr].
Qed.
Lemma rd_tss s : rd triples_same_subject s (W_tss s).
Proof.
  unfold triples_same_subject. destruct s as [v p|n p]; cbn [W_tss].
  - alt_skip; [apply nf_then; apply nf_pair1, nf_triples_node_vot|]. alt1. apply (rd_map _ _ (v, p)); [|reflexivity].
    apply rd_separated_pair; [apply rd_var_or_term|apply rdx_sp1|apply rd_property_list].
  - alt1. apply (rd_map _ _ (n, p)); [|reflexivity].
    apply rd_separated_pair; [apply rd_triples_node|apply rdx_sp|]. apply rd_opt; [exact rd_property_list|].
    intros r H. apply property_list_first. now apply closes_first.
Qed.
Lemma tss_fails i : fails triples_node i -> fails var_or_term i -> fails triples_same_subject i.
Proof.
  intros H1 H2. unfold triples_same_subject. apply alt_fails_cons; [|apply alt_fails_cons; [|apply alt_fails_nil]]; apply map_fails; now apply pair_fails1.
Qed.
Lemma tss_first i : stops vot_first i -> fails triples_same_subject i.
Proof.
  intros S. apply tss_fails; [|now apply var_or_term_first]. apply stops_orc in S. destruct S as [S _].
  apply stops_orc in S. destruct S as [_ S]. apply triples_node_fails1; eapply stops_oneof; try exact S; cbn; auto.
Qed.
(** ** Words where a term could stand *)
Definition not_bool (k : string) : bool := word_like k && differ (s_ k) (s_ "true") && differ (s_ k) (s_ "false").
Lemma cap2_ok (f : char -> bool) k : word_like k = true -> forallb (fun c => negb (f c)) (List.map N.of_nat (seq 65 26 ++ seq 97 26)) = true ->
  forallb (fun c => negb (f c)) (cap2 k) = true.
Proof.
  intros W H. unfold word_like in W. apply andb_true_iff in W. destruct W as [_ W]. unfold cap2. destruct (s_ k) as [|x k']; [reflexivity|].
  apply andb_true_iff in W. destruct W as [W1 W2]. apply N.leb_le in W1, W2. rewrite forallb_forall in *.
  intros c Hc. apply H. apply in_map_iff. exists (N.to_nat c). split; [apply N2Nat.id|]. apply in_or_app.
  cbn in Hc. destruct Hc as [<-|[<-|[]]]; [right|left]; apply in_seq; lia.
Qed.
Lemma begins_stops f k i : word_like k = true -> forallb (fun c => negb (f c)) (List.map N.of_nat (seq 65 26 ++ seq 97 26)) = true ->
  begins k i -> stops f i.
Proof.
  intros W H B. pose proof (begins_starts k i W B) as S. rewrite <- (app_nil_r i). eapply starts_stops; [exact S|]. now apply cap2_ok.
Qed.
Lemma vot_word_fails k i : not_bool k = true -> begins k i -> no_iri i -> fails var_or_term i.
Proof.
  intros K B N. unfold not_bool in K. apply andb_true_iff in K. destruct K as [K D2]. apply andb_true_iff in K. destruct K as [W D1].
  unfold var_or_term. apply alt_fails_cons; [apply map_fails, var_first; now apply (begins_stops _ k)|].
  apply alt_fails_cons; [|apply alt_fails_nil]. apply map_fails. unfold graph_term.
  apply alt_fails_cons; [now apply map_fails, no_iri_fails|].
  apply alt_fails_cons; [apply map_fails, lit_first; now apply (begins_stops _ k)|].
  apply alt_fails_cons; [apply map_fails, num_first_fails; now apply (begins_stops _ k)|].
  apply alt_fails_cons; [apply map_fails|].
  { destruct B as (t & r & -> & Ht). unfold boolean. apply word_low in W.
    apply alt_fails_cons; [|apply alt_fails_cons; [|apply alt_fails_nil]]; apply map_fails; eapply (tnc_fails_kwd (s_ k)); try exact Ht; assumption || reflexivity. }
  apply alt_fails_cons; [apply map_fails, blank_node_first; now apply (begins_stops _ k)|].
  apply alt_fails_cons; [apply map_fails, nil_first|apply alt_fails_nil].
  apply (stops_oneof [40]); [now apply (begins_stops _ k)|now left].
Qed.
Lemma node_word_fails k i : word_like k = true -> begins k i -> fails triples_node i.
Proof.
  intros W B. apply triples_node_fails1; [apply (stops_oneof [40])|apply (stops_oneof [91])]; try (now left); now apply (begins_stops _ k).
Qed.
Lemma graph_block_fails r : graph_block r -> fails triples_same_subject r.
Proof.
  intros [B [N|(j & t & r' & -> & H & (b & x & -> & Hb & S & y & ->))]].
  - apply tss_fails; [now apply (node_word_fails "graph")|now apply (vot_word_fails "graph")].
  - unfold triples_same_subject. apply alt_fails_cons; [|apply alt_fails_cons; [|apply alt_fails_nil]]; apply map_fails.
    + apply pair_fails1. now apply (node_word_fails "graph").
    + eapply pair_fails2; [apply (rd_var_or_term (VotTerm (GtIri j)) t (b ++ 123 :: y)); exact H|].
      destruct b as [|c b]; [now apply preceded_fails1, sp1_fails|]. eapply preceded_fails2; [apply sp1_ok; [split; [exact Hb|discriminate]|exact S]|].
      now apply property_list_first.
Qed.
Lemma no_triple_fails r : no_triple r -> fails triples_same_subject r.
Proof. intros [[r' ->]|H]; [now apply tss_first|now apply graph_block_fails]. Qed.
Lemma rd_construct_template c : rd construct_template c (W_construct_template c).
Proof.
  destruct c as [l]. cbn [W_construct_template]. unfold construct_template. eapply rd_map; [|reflexivity].
  apply rd_assoc, rd_delimited; [apply rdx_terminated; [now apply rdx_chr|apply rdx_sp]| |].
  - apply rd_sep; [exact rd_tss|mv|mv|now apply rdx_marks|intros t r; now apply (many1W_ne' ".")| |].
    + intros r H. apply sep_stop. now apply many1_mark_fails.
    + intros r H. apply tss_first. now apply (first_stops _ 125).
  - apply rdx_preceded; [apply rdx_sp|now apply rdx_chr].
Qed.
Lemma rd_template l : rd triples_template l (W_template l).
Proof.
  unfold W_template, triples_template. apply rd_terminated.
  - apply rd_sep1; [exact rd_tss|mv|mv|now apply rdx_marks|intros t r; now apply (many1W_ne' ".")|].
    intros r [H|(s & r' & -> & H1 & H2)].
    + apply sep_stop. now apply many1_mark_fails.
    + destruct (rdx_marks 46 "." eq_refl _ _ H1) as [x E]. eapply sep_back; [exact E| |].
      * apply app_ne. revert H1. now apply (many1W_ne' ".").
      * now apply no_triple_fails.
  - intros t r [H|H].
    + exists None. revert t r H. apply rd_opt_none. intros r H. exact (sp_fails _ _ _ (chr_mark_fails 46) H).
    + assert (X : rdx (preceded sp (chr (c_ "."))) (gap >> sym ".")) by (apply rdx_preceded; [apply rdx_sp|now apply rdx_chr]).
      destruct (X _ _ H) as [x E]. exists (Some x). now apply opt_some.
Qed.
Lemma template_fails r : fails triples_same_subject r -> fails triples_template r.
Proof. intros H. now apply terminated_fails1, sepne_fails. Qed.
Lemma rd_braced_template o : rd braced_template o (W_braced_template o).
Proof.
  unfold W_braced_template, braced_template. intros t r H.
  assert (X : rd braced_template o (sym "{" >> (gap >> optW W_template (first 125) o >> gap) >> sym "}")).
  { apply rd_delimited; [now apply rdx_chr| |now apply rdx_chr]. apply rd_sp_enc. apply rd_opt; [exact rd_template|].
    intros r0 H0. apply template_fails, tss_first. now apply (first_stops _ 125). }
  apply X. destruct H as (a & b & -> & Ha & Hb). exists a, b. split; [reflexivity|]. split; [assumption|].
  apply then_assoc. destruct Hb as (c & d & -> & Hc & Hd). exists c, d. split; [reflexivity|]. split; [assumption|]. now apply then_assoc.
Qed.

(** ** Quads *)
Lemma rd_quads_not_triples q : rd quads_not_triples q (W_quads_not_triples q).
Proof.
  destruct q as [v o]. cbn [W_quads_not_triples]. unfold quads_not_triples. intros t r H.
  assert (X : rd (pair (sp_enc var_or_iri) braced_template) (v, o) ((gap >> W_var_or_iri v >> gap) >> W_braced_template o)).
  { apply rd_pair; [apply rd_sp_enc, rd_var_or_iri|apply rd_braced_template]. }
  destruct H as (w & t1 & -> & Hw & H). rewrite <- app_assoc.
  apply (map_ok _ _ _ _ (w, (v, o))); [|reflexivity]. eapply pair_ok; [now apply (tnc_ok (s_ "graph"))|]. apply X.
  now apply then_l3.
Qed.
Lemma vot_blank_fails i c : nxt (first c) i -> vot_first c = false -> fails var_or_term i.
Proof.
  intros (b & r & -> & Hb & Hs & [r' ->]) F. destruct b as [|x b]; [now apply var_or_term_first|].
  assert (X : forall f, forallb (fun c => negb (f c)) [32; 9; 10; 13; 35] = true -> stops f ((x :: b) ++ c :: r')).
  { intros f Hf. pose proof (blank_stops f (x :: b) [] Hf Hb I) as S. rewrite app_nil_r in S. exact S. }
  unfold var_or_term. apply alt_fails_cons; [now apply map_fails, var_first, X|].
  apply alt_fails_cons; [|apply alt_fails_nil]. apply map_fails. unfold graph_term.
  apply alt_fails_cons; [apply map_fails|].
  { apply iri_fails; [apply iri_ref_fails; apply (stops_oneof [60]); [now apply X|now left]|].
    apply pname_ns_fails_blank; [now apply X|assumption..|]. intros ->. discriminate. }
  apply alt_fails_cons; [now apply map_fails, lit_first, X|].
  apply alt_fails_cons; [now apply map_fails, num_first_fails, X|].
  apply alt_fails_cons; [now apply map_fails, boolean_first, X|].
  apply alt_fails_cons; [now apply map_fails, blank_node_first, X|].
  apply alt_fails_cons; [apply map_fails, nil_first|apply alt_fails_nil].
  apply (stops_oneof [40]); [now apply X|now left].
Qed.
Lemma nxt_first_stops f c r : nxt (first c) r -> forallb (fun c => negb (f c)) [32; 9; 10; 13; 35] = true -> f c = false -> stops f r.
Proof. intros (b & r' & -> & Hb & Hs & [x ->]) F Fc. now apply blank_stops. Qed.
Lemma entry_end_fails r : entry_end r -> fails triples_template r.
Proof.
  intros [H|H]; apply template_fails; [apply tss_fails|now apply graph_block_fails].
  - apply triples_node_fails1; [apply (stops_oneof [40])|apply (stops_oneof [91])]; try (now left); now apply (nxt_first_stops _ 125).
  - now apply (vot_blank_fails _ 125).
Qed.
Lemma rd_quads_entry q : rd quads_entry q (W_quads_entry q).
Proof.
  destruct q as [q o]. cbn [W_quads_entry]. unfold quads_entry. apply (rd_map _ _ (q, o)); [|reflexivity].
  apply rd_separated_pair; [apply rd_quads_not_triples| |apply rd_opt; [exact rd_template|exact entry_end_fails]].
  intros t r [[-> H]|H]; [exists None; now apply opt_none, chr_fails|].
  destruct (rdx_chr 46 "." eq_refl t r H) as [x E]. exists (Some x). now apply opt_some.
Qed.
Lemma rd_quads q : rd quads q (W_quads q).
Proof.
  destruct q as [f es]. cbn [W_quads]. unfold quads. apply (rd_map _ _ (f, es)); [|reflexivity]. apply rd_pair.
  - apply rd_opt.
    + intros l. apply rd_terminated; [apply rd_template|apply rdx_sp].
    + intros r H. apply terminated_fails1, template_fails. now apply no_triple_fails.
  - apply rd_many0; [exact rd_quads_entry|eapply mv_gd, gd_quads_entry|].
    intros r H. apply map_fails, pair_fails1, map_fails, pair_fails1. apply (kwf_fails_base "graph"); [reflexivity|].
    now apply (nxt_first_stops _ 125).
Qed.
Lemma rd_quads_pattern q : rd quads_pattern q (W_quads_pattern q).
Proof.
  unfold W_quads_pattern, quads_pattern. apply rd_assoc, rd_delimited; [apply rdx_terminated; [apply (rdx_tag "{")|apply rdx_sp]|apply rd_quads|].
  apply rdx_terminated; [apply rdx_sp|apply (rdx_tag "}")].
Qed.

(** ** Update operations *)
Lemma no_word1_fails {A} k (p : parser A) i : word_like k = true -> ~ In 107 (s_ k) -> no_word1 k i ->
  (forall t r a, p (t ++ r) = Ok r a -> True) -> fails (terminated (tag_no_case (s_ k)) sp1) i.
Proof.
  intros W NK N _. apply word_low in W. destruct (begins_dec (s_ k) i W (nokel _ _ NK)) as [(w & v & -> & Hw)|F].
  - eapply terminated_fails2; [now apply (tnc_ok (s_ k))|]. destruct (blank_split v) as (b & v' & -> & Hb & Hv). destruct b as [|c b].
    + now apply sp1_fails.
    + exfalso. eapply N; [reflexivity|exact Hw|]. split; [exact Hb|discriminate].
  - apply terminated_fails1. apply tnc_fails_begins; [assumption|now apply nokel|assumption].
Qed.
Lemma rd_opt_silent s : rd opt_silent s (W_silent s).
Proof.
  unfold opt_silent, W_silent. destruct s.
  - apply (rd_map _ _ (Some true)); [|reflexivity]. apply rd_opt_some. apply rd_terminated; [|apply rdx_sp1].
    unfold silent. now apply (rd_word "silent").
  - apply (rd_map _ _ None); [|reflexivity]. apply rd_opt_none. intros r H.
    assert (X : fails (terminated (tag_no_case (s_ "silent")) sp1) r).
    { apply (no_word1_fails "silent" sp1); [reflexivity|cbn; intuition discriminate|assumption|auto]. }
    unfold silent. destruct X as (p & k & X). exists p, k. unfold terminated, map, pair in *.
    destruct (tag_no_case (s_ "silent") r) as [i1 a|]; [|injection X as ->; reflexivity].
    destruct (sp1 i1); [discriminate|injection X as ->; reflexivity].
Qed.
Lemma rd_graph_ref i : rd graph_ref i (W_graph_ref i).
Proof.
  unfold graph_ref, W_graph_ref. intros t r (w & u & -> & Hw & H). rewrite <- app_assoc.
  apply (map_ok _ _ _ _ (w, i)); [|reflexivity].
  assert (X : rd (preceded sp1 iri) i (gap1 >> W_iri i)) by (apply rd_preceded; [apply rdx_sp1|apply rd_iri]).
  eapply pair_ok; [now apply (tnc_ok (s_ "graph"))|]. now apply X.
Qed.
Lemma rd_graph_or_default g : rd graph_or_default g (W_graph_or_default g).
Proof.
  unfold graph_or_default. destruct g as [i|]; swap 1 2; cbn [W_graph_or_default].
  - alt1. now apply (rd_word "default").
  - alt_skip.
    + intros t r [(w & u & -> & Hw & _)|(_ & H & _)]; [|now apply (kw_fails "default")].
      rewrite <- app_assoc. now apply (tnc_fails_kwd (s_ "graph")).
    + alt1. intros t r [H|(H1 & _ & H2)].
      * destruct H as (w & u & -> & Hw & b & v & -> & [Hb Sb] & Hv). rewrite <- !app_assoc.
        apply (map_ok _ _ _ _ (Some (w, b), i)); [|reflexivity].
        eapply pair_ok; [|apply rd_iri, Hv]. apply opt_some. eapply pair_ok; [now apply (tnc_ok (s_ "graph"))|exact (sp1_ok b (v ++ r) Hb Sb)].
      * apply (map_ok _ _ _ _ (None, i)); [|reflexivity]. apply (pair_ok _ _ _ (t ++ r)); [|exact (rd_iri i t r H1)]. apply opt_none.
        assert (X : fails (terminated (tag_no_case (s_ "graph")) sp1) (t ++ r)).
        { apply (no_word1_fails "graph" sp1); [reflexivity|cbn; intuition discriminate|assumption|auto]. }
        destruct X as (p & k & X). exists p, k. unfold terminated, map, pair in *.
        destruct (tag_no_case (s_ "graph") (t ++ r)) as [i1 a|]; [|injection X as ->; reflexivity].
        destruct (sp1 i1); [discriminate|injection X as ->; reflexivity].
Qed.
Lemma rd_graph_ref_all g : rd graph_ref_all g (W_graph_ref_all g).
Proof.
  unfold graph_ref_all. destruct g as [i| | |]; cbn [W_graph_ref_all].
  - unfold W_graph_ref. alt_skip; [now apply nf_then, (nf_kw "default" "graph")|]. alt_skip; [now apply nf_then, (nf_kw "named" "graph")|].
    alt_skip; [now apply nf_then, (nf_kw "all" "graph")|]. alt1. eapply rd_map; [apply rd_graph_ref|reflexivity].
  - alt1. now apply (rd_word "default").
  - alt_skip; [now apply (nf_kw "default" "named")|]. alt1. now apply (rd_word "named").
  - alt_skip; [now apply (nf_kw "default" "all")|]. alt_skip; [now apply (nf_kw "named" "all")|]. alt1. now apply (rd_word "all").
Qed.
Lemma rd_silent_from_to s f t : rd silent_from_to (s, (f, t)) (W_from_to s f t).
Proof.
  unfold silent_from_to, W_from_to, tuple3. apply rd_pair; [apply rd_opt_silent|]. apply rd_pair; [apply rd_graph_or_default|].
  intros u r H.
  assert (X : rd (preceded (sp_enc (tag_no_case (s_ "to"))) graph_or_default) t ((gap >> word "to" >> gap) >> W_graph_or_default t)).
  { apply rd_preceded; [apply rdx_sp_enc; now apply (rdx_kw "to")|apply rd_graph_or_default]. }
  apply X. now apply then_l3.
Qed.
Lemma rd_stmt {A} k (p : parser A) a P : low_ascii (s_ k) = true -> rd p a P -> rd (stmt (s_ k) p) a (word k >> gap1 >> P).
Proof.
  intros K H. apply rd_assoc. intros t r (x & y & -> & Hx & Hy). rewrite <- app_assoc.
  assert (X : rdx (pair (tag_no_case (s_ k)) sp1) (word k >> gap1)) by (apply rdx_pair; [now apply rdx_kw|apply rdx_sp1]).
  destruct (X _ _ Hx) as [z E]. apply (map_ok _ _ _ _ (z, a)); [|reflexivity]. eapply pair_ok; [exact E|now apply H].
Qed.
Lemma rd_add a : rd add_stmt a (W_add a).
Proof. destruct a as [s f t]. eapply (rd_map _ _ (s, (f, t))); [|reflexivity]. apply (rd_stmt "add"); [reflexivity|apply rd_silent_from_to]. Qed.
Lemma rd_move a : rd move_stmt a (W_move a).
Proof. destruct a as [s f t]. eapply (rd_map _ _ (s, (f, t))); [|reflexivity]. apply (rd_stmt "move"); [reflexivity|apply rd_silent_from_to]. Qed.
Lemma rd_copy a : rd copy_stmt a (W_copy a).
Proof. destruct a as [s f t]. eapply (rd_map _ _ (s, (f, t))); [|reflexivity]. apply (rd_stmt "copy"); [reflexivity|apply rd_silent_from_to]. Qed.
Lemma rd_silent_all s g : rd silent_graph_ref_all (s, g) (W_silent_all s g).
Proof. apply rd_pair; [apply rd_opt_silent|apply rd_graph_ref_all]. Qed.
Lemma rd_drop a : rd drop_stmt a (W_drop a).
Proof. destruct a as [s g]. eapply (rd_map _ _ (s, g)); [|reflexivity]. apply (rd_stmt "drop"); [reflexivity|apply rd_silent_all]. Qed.
Lemma rd_clear a : rd clear_stmt a (W_clear a).
Proof. destruct a as [s g]. eapply (rd_map _ _ (s, g)); [|reflexivity]. apply (rd_stmt "clear"); [reflexivity|apply rd_silent_all]. Qed.
Lemma kw_sp1 k : low_ascii (s_ k) = true -> rdx (pair (tag_no_case (s_ k)) sp1) (word k >> gap1).
Proof. intros K. apply rdx_pair; [now apply rdx_kw|apply rdx_sp1]. Qed.
Lemma rd_create a : rd create_stmt a (W_create a).
Proof.
  destruct a as [s g]. cbn [W_create]. apply rd_assoc. intros t r (x & y & -> & Hx & Hy). rewrite <- app_assoc.
  destruct (kw_sp1 "create" eq_refl _ _ Hx) as [z E]. apply (map_ok _ _ _ _ (z, (s, g))); [|reflexivity].
  eapply pair_ok; [exact E|]. revert Hy. apply rd_pair; [apply rd_opt_silent|apply rd_graph_ref].
Qed.
Lemma rd_load a : rd load_stmt a (W_load a).
Proof.
  destruct a as [i s g]. cbn [W_load]. apply rd_assoc. intros t r (x & y & -> & Hx & Hy). rewrite <- app_assoc.
  destruct (kw_sp1 "load" eq_refl _ _ Hx) as [z E]. apply (map_ok _ _ _ _ (z, (s, (i, g)))); [|reflexivity].
  eapply pair_ok; [exact E|]. revert Hy. apply rd_pair; [apply rd_opt_silent|]. apply rd_pair; [apply rd_iri|]. apply rd_opt.
  - intros j t0 r0 H.
    assert (X : rd (preceded (sp_enc (tag_no_case (s_ "into"))) graph_ref) j ((gap >> word "into" >> gap) >> W_graph_ref j)).
    { apply rd_preceded; [apply rdx_sp_enc; now apply (rdx_kw "into")|apply rd_graph_ref]. }
    apply X. now apply then_l3.
  - intros r0 H. apply preceded_fails1. eapply sp_enc_fails; [|exact H]. intros r1 H1. now apply (kw_fails "into").
Qed.
Lemma rd_insert_data q : rd insert_data q (W_insert_data q).
Proof. apply (rd_preceded_tag1 "insert"); [reflexivity|]. apply (rd_preceded_tag1 "data"); [reflexivity|apply rd_quads_pattern]. Qed.
Lemma rd_delete_data q : rd delete_data q (W_delete_data q).
Proof. apply (rd_preceded_tag1 "delete"); [reflexivity|]. apply (rd_preceded_tag1 "data"); [reflexivity|apply rd_quads_pattern]. Qed.
Lemma rd_delete_where q : rd delete_where_data q (W_delete_where q).
Proof. apply (rd_preceded_tag1 "delete"); [reflexivity|]. apply (rd_preceded_tag1 "where"); [reflexivity|apply rd_quads_pattern]. Qed.
Lemma rd_insert_clause q : rd insert_clause q (W_insert_clause q).
Proof. apply (rd_preceded_tag1 "insert"); [reflexivity|apply rd_quads_pattern]. Qed.
Lemma rd_delete_clause q : rd delete_clause q (W_delete_clause q).
Proof. apply (rd_preceded_tag1 "offset"); [reflexivity|apply rd_quads_pattern]. Qed.
Lemma rd_delete_insert d : rd delete_insert d (W_delete_insert d).
Proof.
  unfold delete_insert. destruct d as [d o|q]; cbn [W_delete_insert].
  - alt1. apply (rd_map _ _ (d, o)); [|reflexivity]. apply rd_pair; [apply rd_delete_clause|]. apply rd_opt.
    + intros q. apply rd_preceded; [apply rdx_sp|apply rd_insert_clause].
    + intros r H. eapply sp_fails; [|exact H]. intros r1 H1. apply tag1_fails. now apply (kw_fails "insert").
  - alt_skip; [|alt1; eapply rd_map; [apply rd_insert_clause|reflexivity]].
    unfold W_insert_clause. apply nf_then. apply nf_pair1, nf_tag1. now apply (nf_kw "offset" "insert").
Qed.
Lemma rd_using d : rd using_clause d (W_using d).
Proof. apply (rd_preceded_tag1 "using"); [reflexivity|apply rd_default_or_named]. Qed.
