(** Solution modifiers and trailing VALUES blocks. *)
From Verif Require Export LC8 LCall SpecQuery.
Notation length := List.length (only parsing).
Open Scope N_scope.
Open Scope list_scope.

Lemma sepne_sp_after {A} (p : parser A) i r l : shrinks p -> separated_nonempty_list sp p i = Ok r l -> ~ solid r.
Proof.
  intros Sp H. unfold separated_nonempty_list in H. destruct (p i) as [i1 a|e] eqn:E; [|discriminate].
  destruct (str_eqb i1 i); [discriminate|]. destruct (sep_loop _ _ _ _) as [r' l'|] eqn:L; [|discriminate]. injection H as <- <-.
  apply sep_loop_iff in L; [|eapply gd_shrinks, gd_sp|exact Sp|lia]. apply sep_sp_after in L. now destruct L as (_ & L & _).
Qed.
Lemma group_blank i r c : group_clause i = Ok r c -> ~ solid r.
Proof.
  intros H. apply map_inv in H. destruct H as (l & H & _). apply preceded_inv in H. destruct H as (i1 & w & _ & H).
  apply sepne_sp_after in H; [exact H|]. eapply gd_shrinks. intros k. sg.
Qed.
Lemma order_blank i r c : order_clause i = Ok r c -> ~ solid r.
Proof.
  intros H. apply map_inv in H. destruct H as (l & H & _). apply preceded_inv in H. destruct H as (i1 & w & _ & H).
  apply sepne_sp_after in H; [exact H|]. eapply gd_shrinks. intros k. sg.
Qed.
Lemma having_blank i r c : having_clause i = Ok r c -> ~ solid r.
Proof.
  intros H. apply map_inv in H. destruct H as (l & H & _). apply preceded_inv in H. destruct H as (i1 & w & _ & H).
  apply sepne_sp_after in H; [exact H|]. eapply gd_shrinks. intros k. sg.
Qed.
(** every query form ends with the solution modifiers, tried where the blanks have been skipped *)
Lemma query_mods i r q : sparql_query i = Ok r q -> exists j, solid j /\ solution_modifier j = Ok r (mods_of q).
Proof.
  intros H. apply alt_inv in H. destruct H as (p & I & H). cbn [In] in I. destruct I as [<-|[<-|[<-|[<-|[]]]]]; apply map_inv in H; destruct H as (x & H & <-).
  - apply map_inv in H. destruct H as ([s [d [w m]]] & H & <-). cbn [mods_of].
    apply pair_inv in H. destruct H as (i1 & _ & H). apply pair_inv in H. destruct H as (i2 & _ & H). apply pair_inv in H. destruct H as (i3 & W & H).
    exists i3. split; [|exact H]. apply delimited_inv in W. destruct W as (? & ? & ? & ? & _ & _ & W). now apply sp_rest in W.
  - apply preceded_inv in H. destruct H as (i1 & _ & _ & H). apply alt_inv in H. destruct H as (p & I & H). cbn [In] in I.
    destruct I as [<-|[<-|[]]]; apply map_inv in H; destruct H as (y & H & <-).
    + apply map_inv in H. destruct H as ([s [d [w m]]] & H & <-). cbn [mods_of].
      apply pair_inv in H. destruct H as (i2 & _ & H). apply pair_inv in H. destruct H as (i3 & _ & H). apply pair_inv in H. destruct H as (i4 & W & H).
      exists i4. split; [|exact H]. apply terminated_inv in W. destruct W as (? & ? & _ & W). now apply sp_rest in W.
    + apply map_inv in H. destruct H as ([s [d [w m]]] & H & <-). cbn [mods_of].
      apply pair_inv in H. destruct H as (i2 & _ & H). apply pair_inv in H. destruct H as (i3 & _ & H). apply pair_inv in H. destruct H as (i4 & _ & H).
      apply preceded_inv in H. destruct H as (i5 & b & W & H). exists i5. split; [|exact H]. now apply sp_rest in W.
  - apply map_inv in H. destruct H as ([s [v [d [w m]]]] & H & <-). cbn [mods_of].
    apply pair_inv in H. destruct H as (i1 & _ & H). apply pair_inv in H. destruct H as (i2 & _ & H). apply pair_inv in H. destruct H as (i3 & D & H).
    apply pair_inv in H. destruct H as (i4 & W & H). exists i4. split; [|exact H]. apply opt_inv in W. destruct w as [w|].
    + apply terminated_inv in W. destruct W as (? & ? & _ & W). now apply sp_rest in W.
    + destruct W as [-> _]. apply terminated_inv in D. destruct D as (? & ? & _ & W). now apply sp_rest in W.
  - apply map_inv in H. destruct H as ([s [d [w m]]] & H & <-). cbn [mods_of].
    apply pair_inv in H. destruct H as (i1 & _ & H). apply pair_inv in H. destruct H as (i2 & _ & H). apply pair_inv in H. destruct H as (i3 & W & H).
    exists i3. split; [|exact H]. apply terminated_inv in W. destruct W as (? & ? & _ & W). now apply sp_rest in W.
Qed.
(** the four places *)
Lemma mods_inv j r ob gb h lo : solution_modifier j = Ok r (MkSolutionModifier ob gb h lo) -> exists i1 i2 i3,
  opt group_clause j = Ok i1 gb /\ opt (preceded sp having_clause) i1 = Ok i2 h /\
  opt (preceded sp order_clause) i2 = Ok i3 ob /\ opt (preceded sp limit_offset_clause) i3 = Ok r lo.
Proof.
  intros H. apply map_inv in H. destruct H as ([g [a [b c]]] & H & E). injection E as -> -> -> ->.
  apply pair_inv in H. destruct H as (i1 & H1 & H). apply pair_inv in H. destruct H as (i2 & H2 & H). apply pair_inv in H. destruct H as (i3 & H3 & H).
  exists i1, i2, i3. auto.
Qed.
Lemma opt_sp_blank {A} (p : parser A) i r o : (forall i r a, p i = Ok r a -> ~ solid r) -> opt (preceded sp p) i = Ok r o -> (o = None /\ r = i) \/ ~ solid r.
Proof.
  intros P H. apply opt_inv in H. destruct o as [a|]; [right|left; now destruct H]. apply preceded_inv in H. destruct H as (i1 & b & _ & H). eauto.
Qed.
Lemma opt_blank {A} (p : parser A) i r o : (forall i r a, p i = Ok r a -> ~ solid r) -> opt p i = Ok r o -> (o = None /\ r = i) \/ ~ solid r.
Proof. intros P H. apply opt_inv in H. destruct o as [a|]; [right; eauto|left; now destruct H]. Qed.
(** without LIMIT and OFFSET, the text ends where it started or before a blank *)
Lemma mods_end j r ob gb h : solution_modifier j = Ok r (MkSolutionModifier ob gb h None) ->
  (ob = None /\ gb = None /\ h = None /\ r = j) \/ ~ solid r.
Proof.
  intros H. apply mods_inv in H. destruct H as (i1 & i2 & i3 & H1 & H2 & H3 & H4). apply opt_inv in H4. destruct H4 as [-> _].
  apply (opt_sp_blank _ _ _ _ order_blank) in H3. destruct H3 as [[-> ->]|H3]; [|auto].
  apply (opt_sp_blank _ _ _ _ having_blank) in H2. destruct H2 as [[-> ->]|H2]; [|auto].
  apply (opt_blank _ _ _ _ group_blank) in H1. destruct H1 as [[-> ->]|H1]; auto.
Qed.
Lemma limit_single j r lo : limit_offset_clause j = Ok r lo -> single lo -> solid r.
Proof.
  intros H S. apply alt_inv in H. destruct H as (p & I & H). cbn [In] in I. destruct I as [<-|[<-|[]]]; apply map_inv in H; destruct H as ([a [b|]] & H & <-); destruct S.
  all: apply pair_inv in H; destruct H as (i1 & _ & H); apply preceded_inv in H; destruct H as (i2 & b & B & H); apply opt_inv in H; destruct H as [-> _]; now apply sp_rest in B.
Qed.
Lemma mods_single j r ob gb h lo : solution_modifier j = Ok r (MkSolutionModifier ob gb h (Some lo)) -> single lo -> solid r.
Proof.
  intros H S. apply mods_inv in H. destruct H as (i1 & i2 & i3 & _ & _ & _ & H4). apply opt_inv in H4. apply preceded_inv in H4.
  destruct H4 as (i4 & b & _ & H4). now apply limit_single in H4.
Qed.
(** a wholly read query does not end with GROUP BY, HAVING or ORDER BY *)
Lemma query_end i r q : sparql_query i = Ok r q -> solid r -> limit_of q = None -> group_of q = None /\ having_of q = None /\ order_of q = None.
Proof.
  intros H S L. apply query_mods in H. destruct H as (j & Sj & H). unfold limit_of, group_of, having_of, order_of in *.
  destruct (mods_of q) as [ob gb h lo]. cbn in *. subst lo. apply mods_end in H. destruct H as [(-> & -> & -> & _)|H]; [auto|now destruct H].
Qed.
Lemma stmt_inv i r p q v : sparql_query_stmt i = Ok r (MkSparqlQueryStatement p q v) ->
  exists j k, sparql_query j = Ok k q /\ opt (preceded sp1 (preceded_tag1 (s_ "values") datablock)) k = Ok r v.
Proof.
  intros H. apply map_inv in H. destruct H as ([p' [q' v']] & H & E). injection E as -> -> ->. apply pair_inv in H. destruct H as (j & _ & H).
  apply pair_inv in H. destruct H as (k & Q & H). eauto.
Qed.
Lemma mods_none j r : solution_modifier j = Ok r (MkSolutionModifier None None None None) -> r = j.
Proof.
  intros H. apply mods_inv in H. destruct H as (i1 & i2 & i3 & H1 & H2 & H3 & H4).
  apply opt_inv in H1, H2, H3, H4. destruct H1 as [-> _], H2 as [-> _], H3 as [-> _], H4 as [-> _]. reflexivity.
Qed.
(** when a VALUES block is attached *)
Lemma values_after i r p q v : sparql_query_stmt i = Ok r (MkSparqlQueryStatement p q (Some v)) ->
  match limit_of q with Some lo => ~ single lo | None => order_of q <> None \/ group_of q <> None \/ having_of q <> None end.
Proof.
  intros H. apply stmt_inv in H. destruct H as (j & k & Q & V). apply opt_inv in V. apply preceded_inv in V. destruct V as (l & b & V & _).
  assert (N : ~ solid k). { intros S. apply sp1_fails in S. destruct S as (? & ? & S). congruence. }
  apply query_mods in Q. destruct Q as (m & Sm & Q). unfold limit_of, group_of, having_of, order_of. destruct (mods_of q) as [ob gb h lo]. destruct lo as [lo|].
  - intros S. apply N. eapply mods_single; eassumption.
  - destruct ob as [?|]; [left; discriminate|]. destruct gb as [?|]; [right; left; discriminate|]. destruct h as [?|]; [right; right; discriminate|].
    apply mods_none in Q. subst k. contradiction.
Qed.
Lemma stmt_end i r p q : sparql_query_stmt i = Ok r (MkSparqlQueryStatement p q None) -> solid r -> limit_of q = None ->
  group_of q = None /\ having_of q = None /\ order_of q = None.
Proof.
  intros H S L. apply stmt_inv in H. destruct H as (j & k & Q & V). apply opt_inv in V. destruct V as [-> _]. eapply query_end; eassumption.
Qed.

(** ** Clauses laid out in the rest would have been read *)
Lemma not_left {A} (p : parser A) (W : A -> lang) a b t r i o : rd p a (W a) -> opt (preceded sp p) i = Ok i o -> o = None ->
  i = b ++ t ++ r -> blank b -> solid (t ++ r) -> W a t r -> False.
Proof.
  intros R H -> E B S HW. apply opt_inv in H. destruct H as [_ (x & k & F)]. unfold preceded in F. subst i.
  pose proof (preceded_ok sp p _ _ _ _ _ (sp_ok _ _ B S) (R _ _ HW)) as X. unfold preceded in X. congruence.
Qed.
Lemma limit_kept i k q : sparql_query i = Ok k q -> limit_of q = None ->
  forall b l t r, k = b ++ t ++ r -> blank b -> solid (t ++ r) -> W_limit_offset l t r -> False.
Proof.
  intros Q L b l t r E B S W. apply query_mods in Q. destruct Q as (j & _ & Q). unfold limit_of in L. destruct (mods_of q) as [ob gb h lo]. subst lo.
  apply mods_inv in Q. destruct Q as (i1 & i2 & i3 & _ & _ & _ & Q). pose proof Q as N. apply opt_inv in N. destruct N as [<- _].
  exact (not_left _ W_limit_offset l b t r _ _ (rd_limit_offset l) Q eq_refl E B S W).
Qed.
Lemma order_kept i k q : sparql_query i = Ok k q -> order_of q = None -> limit_of q = None ->
  forall b c t r, k = b ++ t ++ r -> blank b -> solid (t ++ r) -> W_order_clause W_expression W_ggp c t r -> False.
Proof.
  intros Q L1 L2 b c t r E B S W. apply query_mods in Q. destruct Q as (j & _ & Q). unfold limit_of, order_of in *. destruct (mods_of q) as [ob gb h lo]. subst lo ob.
  apply mods_inv in Q. destruct Q as (i1 & i2 & i3 & _ & _ & O & Q). apply opt_inv in Q. destruct Q as [-> _]. pose proof O as N. apply opt_inv in N. destruct N as [<- _].
  exact (not_left _ (W_order_clause W_expression W_ggp) c b t r _ _ (rd_order_clause W_expression W_ggp rd_expression rd_ggp c) O eq_refl E B S W).
Qed.
Lemma having_kept i k q : sparql_query i = Ok k q -> having_of q = None -> order_of q = None -> limit_of q = None ->
  forall b c t r, k = b ++ t ++ r -> blank b -> solid (t ++ r) -> W_having_clause W_expression W_ggp c t r -> False.
Proof.
  intros Q L0 L1 L2 b c t r E B S W. apply query_mods in Q. destruct Q as (j & _ & Q). unfold limit_of, order_of, having_of in *. destruct (mods_of q) as [ob gb h lo]. subst lo ob h.
  apply mods_inv in Q. destruct Q as (i1 & i2 & i3 & _ & H & O & Q). apply opt_inv in Q. destruct Q as [-> _]. apply opt_inv in O. destruct O as [-> _].
  pose proof H as N. apply opt_inv in N. destruct N as [<- _].
  exact (not_left _ (W_having_clause W_expression W_ggp) c b t r _ _ (rd_having_clause W_expression W_ggp rd_expression rd_ggp c) H eq_refl E B S W).
Qed.
Lemma group_kept i k q : sparql_query i = Ok k q -> mods_of q = MkSolutionModifier None None None None ->
  forall c t r, k = t ++ r -> W_group_clause W_expression W_ggp c t r -> False.
Proof.
  intros Q M c t r E W. apply query_mods in Q. destruct Q as (j & _ & Q). rewrite M in Q. pose proof (mods_none _ _ Q). subst j.
  apply mods_inv in Q. destruct Q as (i1 & i2 & i3 & G & _). apply opt_inv in G. destruct G as [_ (x & y & F)].
  pose proof (rd_group_clause W_expression W_ggp rd_expression rd_ggp c _ _ W) as X. subst k. congruence.
Qed.

(** ** Updates *)
(** a DELETE/INSERT ... WHERE statement without USING clauses is never read *)
Lemma sepl_nil {A B} (s : parser B) (p : parser A) i r : separated_list s p i = Ok r [] -> r = i.
Proof.
  intros H. unfold separated_list in H. destruct (p i) as [i1 a|e]; [|destruct e; congruence].
  destruct (str_eqb i1 i); [discriminate|]. destruct (sep_loop _ _ _ _); discriminate.
Qed.
Lemma modify_using i r x d u w : modify_stmt i = Ok r (MkModify x d u w) -> u <> [].
Proof.
  intros H ->. apply map_inv in H. destruct H as ([x' [d' [u' [k w']]]] & H & E). injection E as -> -> -> ->.
  apply pair_inv in H. destruct H as (i1 & _ & H). apply pair_inv in H. destruct H as (i2 & D & H). apply pair_inv in H. destruct H as (i3 & U & H).
  apply pair_inv in H. destruct H as (i4 & K & _). apply terminated_inv in D. destruct D as (? & ? & _ & D). apply sp_rest in D.
  apply sepl_nil in U. subst i3. apply delimited_inv in K. destruct K as (? & b & ? & ? & K & _). apply sp1_fails in D. destruct D as (? & ? & D). congruence.
Qed.
Lemma then_begins k (P : str -> Prop) t r : (kw k ;; P) t -> begins k (t ++ r).
Proof. intros (w & x & -> & Hw & _). exists w, (x ++ r). split; [now rewrite <- app_assoc|exact Hw]. Qed.
Lemma update_keys i r u : update_stmt i = Ok r u -> exists k, In k (stmt_keys u) /\ begins k i.
Proof.
  intros H. apply sd_update_stmt in H. destruct H as (t & -> & H).
  destruct u as [[]|[]|[]|[]|[]|[]|[]|q|q|q|[x d u w]]; cbn [R_update_stmt stmt_keys] in *; unfold R_from_to in *;
    try (eexists; split; [now left|eapply then_begins; exact H]).
  destruct x as [x|]; cbn [R_modify opt_] in H.
  - exists "where"%string. split; [now left|]. destruct H as (a & b & -> & H & _). rewrite <- app_assoc. eapply then_begins. exact H.
  - destruct H as (a & b & -> & E & c & e & -> & H & _). hnf in E. subst a. cbn [app]. rewrite <- app_assoc. destruct d as [d o|d]; cbn [R_delete_insert] in H.
    + exists "offset"%string. split; [right; now left|]. destruct H as (a & b & -> & H & _). rewrite <- app_assoc. eapply then_begins. exact H.
    + exists "insert"%string. split; [right; right; now left|]. eapply then_begins. exact H.
Qed.
Lemma begins_differ k k' i : low_ascii (s_ k) = true -> low_ascii (s_ k') = true -> differ (s_ k') (s_ k) = true -> begins k i -> begins k' i -> False.
Proof.
  intros A A' D (w & x & -> & Hw) (w' & x' & E & Hw').
  destruct (nf_kw k k' A A' D w' x' Hw') as (p & e & F). rewrite <- E in F. rewrite (tnc_ok (s_ k)) in F by assumption. discriminate.
Qed.
Lemma key_decides k i r u : In k ["load"; "clear"; "drop"; "create"; "add"; "move"; "copy"; "insert"; "delete"; "where"; "offset"]%string ->
  begins k i -> update_stmt i = Ok r u -> In k (stmt_keys u).
Proof.
  intros I B H. apply update_keys in H. destruct H as (k' & I' & B').
  assert (In k' ["load"; "clear"; "drop"; "create"; "add"; "move"; "copy"; "insert"; "delete"; "where"; "offset"]%string).
  { destruct u; cbn in *; clear -I'; tauto. }
  destruct (string_dec k k') as [->|N]; [exact I'|]. exfalso. revert B B' N. clear I'. cbn in I, H.
  repeat (destruct I as [<-|I]; [repeat (destruct H as [<-|H]; [first [congruence | intros B B' _; revert B B'; apply begins_differ; reflexivity]|]); destruct H|]). destruct I.
Qed.
Lemma update_empty i : nxt no_stmt i -> no_decl i -> update i = Ok i (MkUpdate (MkPrologue []) None None).
Proof.
  intros H D. apply (rd_update (MkUpdate (MkPrologue []) None None) [] i). exists [], []. split; [reflexivity|]. split; [split; [reflexivity|exact D]|]. split; [reflexivity|exact H].
Qed.
(** ** Sequences of statements *)
Fixpoint chain (s : UpdateStatement) (ss : list UpdateStatement) : Update :=
  MkUpdate (MkPrologue []) (Some s) match ss with [] => None | s' :: ss' => Some (chain s' ss') end.
Lemma chain_statements : forall ss s, statements (chain s ss) = s :: ss.
Proof. induction ss as [|s' ss IH]; intros s; cbn; [reflexivity|]. f_equal. apply IH. Qed.
Lemma stmt_starts s t r : W_update_stmt s t r -> solid (t ++ r) /\ no_decl (t ++ r).
Proof.
  intros H. apply rd_update_stmt in H. apply update_keys in H. destruct H as (k & I & B).
  assert (J : In k ["load"; "clear"; "drop"; "create"; "add"; "move"; "copy"; "insert"; "delete"; "where"; "offset"]%string).
  { destruct s; cbn in *; clear -I; tauto. }
  clear I. split.
  - destruct B as (w & x & E & K). rewrite E. cbn in J.
    repeat (destruct J as [<-|J]; [eapply kw_solid; [exact K|split; discriminate]|]). destruct J.
  - split; intros B'; revert B B'; cbn in J;
      repeat (destruct J as [<-|J]; [apply begins_differ; reflexivity|]); destruct J.
Qed.
Lemma then_r3 P Q S T t r : ((P >> Q >> S) >> T) t r -> (P >> Q >> S >> T) t r.
Proof. intros H. apply then_assoc in H. revert H. apply then_mono. intros u v. apply then_assoc. Qed.
Lemma chain_layout : forall ss s t r, W_stmts (s :: ss) t r -> W_update (chain s ss) t r.
Proof.
  induction ss as [|s' ss IH]; intros s t r (a & b & -> & Ha & Hb); cbn [chain W_update].
  - pose proof (stmt_starts _ _ _ Ha) as [S D]. exists [], (a ++ b). rewrite <- app_assoc. split; [reflexivity|]. split; [split; [reflexivity|exact D]|].
    exists [], (a ++ b). rewrite <- app_assoc. split; [reflexivity|]. split; [split; [constructor|exact S]|]. exists a, b. auto.
  - pose proof (stmt_starts _ _ _ Ha) as [S D]. exists [], (a ++ b). rewrite <- app_assoc. split; [reflexivity|]. split; [split; [reflexivity|exact D]|].
    exists [], (a ++ b). rewrite <- app_assoc. split; [reflexivity|]. split; [split; [constructor|exact S]|]. exists a, b. split; [reflexivity|]. split; [exact Ha|].
    cbn [tailW] in Hb. destruct Hb as (c & d & -> & Hc & Hd). change ((W_update_stmt s' >> tailW W_update_stmt (gap >> sym ";" >> gap) (nxt (not_first 59)) ss) d r) in Hd.
    apply IH in Hd. apply then_r3. exists c, d. auto.
Qed.
Lemma read_stmts ss t r : W_stmts ss t r -> exists u, update (t ++ r) = Ok r u /\ statements u = ss.
Proof.
  destruct ss as [|s ss]; [intros []|]. intros H. exists (chain s ss). split; [|apply chain_statements]. apply rd_update. now apply chain_layout.
Qed.
