(** Calls and operators that are never read. *)
From Verif Require Export SpecCalls LC7.
Notation length := List.length (only parsing).
Notation ex := expression (only parsing).
Notation gg := group_graph_pattern (only parsing).
Open Scope N_scope.
Open Scope list_scope.

(** ** Built-in calls *)
Lemma never_rounding i r b : built_in_call i = Ok r b -> forall e, b <> BiAbs e /\ b <> BiCeil e /\ b <> BiFloor e /\ b <> BiRound e.
Proof. intros H e. apply sd_built_in_call in H. destruct H as (t & -> & H). destruct b; try (destruct H; fail); repeat split; discriminate. Qed.
Lemma call1_read k (e : Expression) : In k ["abs"; "ceil"; "floor"; "round"]%string -> rd built_in_call (BiUri e) (call1W W_expression k e).
Proof.
  intros I t r H. apply (rd_built_in W_expression W_ggp rd_expression rd_ggp (BiUri e)). cbn [W_built_in]. cbn in I.
  destruct I as [<-|[<-|[<-|[<-|[]]]]]; auto.
Qed.
Lemma nf_alt_cons {A} (p : parser A) ps P : nf p P -> nf (alt ps) P -> nf (alt (p :: ps)) P.
Proof. intros H1 H2 t r H. apply alt_fails_cons; [now apply H1|now apply H2]. Qed.
Lemma nf_alt_nil {A} P : nf (@alt A []) P. Proof. intros t r H. apply alt_fails_nil. Qed.
Ltac skip_calls O := repeat first [ apply nf_alt_nil | apply nf_alt_cons; [solve [eapply opens_fails; [gu | first [exact O | apply O] | reflexivity]]|] ].
Lemma nf_map {A B} (p : parser A) (f : A -> B) P : nf p P -> nf (map p f) P.
Proof. intros H t r K. apply map_fails. now apply H. Qed.
Lemma close_solid r : solid (s_ ")" ++ r). Proof. cbn. split; [intuition discriminate|discriminate]. Qed.
Lemma open_solid r : solid (s_ "(" ++ r). Proof. cbn. split; [intuition discriminate|discriminate]. Qed.
(** STRLEN of one argument *)
Lemma strlen_unread (e : Expression) : nf built_in_call (word "strlen" >> sym "(" >> W_expression e >> sym ")").
Proof.
  assert (O := opens_sym "strlen" (W_expression e >> sym ")")). unfold built_in_call, built_in_call_of.
  apply nf_alt_cons; [|skip_calls O]. unfold built_in_call_1_of. skip_calls O. apply nf_alt_cons; [|skip_calls O; apply nf_alt_cons; [|skip_calls O]].
  - apply nf_map. intros t r (w & x & -> & Hw & z & v & -> & Hz & _). hnf in Hz. subst z. rewrite <- app_assoc. unfold preceded_tag1.
    apply preceded_fails1. eapply terminated_fails2; [now apply (tnc_ok (s_ "strlen"))|]. apply sp1_fails. apply paren_solid.
  - unfold call2. apply nf_map. intros t r (w & x & -> & Hw & z & v & -> & Hz & a & c & -> & Ha & Hc). hnf in Hz, Hc. subst z c.
    rewrite <- app_assoc. unfold preceded_bracketted, preceded_tag.
    eapply preceded_fails2; [eapply terminated_ok; [now apply (tnc_ok (s_ "strlen"))|apply (sp_ok []); [constructor|apply paren_solid]]|].
    unfold bracketted. eapply delimited_fails2; [apply (chr_ok 40)|]. unfold expr2_of. fold (@app char). rewrite <- app_assoc.
    eapply pair_fails2; [apply rd_expression; exact Ha|]. apply preceded_fails1.
    apply comma_stop. exists [], (s_ ")" ++ r). split; [reflexivity|]. split; [constructor|]. split; [apply close_solid|].
    cbn. discriminate.
Qed.
(** a call without arguments *)
Lemma nullary_unread k : In k ["rand"; "now"; "uuid"; "struuid"; "bnode"]%string -> nf built_in_call (word k >> gap >> sym "(" >> sym ")").
Proof.
  intros I.
  assert (F1 : forall r, fails nil_ (s_ ")" ++ r)) by (intros r; now apply nil_first).
  assert (F2 : forall r, fails ex (s_ ")" ++ r)) by (intros r; now apply expression_first).
  assert (L : low_ascii (s_ k) = true) by (cbn in I; destruct I as [<-|[<-|[<-|[<-|[<-|[]]]]]]; reflexivity).
  assert (N : forall A (p : parser A), (forall r, fails p (s_ ")" ++ r)) ->
    nf (preceded_bracketted (s_ k) p) (word k >> gap >> sym "(" >> sym ")")).
  { intros A p Hp t r (w & x & -> & Hw & b & y & -> & [Hb Sb] & z & v & -> & Hz & Hc). hnf in Hz, Hc. subst z v.
    rewrite <- app_assoc. unfold preceded_bracketted, preceded_tag.
    eapply preceded_fails2; [eapply terminated_ok; [now apply (tnc_ok (s_ k))|rewrite <- app_assoc; now apply sp_ok]|].
    unfold bracketted. eapply delimited_fails2; [apply (chr_ok 40)|]. fold (@app char). apply Hp. }
  assert (O := opens_gap k (sym ")")).
  cbn in I. unfold built_in_call, built_in_call_of. destruct I as [<-|[<-|[<-|[<-|[<-|[]]]]]].
  - apply nf_alt_cons; [|skip_calls O]. unfold built_in_call_1_of. skip_calls O. apply nf_alt_cons; [|skip_calls O]. apply nf_map, N, F1.
  - skip_calls O. apply nf_alt_cons; [|skip_calls O]. unfold built_in_call_2_of. skip_calls O. apply nf_alt_cons; [|skip_calls O]. apply nf_map, N, F1.
  - skip_calls O. apply nf_alt_cons; [|skip_calls O]. unfold built_in_call_2_of. skip_calls O. apply nf_alt_cons; [|skip_calls O]. apply nf_map, N, F1.
  - skip_calls O. apply nf_alt_cons; [|skip_calls O]. unfold built_in_call_2_of. skip_calls O. apply nf_alt_cons; [|skip_calls O]. apply nf_map, N, F1.
  - apply nf_alt_cons; [|skip_calls O]. unfold built_in_call_1_of. skip_calls O. apply nf_alt_cons; [|skip_calls O]. apply nf_map, N. intros r.
    apply alt_fails_cons; [apply map_fails, F2|]. apply alt_fails_cons; [apply map_fails, F1|apply alt_fails_nil].
Qed.
(** functions SPARQL has and the code does not *)
Lemma unknown_unread k w x : In k ["contains"; "substr"; "replace"]%string -> kw k w -> starts delims x -> fails built_in_call (w ++ x).
Proof. intros I W S. cbn in I. destruct I as [<-|[<-|[<-|[]]]]; now apply (built_in_word _ _ _ W). Qed.
(** functions that need a blank before their arguments *)
Lemma blank_needed k : In k ["regex"; "coalesce"; "concat"]%string -> nf built_in_call (word k >> sym "(").
Proof.
  intros I. assert (L : low_ascii (s_ k) = true) by (cbn in I; destruct I as [<-|[<-|[<-|[]]]]; reflexivity).
  assert (O : opens k (word k >> sym "(")).
  { intros t r (w & x & -> & Hw & Hx). hnf in Hx. subst x. exists w, (s_ "(" ++ r). split; [now rewrite <- app_assoc|]. split; [exact Hw|].
    eexists _, _. split; [reflexivity|]. cbn. auto 10. }
  assert (N : forall A (p : parser A), nf (preceded_tag1 (s_ k) p) (word k >> sym "(")).
  { intros A p t r (w & x & -> & Hw & Hx). hnf in Hx. subst x. rewrite <- app_assoc. unfold preceded_tag1. apply preceded_fails1.
    eapply terminated_fails2; [now apply (tnc_ok (s_ k))|]. apply sp1_fails. apply open_solid. }
  cbn in I. unfold built_in_call, built_in_call_of. destruct I as [<-|[<-|[<-|[]]]].
  - skip_calls O. apply nf_alt_cons; [|skip_calls O]. apply nf_map. unfold regex_expression_of. try apply nf_map. apply N.
  - skip_calls O. apply nf_alt_cons; [|skip_calls O]. apply nf_map, N.
  - apply nf_alt_cons; [|skip_calls O]. unfold built_in_call_1_of. skip_calls O. apply nf_alt_cons; [|skip_calls O]. apply nf_map, N.
Qed.

(** ** Lists separated by blanks *)
Lemma not_solid i i1 b : sp i = Ok i1 b -> i1 <> i -> ~ solid i.
Proof. intros H N S. pose proof (sp_ok [] i ltac:(constructor) S) as X. cbn [app] in X. rewrite X in H. injection H as <- _. congruence. Qed.
Lemma sep_sp_after {A} (p : parser A) i r l : sep_ok sp p i r l -> ~ solid i /\ ~ solid r /\
  forall a, In a l -> exists j s, p j = Ok s a /\ ~ solid s.
Proof.
  induction 1 as [j (x & k & F)|j i1 b E N F|j i1 i2 r b a l E N E2 M IH].
  - destruct (sp_total j) as (u & v & X). congruence.
  - pose proof (not_solid _ _ _ E N). repeat split; auto. intros a [].
  - pose proof (not_solid _ _ _ E N). destruct IH as (I1 & I2 & I3). repeat split; auto. intros c [<-|I]; eauto.
Qed.
Lemma sepl_sp_after {A} (p : parser A) i r l : shrinks p -> separated_list sp p i = Ok r l ->
  (forall a, In a l -> exists j s, p j = Ok s a /\ ~ solid s) /\ (l <> [] -> ~ solid r).
Proof.
  intros Sp. unfold separated_list. destruct (p i) as [i1 a|e] eqn:E.
  - destruct (str_eqb i1 i); [discriminate|]. destruct (sep_loop _ _ _ _) as [r' l'|] eqn:L; [|discriminate]. intros [= <- <-].
    apply sep_loop_iff in L; [|eapply gd_shrinks, gd_sp|exact Sp|lia]. apply sep_sp_after in L. destruct L as (L1 & L2 & L3).
    split; [|auto]. intros c [<-|I]; eauto.
  - destruct e; try discriminate. intros [= <- <-]. split; [intros a []|congruence].
Qed.
Definition factors {E G} (a : AddExpression E G) : list (MultExpression E G) :=
  match a with AddAdd (MkMultiplicative _ l) | AddSub (MkMultiplicative _ l) | AddNumeric _ l => l end.
Lemma sp_rest i r b : sp i = Ok r b -> solid r. Proof. intros H. apply sp_iff in H. now destruct H as (_ & _ & H). Qed.
Lemma factors_after i r l : preceded sp (separated_list sp mult_expression) i = Ok r l -> (l = [] <-> solid r).
Proof.
  intros H. apply preceded_inv in H. destruct H as (i1 & b & H1 & H2). apply sp_rest in H1. pose proof H2 as H3.
  apply sepl_sp_after in H3; [|eapply gd_shrinks, mv_mult]. destruct H3 as [_ H3]. split.
  - intros ->. unfold separated_list in H2. destruct (mult_expression i1) as [i2 a|e]; [|destruct e; congruence].
    destruct (str_eqb i2 i1); [discriminate|]. destruct (sep_loop _ _ _ _); discriminate.
  - intros S. destruct l as [|a l]; [reflexivity|]. exfalso. now apply H3.
Qed.
Lemma multiplicative_after i r u l : multiplicative_expression i = Ok r (MkMultiplicative u l) -> (l = [] <-> solid r).
Proof.
  intros H. unfold multiplicative_expression, multiplicative_expression_of in H. apply map_inv in H. destruct H as ([u' l'] & H & E). injection E as -> ->.
  apply pair_inv in H. destruct H as (i1 & _ & H). revert H. apply factors_after.
Qed.
Lemma term_after i r a : add_expression i = Ok r a -> (factors a = [] <-> solid r).
Proof.
  intros H. unfold add_expression, add_expression_of in H. apply alt_inv in H. destruct H as (p & I & H). cbn in I.
  destruct I as [<-|[<-|[<-|[]]]]; apply map_inv in H; destruct H as (x & H & <-).
  - apply preceded_inv in H. destruct H as (i1 & b & _ & H). destruct x as [u l]. cbn [factors]. revert H. apply multiplicative_after.
  - apply preceded_inv in H. destruct H as (i1 & b & _ & H). destruct x as [u l]. cbn [factors]. revert H. apply multiplicative_after.
  - destruct x as [n l]. apply pair_inv in H. destruct H as (i1 & _ & H). cbn [factors]. revert H. apply factors_after.
Qed.
(** every term after the first has a factor of its own *)
Lemma terms_factors i r m l a : additive_expression i = Ok r (MkAdditive m l) -> In a l -> factors a <> [].
Proof.
  intros H I. unfold additive_expression, additive_expression_of in H. apply map_inv in H. destruct H as ([m' l'] & H & E). injection E as -> ->.
  apply pair_inv in H. destruct H as (i1 & _ & H). apply preceded_inv in H. destruct H as (i2 & b & _ & H).
  apply sepl_sp_after in H; [|eapply gd_shrinks, mv_term]. destruct H as [H _]. destruct (H a I) as (j & s & J & N). intros F. apply N.
  exact (proj1 (term_after _ _ _ J) F).
Qed.
(** after factors or terms there is a blank *)
Lemma operators_blank i r m l : additive_expression i = Ok r (MkAdditive m l) -> l <> [] -> ~ solid r.
Proof.
  intros H N. unfold additive_expression, additive_expression_of in H. apply map_inv in H. destruct H as ([m' l'] & H & E). injection E as -> ->.
  apply pair_inv in H. destruct H as (i1 & _ & H). apply preceded_inv in H. destruct H as (i2 & b & _ & H).
  apply sepl_sp_after in H; [|eapply gd_shrinks, mv_term]. destruct H as [_ H]. auto.
Qed.
Lemma factors_blank i r u l : multiplicative_expression i = Ok r (MkMultiplicative u l) -> l <> [] -> ~ solid r.
Proof. intros H N S. apply N. now apply (multiplicative_after i r u). Qed.

(** ** The tables *)
Lemma unary_read k C : In (k, C, true) unary_calls -> forall e, rd built_in_call (C e) (call1W W_expression k e).
Proof.
  intros I e t r H. apply (rd_built_in W_expression W_ggp rd_expression rd_ggp). cbn in I.
  repeat (destruct I as [I|I]; [first [discriminate | injection I as <- <-; cbn [W_built_in]; first [exact H | now left]]|]). destruct I.
Qed.
Lemma binary_read k C : In (k, C, true) binary_calls -> forall a b, rd built_in_call (C a b) (call2W W_expression k a b).
Proof.
  intros I a b t r H. apply (rd_built_in W_expression W_ggp rd_expression rd_ggp). cbn in I.
  repeat (destruct I as [I|I]; [first [discriminate | injection I as <- <-; exact H]|]). destruct I.
Qed.
Lemma unary_wrong k C : In (k, C, false) unary_calls -> forall e i r b, (call1W W_expression k e i r -> built_in_call (i ++ r) = Ok r (BiUri e)) /\ (built_in_call i = Ok r b -> b <> C e).
Proof.
  intros I e i r b. cbn in I. split.
  - apply call1_read. repeat (destruct I as [I|I]; [first [discriminate | injection I as <- <-; cbn; now auto 6]|]). destruct I.
  - intros H. apply (never_rounding _ _ _) with (e := e) in H. destruct H as (H1 & H2 & H3 & H4).
    repeat (destruct I as [I|I]; [first [discriminate | injection I as <- <-; assumption]|]). destruct I.
Qed.
Lemma binary_wrong k C : In (k, C, false) (@binary_calls Expression GroupGraphPattern) -> forall a b, nf built_in_call (call2W W_expression k a b).
Proof.
  intros I a b t r H. cbn in I. repeat (destruct I as [I|I]; [try discriminate|]); [|destruct I]. injection I as <- <-.
  assert (O := opens_gap "contains" (W_expression a >> argW W_expression b >> sym ")")).
  destruct (O t r) as (w & x & -> & Hw & S).
  - unfold call2W, callW in H. revert H. apply then_mono. intros t1 r1. apply then_mono. intros t2 r2. apply then_mono. intros t3 r3 H. now apply then_assoc in H.
  - now apply (unknown_unread "contains"); [left|..].
Qed.
