(** Keywords without a blank after them, declarations without a blank between them, GROUP BY with a name. *)
From Verif Require Export LFlags4.
From Verif Require Import LMods.
Notation length := List.length (only parsing).
Open Scope N_scope.
Open Scope list_scope.

(** ** Keywords followed by something that is not blank *)
Lemma app_eq_len {A} (a b c d : list A) : a ++ c = b ++ d -> length a = length b -> a = b /\ c = d.
Proof.
  revert b. induction a as [|x a IH]; intros [|y b] E L; try discriminate; [auto|]. injection E as <- E. injection L as L.
  destruct (IH b E L) as [-> ->]. auto.
Qed.
Lemma says_glued k w x : kw k w -> says k (w ++ x) -> ~ solid x.
Proof.
  intros W (w' & b & r & E & W' & [B N]) S.
  assert (L : length w = length w') by (unfold kw, kwd in W, W'; rewrite <- (map_length lower w), <- (map_length lower w'); congruence).
  destruct (app_eq_len _ _ _ _ E L) as [<- ->].
  destruct (blank_split r) as (b' & r' & -> & B' & S'). rewrite app_assoc in S.
  pose proof (sp_ok (b ++ b') r' ltac:(now apply blank_app) S') as X. rewrite <- app_assoc, sp_nil in X by (now rewrite app_assoc).
  injection X as _ X. destruct b; [congruence|discriminate].
Qed.
Lemma pattern_glued k w x r p : In k ["optional"; "minus"; "graph"; "service"; "filter"; "bind"; "values"]%string ->
  kw k w -> solid x -> graph_pattern_not_triples (w ++ x) <> Ok r p.
Proof.
  intros I W S H. assert (B : begins k (w ++ x)) by (exists w, x; auto).
  pose proof (pattern_decides k _ r p I B H) as D. apply pattern_kind in H. unfold announces in H. rewrite D in H.
  exact (says_glued k w x W H S).
Qed.
Lemma ask_brace w x r q : kw "ask" w -> solid x -> ask_query (w ++ x) <> Ok r q.
Proof.
  intros W S H. apply map_inv in H. destruct H as ([y z] & H & _). apply pair_inv in H. destruct H as (i1 & H & _).
  revert H. apply fails_not_ok. eapply terminated_fails2; [now apply (tnc_ok (s_ "ask"))|now apply sp1_fails].
Qed.
Lemma where_brace w x r g : kw "where" w -> solid x -> where_clause (w ++ x) <> Ok r g.
Proof.
  intros W S H. apply preceded_inv in H. destruct H as (i1 & o & H1 & H2). apply opt_inv in H1. destruct o as [o|].
  - revert H1. apply fails_not_ok. eapply terminated_fails2; [now apply (tnc_ok (s_ "where"))|now apply sp1_fails].
  - destruct H1 as [-> _]. revert H2. apply fails_not_ok. apply gg_first. destruct w as [|c w]; [discriminate W|]. cbn. intros ->. discriminate W.
Qed.
Lemma group_glued k w c x b r g : In k ["optional"; "minus"; "filter"; "bind"; "values"]%string -> kw k w -> blank b -> c = 40 \/ c = 123 ->
  group_graph_pattern (123 :: b ++ w ++ c :: x) <> Ok r g.
Proof.
  intros I W B C H. assert (S : solid (c :: x)) by (destruct C as [->| ->]; now apply char_solid).
  assert (WL : not_bool k = true /\ letter_word k = true /\ differ (s_ "select") (s_ k) = true /\ word_like k = true).
  { clear - I. cbn in I. destruct I as [<-|[<-|[<-|[<-|[<-|[]]]]]]; repeat split; reflexivity. }
  destruct WL as (NB & LW & DS & WL).
  assert (BG : begins k (w ++ c :: x)) by (exists w, (c :: x); auto).
  assert (SL : solid (w ++ c :: x)) by now apply (begins_solid k).
  apply group_inv in H. destruct H as (b0 & j & k0 & E & B0 & S0 & H & b1 & -> & B1). injection E as E.
  assert (J : j = w ++ c :: x).
  { assert (X1 : sp (b ++ w ++ c :: x) = Ok (w ++ c :: x) b) by now apply sp_ok.
    assert (X2 : sp (b0 ++ j) = Ok j b0) by now apply sp_ok. rewrite E in X1. congruence. }
  subst j. clear E B0. apply alt_inv in H. destruct H as (p & [<-|[<-|[]]] & H); apply map_inv in H; destruct H as (y & H & <-).
  - apply map_inv in H. destruct H as ([cl z] & H & _). apply pair_inv in H. destruct H as (i1 & H & _). destruct cl as [m v].
    apply select_says in H. destruct H as (j' & H & _). apply after_says, says_begins in H. revert BG H. apply begins_differ; [|reflexivity|exact DS]. clear - WL. unfold word_like in WL. rewrite !andb_true_iff in WL. tauto.
  - apply map_inv in H. destruct H as ([t l] & H & _). apply pair_inv in H. destruct H as (i1 & H1 & H2). apply opt_inv in H1.
    assert (NI : no_iri (w ++ c :: x)).
    { apply no_iri_fails. apply (iri_fails_word w [] (c :: x)); auto; [now apply (letter_kw_prefix k)|apply brk_name; destruct C; subst; reflexivity|constructor|destruct C; subst; discriminate]. }
    destruct t as [t|].
    + apply terminated_inv in H1. destruct H1 as (i2 & d & H1 & _). revert H1. apply fails_not_ok. now apply (no_block_word k).
    + destruct H1 as [-> _]. apply sepl_inv in H2. destruct H2 as [[-> E]|(i2 & a & H2)].
      * rewrite <- E in SL, BG. destruct b1 as [|d b1].
        -- apply (begins_stops (N.eqb 125) k) in BG; [discriminate|exact WL|]. clear - I. cbn in I.
           destruct I as [<-|[<-|[<-|[<-|[<-|[]]]]]]; reflexivity.
        -- apply (blank1_no_begins k (d :: b1) (125 :: r)); [exact WL|split; [exact B1|discriminate]|exact BG].
      * apply map_inv in H2. destruct H2 as ([p q] & H2 & _). apply pair_inv in H2. destruct H2 as (i3 & H2 & _). revert H2.
        apply (pattern_glued k); auto. clear - I. cbn in I |- *. tauto.
Qed.

(** ** Declarations written together *)
Lemma prologue_glued l t x : l <> [] -> sep1W W_decl gap1 solid l t x -> prologue (t ++ x) = Ok x (MkPrologue l).
Proof.
  intros N H. eapply map_ok; [|reflexivity].
  assert (R : rd (separated_list sp1 decl_p) l (sepW W_decl gap1 (fun _ => False) solid l)).
  { apply rd_sep; [exact rd_decl|exact mv_decl|mv|exact rdx_sp1|intros u v X; now apply (gap1_ne u v)| |intros r []]. intros r S. apply sep_stop. now apply sp1_fails. }
  apply R. destruct l; [congruence|exact H].
Qed.
Lemma stmt_glued l t x r q : l <> [] -> sep1W W_decl gap1 solid l t x -> a_decl x -> sparql_query_stmt (t ++ x) <> Ok r q.
Proof.
  intros N H D E. apply map_inv in E. destruct E as ([p [y v]] & E & _). apply pair_inv in E. destruct E as (j & T & E).
  apply terminated_inv in T. destruct T as (j' & z & T & S). rewrite (prologue_glued l t x N H) in T. injection T as <- <-.
  rewrite (sp_nil _ (decl_solid x D)) in S. injection S as <- _.
  apply pair_inv in E. destruct E as (k & E & _). apply query_form in E.
  destruct D as [D|D]; destruct y; revert D E; apply begins_differ; reflexivity.
Qed.
Lemma update_glued l t x : l <> [] -> sep1W W_decl gap1 solid l t x -> a_decl x -> update (t ++ x) = Ok x (MkUpdate (MkPrologue l) None None).
Proof.
  intros N H D. pose proof (decl_solid x D) as S. rewrite update_eq. unfold update_body.
  apply (map_ok _ _ _ _ (MkPrologue l, None)); [|reflexivity]. eapply pair_ok; [exact (prologue_glued l t x N H)|].
  apply opt_none, pair_fails1. eapply preceded_fails2; [now apply sp_nil|]. apply no_stmt_fails. intros k I K.
  destruct D as [D|D]; cbn in I; repeat (destruct I as [<-|I]; [revert D K; apply begins_differ; reflexivity|]); destruct I.
Qed.

(** ** GROUP BY with a name *)
Lemma sep_last {A B} (s : parser B) (p : parser A) i r l : sep_ok s p i r l -> forall j a, p j = Ok i a ->
  exists k b, p k = Ok r b /\ exists l', a :: l = l' ++ [b].
Proof.
  induction 1 as [i F|i i1 b E N F|i i1 i2 r b a l E N E2 M IH]; intros j c J.
  - exists j, c. split; [exact J|]. now exists [].
  - exists j, c. split; [exact J|]. now exists [].
  - destruct (IH i1 a E2) as (k & d & K & l' & ->). exists k, d. split; [exact K|]. now exists (c :: l').
Qed.
Lemma op_last_app {A} (f : A -> bool) l a : op_last f (l ++ [a]) = f a.
Proof. unfold op_last. now rewrite rev_app_distr. Qed.
Lemma sepne_last {A B} (s : parser B) (p : parser A) i r l : shrinks s -> shrinks p -> separated_nonempty_list s p i = Ok r l ->
  exists k b, p k = Ok r b /\ forall f, op_last f l = f b.
Proof.
  intros Ss Sp H. apply sepne_iff in H; auto. destruct H as (i1 & a & l' & E & N & M & ->). destruct (sep_last _ _ _ _ _ M i a E) as (k & b & K & l2 & ->).
  exists k, b. split; [exact K|]. intros f. apply op_last_app.
Qed.
Lemma sepl_empty {A B} (s : parser B) (p : parser A) i r : separated_list s p i = Ok r [] -> r = i.
Proof.
  unfold separated_list. destruct (p i) as [i1 a|[]]; try discriminate; [|congruence]. destruct (str_eqb i1 i); [discriminate|].
  destruct (sep_loop _ _ _ _); discriminate.
Qed.
Lemma additive_after i r a : additive_expression i = Ok r a -> op_additive a = false -> solid r.
Proof.
  intros H O. destruct a as [m l]. destruct l as [|x l]; [|discriminate].
  apply map_inv in H. destruct H as ([m' l'] & H & E). injection E as -> ->. apply pair_inv in H. destruct H as (i1 & _ & H).
  apply preceded_inv in H. destruct H as (i2 & b & H1 & H2). apply sp_rest in H1. apply sepl_empty in H2. now subst.
Qed.
Lemma relational_after i r a : relational_expression i = Ok r a -> op_relational a = false -> solid r.
Proof.
  intros H O. destruct a as [a o]. apply map_inv in H. destruct H as ([a' o'] & H & E). injection E as -> ->.
  apply pair_inv in H. destruct H as (i1 & H1 & H2). apply opt_inv in H2. destruct o as [o|].
  - apply preceded_inv in H2. destruct H2 as (i2 & b & _ & H2). apply alt_inv in H2. destruct H2 as (p & I & H2).
    destruct I as [<-|[<-|[<-|[<-|[<-|[<-|[<-|[<-|[]]]]]]]]]; apply map_inv in H2; destruct H2 as (x & H2 & <-); cbn [op_relational] in O; try discriminate;
      apply preceded_inv in H2; destruct H2 as (i3 & c & _ & H2); exact (additive_after _ _ _ H2 O).
  - destruct H2 as [-> _]. exact (additive_after _ _ _ H1 O).
Qed.
Lemma expression_after i r e : expression i = Ok r e -> Print.op_expression e = false -> solid r.
Proof.
  intros H O. rewrite expression_eq in H. destruct e as [l]. apply map_inv in H. destruct H as (l' & H & E). injection E as ->.
  apply sepne_last in H; [|eapply (gd_shrinks false IAny true); mv|eapply gd_shrinks, mv_conditional_and]. destruct H as (k & c & H & L). unfold Print.op_expression in O. rewrite L in O. destruct c as [cl].
  apply map_inv in H. destruct H as (l' & H & E). injection E as ->.
  apply sepne_last in H; [|eapply (gd_shrinks false IAny true); mv|eapply gd_shrinks, mv_relational]. destruct H as (k2 & c & H & L2). cbn [op_and] in O. rewrite L2 in O.
  exact (relational_after _ _ _ H O).
Qed.
(** a name is given only to an expression that ends in an operator *)
Lemma group_name i r e v : group_condition i = Ok r (GcExpressionAsVarOpt (MkExpressionAsVarOpt e (Some v))) -> Print.op_expression e = true.
Proof.
  intros H. apply alt_inv in H. destruct H as (p & [<-|[<-|[<-|[<-|[]]]]] & H); apply map_inv in H; destruct H as (x & H & E); try discriminate.
  injection E as ->. apply delimited_inv in H. destruct H as (i1 & i2 & y & z & _ & H & _). apply delimited_inv in H. destruct H as (i3 & i4 & y' & z' & _ & H & _).
  apply map_inv in H. destruct H as ([e' o] & H & E). injection E as -> ->. apply pair_inv in H. destruct H as (i5 & H1 & H2). apply opt_inv in H2.
  apply preceded_inv in H2. destruct H2 as (i6 & b & H2 & _). apply delimited_inv in H2. destruct H2 as (i7 & i8 & u & u' & H2 & _).
  destruct (Print.op_expression e) eqn:O; [reflexivity|]. exfalso. pose proof (expression_after _ _ _ H1 O) as S. revert H2. apply fails_not_ok. now apply sp1_fails.
Qed.
