(** Several projected variables, a brace directly after a pattern, requests with WITH. *)
From Verif Require Import LMods LC8.
From Verif Require Export LMore3.
Notation length := List.length (only parsing).
Open Scope N_scope.
Open Scope list_scope.

(** ** Projection *)
Lemma no_data_set c x : In c [63; 36; 40] -> separated_list sp data_set_clause (c :: x) = Ok (c :: x) [].
Proof.
  intros C. assert (F : fails data_set_clause (c :: x)).
  { apply tag1_fails, kw_fails; [reflexivity|reflexivity|]. apply LPrint5.nb_char; [reflexivity|]. cbn in C. destruct C as [<-|[<-|[<-|[]]]]; lia. }
  destruct F as (p & k & F). unfold separated_list. now rewrite F.
Qed.
Lemma no_where c x : In c [63; 36; 40] -> fails where_clause (c :: x).
Proof.
  intros C. eapply preceded_fails2.
  - apply opt_none, terminated_fails1, kw_fails; [reflexivity|reflexivity|]. apply LPrint5.nb_char; [reflexivity|]. cbn in C. destruct C as [<-|[<-|[<-|[]]]]; lia.
  - apply gg_first. cbn in C |- *. destruct C as [<-|[<-|[<-|[]]]]; discriminate.
Qed.
Lemma list_solid c x : In c [63; 36; 40] -> solid (c :: x).
Proof. intros C. apply char_solid. cbn in C. destruct C as [<-|[<-|[<-|[]]]]; reflexivity. Qed.
Lemma select_more s t b c x : W_select_clause W_expression s t (b ++ c :: x) -> blank1 b -> In c [63; 36; 40] ->
  fails select_query (t ++ b ++ c :: x).
Proof.
  intros H B C. apply map_fails. eapply pair_fails2.
  - eapply terminated_ok; [exact (rd_select_clause_ s _ _ H)|]. apply sp1_ok; [exact B|now apply list_solid].
  - eapply pair_fails2; [now apply no_data_set|]. apply pair_fails1. eapply delimited_fails2; [apply sp_nil; now apply list_solid|now apply no_where].
Qed.
Lemma sub_select_more s t b c x : W_select_clause W_expression s t (b ++ c :: x) -> blank1 b -> In c [63; 36; 40] ->
  fails sub_select (t ++ b ++ c :: x).
Proof.
  intros H B C. apply map_fails. eapply pair_fails2; [exact (rd_select_clause_ s _ _ H)|]. apply pair_fails1.
  eapply delimited_fails2; [apply sp_ok; [apply B|now apply list_solid]|now apply no_where].
Qed.
Lemma select_words s t r : W_select_clause W_expression s t r -> exists w b y, t ++ r = w ++ b ++ y /\ kw "select" w /\ blank1 b /\ solid y /\ not_first 58 y.
Proof.
  destruct s as [m v]. cbn [W_select_clause]. intros (w & x & -> & Hw & y & z & -> & H & b & u & -> & [B S] & V). rewrite <- !app_assoc.
  destruct m as [m|]; cbn [optW] in H.
  - destruct H as (b' & m' & -> & [B' S'] & M). rewrite <- !app_assoc in *. exists w, b', (m' ++ b ++ u ++ r). repeat (split; [assumption||reflexivity|]).
    destruct m; cbn in M; (destruct m' as [|c m']; [discriminate M|]); cbn; intros ->; discriminate M.
  - destruct H as [-> _]. exists w, b, (u ++ r). repeat (split; [assumption||reflexivity|]). destruct v as [l|]; cbn [W_select_vars] in V.
    + destruct V as [N V]. destruct l as [|a l]; [congruence|]. destruct V as (t1 & t2 & -> & V & _). destruct a as [a|a]; cbn in V.
      * destruct V as [V _]. apply R_var_text in V. destruct V as (n & -> & _). destruct a; discriminate.
      * destruct a. destruct V as (p & q & -> & V & _). unfold sym, tok, lit in V; subst p; cbn; discriminate.
    + unfold sym, tok, lit in V. subst u. cbn. discriminate.
Qed.
Lemma stmt_select_more p t0 b0 s t b c x r q : W_prologue p t0 (b0 ++ t ++ b ++ c :: x) -> blank b0 -> W_select_clause W_expression s t (b ++ c :: x) ->
  blank1 b -> In c [63; 36; 40] -> sparql_query_stmt (t0 ++ b0 ++ t ++ b ++ c :: x) <> Ok r q.
Proof.
  intros P B0 H B C E. destruct (select_words s t _ H) as (w & b' & y & T & W & _).
  assert (BG : begins "select" (t ++ b ++ c :: x)) by (rewrite T; now exists w, (b' ++ y)).
  apply map_inv in E. destruct E as ([p' [z v]] & E & _). apply pair_inv in E. destruct E as (j & E1 & E2). apply pair_inv in E2. destruct E2 as (k & E2 & _).
  rewrite (terminated_ok _ _ _ _ _ _ _ (rd_prologue p t0 _ P) (sp_ok b0 _ B0 (begins_solid "select" _ eq_refl BG))) in E1. injection E1 as <- _.
  pose proof (query_form _ _ _ E2) as F. destruct z; cbn [form_word] in F; try (revert BG F; apply begins_differ; reflexivity).
  apply alt_inv in E2. destruct E2 as (f & I & E2). cbn [In] in I. repeat (destruct I as [<-|I]; [apply map_inv in E2; destruct E2 as (y' & E2 & X); try discriminate X|]); [|destruct I].
  revert E2. apply fails_not_ok. now apply (select_more s).
Qed.
Lemma group_select_more b0 s t b c x r g : blank b0 -> W_select_clause W_expression s t (b ++ c :: x) -> blank1 b -> In c [63; 36; 40] ->
  group_graph_pattern (123 :: b0 ++ t ++ b ++ c :: x) <> Ok r g.
Proof.
  intros B0 W B C H. pose proof (sub_select_more s t b c x W B C) as F. destruct (select_words s t _ W) as (w & b' & y & T & Hw & B' & Sy & N).
  rewrite T in *. clear T W. assert (BG : begins "select" (w ++ b' ++ y)) by now exists w, (b' ++ y).
  assert (SL : solid (w ++ b' ++ y)) by now apply (begins_solid "select").
  apply group_inv in H. destruct H as (b2 & j & k0 & E & B2 & S2 & H & b1 & -> & B1). injection E as E.
  assert (J : j = w ++ b' ++ y).
  { pose proof (sp_ok _ _ B0 SL) as X1. pose proof (sp_ok _ _ B2 S2) as X2. rewrite E in X1. congruence. }
  subst j. clear E B2. apply alt_inv in H. destruct H as (p & [<-|[<-|[]]] & H); apply map_inv in H; destruct H as (z & H & <-); [revert H; now apply fails_not_ok|].
  apply map_inv in H. destruct H as ([o l] & H & _). apply pair_inv in H. destruct H as (i1 & H1 & H2). apply opt_inv in H1.
  assert (NI : no_iri (w ++ b' ++ y)).
  { apply no_iri_fails, iri_fails_word; auto; [now apply (letter_kw_prefix "select")|apply brk_name; now apply blank1_brk|apply B']. }
  destruct o as [o|].
  - apply terminated_inv in H1. destruct H1 as (i2 & d & H1 & _). revert H1. apply fails_not_ok. now apply (no_block_word "select").
  - destruct H1 as [-> _]. apply sepl_inv in H2. destruct H2 as [[-> E]|(i2 & a & H2)].
    + rewrite <- E in SL, BG. destruct b1 as [|d b1].
      * apply (begins_stops (N.eqb 125) "select") in BG; [discriminate|reflexivity|reflexivity].
      * apply (blank1_no_begins "select" (d :: b1) (125 :: r)); [reflexivity|split; [exact B1|discriminate]|exact BG].
    + apply map_inv in H2. destruct H2 as ([p q] & H2 & _). apply pair_inv in H2. destruct H2 as (i3 & H2 & _). apply pattern_kind in H2. unfold announces in H2.
      destruct p; cbn [pattern_word] in H2; try (apply says_begins in H2; revert BG H2; apply begins_differ; reflexivity).
      destruct H2 as (u & E). rewrite E in BG. apply (begins_stops (N.eqb 123) "select") in BG; [discriminate|reflexivity|reflexivity].
Qed.

(** ** A list of pieces separated by blanks, then a character that is not blank *)
Lemma sep_stuck {A} (p : parser A) (W : A -> lang) stop y : (forall a, rd p a (W a)) -> shrinks p -> solid y -> y <> [] -> forall l t,
  tailW W gap1 stop l t y -> forall r l', ~ sep_ok sp p (t ++ y) r l'.
Proof.
  intros R Sp S Y. induction l as [|a l IH]; intros t H r l' X.
  - destruct H as [-> _]. inversion X as [i F|i i1 b E N F|i i1 i2 r' b a l0 E N E2 M]; subst.
    + destruct F as (q & k & F). cbn [app] in F. now rewrite (sp_nil y S) in F.
    + cbn [app] in *. rewrite (sp_nil y S) in E. congruence.
    + cbn [app] in *. rewrite (sp_nil y S) in E. congruence.
  - destruct H as (b & u & -> & [B Sb] & t1 & t2 & -> & Ha & H). rewrite <- !app_assoc in *. 
    pose proof (sp_ok b _ (proj1 B) Sb) as E. pose proof (R a t1 _ Ha) as Ea.
    inversion X as [i F|i i1 b' E1 N F|i i1 i2 r' b' a' l0 E1 N E2 M]; subst.
    + destruct F as (q & k & F). congruence.
    + rewrite E in E1. injection E1 as <- <-. destruct F as (q & k & F). congruence.
    + rewrite E in E1. injection E1 as <- <-. rewrite Ea in E2. injection E2 as <- <-. revert M. now apply IH.
Qed.
Lemma list_stuck {A} (p : parser A) (W : A -> lang) stop y l t r l' : (forall a, rd p a (W a)) -> shrinks p -> solid y -> y <> [] ->
  sep1W W gap1 stop l t y -> separated_list sp p (t ++ y) <> Ok r l'.
Proof.
  intros R Sp S Y H E. destruct l as [|a l]; [destruct H|]. destruct H as (t1 & t2 & -> & Ha & H). rewrite <- app_assoc in E.
  destruct (sepl_step _ _ _ _ _ _ _ shrinks_sp Sp E (R a t1 _ Ha)) as (l2 & X & _). revert X. now apply (sep_stuck p W stop y R Sp S Y l).
Qed.
Lemma patterns_stuck y l t r l' : solid y -> y <> [] -> sep1W (W_pattern_and_triples W_expression W_ggp) gap1 (fun r => r = y) l t y ->
  separated_list sp (ggp_and_triples_of expression group_graph_pattern) (t ++ y) <> Ok r l'.
Proof.
  intros S Y H. refine (list_stuck _ _ _ y l t r l' _ shrinks_pt S Y H). exact (rd_pattern_and_triples W_expression W_ggp rd_expression rd_ggp).
Qed.
(** triples and patterns of a group, the last pattern directly before the closing brace *)
Lemma group_stuck b0 o l t y r g : blank b0 ->
  (optW (fun t => W_triples_block t >> gap) no_block o >> sep1W (W_pattern_and_triples W_expression W_ggp) gap1 (fun r => r = 125 :: y) l) t (125 :: y) ->
  solid (t ++ 125 :: y) -> ~ begins "select" (t ++ 125 :: y) -> group_graph_pattern (123 :: b0 ++ t ++ 125 :: y) <> Ok r g.
Proof.
  intros B0 (t1 & t2 & -> & Ho & H) S Ns E. rewrite <- app_assoc in *. apply group_text in E; [|assumption..]. destruct E as (s & b1 & -> & E & B1).
  apply map_inv in E. destruct E as ([o' l'] & E & _). apply pair_inv in E. destruct E as (i1 & E1 & E2).
  assert (X : opt (terminated triples_block sp) (t1 ++ t2 ++ 125 :: y) = Ok (t2 ++ 125 :: y) o).
  { revert Ho. apply rd_opt; [intros d; apply rd_terminated; [apply rd_triples_block|apply rdx_sp]|]. intros z Z. now apply terminated_fails1, no_block_fails. }
  rewrite X in E1. injection E1 as <- <-. revert E2. apply (patterns_stuck (125 :: y) l); [now apply char_solid|discriminate|exact H].
Qed.

(** ** Requests with WITH *)
Lemma with_unread i : begins "with" i -> (forall r u, update_stmt i <> Ok r u) /\ update i = Ok i (MkUpdate (MkPrologue []) None None).
Proof.
  intros B. assert (NS : no_stmt i).
  { intros k I K. cbn in I. repeat (destruct I as [<-|I]; [revert B K; apply begins_differ; reflexivity|]). destruct I. }
  split.
  - intros r u E. revert E. apply fails_not_ok. now apply no_stmt_fails.
  - apply update_empty.
    + exists [], i. repeat split; [constructor|now apply (begins_solid "with")|exact NS].
    + split; intros K; revert B K; apply begins_differ; reflexivity.
Qed.
