(** The verb [a]; words written together; rows of any width; DEFAULT; FROM and DESCRIBE without a blank. *)
From Verif Require Export LPrint2 LFlags3.
Notation length := List.length (only parsing).
Open Scope N_scope.
Open Scope list_scope.

(** ** The verb [a] *)
Lemma blank1_follow p b x : blank1 b -> name_follow p (b ++ x).
Proof. intros B. apply brk_name. now apply blank1_brk. Qed.
Lemma a_prefix c : c = 97 \/ c = 65 -> prefix_name [c].
Proof. intros [->| ->]; (apply (letter_kw_prefix "a"); [reflexivity|vm_compute; reflexivity]). Qed.
Lemma a_no_iri c b x : c = 97 \/ c = 65 -> blank1 b -> solid x -> not_first 58 x -> fails iri (c :: b ++ x).
Proof.
  intros C B S N. apply (iri_fails_word [c] b x); auto; [now apply a_prefix|now apply blank1_follow|apply B].
Qed.
Lemma verb_a c b x : c = 97 \/ c = 65 -> blank1 b -> solid x -> not_first 58 x -> verb (c :: b ++ x) = Ok (b ++ x) VerbA.
Proof.
  intros C B S N. apply alt_next.
  - apply map_fails. apply alt_fails_cons; [apply map_fails, var_fails; cbn; destruct C; subst; discriminate|].
    apply alt_fails_cons; [|apply alt_fails_nil]. apply map_fails. now apply a_no_iri.
  - apply alt_first. eapply map_ok; [|reflexivity]. apply (tnc_ok (s_ "a") [c]); [reflexivity|]. destruct C; subst; reflexivity.
Qed.
Lemma path_a b x : blank1 b -> solid x -> not_first 58 x -> path_primary (97 :: b ++ x) = Ok (b ++ x) PpA.
Proof.
  intros B S N. apply alt_next; [apply map_fails, a_no_iri; auto|]. apply alt_first. eapply map_ok; [|reflexivity]. reflexivity.
Qed.
Lemma path_a_inv i r : path_primary i = Ok r PpA -> i = 97 :: r.
Proof.
  intros H. apply alt_inv in H. destruct H as (p & [<-|[<-|[<-|[<-|[]]]]] & H); apply map_inv in H; destruct H as (y & H & E); try discriminate.
  unfold tag in H. destruct (strip_prefix (s_ "a") i) as [r'|] eqn:Q; [|discriminate]. injection H as -> _. apply strip_prefix_some in Q. exact Q.
Qed.
Lemma a_colon b x : blank b -> exists r n, verb (97 :: b ++ 58 :: x) = Ok r (VerbVarOrIri (VoiIri (IriPrefixedName n))) /\
  (match n with PnameLN p _ => p | PnameNS p => p end) = Some [97].
Proof.
  intros B.
  assert (X : exists r n, prefixed_name (97 :: b ++ 58 :: x) = Ok r n /\ (match n with PnameLN p _ => p | PnameNS p => p end) = Some [97]).
  { assert (P : R_pname_ns (Some [97]) ([97] ++ b ++ [58])).
    { exists [97], (b ++ [58]). split; [reflexivity|]. split; [split; [reflexivity|apply a_prefix; auto]|]. exists b, [58]. repeat split; auto. }
    replace (97 :: b ++ 58 :: x) with (([97] ++ b ++ [58]) ++ x) by (cbn; now rewrite <- app_assoc).
    destruct (sp_local_verdict x) as [(b' & l & r & -> & B' & L & U)|N].
    - exists r, (PnameLN (Some [97]) l). split; [|reflexivity]. now apply prefixed_ln_ok.
    - exists x, (PnameNS (Some [97])). split; [|reflexivity]. now apply prefixed_ns_ok. }
  destruct X as (r & n & E & Hn). exists r, n. split; [|exact Hn].
  apply alt_first. eapply map_ok; [|reflexivity]. apply alt_next; [apply map_fails, var_fails; discriminate|]. apply alt_first.
  eapply map_ok; [|reflexivity]. apply alt_next; [|apply alt_first; eapply map_ok; [exact E|reflexivity]]. apply map_fails, iri_ref_fails. discriminate.
Qed.
(** ** Words written together *)
Definition word_of (o : option bool) : string := match o with Some true => "true" | Some false => "false" | None => "undef" end.
Definition value_of (o : option bool) : DataBlockValue := match o with Some b => DbvBooleanLiteral b | None => DbvUnDef end.
Definition words_of (l : list (option bool)) : string := List.fold_right (fun o s => String.append (word_of o) s) EmptyString l.
Lemma s_append a b : s_ (String.append a b) = s_ a ++ s_ b.
Proof. unfold s_. induction a as [|c a IH]; [reflexivity|]. cbn. now rewrite IH. Qed.
Lemma words_text l : s_ (words_of l) = flat_map (fun o => s_ (word_of o)) l.
Proof. induction l as [|o l IH]; [reflexivity|]. cbn [words_of fold_right flat_map]. fold (words_of l). now rewrite s_append, IH. Qed.
Lemma words_letter o l : letter_word (words_of (o :: l)) = true.
Proof.
  assert (X : forall l, low_ascii (s_ (words_of l)) = true /\ forallb (fun c => (97 <=? c) && (c <=? 122)) (s_ (words_of l)) = true).
  { clear. induction l as [|o l [IH1 IH2]]; [split; reflexivity|]. cbn [words_of fold_right]. fold (words_of l). rewrite s_append. unfold low_ascii in *.
    rewrite !forallb_app, IH1, IH2. destruct o as [[|]|]; split; reflexivity. }
  destruct (X (o :: l)) as [X1 X2]. unfold letter_word, word_like. rewrite X1, X2. cbn [words_of fold_right]. rewrite s_append. destruct o as [[|]|]; reflexivity.
Qed.
Lemma words_read l r : manyW (fun v => W_value v >> gap) (first 125) (List.map value_of l) (flat_map (fun o => s_ (word_of o)) l) (125 :: r).
Proof.
  induction l as [|o l IH]; [split; [reflexivity|now exists r]|]. cbn [List.map flat_map manyW]. apply then_app; [|exact IH].
  assert (S : solid (flat_map (fun o => s_ (word_of o)) l ++ 125 :: r)).
  { destruct l as [|o' l]; [now apply char_solid|]. cbn [flat_map]. destruct o' as [[|]|]; now apply char_solid. }
  assert (N : no_iri (s_ (word_of o) ++ flat_map (fun o => s_ (word_of o)) l ++ 125 :: r)).
  { apply no_iri_fails. rewrite app_assoc. change (s_ (word_of o) ++ flat_map (fun o => s_ (word_of o)) l) with (flat_map (fun o => s_ (word_of o)) (o :: l)).
    rewrite <- words_text. apply (iri_fails_word _ [] (125 :: r)); [|now apply brk_name|constructor|now apply char_solid|discriminate].
    apply (letter_kw_prefix (words_of (o :: l))); [apply words_letter|]. hnf. rewrite words_text. clear. induction (o :: l) as [|a m IH]; [reflexivity|]. cbn [flat_map]. rewrite map_app, IH. now destruct a as [[|]|]. }
  rewrite <- (app_nil_r (s_ (word_of o))). apply then_app; [|now apply gap_no].
  destruct o as [b|]; (split; [|exact N]); [destruct b|]; reflexivity.
Qed.
Lemma words_block l : datablock (s_ "?x{" ++ flat_map (fun o => s_ (word_of o)) l ++ s_ "}") =
  Ok [] (DbOneVar (MkInlineDataOneVar (QMark (s_ "x")) (List.map value_of l))).
Proof.
  rewrite <- (app_nil_r (s_ "?x{" ++ _)). apply rd_datablock. cbn [W_datablock].
  change (s_ "?x{" ++ ?t) with (s_ "?x" ++ [] ++ s_ "{" ++ [] ++ t). apply then_app; [apply (W_var_text (QMark (s_ "x"))); [split; [discriminate|repeat constructor]|reflexivity]|].
  apply then_app; [now apply gap_no, char_solid|]. apply then_app; [reflexivity|]. apply then_app.
  - apply gap_no. destruct l as [|[[|]|] l]; now apply char_solid.
  - apply then_app; [|reflexivity]. apply words_read.
Qed.
(** ** Rows of any width *)
Lemma any_width vs rows : Forall wf_var vs -> Forall wf_values rows -> exists t, datablock t = Ok [] (DbFull (MkInlineDataFull vs rows)).
Proof.
  intros H1 H2. exists (pr_block s_ one_space (DbFull (MkInlineDataFull vs rows)) ++ []). apply rd_datablock. apply W_block_text; [|now split].
  intros k Hk. exact Hk.
Qed.
Lemma any_widths n m : exists t vs row, length vs = n /\ length row = m /\ datablock t = Ok [] (DbFull (MkInlineDataFull vs [row])).
Proof.
  destruct (any_width (repeat (QMark (s_ "x")) n) [repeat DbvUnDef m]) as [t H].
  - clear. induction n; cbn [repeat]; constructor; auto. cbn. split; [discriminate|repeat constructor].
  - constructor; [|constructor]. clear. induction m as [|m IH]; [exact I|]. split; [exact I|]. split; [now destruct m|exact IH].
  - exists t, (repeat (QMark (s_ "x")) n), (repeat DbvUnDef m). split; [apply repeat_length|]. split; [apply repeat_length|exact H].
Qed.
(** ** DEFAULT *)
Lemma default_only d x : kw "default" d -> graph_or_default (d ++ x) = Ok x GodDefault /\ graph_ref_all (d ++ x) = Ok x GraDefault.
Proof. intros W. split; apply alt_first; (eapply map_ok; [now apply (tnc_ok (s_ "default"))|reflexivity]). Qed.
Lemma graph_iri i t r : W_iri i t r -> ~ begins "default" (t ++ r) -> no_word1 "graph" (t ++ r) -> graph_or_default (t ++ r) = Ok r (GodGraph i).
Proof. intros H1 H2 H3. apply (rd_graph_or_default (GodGraph i)). right. auto. Qed.
(** ** FROM and DESCRIBE *)
Lemma dataset_ne d t r : W_dataset d t r -> r <> t ++ r.
Proof.
  intros (w & x & -> & W & _) E. apply (f_equal (@List.length char)) in E. rewrite !app_length in E.
  assert (L : length w = 4%nat) by (hnf in W; unfold kw, kwd in W; rewrite <- (map_length lower w), W; reflexivity). lia.
Qed.
Lemma dataset_stuck d t r : W_dataset d t r -> solid r -> fails (separated_list sp data_set_clause) (t ++ r).
Proof. intros H S. eapply sepl_stuck; [exact (rd_dataset d t r H)|now apply (dataset_ne d)|exact S]. Qed.
Lemma ask_glued w b d t x r q : kw "ask" w -> blank1 b -> W_dataset d t (123 :: x) -> ask_query (w ++ b ++ t ++ 123 :: x) <> Ok r q.
Proof.
  intros W B H E. apply map_inv in E. destruct E as ([y [ds z]] & E & _). apply pair_inv in E. destruct E as (i1 & E1 & E2).
  apply pair_inv in E2. destruct E2 as (i2 & E2 & _). apply terminated_inv in E2. destruct E2 as (i3 & c & E2 & _).
  assert (S : solid (t ++ 123 :: x)). { destruct H as (u & v & -> & U & _). apply (begins_solid "from"); [reflexivity|]. exists u, (v ++ 123 :: x). split; [now rewrite <- app_assoc|exact U]. }
  assert (T : terminated (tag_no_case (s_ "ask")) sp1 (w ++ b ++ t ++ 123 :: x) = Ok (t ++ 123 :: x) w).
  { eapply terminated_ok; [now apply (tnc_ok (s_ "ask"))|now apply sp1_ok]. }
  rewrite T in E1. injection E1 as <- <-. revert E2. apply fails_not_ok. apply (dataset_stuck d); [exact H|now apply char_solid].
Qed.
Lemma describe_inv w b x r q : kw "describe" w -> blank1 b -> solid x -> describe_query (w ++ b ++ x) = Ok r q ->
  exists r1 v, var_or_iris_or_all x = Ok r1 v /\ ~ solid r1.
Proof.
  intros W B S E. apply map_inv in E. destruct E as ([y [v z]] & E & _). apply pair_inv in E. destruct E as (i1 & E1 & E2).
  rewrite (tnc_ok (s_ "describe")) in E1 by (reflexivity || exact W). injection E1 as <- <-.
  apply pair_inv in E2. destruct E2 as (i2 & E2 & _). apply delimited_inv in E2. destruct E2 as (i3 & i4 & c & e & E1 & E2 & E3).
  rewrite (sp1_ok b x B S) in E1. injection E1 as <- <-. exists i4, v. split; [exact E2|]. intros S4. revert E3. apply fails_not_ok. now apply sp1_fails.
Qed.
Lemma describe_end w b v t r q : kw "describe" w -> blank1 b -> W_var_or_iri v t [] -> solid t -> describe_query (w ++ b ++ t) <> Ok r q.
Proof.
  intros W B H S E. pose proof (rd_var_or_iri v t [] H) as P. rewrite app_nil_r in P.
  assert (N : [] <> t) by exact (gd_moves _ _ _ _ _ _ gd_var_or_iri P).
  apply describe_inv in E; auto. destruct E as (r1 & v1 & E & _). apply alt_inv in E. destruct E as (p & [<-|[<-|[]]] & E); apply map_inv in E; destruct E as (y & E & _).
  - revert E. apply fails_not_ok. eapply sep_stuck; [exact P|exact N|exact I].
  - apply chr_inv in E. destruct E as [-> _]. unfold var_or_iri in P. vm_compute in P. discriminate.
Qed.
Lemma describe_end_all w b r q : kw "describe" w -> blank1 b -> describe_query (w ++ b ++ s_ "*") <> Ok r q.
Proof.
  intros W B E. apply describe_inv in E; [|assumption..|now apply char_solid]. destruct E as (r1 & v & E & N). vm_compute in E. injection E as <- _. apply N. exact I.
Qed.
Lemma describe_blank v t w b : kw "describe" w -> blank1 b -> solid t -> W_targets v t (s_ " ") ->
  describe_query (w ++ b ++ t ++ s_ " ") = Ok [] (MkDescribeQuery [] v None (MkSolutionModifier None None None None)).
Proof.
  intros W B S H. pose proof (rd_targets v t (s_ " ") H) as P.
  assert (S' : solid (t ++ s_ " ")).
  { destruct t as [|c t]; [|].
    - exfalso. cbn [app] in P. revert P. apply fails_not_ok. vm_compute. eauto.
    - destruct S as [S1 S2]. split; [exact S1|]. intros E. specialize (S2 E). apply Forall_app. split; [exact S2|]. repeat constructor; discriminate. }
  apply (map_ok _ _ _ _ (w, (v, ([], (None, MkSolutionModifier None None None None))))); [|reflexivity].
  eapply pair_ok; [now apply (tnc_ok (s_ "describe"))|]. eapply pair_ok; [eapply delimited_ok; [now apply sp1_ok|exact P|apply (sp1_ok (s_ " ") []); [exact one_space_ok|exact I]]|].
  vm_compute. reflexivity.
Qed.
