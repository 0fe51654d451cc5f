(** Members of lists: hard failures that end the parse. *)
From Verif Require Import LMods.
From Verif Require Export LMore2.
Notation length := List.length (only parsing).
Open Scope N_scope.
Open Scope list_scope.

(** a failure that is not recovered from *)
Definition hardly {A} (p : parser A) (i : str) : Prop := exists x k, p i = Err (Failure x k).
Lemma hardly_not_ok {A} (p : parser A) i r a : hardly p i -> p i <> Ok r a. Proof. intros (x & k & H). congruence. Qed.
Lemma opt_hardly {A} (p : parser A) i : hardly p i -> hardly (opt p) i.
Proof. intros (x & k & H). unfold hardly, opt. rewrite H. eauto. Qed.
Lemma pair_hardly2 {A B} (p : parser A) (q : parser B) i r a : p i = Ok r a -> hardly q r -> hardly (pair p q) i.
Proof. intros H (x & k & E). unfold hardly, pair. rewrite H, E. eauto. Qed.
Lemma preceded_hardly2 {A B} (p : parser A) (q : parser B) i r a : p i = Ok r a -> hardly q r -> hardly (preceded p q) i.
Proof. intros H E. apply map_hard. exact (pair_hardly2 p q i r a H E). Qed.
Lemma terminated_hardly1 {A B} (p : parser A) (q : parser B) i : hardly p i -> hardly (terminated p q) i.
Proof. intros H. apply map_hard. exact (pair_hard1 p q i H). Qed.
Lemma delimited_hardly2 {A B C} (p : parser A) (q : parser B) (s : parser C) i r a : p i = Ok r a -> hardly q r -> hardly (delimited p q s) i.
Proof. intros H E. unfold delimited. eapply preceded_hardly2; [exact H|]. now apply terminated_hardly1. Qed.
Lemma sepne_hardly {A B} (s : parser B) (p : parser A) i : hardly p i -> hardly (separated_nonempty_list s p) i.
Proof. intros (x & k & H). unfold hardly, separated_nonempty_list. rewrite H. eauto. Qed.
Lemma sepl_hardly {A B} (s : parser B) (p : parser A) i : hardly p i -> hardly (separated_list s p) i.
Proof. intros (x & k & H). unfold hardly, separated_list. rewrite H. eauto. Qed.
Lemma kw_sp_hardly {A} k (p : parser A) w b x : low_ascii (s_ k) = true -> kw k w -> blank b -> solid x -> hardly p x -> hardly (preceded_tag (s_ k) p) (w ++ b ++ x).
Proof.
  intros K W B S H. eapply preceded_hardly2; [|exact H]. eapply terminated_ok; [now apply tnc_ok|now apply sp_ok].
Qed.
Lemma kw_sp1_hardly {A} k (p : parser A) w b x : low_ascii (s_ k) = true -> kw k w -> blank1 b -> solid x -> hardly p x -> hardly (preceded_tag1 (s_ k) p) (w ++ b ++ x).
Proof.
  intros K W B S H. eapply preceded_hardly2; [|exact H]. eapply terminated_ok; [now apply tnc_ok|now apply sp1_ok].
Qed.

Lemma args_hardly i : other 41 i -> hardly arg_list (40 :: i) /\ hardly expression_list (40 :: i).
Proof. intros H. split; apply alt_hard, map_hard; now apply closing_hard. Qed.
Lemma op_words k w x :
  k = "in"%string \/ k = "not"%string -> kw k w ->
  hardly (alt [Nom.map (preceded_tag (s_ "in") expression_list) (@OpIN Expression GroupGraphPattern);
    Nom.map (preceded (terminated (tag_no_case_streaming (s_ "not")) (sp_enc1 (tag_no_case_streaming (s_ "in")))) expression_list) (@OpNIN Expression GroupGraphPattern)]) (w ++ x) ->
  hardly op_expression (w ++ x).
Proof.
  intros K W H. unfold op_expression, op_expression_of.
  assert (F : forall s c l, s_ s = c :: l -> low_ascii (s_ s) = true -> (97 <=? c) && (c <=? 122) = false ->
    forallb (fun x => negb (oneof [c] x)) (List.map N.of_nat (List.seq 65 26 ++ List.seq 97 26)) = true -> fails (tag_no_case (s_ s)) (w ++ x)).
  { intros s c l E L C A. apply (nf_symw c s l k E L C); [destruct K; subst; reflexivity|exact A|exact W]. }
  apply alt_hard_next; [apply map_fails, tag0_fails; eapply F; reflexivity|].
  apply alt_hard_next; [apply map_fails, tag0_fails; eapply F; reflexivity|].
  apply alt_hard_next; [apply map_fails, tag0_fails; eapply F; reflexivity|].
  apply alt_hard_next; [apply map_fails, tag0_fails; eapply F; reflexivity|].
  apply alt_hard_next; [apply map_fails, tag0_fails; eapply F; reflexivity|].
  apply alt_hard_next; [apply map_fails, tag0_fails; eapply F; reflexivity|]. exact H.
Qed.
(** the text of IN or NOT IN and an opening parenthesis that is not closed at once *)
Definition in_members : str -> Prop := fun i => exists w b x, kw "in" w /\ blank b /\ other 41 x /\ i = w ++ b ++ 40 :: x.
Definition not_in_members : str -> Prop := fun i => exists u c w b x, kw "not" u /\ blank1 c /\ kw "in" w /\ blank1 b /\ other 41 x /\
  i = u ++ c ++ w ++ b ++ 40 :: x.
Lemma in_hardly i : in_members i \/ not_in_members i -> hardly op_expression i.
Proof.
  intros [(w & b & x & W & B & O & ->)|(u & c & w & b & x & U & C & W & B & O & ->)].
  - apply (op_words "in"); auto. apply alt_hard, map_hard. apply kw_sp_hardly; auto; [now apply char_solid|]. now apply args_hardly.
  - apply (op_words "not"); auto. apply alt_hard_next.
    + apply map_fails, tag0_fails. now apply (nf_kw "in" "not").
    + apply alt_hard, map_hard. eapply (preceded_hardly2 _ _ _ (40 :: x)); [|now apply args_hardly].
      eapply terminated_ok; [now apply tncs_ok|]. assert (S : solid (w ++ b ++ 40 :: x)) by (eapply (begins_solid "in"); [reflexivity|now exists w, (b ++ 40 :: x)]).
      eapply delimited_ok; [now apply sp1_ok|now apply tncs_ok|]. apply sp1_ok; [exact B|now apply char_solid].
Qed.
Lemma members_hardly a t b i : W_additive W_expression W_ggp a t (b ++ i) -> blank b -> in_members i \/ not_in_members i -> hardly expression (t ++ b ++ i).
Proof.
  intros H B I. unfold hardly. rewrite expression_eq. apply map_hard, sepne_hardly, map_hard, sepne_hardly, map_hard.
  eapply pair_hardly2; [exact (rd_additive W_expression W_ggp rd_expression rd_ggp a _ _ H)|]. apply opt_hardly.
  apply (preceded_hardly2 _ _ _ i b); [|now apply in_hardly]. apply sp_ok; [exact B|].
  destruct I as [(w & b' & x & W & _ & _ & ->)|(u & c & w & b' & x & U & _ & _ & _ & _ & ->)].
  - eapply (begins_solid "in"); [reflexivity|now exists w, (b' ++ 40 :: x)].
  - eapply (begins_solid "not"); [reflexivity|now exists u, (c ++ w ++ b' ++ 40 :: x)].
Qed.
(** a function called with arguments *)
Lemma call_hardly j t b x : W_iri_expr j t (b ++ 40 :: x) -> blank b -> other 41 x -> hardly constraint (t ++ b ++ 40 :: x).
Proof.
  intros H B O. unfold constraint, constraint_of. apply alt_hard_next.
  - apply map_fails, delimited_fails1, chr_fails. destruct t as [|c t].
    + destruct H as [H _]. apply rd_iri in H. cbn [app] in H. exfalso. pose proof (good_elim _ _ _ _ gd_iri (b ++ 40 :: x)) as K. rewrite H in K. destruct K as [_ K]. cbn in K. lia.
    + cbn. intros ->. destruct H as [H _]. apply rd_iri in H. revert H. apply fails_not_ok. now apply iri_fails_first.
  - apply alt_hard_next; [apply map_fails; now apply (built_in_iri j)|]. apply alt_hard, map_hard, map_hard.
    eapply pair_hardly2; [apply rd_iri; exact (proj1 H)|]. eapply preceded_hardly2; [apply sp_ok; [exact B|now apply char_solid]|]. now apply args_hardly.
Qed.

Lemma filter_hardly w b x : kw "filter" w -> blank1 b -> solid x -> hardly constraint x -> hardly graph_pattern_not_triples (w ++ b ++ x).
Proof.
  intros W B S H. unfold graph_pattern_not_triples, graph_pattern_not_triples_of.
  assert (BG : begins "filter" (w ++ b ++ x)) by now exists w, (b ++ x).
  assert (F : forall k, differ (s_ "filter") (s_ k) = true -> low_ascii (s_ k) = true -> word_like k = true -> fails (tag_no_case (s_ k)) (w ++ b ++ x)).
  { intros k D L K. apply (nf_kw k "filter"); auto. }
  apply alt_hard_next; [apply map_fails, map_fails, sepne_fails, gg_first; apply (stops_oneof [123]); [now apply (begins_stops _ "filter")|now left]|].
  apply alt_hard_next; [apply map_fails, tag1_fails; now apply F|].
  apply alt_hard_next; [apply map_fails, tag1_fails; now apply F|].
  apply alt_hard_next; [apply map_fails, map_fails, pair_fails1, terminated_fails1; now apply F|].
  apply alt_hard_next; [apply map_fails, map_fails, pair_fails1, terminated_fails1; now apply F|].
  apply alt_hard, map_hard. now apply kw_sp1_hardly.
Qed.
Lemma filter_group b0 w b x r g : blank b0 -> kw "filter" w -> blank1 b -> solid x -> not_first 58 x -> hardly constraint x ->
  group_graph_pattern (123 :: b0 ++ w ++ b ++ x) <> Ok r g.
Proof.
  intros B0 W B S N H E. assert (BG : begins "filter" (w ++ b ++ x)) by now exists w, (b ++ x).
  assert (NS : ~ begins "select" (w ++ b ++ x)) by (intros X; revert BG X; apply begins_differ; reflexivity).
  apply group_text in E; [|assumption|now apply (begins_solid "filter")|exact NS].
  destruct E as (s & b1 & -> & E & B1). apply map_inv in E. destruct E as ([o l'] & E & _). apply pair_inv in E. destruct E as (i1 & E1 & E2).
  assert (NI : no_iri (w ++ b ++ x)).
  { apply no_iri_fails, iri_fails_word; auto; [now apply (letter_kw_prefix "filter")|apply brk_name; now apply blank1_brk|apply B]. }
  rewrite (opt_none (terminated triples_block sp)) in E1; [|apply terminated_fails1; now apply (no_block_word "filter")]. injection E1 as <- <-.
  revert E2. apply hardly_not_ok. apply sepl_hardly, map_hard. apply pair_hard1. now apply filter_hardly.
Qed.
Lemma bracketted_hardly b x : blank b -> solid x -> hardly expression x -> hardly constraint (40 :: b ++ x).
Proof.
  intros B S H. unfold constraint, constraint_of. apply alt_hard, map_hard. apply (delimited_hardly2 _ _ _ _ (b ++ x) 40); [apply chr_ok|].
  eapply delimited_hardly2; [now apply sp_ok|exact H].
Qed.
Lemma group_in b0 w b1 b2 a t b3 i r g : blank b0 -> kw "filter" w -> blank1 b1 -> blank b2 -> W_additive W_expression W_ggp a t (b3 ++ i) ->
  solid (t ++ b3 ++ i) -> blank b3 -> in_members i \/ not_in_members i ->
  group_graph_pattern (123 :: b0 ++ w ++ b1 ++ 40 :: b2 ++ t ++ b3 ++ i) <> Ok r g.
Proof.
  intros B0 W B1 B2 H S B3 M. apply filter_group; auto; [now apply char_solid|discriminate|]. apply bracketted_hardly; auto. now apply (members_hardly a).
Qed.
Lemma group_call b0 w b1 j t b x r g : blank b0 -> kw "filter" w -> blank1 b1 -> W_iri_expr j t (b ++ 40 :: x) ->
  solid (t ++ b ++ 40 :: x) -> not_first 58 (t ++ b ++ 40 :: x) ->
  blank b -> other 41 x -> group_graph_pattern (123 :: b0 ++ w ++ b1 ++ t ++ b ++ 40 :: x) <> Ok r g.
Proof. intros B0 W B1 H S N B O. apply filter_group; auto. now apply (call_hardly j). Qed.
(** no accepted call has members *)
Ltac rule_out H := apply alt_inv in H; let q := fresh in let Hq := fresh in destruct H as (q & Hq & H); cbn [In] in Hq;
  repeat (destruct Hq as [<-|Hq]; [try (apply map_inv in H; let y := fresh in destruct H as (y & _ & H); first [discriminate H|destruct y; discriminate H|destruct y as [? [? ?]]; discriminate H])|]); try destruct Hq.
Lemma coalesce_nil i r l : built_in_call i = Ok r (BiCoalesce l) -> l = ElNil.
Proof.
  intros H. unfold built_in_call, built_in_call_of, call0, call1, call2 in H. rule_out H.
  - unfold built_in_call_1_of, call0, call1, call2 in H. rule_out H.
  - unfold built_in_call_2_of, call0, call1, call2 in H. rule_out H.
  - apply map_inv in H. destruct H as (y & H & E). injection E as ->. apply preceded_inv in H. destruct H as (i1 & z & _ & H). now apply expression_list_nil in H.
Qed.
Lemma concat_members i r l s : built_in_call i = Ok r (BiConcat l s) -> l = ElNil.
Proof.
  intros H. unfold built_in_call, built_in_call_of, call0, call1, call2 in H. rule_out H.
  - unfold built_in_call_1_of, call0, call1, call2 in H. rule_out H. apply map_inv in H. destruct H as ([l' s'] & H & E). injection E as -> ->.
    apply preceded_inv in H. destruct H as (i1 & z & _ & H). apply pair_inv in H. destruct H as (i2 & H & _). now apply expression_list_nil in H.
  - unfold built_in_call_2_of, call0, call1, call2 in H. rule_out H.
Qed.
Lemma op_nil i r o l : op_expression i = Ok r o -> o = OpIN l \/ o = OpNIN l -> l = ElNil.
Proof.
  intros H O. unfold op_expression, op_expression_of in H. apply alt_inv in H. destruct H as (q & Hq & H). cbn [In] in Hq.
  repeat (destruct Hq as [<-|Hq]; [apply map_inv in H; destruct H as (y & H & <-); try (destruct O; discriminate)|]); [..|destruct Hq].
  - destruct O as [O|O]; [injection O as ->|discriminate]. apply preceded_inv in H. destruct H as (i1 & z & _ & H). now apply expression_list_nil in H.
  - destruct O as [O|O]; [discriminate|injection O as ->]. apply preceded_inv in H. destruct H as (i1 & z & _ & H). now apply expression_list_nil in H.
Qed.
