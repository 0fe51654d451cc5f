(** Errors that are not recovered from, in whole queries, for every text of a kind. *)
From Verif Require Import LMods.
From Verif Require Export LMore3 LCost2.
Notation length := List.length (only parsing).
Open Scope N_scope.
Open Scope list_scope.

(** ** Errors other than Error pass through *)
Definition final (e : err) : Prop := e = Panic \/ e = Incomplete.
Definition raises {A} (e : err) (p : parser A) (i : str) : Prop := p i = Err e /\ final e.
Lemma map_raises {A B} e (p : parser A) (f : A -> B) i : raises e p i -> raises e (Nom.map p f) i.
Proof. intros [H F]. split; [|exact F]. unfold Nom.map. now rewrite H. Qed.
Lemma pair_raises1 {A B} e (p : parser A) (q : parser B) i : raises e p i -> raises e (pair p q) i.
Proof. intros [H F]. split; [|exact F]. unfold pair. now rewrite H. Qed.
Lemma pair_raises2 {A B} e (p : parser A) (q : parser B) i r a : p i = Ok r a -> raises e q r -> raises e (pair p q) i.
Proof. intros H [E F]. split; [|exact F]. unfold pair. now rewrite H, E. Qed.
Lemma preceded_raises1 {A B} e (p : parser A) (q : parser B) i : raises e p i -> raises e (preceded p q) i.
Proof. intros H. apply map_raises. exact (pair_raises1 e p q i H). Qed.
Lemma preceded_raises2 {A B} e (p : parser A) (q : parser B) i r a : p i = Ok r a -> raises e q r -> raises e (preceded p q) i.
Proof. intros H E. apply map_raises. exact (pair_raises2 e p q i r a H E). Qed.
Lemma terminated_raises1 {A B} e (p : parser A) (q : parser B) i : raises e p i -> raises e (terminated p q) i.
Proof. intros H. apply map_raises. exact (pair_raises1 e p q i H). Qed.
Lemma delimited_raises2 {A B C} e (p : parser A) (q : parser B) (s : parser C) i r a : p i = Ok r a -> raises e q r -> raises e (delimited p q s) i.
Proof. intros H E. unfold delimited. eapply preceded_raises2; [exact H|]. now apply terminated_raises1. Qed.
Lemma opt_raises {A} e (p : parser A) i : raises e p i -> raises e (opt p) i.
Proof. intros [H F]. split; [|exact F]. unfold opt. rewrite H. now destruct F; subst e. Qed.
Lemma alt_raises {A} e (p : parser A) ps i : raises e p i -> raises e (alt (p :: ps)) i.
Proof. intros [H F]. split; [|exact F]. destruct ps; cbn [alt]; rewrite H; now destruct F; subst e. Qed.
Lemma alt_raises_next {A} e (p q : parser A) ps i : fails p i -> raises e (alt (q :: ps)) i -> raises e (alt (p :: q :: ps)) i.
Proof. intros (x & k & H) [E F]. split; [|exact F]. rewrite alt_cons by discriminate. now rewrite H. Qed.
Lemma sepne_raises {A B} e (s : parser B) (p : parser A) i : raises e p i -> raises e (separated_nonempty_list s p) i.
Proof. intros [H F]. split; [|exact F]. unfold separated_nonempty_list. now rewrite H. Qed.
Lemma many1_raises {A} e (p : parser A) i : raises e p i -> raises e (many1 p) i.
Proof. intros [H F]. split; [|exact F]. unfold many1. rewrite H. now destruct F; subst e. Qed.

(** ** Paths *)
(** what may not follow a path and a blank: the end of the text, and a character that is not ASCII *)
Definition bad_end (e : err) (x : str) : Prop := (e = Incomplete /\ x = []) \/ (e = Panic /\ exists c y, x = c :: y /\ 128 <= c).
Lemma bad_solid e x : bad_end e x -> solid x.
Proof.
  intros [[_ ->]|(_ & c & y & -> & H)]; [exact I|]. apply char_solid.
  destruct (existsb (N.eqb c) [32; 9; 10; 13; 35]) eqn:E; [|reflexivity]. apply existsb_exists in E. destruct E as (d & I & D).
  apply N.eqb_eq in D. subst d. cbn in I. repeat (destruct I as [<-|I]; [lia|]). destruct I.
Qed.
Lemma bad_final e x : bad_end e x -> final e.
Proof. intros [[-> _]|[-> _]]; [now right|now left]. Qed.
Lemma path_mod_bad e x : bad_end e x -> raises e path_mod x.
Proof.
  intros H. split; [|exact (bad_final e x H)]. destruct H as [[-> ->]|(-> & c & y & -> & H)]; [reflexivity|].
  unfold path_mod. cbn [split_at].
  assert (W : Nat.leb (utf8_len c) 1 = false).
  { unfold utf8_len. destruct (c <? 128) eqn:E; [apply N.ltb_lt in E; lia|]. now repeat (destruct (_ <? _)). }
  now rewrite W.
Qed.
Lemma path_bad e i t b x : W_iri i t (b ++ x) -> blank1 b -> bad_end e x -> raises e path_alternative (t ++ b ++ x).
Proof.
  intros H B E. unfold raises. rewrite path_alternative_eq. apply map_raises, sepne_raises, map_raises, sepne_raises, alt_raises, map_raises, map_raises.
  eapply pair_raises2; [apply alt_first; eapply map_ok; [exact (rd_iri i t _ H)|reflexivity]|]. apply opt_raises.
  eapply preceded_raises2; [apply (sp1_ok b x B), (bad_solid e x E)|]. now apply path_mod_bad.
Qed.
Lemma block_bad e v tv b1 i t b2 x : W_var v tv (b1 ++ t ++ b2 ++ x) -> blank1 b1 -> solid (t ++ b2 ++ x) ->
  W_iri i t (b2 ++ x) -> blank1 b2 -> bad_end e x -> raises e triples_block (tv ++ b1 ++ t ++ b2 ++ x).
Proof.
  intros V B1 S H B2 E. apply map_raises, sepne_raises, alt_raises, map_raises.
  eapply pair_raises2; [apply alt_first; eapply map_ok; [exact (rd_var v tv _ V)|reflexivity]|].
  eapply preceded_raises2; [apply (sp1_ok b1); [exact B1|exact S]|]. apply map_raises, pair_raises1, terminated_raises1, alt_raises, map_raises.
  now apply (path_bad e i).
Qed.
Lemma group_bad e b v tv b1 i t b2 x : blank b -> W_var v tv (b1 ++ t ++ b2 ++ x) -> blank1 b1 -> solid (t ++ b2 ++ x) ->
  W_iri i t (b2 ++ x) -> blank1 b2 -> bad_end e x -> raises e group_graph_pattern (123 :: b ++ tv ++ b1 ++ t ++ b2 ++ x).
Proof.
  intros B V B1 S H B2 E. pose proof (block_bad e v tv b1 i t b2 x V B1 S H B2 E) as R. destruct V as [V _]. apply R_var_text in V. destruct V as (b' & -> & _).
  cbn [app] in *. set (y := (b' ++ vname v) ++ b1 ++ t ++ b2 ++ x) in *.
  assert (C : sigil v = 63 \/ sigil v = 36) by (destruct v; auto).
  assert (SY : solid (sigil v :: y)) by (destruct C as [-> | ->]; now apply char_solid).
  unfold raises. rewrite group_graph_pattern_eq. eapply delimited_raises2; [apply chr_ok|]. eapply delimited_raises2; [now apply sp_ok|].
  apply alt_raises_next.
  - apply map_fails, map_fails, pair_fails1, map_fails, pair_fails1. destruct C as [-> | ->]; eexists _, _; reflexivity.
  - apply alt_raises, map_raises, map_raises, pair_raises1, opt_raises, terminated_raises1. exact R.
Qed.
Lemma ask_raises e b : raises e group_graph_pattern (123 :: b) -> raises e sparql_query_stmt (s_ "ASK " ++ 123 :: b).
Proof.
  intros R. unfold sparql_query_stmt. apply map_raises. eapply pair_raises2; [apply no_prologue|]. apply pair_raises1. unfold sparql_query.
  apply alt_raises_next; [apply map_fails, map_fails, pair_fails1, terminated_fails1, map_fails, pair_fails1; eexists _, _; reflexivity|].
  apply alt_raises_next; [apply map_fails, tag1_fails; eexists _, _; reflexivity|].
  apply alt_raises_next; [apply map_fails, map_fails, pair_fails1; eexists _, _; reflexivity|].
  apply alt_raises, map_raises, map_raises. eapply pair_raises2; [apply ask_tag|].
  eapply pair_raises2; [apply no_datasets|]. apply pair_raises1, terminated_raises1. eapply preceded_raises2; [|exact R].
  apply opt_none, terminated_fails1. eexists _, _; reflexivity.
Qed.
Lemma ask_bad e b v tv b1 i t b2 x : blank b -> W_var v tv (b1 ++ t ++ b2 ++ x) -> blank1 b1 -> solid (t ++ b2 ++ x) ->
  W_iri i t (b2 ++ x) -> blank1 b2 -> bad_end e x -> sparql_query_stmt (s_ "ASK {" ++ b ++ tv ++ b1 ++ t ++ b2 ++ x) = Err e.
Proof. intros B V B1 S H B2 E. exact (proj1 (ask_raises e _ (group_bad e b v tv b1 i t b2 x B V B1 S H B2 E))). Qed.
Lemma path_panic b v tv b1 i t b2 c y : blank b -> W_var v tv (b1 ++ t ++ b2 ++ c :: y) -> blank1 b1 -> solid (t ++ b2 ++ c :: y) ->
  W_iri i t (b2 ++ c :: y) -> blank1 b2 -> 128 <= c -> sparql_query_stmt (s_ "ASK {" ++ b ++ tv ++ b1 ++ t ++ b2 ++ c :: y) = Err Panic.
Proof. intros B V B1 S H B2 C. apply (ask_bad Panic b v tv b1 i t b2 (c :: y)); auto. right. eauto. Qed.
Lemma path_incomplete b v tv b1 i t b2 : blank b -> W_var v tv (b1 ++ t ++ b2) -> blank1 b1 -> solid (t ++ b2) ->
  W_iri i t b2 -> blank1 b2 -> sparql_query_stmt (s_ "ASK {" ++ b ++ tv ++ b1 ++ t ++ b2) = Err Incomplete.
Proof.
  intros B V B1 S H B2. pose proof (ask_bad Incomplete b v tv b1 i t b2 []) as X. rewrite !app_nil_r in X. apply X; auto. now left.
Qed.

(** ** Keywords *)
Lemma kelvin_panic u r : kw "as" u -> sparql_query_stmt (u ++ 0x212A :: r) = Err Panic.
Proof.
  intros K. assert (U : In u [s_ "as"; s_ "As"; s_ "aS"; s_ "AS"]).
  { destruct u as [|a u]; [discriminate|]. destruct u as [|s u]; [discriminate|]. destruct u; [|discriminate]. injection K as A S.
    assert (X : forall c d, lower c = d -> d = 97 \/ d = 115 -> c = d \/ c + 32 = d).
    { intros c d. unfold lower. destruct (in_ranges _ c); auto. }
    apply X in A; [|now left]. apply X in S; [|now right]. assert (a = 97 \/ a = 65) as [-> | ->] by lia; assert (s = 115 \/ s = 83) as [-> | ->] by lia; cbn; auto. }
  assert (X : raises Panic sparql_query_stmt (u ++ 0x212A :: r)); [|exact (proj1 X)].
  assert (F : forall k, In k ["base"; "prefix"; "select"; "construct"; "describe"]%string -> fails (tag_no_case (s_ k)) (u ++ 0x212A :: r)).
  { intros k I. cbn in U, I. repeat (destruct U as [<-|U]; [repeat (destruct I as [<-|I]; [eexists _, _; reflexivity|]); destruct I|]). destruct U. }
  assert (P : raises Panic (tag_no_case (s_ "ask")) (u ++ 0x212A :: r)).
  { split; [|now left]. cbn in U. repeat (destruct U as [<-|U]; [destruct r; reflexivity|]). destruct U. }
  assert (S : solid (u ++ 0x212A :: r)).
  { cbn in U. repeat (destruct U as [<-|U]; [split; [cbn; intuition discriminate | discriminate]|]). destruct U. }
  clear K U. set (i := u ++ 0x212A :: r) in *. unfold sparql_query_stmt. apply map_raises. eapply (pair_raises2 _ _ _ _ i).
  { eapply (terminated_ok _ _ _ i); [|exact (sp_ok [] i blank_nil S)]. eapply map_ok; [|reflexivity]. apply LEval.sepl_nil.
    apply alt_fails_cons; [|apply alt_fails_cons; [|apply alt_fails_nil]]; apply map_fails.
    - apply preceded_fails1, terminated_fails1, F. cbn; auto.
    - apply map_fails, pair_fails1, F. cbn; auto. }
  apply pair_raises1. unfold sparql_query.
  apply alt_raises_next; [apply map_fails, map_fails, pair_fails1, terminated_fails1, map_fails, pair_fails1, F; cbn; auto|].
  apply alt_raises_next; [apply map_fails, tag1_fails, F; cbn; auto|].
  apply alt_raises_next; [apply map_fails, map_fails, pair_fails1, F; cbn; auto 6|].
  apply alt_raises, map_raises, map_raises, pair_raises1, terminated_raises1. exact P.
Qed.

(** ** Expressions *)
Lemma expression_end a t b : W_additive W_expression W_ggp a t b -> blank b -> raises Incomplete expression (t ++ b).
Proof.
  intros H B. unfold raises. rewrite expression_eq. apply map_raises, sepne_raises, map_raises, sepne_raises, map_raises.
  eapply pair_raises2; [exact (rd_additive W_expression W_ggp rd_expression rd_ggp a _ _ H)|]. apply opt_raises.
  rewrite <- (app_nil_r b). eapply preceded_raises2; [apply (sp_ok b [] B); exact I|]. split; [reflexivity|now right].
Qed.
Lemma select_end b0 a t b : blank b0 -> solid (t ++ b) -> W_additive W_expression W_ggp a t b -> blank b ->
  sparql_query_stmt (s_ "SELECT (" ++ b0 ++ t ++ b) = Err Incomplete.
Proof.
  intros B0 S H B. pose proof (expression_end a t b H B) as R. set (y := b0 ++ t ++ b).
  assert (X : raises Incomplete sparql_query_stmt (s_ "SELECT (" ++ y)); [|exact (proj1 X)].
  unfold sparql_query_stmt. apply map_raises. eapply pair_raises2.
  { eapply (terminated_ok _ _ _ (s_ "SELECT (" ++ y)); [reflexivity|]. apply (sp_ok []); [exact blank_nil|]. split; [cbn; intuition discriminate | discriminate]. }
  apply pair_raises1. unfold sparql_query. apply alt_raises, map_raises, map_raises, pair_raises1, terminated_raises1, map_raises.
  eapply (pair_raises2 _ _ _ _ (32 :: 40 :: y)); [apply (tnc_ok (s_ "select") (s_ "SELECT")); reflexivity|].
  assert (P : sp1 (32 :: 40 :: y) = Ok (40 :: y) [32]).
  { apply (sp1_ok [32] (40 :: y)); [split; [apply blank_space; [now left|constructor]|discriminate]|now apply char_solid]. }
  eapply (pair_raises2 _ _ _ _ (32 :: 40 :: y)).
  { apply opt_none. eapply preceded_fails2; [exact P|]. eexists _, _. reflexivity. }
  eapply preceded_raises2; [exact P|]. apply alt_raises_next; [apply map_fails, chr_fails; discriminate|]. apply alt_raises, map_raises, many1_raises.
  apply alt_raises_next; [apply map_fails, var_fails; discriminate|]. apply alt_raises, map_raises.
  eapply delimited_raises2; [apply chr_ok|]. eapply delimited_raises2; [now apply sp_ok|]. apply map_raises. apply pair_raises1. exact R.
Qed.

(** ** What the parsers never answer *)
Lemma good_panic {A} b c d (p : parser A) i : good b c d p -> p i = Err Panic -> panicky i.
Proof. intros G H. pose proof (good_elim _ _ _ _ G i) as O. rewrite H in O. apply O. Qed.
Lemma good_no_panic {A} b c (p : parser A) i : good b c false p -> p i <> Err Panic.
Proof. intros G H. pose proof (good_elim _ _ _ _ G i) as O. rewrite H in O. destruct O. discriminate. Qed.
Lemma good_incomplete {A} b d (p : parser A) i : good b IOpen d p -> p i = Err Incomplete -> In (c_ "(") i \/ In (c_ "{") i.
Proof. intros G H. pose proof (good_elim _ _ _ _ G i) as O. rewrite H in O. exact O. Qed.
Lemma good_never {A} b d (p : parser A) i : good b INever d p -> p i <> Err Incomplete.
Proof. intros G H. pose proof (good_elim _ _ _ _ G i) as O. rewrite H in O. exact O. Qed.

Lemma select_stops b0 a t : blank b0 -> solid t -> W_additive W_expression W_ggp a t [] -> sparql_query_stmt (s_ "SELECT (" ++ b0 ++ t) = Err Incomplete.
Proof. intros B S H. pose proof (select_end b0 a t [] B) as X. rewrite app_nil_r in X. apply X; [exact S|exact H|constructor]. Qed.
