(** A query is accepted exactly if its group is; braces of quads. *)
From Verif Require Import LMods LC8 LGen4.
From Verif Require Export LBlock4.
From Verif Require Import Nom.
Notation length := List.length (only parsing).
Open Scope N_scope.
Open Scope list_scope.

(** accepted with a rest for which [P] *)
Definition acc {A} (P : str -> Prop) (p : parser A) (i : str) : Prop := exists r a, p i = Ok r a /\ P r.
Lemma acc_map {A B} P (p : parser A) (f : A -> B) i : acc P (map p f) i <-> acc P p i.
Proof.
  split.
  - intros (r & b & E & H). apply map_inv in E. destruct E as (a & E & _). exists r, a. auto.
  - intros (r & a & E & H). exists r, (f a). split; [|exact H]. now apply (map_ok _ _ _ _ a).
Qed.
Lemma acc_pair {A B} P (p : parser A) (q : parser B) i j a : p i = Ok j a -> (acc P (pair p q) i <-> acc P q j).
Proof.
  intros E. split.
  - intros (r & [x y] & X & H). apply pair_inv in X. destruct X as (k & E1 & E2). rewrite E in E1. injection E1 as <- <-. exists r, y. auto.
  - intros (r & y & X & H). exists r, (a, y). split; [|exact H]. eapply pair_ok; eauto.
Qed.
Lemma acc_preceded {A B} P (p : parser A) (q : parser B) i j a : p i = Ok j a -> (acc P (preceded p q) i <-> acc P q j).
Proof. intros E. unfold preceded. rewrite acc_map. now apply acc_pair with (a := a). Qed.
Lemma acc_skip {A} P (p : parser A) ps i : fails p i -> (acc P (alt (p :: ps)) i <-> acc P (alt ps) i).
Proof.
  intros (x & k & E). unfold acc. cbn [alt]. destruct ps as [|p' ps]; rewrite E; [|tauto]. cbn [alt]. split; intros (r' & a' & X & H); discriminate X.
Qed.
Lemma acc_here {A} P (p : parser A) ps i : fails (alt ps) i -> (acc P (alt (p :: ps)) i <-> acc P p i).
Proof.
  intros (x & k & E). unfold acc. cbn [alt]. destruct ps as [|p' ps]; [tauto|]. destruct (p i) as [r a|e]; [tauto|].
  destruct e; try tauto. rewrite E. split; intros (r' & a' & X & H); discriminate X.
Qed.

Lemma where_open w t y : t = 123 :: y -> W_where_word w t -> forall P, acc P where_clause (w ++ t) <-> acc P group_graph_pattern t.
Proof.
  intros -> H P. unfold where_clause, where_clause_of. destruct H as [H | ->].
  - destruct (rdx_terminated _ _ _ _ (rdx_kw "where" eq_refl) rdx_sp1 _ _ H) as [a E]. eapply acc_preceded. apply opt_some. exact E.
  - cbn [app]. eapply acc_preceded. apply opt_none, terminated_fails1. eexists _, _. reflexivity.
Qed.
(** what stands behind the head of a form *)
Definition tails {A} (q : parser A) : Prop := forall (P : str -> Prop) w t, P [] -> block t -> W_where_word w t -> (acc P q (w ++ t) <-> acc P group_graph_pattern t).
Lemma where_solid w t y : t = 123 :: y -> W_where_word w t -> solid (w ++ t).
Proof.
  intros -> [H | ->]; [|now apply char_solid]. destruct H as (u & v & -> & K & _). rewrite <- app_assoc. apply (begins_solid "where" _ eq_refl). now exists u, (v ++ 123 :: y).
Qed.
Lemma after_where {A} (q : parser A) (P : str -> Prop) w t : P [] -> block t -> W_where_word w t -> (forall g, where_clause (w ++ t) = Ok [] g -> exists a, q (w ++ t) = Ok [] a) ->
  (forall r a, q (w ++ t) = Ok r a -> exists r' g, where_clause (w ++ t) = Ok r' g) -> (acc P q (w ++ t) <-> acc P group_graph_pattern t).
Proof.
  intros HP B W H1 H2. destruct (block_first t B) as [y Hy]. split.
  - intros (r & a & E & _). destruct (H2 _ _ E) as (r' & g & X). assert (Z : acc (fun _ => True) where_clause (w ++ t)) by (exists r', g; auto).
    apply (where_open w t y Hy W) in Z. destruct Z as (r2 & g2 & Z & _). pose proof (proj2 (block_local t [] B) _ _ Z) as ->. exists [], g2. auto.
  - intros (r & g & E & _). pose proof (proj2 (block_local t [] B) _ _ E) as ->. assert (Z : acc (fun r => r = []) group_graph_pattern t) by (exists [], g; auto).
    apply (where_open w t y Hy W) in Z. destruct Z as (r2 & g2 & Z & ->). destruct (H1 _ Z) as [a X]. exists [], a. auto.
Qed.
Lemma tails_terminated : tails (pair (terminated where_clause sp) solution_modifier).
Proof.
  intros P w t HP B W. apply after_where; [exact HP|exact B|exact W| |].
  - intros g E. eexists. eapply (pair_ok _ _ _ []); [|exact modifier_nil]. eapply (terminated_ok _ _ _ []); [exact E|reflexivity].
  - intros r [g m] E. apply pair_inv in E. destruct E as (j & E & _). apply terminated_inv in E. destruct E as (k & u & E & _). eauto.
Qed.

(** ** The forms *)
Lemma dss_open (d : list DataSetClause) a b w t : W_datasets d a (b ++ w ++ t) -> gap b (w ++ t) ->
  terminated (separated_list sp data_set_clause) sp (a ++ b ++ w ++ t) = Ok (w ++ t) d.
Proof. intros H [B S]. eapply terminated_ok; [exact (rd_dss d _ _ H)|now apply sp_ok]. Qed.
Lemma body_open (P : str -> Prop) (d : list DataSetClause) a b w t : P [] -> block t -> W_datasets d a (b ++ w ++ t) -> gap b (w ++ t) -> W_where_word w t ->
  (acc P (tuple3 (terminated (separated_list sp data_set_clause) sp) (terminated where_clause sp) solution_modifier) (a ++ b ++ w ++ t) <-> acc P group_graph_pattern t).
Proof.
  intros HP B Ha Hb Hw. unfold tuple3. rewrite (acc_pair _ _ _ _ _ _ (dss_open d a b w t Ha Hb)). now apply tails_terminated.
Qed.
Lemma ask_open (P : str -> Prop) t0 t : P [] -> block t -> (exists d, (Layout.word "ask" >> gap1 >> W_datasets d >> gap >> W_where_word) t0 t) -> (acc P sparql_query (t0 ++ t) <-> acc P group_graph_pattern t).
Proof.
  intros HP B (d & w & t1 & -> & K & b & t2 & -> & Hb & a & t3 & -> & Ha & b2 & v & -> & Hb2 & Hv). rewrite <- !app_assoc in *.
  assert (BG : begins "ask" (w ++ b ++ a ++ b2 ++ v ++ t)) by (exists w, (b ++ a ++ b2 ++ v ++ t); auto).
  unfold sparql_query.
  rewrite acc_skip by (apply map_fails, map_fails, pair_fails1, terminated_fails1, map_fails, pair_fails1; apply (nf_kw "select" "ask" eq_refl eq_refl eq_refl w); auto).
  rewrite acc_skip by (apply map_fails, tag1_fails; apply (nf_kw "construct" "ask" eq_refl eq_refl eq_refl w); auto).
  rewrite acc_skip by (apply map_fails, map_fails, pair_fails1; apply (nf_kw "describe" "ask" eq_refl eq_refl eq_refl w); auto).
  rewrite acc_here by apply alt_fails_nil. rewrite acc_map. unfold ask_query. rewrite acc_map. unfold tuple4.
  assert (T : terminated (tag_no_case (s_ "ask")) sp1 (w ++ b ++ a ++ b2 ++ v ++ t) = Ok (a ++ b2 ++ v ++ t) w).
  { eapply terminated_ok; [now apply (tnc_ok (s_ "ask") w)|]. apply sp1_ok; apply Hb. }
  rewrite (acc_pair _ _ _ _ _ _ T). exact (body_open P d a b2 v t HP B Ha Hb2 Hv).
Qed.
Lemma select_open (P : str -> Prop) t0 t : P [] -> block t -> (exists s d, (W_select_clause W_expression s >> gap1 >> W_datasets d >> gap >> W_where_word) t0 t) ->
  (acc P sparql_query (t0 ++ t) <-> acc P group_graph_pattern t).
Proof.
  intros HP B (s & d & u & t1 & -> & Hs & b & t2 & -> & Hb & a & t3 & -> & Ha & b2 & v & -> & Hb2 & Hv). rewrite <- !app_assoc in *.
  destruct (block_first t B) as [y Hy].
  assert (BG : begins "select" (u ++ b ++ a ++ b2 ++ v ++ t)).
  { destruct s as [m x]. destruct Hs as (w & z & -> & K & _). exists w, (z ++ b ++ a ++ b2 ++ v ++ t). rewrite <- !app_assoc. auto. }
  destruct BG as (w & z & EW & K). unfold sparql_query. rewrite acc_here.
  2:{ rewrite EW. apply alt_fails_cons; [apply map_fails, tag1_fails; now apply (nf_kw "construct" "select" eq_refl eq_refl eq_refl w)|].
      apply alt_fails_cons; [apply map_fails, map_fails, pair_fails1; now apply (nf_kw "describe" "select" eq_refl eq_refl eq_refl w)|].
      apply alt_fails_cons; [apply map_fails, map_fails, pair_fails1, terminated_fails1; now apply (nf_kw "ask" "select" eq_refl eq_refl eq_refl w)|]. apply alt_fails_nil. }
  rewrite acc_map. unfold select_query. rewrite acc_map. unfold tuple4.
  assert (T : terminated select_clause sp1 (u ++ b ++ a ++ b2 ++ v ++ t) = Ok (a ++ b2 ++ v ++ t) s).
  { eapply terminated_ok; [exact (rd_select_clause_ s _ _ Hs)|]. apply sp1_ok; apply Hb. }
  rewrite (acc_pair _ _ _ _ _ _ T). unfold tuple3. rewrite (acc_pair _ _ _ _ _ _ (rd_dss d _ _ Ha)).
  assert (SP : sp (b2 ++ v ++ t) = Ok (v ++ t) b2) by (apply sp_ok; apply Hb2).
  (* the blanks before the group *)
  transitivity (acc P (pair (terminated where_clause sp) solution_modifier) (v ++ t)); [|now apply tails_terminated].
  unfold sp_enc, delimited. split.
  - intros (r & [g m] & E & H). apply pair_inv in E. destruct E as (j & E & F). apply preceded_inv in E. destruct E as (k & c & E1 & E). rewrite SP in E1. injection E1 as <- <-.
    exists r, (g, m). split; [|exact H]. eapply pair_ok; eauto.
  - intros (r & [g m] & E & H). apply pair_inv in E. destruct E as (j & E & F). exists r, (g, m). split; [|exact H]. eapply pair_ok; [|exact F]. eapply preceded_ok; eauto.
Qed.
Lemma construct_open (P : str -> Prop) t0 t : P [] -> block t -> (exists c d, (Layout.word "construct" >> gap1 >> W_construct_template c >> gap1 >> W_datasets d >> gap >> W_where_word) t0 t) ->
  (acc P sparql_query (t0 ++ t) <-> acc P group_graph_pattern t).
Proof.
  intros HP B (c & d & w & t1 & -> & K & b & t2 & -> & Hb & u & t4 & -> & Hu & b1 & t5 & -> & Hb1 & a & t3 & -> & Ha & b2 & v & -> & Hb2 & Hv). rewrite <- !app_assoc in *.
  unfold sparql_query.
  rewrite acc_skip by (apply map_fails, map_fails, pair_fails1, terminated_fails1, map_fails, pair_fails1; now apply (nf_kw "select" "construct" eq_refl eq_refl eq_refl w)).
  rewrite acc_here.
  2:{ apply alt_fails_cons; [apply map_fails, map_fails, pair_fails1; now apply (nf_kw "describe" "construct" eq_refl eq_refl eq_refl w)|].
      apply alt_fails_cons; [apply map_fails, map_fails, pair_fails1, terminated_fails1; now apply (nf_kw "ask" "construct" eq_refl eq_refl eq_refl w)|]. apply alt_fails_nil. }
  rewrite acc_map. unfold construct_query, preceded_tag1.
  assert (T : terminated (tag_no_case (s_ "construct")) sp1 (w ++ b ++ u ++ b1 ++ a ++ b2 ++ v ++ t) = Ok (u ++ b1 ++ a ++ b2 ++ v ++ t) w).
  { eapply terminated_ok; [now apply (tnc_ok (s_ "construct") w)|]. apply sp1_ok; apply Hb. }
  rewrite (acc_preceded _ _ _ _ _ _ T). rewrite acc_here.
  2:{ apply alt_fails_cons; [|apply alt_fails_nil]. apply map_fails, map_fails.
      assert (F : exists z, u = 123 :: z). { destruct c as [c]; cbn [W_construct_template] in Hu. destruct Hu as (x & z & -> & -> & _). eexists. reflexivity. }
      destruct F as [z ->]. cbn [app].
      eapply pair_fails2; [eapply terminated_ok; [apply no_datasets|reflexivity]|]. apply pair_fails1, terminated_fails1. eexists _, _. reflexivity. }
  rewrite acc_map. unfold sub_construct. rewrite acc_map. unfold tuple4.
  assert (T2 : terminated construct_template sp1 (u ++ b1 ++ a ++ b2 ++ v ++ t) = Ok (a ++ b2 ++ v ++ t) c).
  { eapply terminated_ok; [exact (rd_construct_template c _ _ Hu)|]. apply sp1_ok; apply Hb1. }
  rewrite (acc_pair _ _ _ _ _ _ T2). exact (body_open P d a b2 v t HP B Ha Hb2 Hv).
Qed.
Lemma form_open (P : str -> Prop) t0 t : P [] -> block t -> W_form_open t0 t -> (acc P sparql_query (t0 ++ t) <-> acc P group_graph_pattern t).
Proof. intros HP B [H|[H|H]]; [now apply ask_open|now apply select_open|now apply construct_open]. Qed.
Lemma form_solid t0 t : W_form_open t0 t -> solid (t0 ++ t).
Proof.
  intros [(d & w & t1 & -> & K & _)|[([m x] & d & u & t1 & -> & (w & z & -> & K & _) & _)|(c & d & w & t1 & -> & K & _)]]; rewrite <- !app_assoc.
  - apply (begins_solid "ask" _ eq_refl). now exists w, (t1 ++ t).
  - apply (begins_solid "select" _ eq_refl). exists w, (z ++ t1 ++ t). auto.
  - apply (begins_solid "construct" _ eq_refl). now exists w, (t1 ++ t).
Qed.
Lemma query_block t0 t : W_query_open t0 t -> block t -> ((exists r q, sparql_query_stmt (t0 ++ t) = Ok r q) <-> exists g, group_graph_pattern t = Ok [] g).
Proof.
  intros (p & u & t1 & -> & Hp & b & f & -> & Hb & Hf) B. rewrite <- !app_assoc in *.
  assert (T : terminated prologue sp (u ++ b ++ f ++ t) = Ok (f ++ t) p). { eapply terminated_ok; [exact (rd_prologue p _ _ Hp)|]. apply sp_ok; apply Hb. }
  split.
  - intros (r & q & E). apply map_inv in E. destruct E as ([p' [z v]] & E & _). apply pair_inv in E. destruct E as (j & E1 & E). rewrite T in E1. injection E1 as <- _.
    apply pair_inv in E. destruct E as (k & E & _). assert (Z : acc (fun _ => True) sparql_query (f ++ t)) by (exists k, z; auto).
    apply (form_open (fun _ => True) f t I B Hf) in Z. destruct Z as (r2 & g & Z & _). pose proof (proj2 (block_local t [] B) _ _ Z) as ->. eauto.
  - intros [g E]. assert (Z : acc (fun r => r = []) group_graph_pattern t) by (exists [], g; auto).
    apply (form_open (fun r => r = []) f t eq_refl B Hf) in Z. destruct Z as (r & z & Z & ->). eexists [], _. apply (map_ok _ _ _ _ (p, (z, None))); [|reflexivity].
    eapply pair_ok; [exact T|]. eapply (pair_ok _ _ _ []); [exact Z|reflexivity].
Qed.
