(** SELECT is read in the same way as a query and inside a group. *)
From Verif Require Import LMods LC8.
From Verif Require Export LDecl.
From Verif Require Import Nom.
Notation length := List.length (only parsing).
Open Scope N_scope.
Open Scope list_scope.

Lemma where_starts j r g : where_clause j = Ok r g -> ~ begins "from" j.
Proof.
  intros H B. unfold where_clause, where_clause_of in H. apply preceded_inv in H. destruct H as (k & o & E & H).
  assert (F : fails (terminated (tag_no_case (s_ "where")) sp1) j).
  { apply terminated_fails1. destruct B as (w & x & -> & K). now apply (nf_kw "where" "from" eq_refl eq_refl eq_refl w). }
  rewrite (opt_none _ _ F) in E. injection E as <- <-. revert H. apply fails_not_ok, gg_first.
  destruct B as (w & x & -> & K). now apply (word_not 123 "from").
Qed.
Lemma where_ahead j r g : where_clause j = Ok r g -> separated_list sp data_set_clause j = Ok j [].
Proof. intros H. apply LEval.sepl_nil, no_from_fails. now apply (where_starts j r g). Qed.

Lemma sub_inv i r s w m v : sub_select i = Ok r (MkSubSelect s w m v) -> exists r1 j b r2 r3 b2 r4, select_clause i = Ok r1 s /\ sp r1 = Ok j b /\ where_clause j = Ok r2 w /\ sp r2 = Ok r3 b2 /\
  solution_modifier r3 = Ok r4 m /\ preceded sp values_clause r4 = Ok r v.
Proof.
  intros H. apply map_inv in H. destruct H as ([s' [w' [m' v']]] & H & X). injection X as -> -> -> ->. apply pair_inv in H. destruct H as (r1 & E1 & H).
  apply pair_inv in H. destruct H as (r3 & E2 & H). apply pair_inv in H. destruct H as (r4 & E3 & E4).
  apply preceded_inv in E2. destruct E2 as (j & b & S & E2). apply terminated_inv in E2. destruct E2 as (r2 & b2 & E2 & S2).
  exists r1, j, b, r2, r3, b2, r4. auto 8.
Qed.
Lemma select_inv i r s d w m : select_query i = Ok r (MkSelectQuery s d w m) -> exists r1 j b k j' b' r2 r3 b2, select_clause i = Ok r1 s /\ sp1 r1 = Ok j b /\ separated_list sp data_set_clause j = Ok k d /\
  sp k = Ok j' b' /\ where_clause j' = Ok r2 w /\ sp r2 = Ok r3 b2 /\ solution_modifier r3 = Ok r m.
Proof.
  intros H. apply map_inv in H. destruct H as ([s' [d' [w' m']]] & H & X). injection X as -> -> -> ->. apply pair_inv in H. destruct H as (j & E1 & H).
  apply terminated_inv in E1. destruct E1 as (r1 & b & E1 & S). apply pair_inv in H. destruct H as (k & E2 & H). apply pair_inv in H. destruct H as (r3 & E3 & E4).
  apply preceded_inv in E3. destruct E3 as (j' & b' & S' & E3). apply terminated_inv in E3. destruct E3 as (r2 & b2 & E3 & S2).
  exists r1, j, b, k, j', b', r2, r3, b2. auto 10.
Qed.
Lemma sp1_sp i r b : sp1 i = Ok r b -> sp i = Ok r b.
Proof. intros H. apply sp1_iff in H. destruct H as (E & [B _] & S). now apply sp_iff. Qed.

Lemma sub_agrees i r r' s w m v s' d w' m' : sub_select i = Ok r (MkSubSelect s w m v) -> select_query i = Ok r' (MkSelectQuery s' d w' m') ->
  d = [] /\ s' = s /\ w' = w /\ m' = m.
Proof.
  intros H H'. apply sub_inv in H. destruct H as (r1 & j & b & r2 & r3 & b2 & r4 & E1 & S & E2 & S2 & E3 & _).
  apply select_inv in H'. destruct H' as (r1' & j' & b' & k & jj & bb & r2' & r3' & b2' & F1 & T & F2 & T' & F3 & T2 & F4).
  rewrite E1 in F1. injection F1 as <- <-. pose proof (sp1_sp _ _ _ T) as T0. rewrite S in T0. injection T0 as <- <-.
  rewrite (where_ahead _ _ _ E2) in F2. injection F2 as <- <-. apply sp1_iff in T. destruct T as (_ & _ & SJ). rewrite (sp_nil j SJ) in T'. injection T' as <- <-.
  rewrite E2 in F3. injection F3 as <- <-. rewrite S2 in T2. injection T2 as <- <-. rewrite E3 in F4. injection F4 as <- <-. auto.
Qed.
Lemma sub_as_query i r s w m v : sub_select i = Ok r (MkSubSelect s w m v) ->
  (exists r', select_query i = Ok r' (MkSelectQuery s [] w m)) \/ (exists r1, select_clause i = Ok r1 s /\ solid r1).
Proof.
  intros H. apply sub_inv in H. destruct H as (r1 & j & b & r2 & r3 & b2 & r4 & E1 & S & E2 & S2 & E3 & _).
  apply sp_iff in S. destruct S as (-> & B & SJ). destruct b as [|c b]; [right; exists j; auto|]. left. exists r4.
  apply (map_ok _ _ _ _ (s, ([], (w, m)))); [|reflexivity].
  eapply pair_ok; [eapply terminated_ok; [exact E1|apply sp1_ok; [split; [exact B|discriminate]|exact SJ]]|].
  eapply pair_ok; [exact (where_ahead _ _ _ E2)|]. eapply pair_ok; [|exact E3]. eapply preceded_ok; [exact (sp_nil j SJ)|]. eapply terminated_ok; eauto.
Qed.
Lemma query_as_sub i r s w m : select_query i = Ok r (MkSelectQuery s [] w m) -> nxt (fun r => ~ begins "values" r) r ->
  exists r', sub_select i = Ok r' (MkSubSelect s w m None).
Proof.
  intros H V. apply select_inv in H. destruct H as (r1 & j & b & k & jj & bb & r2 & r3 & b2 & F1 & T & F2 & T' & F3 & T2 & F4).
  assert (K : k = j).
  { destruct (data_set_clause j) as [r0 d0|e] eqn:E; unfold separated_list in F2; rewrite E in F2.
    - destruct (str_eqb r0 j); [discriminate F2|]. destruct (sep_loop _ _ _ _) as [? ?|]; [|discriminate F2]. discriminate F2.
    - destruct e; try discriminate F2. now injection F2 as <-. }
  subst k. pose proof T as T0. apply sp1_iff in T. destruct T as (_ & _ & SJ). rewrite (sp_nil j SJ) in T'. injection T' as <- <-.
  destruct V as (b3 & r5 & -> & B3 & S5 & V). exists r5. apply (map_ok _ _ _ _ (s, (w, (m, None)))); [|reflexivity].
  eapply pair_ok; [exact F1|]. eapply pair_ok; [eapply preceded_ok; [exact (sp1_sp _ _ _ T0)|eapply terminated_ok; eauto]|].
  eapply pair_ok; [exact F4|]. eapply preceded_ok; [now apply sp_ok|]. apply opt_none, tag1_fails. now apply (kw_fails "values").
Qed.
