(** Datasets, WHERE and modifiers are read alike in all query forms. *)
From Verif Require Import LMods LC8.
From Verif Require Export LAlike LDecl.
From Verif Require Import Nom.
Notation length := List.length (only parsing).
Open Scope N_scope.
Open Scope list_scope.

Definition tail_ : parser (list DataSetClause * (GroupGraphPattern * SolutionModifier Expression GroupGraphPattern)) :=
  pair (terminated (separated_list sp data_set_clause) sp) (pair (terminated where_clause sp) solution_modifier).

Ltac skipq K := apply alt_next; [apply map_fails; repeat first [apply map_fails | apply pair_fails1 | apply preceded_fails1 | apply terminated_fails1]; eapply off; [exact K|reflexivity..]|].
Ltac pickq H := apply alt_inv in H; let p := fresh "p" in let Hp := fresh "Hp" in destruct H as (p & Hp & H);
  destruct Hp as [<-|[<-|[<-|[<-|[]]]]]; apply map_inv in H; let x := fresh "x" in let X := fresh "X" in destruct H as (x & H & X); try discriminate X; injection X as ->.

Lemma term_at k w b j : low_ascii (s_ k) = true -> kw k w -> blank1 b -> solid j -> exists y, terminated (tag_no_case (s_ k)) sp1 (w ++ b ++ j) = Ok j y.
Proof.
  intros L K B S. destruct (word_at k w b j L K B S) as [[y1 y2] E]. apply pair_inv in E. destruct E as (i & E1 & E2). exists y1. eapply terminated_ok; eauto.
Qed.
Lemma query_ask w b j r d g m : kw "ask" w -> blank1 b -> solid j ->
  (sparql_query (w ++ b ++ j) = Ok r (SqAsk (MkAskQuery d g m)) <-> tail_ j = Ok r (d, (g, m))).
Proof.
  intros K B S. destruct (term_at "ask" w b j eq_refl K B S) as [y Y]. split; intros H.
  - pickq H. apply map_inv in H. destruct H as ([y' [d' [g' m']]] & H & X). injection X as -> -> ->. apply pair_inv in H. destruct H as (k & E & H).
    rewrite Y in E. injection E as <- <-. exact H.
  - do 3 (skipq K). apply alt_first. eapply map_ok; [|reflexivity]. apply (map_ok _ _ _ _ (y, (d, (g, m)))); [|reflexivity]. eapply pair_ok; [exact Y|exact H].
Qed.
Lemma query_select s t b j r d g m : W_select_clause W_expression s t (b ++ j) -> blank1 b -> solid j ->
  (sparql_query (t ++ b ++ j) = Ok r (SqSelect (MkSelectQuery s d g m)) <-> tail_ j = Ok r (d, (g, m))).
Proof.
  intros W B S. apply rd_select_clause_ in W. split; intros H.
  - pickq H. apply map_inv in H. destruct H as ([y' [d' [g' m']]] & H & X). injection X as -> -> -> ->. apply pair_inv in H. destruct H as (k & E & H).
    apply terminated_inv in E. destruct E as (k1 & b1 & E & E1). rewrite W in E. injection E as <-. rewrite (sp1_ok b j B S) in E1. injection E1 as <- <-.
    apply pair_inv in H. destruct H as (k2 & E2 & H). apply pair_inv in H. destruct H as (k3 & E3 & H). apply delimited_inv in E3.
    destruct E3 as (k4 & k5 & c1 & c2 & E3 & E4 & E5). eapply pair_ok; [eapply terminated_ok; [exact E2|exact E3]|]. eapply pair_ok; [eapply terminated_ok; [exact E4|exact E5]|exact H].
  - apply alt_first. eapply map_ok; [|reflexivity]. apply (map_ok _ _ _ _ (s, (d, (g, m)))); [|reflexivity].
    eapply pair_ok; [eapply terminated_ok; [exact W|apply sp1_ok; assumption]|]. apply pair_inv in H. destruct H as (k1 & E1 & H). apply pair_inv in H. destruct H as (k2 & E2 & H).
    apply terminated_inv in E1, E2. destruct E1 as (k3 & c1 & E1 & E3). destruct E2 as (k4 & c2 & E2 & E4).
    eapply pair_ok; [exact E1|]. eapply pair_ok; [eapply delimited_ok; [exact E3|exact E2|exact E4]|exact H].
Qed.
Lemma query_describe w b0 v t b j r d g m : kw "describe" w -> blank1 b0 -> solid (t ++ b ++ j) -> W_targets v t (b ++ j) -> blank1 b -> solid j ->
  (sparql_query (w ++ b0 ++ t ++ b ++ j) = Ok r (SqDescribe (MkDescribeQuery d v (Some g) m)) <-> tail_ j = Ok r (d, (g, m))).
Proof.
  intros K B0 S0 W B S. apply rd_targets in W. assert (Y : tag_no_case (s_ "describe") (w ++ b0 ++ t ++ b ++ j) = Ok (b0 ++ t ++ b ++ j) w) by (apply tnc_ok; [reflexivity|exact K]).
  assert (Z : sp_enc1 var_or_iris_or_all (b0 ++ t ++ b ++ j) = Ok j v). { eapply delimited_ok; [apply sp1_ok; [exact B0|exact S0]|exact W|now apply sp1_ok]. }
  split; intros H.
  - pickq H. apply map_inv in H. destruct H as ([y' [v' [d' [g' m']]]] & H & X). injection X as -> -> -> ->. apply pair_inv in H. destruct H as (k & E & H).
    rewrite Y in E. injection E as <- <-. apply pair_inv in H. destruct H as (k1 & E & H). rewrite Z in E. injection E as <-.
    apply pair_inv in H. destruct H as (k2 & E2 & H). apply pair_inv in H. destruct H as (k3 & E3 & H). apply opt_inv in E3. 
    eapply pair_ok; [exact E2|]. eapply pair_ok; [exact E3|exact H].
  - do 2 (skipq K). apply alt_first. eapply map_ok; [|reflexivity]. apply (map_ok _ _ _ _ (w, (v, (d, (Some g, m))))); [|reflexivity].
    eapply pair_ok; [exact Y|]. eapply pair_ok; [exact Z|]. apply pair_inv in H. destruct H as (k1 & E1 & H). apply pair_inv in H. destruct H as (k2 & E2 & H).
    eapply pair_ok; [exact E1|]. eapply pair_ok; [apply opt_some; exact E2|exact H].
Qed.
Lemma query_construct w b0 c t b j r d g m : kw "construct" w -> blank1 b0 -> W_construct_template c t (b ++ j) -> blank1 b -> solid j ->
  (sparql_query (w ++ b0 ++ t ++ b ++ j) = Ok r (SqConstruct (CqSubConstruct (MkSubConstruct c d g m))) <-> tail_ j = Ok r (d, (g, m))).
Proof.
  intros K B0 W B S. assert (S0 : solid (t ++ b ++ j)).
  { destruct c as [l]. destruct W as (u & v & -> & E & _). unfold sym in E. rewrite E. now apply char_solid. }
  apply rd_construct_template in W.
  assert (Y : terminated construct_template sp1 (t ++ b ++ j) = Ok j c). { eapply terminated_ok; [exact W|now apply sp1_ok]. }
  split; intros H.
  - pickq H. rewrite (construct_at w b0 _ K B0 S0) in H. apply alt_inv in H. destruct H as (p & [<-|[<-|[]]] & H); apply map_inv in H; destruct H as (z & H & X); [|discriminate X].
    injection X as ->. apply map_inv in H. destruct H as ([c' [d' [g' m']]] & H & X). injection X as -> -> -> ->. apply pair_inv in H. destruct H as (k & E & H).
    rewrite Y in E. injection E as <-. exact H.
  - skipq K. apply alt_first. eapply map_ok; [|reflexivity]. rewrite (construct_at w b0 _ K B0 S0). apply alt_first. eapply map_ok; [|reflexivity].
    apply (map_ok _ _ _ _ (c, (d, (g, m)))); [|reflexivity]. eapply pair_ok; [exact Y|exact H].
Qed.

(** the statement around a query without declarations *)
Lemma around q i r v : begins (form_word q) i -> (sparql_query_stmt i = Ok r (MkSparqlQueryStatement (MkPrologue []) q v) <->
  exists k, sparql_query i = Ok k q /\ opt (preceded sp1 (preceded_tag1 (s_ "values") datablock)) k = Ok r v).
Proof.
  intros B. assert (S : solid i). { apply (begins_solid (form_word q)); [destruct q; reflexivity|exact B]. }
  rewrite (LDecl.stmt_at _ _ _ _ _ (LDecl.no_prologue i (form_no_decl q i B)) (sp_nil i S)). split.
  - destruct (pair sparql_query _ i) as [r' [q' v']|e] eqn:E; [|discriminate]. intros [= -> -> ->]. apply pair_inv in E. destruct E as (k & E1 & E2). eauto.
  - intros (k & E1 & E2). rewrite (pair_ok _ _ _ _ _ _ _ E1 E2). reflexivity.
Qed.
Lemma same_stmt q1 i1 q2 i2 r v : begins (form_word q1) i1 -> begins (form_word q2) i2 -> (forall k, sparql_query i1 = Ok k q1 <-> sparql_query i2 = Ok k q2) ->
  (sparql_query_stmt i1 = Ok r (MkSparqlQueryStatement (MkPrologue []) q1 v) <-> sparql_query_stmt i2 = Ok r (MkSparqlQueryStatement (MkPrologue []) q2 v)).
Proof. intros B1 B2 H. rewrite (around q1) by exact B1. rewrite (around q2) by exact B2. split; intros (k & E & F); exists k; (split; [apply H; exact E|exact F]). Qed.

Lemma ask_select w b s t b' j r d g m v : kw "ask" w -> blank1 b -> W_select_clause W_expression s t (b' ++ j) -> blank1 b' -> solid j ->
  (sparql_query_stmt (w ++ b ++ j) = Ok r (MkSparqlQueryStatement (MkPrologue []) (SqAsk (MkAskQuery d g m)) v) <->
   sparql_query_stmt (t ++ b' ++ j) = Ok r (MkSparqlQueryStatement (MkPrologue []) (SqSelect (MkSelectQuery s d g m)) v)).
Proof.
  intros K B W B' S. apply same_stmt.
  - exists w, (b ++ j). auto.
  - destruct s as [o l]. destruct W as (u & x & -> & K' & _). exists u, (x ++ b' ++ j). split; [now rewrite <- app_assoc|exact K'].
  - intros k. rewrite query_ask by assumption. rewrite query_select by assumption. reflexivity.
Qed.
Lemma ask_describe w b w' b0 x t b' j r d g m v : kw "ask" w -> blank1 b -> kw "describe" w' -> blank1 b0 -> solid (t ++ b' ++ j) -> W_targets x t (b' ++ j) -> blank1 b' -> solid j ->
  (sparql_query_stmt (w ++ b ++ j) = Ok r (MkSparqlQueryStatement (MkPrologue []) (SqAsk (MkAskQuery d g m)) v) <->
   sparql_query_stmt (w' ++ b0 ++ t ++ b' ++ j) = Ok r (MkSparqlQueryStatement (MkPrologue []) (SqDescribe (MkDescribeQuery d x (Some g) m)) v)).
Proof.
  intros. apply same_stmt.
  - exists w, (b ++ j). auto.
  - exists w', (b0 ++ t ++ b' ++ j). auto.
  - intros k. rewrite query_ask by assumption. rewrite query_describe by assumption. reflexivity.
Qed.
Lemma ask_construct w b w' b0 c t b' j r d g m v : kw "ask" w -> blank1 b -> kw "construct" w' -> blank1 b0 -> W_construct_template c t (b' ++ j) -> blank1 b' -> solid j ->
  (sparql_query_stmt (w ++ b ++ j) = Ok r (MkSparqlQueryStatement (MkPrologue []) (SqAsk (MkAskQuery d g m)) v) <->
   sparql_query_stmt (w' ++ b0 ++ t ++ b' ++ j) = Ok r (MkSparqlQueryStatement (MkPrologue []) (SqConstruct (CqSubConstruct (MkSubConstruct c d g m))) v)).
Proof.
  intros. apply same_stmt.
  - exists w, (b ++ j). auto.
  - exists w', (b0 ++ t ++ b' ++ j). auto.
  - intros k. rewrite query_ask by assumption. rewrite query_construct by assumption. reflexivity.
Qed.
