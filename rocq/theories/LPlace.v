(** Bracketed expressions, calls and constraints are read alike wherever they stand. *)
From Verif Require Import LMods LC8.
From Verif Require Export LWhere.
From Verif Require Import Nom.
Notation length := List.length (only parsing).
Open Scope N_scope.
Open Scope list_scope.

Definition bracketed : parser Expression := bracketted_expression_of expression.
Definition group_condition := group_condition_of expression group_graph_pattern.

Lemma bracket_first i r e : bracketed i = Ok r e -> exists x, i = 40 :: x.
Proof.
  intros H. unfold bracketed, bracketted_expression_of, bracketted in H. apply delimited_inv in H. destruct H as (i1 & i2 & a & c & E & _). apply chr_inv in E. destruct E as [-> _]. eauto.
Qed.
Lemma call_first i r c : built_in_call i = Ok r c -> not_first 40 i.
Proof.
  intros H. destruct i as [|x i]; [exact I|]. intros ->. destruct (fails_not_ok built_in_call (40 :: i) r c); [|exact H]. apply LC4.built_in_first. reflexivity.
Qed.
Lemma bracket_not i : not_first 40 i -> fails bracketed i.
Proof. intros N. unfold bracketed, bracketted_expression_of, bracketted. now apply delimited_fails1, chr_fails. Qed.
Lemma call_unbracketed i r c : built_in_call i = Ok r c -> fails bracketed i.
Proof. intros H. now eapply bracket_not, call_first, H. Qed.
Lemma call_not_bracket i r e : bracketed i = Ok r e -> fails built_in_call i.
Proof. intros H. destruct (bracket_first _ _ _ H) as [x ->]. apply LC4.built_in_first. reflexivity. Qed.

(** ** Expressions in brackets *)
Lemma bracket_primary i r e : primary_expression i = Ok r (PeBracketted e) <-> bracketed i = Ok r e.
Proof.
  split; intros H; [|apply alt_first; eapply map_ok; [exact H|reflexivity]].
  apply alt_inv in H. destruct H as (p & [<-|[<-|[<-|[<-|[<-|[<-|[<-|[]]]]]]]] & H); apply map_inv in H; destruct H as (y & H & X); try discriminate X. now injection X as ->.
Qed.
Lemma bracket_constraint i r e : constraint i = Ok r (CoBracketted e) <-> bracketed i = Ok r e.
Proof.
  split; intros H; [|apply alt_first; eapply map_ok; [exact H|reflexivity]].
  apply alt_inv in H. destruct H as (p & [<-|[<-|[<-|[]]]] & H); apply map_inv in H; destruct H as (y & H & X); try discriminate X. now injection X as ->.
Qed.
Lemma bracket_order o w b j r e : kw (order_word o) w -> blank1 b -> solid j -> (order_condition (w ++ b ++ j) = Ok r (OcOrder (MkOrderExpression o e)) <-> bracketed j = Ok r e).
Proof.
  intros K B S. assert (Y : MExpr.order (w ++ b ++ j) = Ok (b ++ j) o).
  { unfold MExpr.order. destruct o.
    - apply alt_first. eapply map_ok; [apply tnc_ok; [reflexivity|exact K]|reflexivity].
    - apply alt_next; [apply map_fails; eapply off; [exact K|reflexivity..]|]. eapply map_ok; [apply tnc_ok; [reflexivity|exact K]|reflexivity]. }
  split; intros H.
  - apply alt_inv in H. destruct H as (p & [<-|[<-|[<-|[]]]] & H); apply map_inv in H; destruct H as (y & H & X); try discriminate X. injection X as ->.
    apply map_inv in H. destruct H as ([o' e'] & H & X). injection X as -> ->. apply pair_inv in H. destruct H as (k & E & H). rewrite Y in E. injection E as <-.
    apply preceded_inv in H. destruct H as (k & b1 & E & H). rewrite (sp1_ok b j B S) in E. injection E as <- <-. exact H.
  - apply alt_first. eapply map_ok; [|reflexivity]. apply (map_ok _ _ _ _ (o, e)); [|reflexivity]. eapply pair_ok; [exact Y|]. eapply preceded_ok; [now apply sp1_ok|exact H].
Qed.

(** ** Built-in calls *)
Lemma call_primary i r c : primary_expression i = Ok r (PeBuiltInCall c) <-> built_in_call i = Ok r c.
Proof.
  split; intros H.
  - apply alt_inv in H. destruct H as (p & [<-|[<-|[<-|[<-|[<-|[<-|[<-|[]]]]]]]] & H); apply map_inv in H; destruct H as (y & H & X); try discriminate X. now injection X as ->.
  - apply alt_next; [apply map_fails; exact (call_unbracketed _ _ _ H)|]. apply alt_first. eapply map_ok; [exact H|reflexivity].
Qed.
Lemma call_constraint i r c : constraint i = Ok r (CoBuiltInCall c) <-> built_in_call i = Ok r c.
Proof.
  split; intros H.
  - apply alt_inv in H. destruct H as (p & [<-|[<-|[<-|[]]]] & H); apply map_inv in H; destruct H as (y & H & X); try discriminate X. now injection X as ->.
  - apply alt_next; [apply map_fails; exact (call_unbracketed _ _ _ H)|]. apply alt_first. eapply map_ok; [exact H|reflexivity].
Qed.
Lemma call_group i r c : group_condition i = Ok r (GcBuiltInCall c) <-> built_in_call i = Ok r c.
Proof.
  split; intros H; [|apply alt_first; eapply map_ok; [exact H|reflexivity]].
  apply alt_inv in H. destruct H as (p & [<-|[<-|[<-|[<-|[]]]]] & H); apply map_inv in H; destruct H as (y & H & X); try discriminate X. now injection X as ->.
Qed.

(** ** Constraints *)
Lemma filter_at w b j r c : kw "filter" w -> blank1 b -> solid j -> (graph_pattern_not_triples (w ++ b ++ j) = Ok r (GpFilter c) <-> constraint j = Ok r c).
Proof.
  intros K B S. split; intros H.
  - apply alt_inv in H. destruct H as (p & [<-|[<-|[<-|[<-|[<-|[<-|[<-|[<-|[]]]]]]]]] & H); apply map_inv in H; destruct H as (z & H & X); try discriminate X.
    injection X as ->. unfold filter_of in H. now rewrite (tag1_at "filter") in H by auto.
  - apply alt_next; [now apply map_fails, map_fails, sepne_fails, (brace_not "filter")|]. do 4 (nx K). apply alt_first. eapply map_ok; [|reflexivity].
    unfold filter_of. now rewrite (tag1_at "filter") by auto.
Qed.
Lemma order_no_constraint o w b j : kw (order_word o) w -> blank b -> fails constraint (w ++ b ++ 40 :: j).
Proof.
  intros W B. assert (S : starts delims (b ++ 40 :: j)).
  { destruct B as [|ch b' B0|bd nl b' B0 Nl B1]; [exists 40, j; cbn; auto 10|exists ch, (b' ++ 40 :: j); split; [reflexivity|cbn in *; tauto]|].
    eexists 35, _. split; [reflexivity|cbn; auto 10]. }
  apply alt_fails_cons; [apply map_fails, bracketted_first; eapply order_first; [exact W|now left]|].
  apply alt_fails_cons; [eapply map_fails, order_built_in; [exact W|exact S]|].
  apply alt_fails_cons; [|apply alt_fails_nil]. apply map_fails, function_call_iri. apply iri_fails_word; [now apply (order_letters o)|apply brk_name|exact B|apply open_solid|discriminate].
  destruct b; [reflexivity|]. apply blank1_brk. split; [exact B|discriminate].
Qed.
Lemma begins_dec k i : begins k i \/ ~ begins k i.
Proof.
  destruct (list_eq_dec N.eq_dec (List.map lower (firstn (length (s_ k)) i)) (s_ k)) as [E|E].
  - left. exists (firstn (length (s_ k)) i), (skipn (length (s_ k)) i). split; [now rewrite firstn_skipn|exact E].
  - right. intros (w & r & -> & K). apply E. unfold kw in K. rewrite <- K. rewrite map_length, firstn_app, firstn_all, Nat.sub_diag. cbn [firstn]. now rewrite app_nil_r.
Qed.
Lemma constraint_unordered i r c : constraint i = Ok r c -> fails (order_expression_of expression) i.
Proof.
  intros H. apply map_fails. assert (X : (exists o, begins (order_word o) i) \/ fails MExpr.order i).
  { destruct (begins_dec "asc" i) as [A|A]; [left; exists Asc; exact A|]. destruct (begins_dec "desc" i) as [D|D]; [left; exists Desc; exact D|]. right.
    apply alt_fails_cons; [now apply map_fails, kw_fails|]. apply alt_fails_cons; [now apply map_fails, kw_fails|apply alt_fails_nil]. }
  destruct X as [(o & w & x & -> & K)|F]; [|now apply pair_fails1].
  assert (Y : MExpr.order (w ++ x) = Ok x o).
  { unfold MExpr.order. destruct o.
    - apply alt_first. eapply map_ok; [apply tnc_ok; [reflexivity|exact K]|reflexivity].
    - apply alt_next; [apply map_fails; eapply off; [exact K|reflexivity..]|]. eapply map_ok; [apply tnc_ok; [reflexivity|exact K]|reflexivity]. }
  eapply pair_fails2; [exact Y|]. destruct (blank_split x) as (b & y & -> & B & S).
  destruct b as [|ch b]; [now apply preceded_fails1, sp1_fails|]. eapply preceded_fails2; [apply sp1_ok; [split; [exact B|discriminate]|exact S]|].
  change (fails bracketed y). apply bracket_not. destruct y as [|z y]; [exact I|]. intros ->. destruct (fails_not_ok _ _ r c (order_no_constraint o w _ y K B)). exact H.
Qed.
Lemma constraint_order i r c : order_condition i = Ok r (OcConstraint c) <-> constraint i = Ok r c.
Proof.
  split; intros H.
  - apply alt_inv in H. destruct H as (p & [<-|[<-|[<-|[]]]] & H); apply map_inv in H; destruct H as (y & H & X); try discriminate X. now injection X as ->.
  - apply alt_next; [apply map_fails; exact (constraint_unordered _ _ _ H)|]. apply alt_first. eapply map_ok; [exact H|reflexivity].
Qed.
Lemma constraint_having w b j r l c : kw "having" w -> blank1 b -> solid j -> having_clause (w ++ b ++ j) = Ok r (MkHavingClause (c :: l)) -> exists r', constraint j = Ok r' c.
Proof.
  intros K B S H. apply map_inv in H. destruct H as (l' & H & X). injection X as ->. apply preceded_inv in H. destruct H as (k & y & E & H).
  destruct (term_at "having" w b j eq_refl K B S) as [y' Y]. rewrite Y in E. injection E as <- <-.
  unfold separated_nonempty_list in H. fold constraint in H. change (constraint_of expression group_graph_pattern) with constraint in H.
  destruct (constraint j) as [i1 c'|e]; [|discriminate H]. destruct (str_eqb i1 j); [discriminate H|]. destruct (sep_loop _ _ _ _) as [? ?|]; [|discriminate H]. injection H as _ -> _. eauto.
Qed.
Lemma having_constraint w b j r c : kw "having" w -> blank1 b -> solid j -> constraint j = Ok r c -> nxt1 (fun x => exists p k, constraint x = Err (Error p k)) r ->
  having_clause (w ++ b ++ j) = Ok r (MkHavingClause [c]).
Proof.
  intros K B S H (b' & x & -> & B' & S' & F). destruct (term_at "having" w b j eq_refl K B S) as [y Y]. eapply map_ok; [|reflexivity]. eapply preceded_ok; [exact Y|].
  change (constraint_of expression group_graph_pattern) with constraint.
  eapply sepne_cons; [apply (gd_shrinks false IAny true); mv|eapply gd_shrinks, gd_constraint|exact H|exact (gd_moves _ _ _ _ _ _ gd_constraint H)|].
  eapply sep_back; [apply sp_ok; [exact (proj1 B')|exact S']| |exact F]. intros E. apply (f_equal (@List.length _)) in E. rewrite app_length in E.
  destruct B' as [_ N]. destruct b'; [congruence|]. cbn [List.length] in E. lia.
Qed.
