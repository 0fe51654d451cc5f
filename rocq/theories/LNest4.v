(** Texts with matching brackets that have no strings, comments, IRIs or backslashes: a stack is enough to check them, and there are as many closing as opening brackets of each kind. *)
From Verif Require Export LNest3.
From Verif Require Import LSound MUpdate.
From Verif Require Import Nom.
Notation length := List.length (only parsing).
Open Scope N_scope.
Open Scope list_scope.

Lemma bare_app u v : bare (u ++ v) -> bare u /\ bare v.
Proof. intros H. split; intros c Hc; apply H, in_or_app; auto. Qed.
Lemma bare_tl c v : bare (c :: v) -> bare v.
Proof. intros H d Hd. apply H. now right. Qed.
Ltac not_bare H := exfalso; eapply H; [left; reflexivity|]; cbn; tauto.

Lemma nested_matching t : nested t -> bare t -> forall st x, matching st (t ++ x) = matching st x.
Proof.
  induction 1 as [|o c u v Hoc Hu IHu Hv IHv|q u v Hq Hu Hv IHv|u c v Hu Hu' Hc Hv IHv|u v Hu Hv IHv|c v Hc Hv IHv|c v Hc Hv IHv]; intros Hb st x.
  - reflexivity.
  - pose proof (bare_tl _ _ Hb) as Hb'. apply bare_app in Hb' as [H1 H2]. apply bare_tl in H2.
    cbn [In] in Hoc. destruct Hoc as [E|[E|[E|[]]]]; injection E as <- <-; cbn [app matching N.eqb Pos.eqb]; rewrite <- app_assoc, (IHu H1); cbn [app matching N.eqb Pos.eqb orb andb]; apply (IHv H2).
  - destruct Hq as [-> | ->]; not_bare Hb.
  - not_bare Hb.
  - not_bare Hb.
  - not_bare Hb.
  - pose proof (bare_tl _ _ Hb) as Hb'. cbn [app matching].
    assert (F : forall k, In k (s_ "()[]{}""'#\") -> (c =? k) = false). { intros k Hk. apply N.eqb_neq. intros ->. contradiction. }
    rewrite !F by (cbn; tauto). cbn [orb]. apply (IHv Hb').
Qed.
Lemma nested_matches t : nested t -> bare t -> matching [] t = true.
Proof. intros H Hb. pose proof (nested_matching t H Hb [] []) as E. rewrite app_nil_r in E. exact E. Qed.

Lemma occurs_app c u v : occurs c (u ++ v) = (occurs c u + occurs c v)%nat.
Proof. unfold occurs. rewrite filter_app, app_length. reflexivity. Qed.
Lemma occurs_cons c d v : occurs c (d :: v) = ((if (c =? d)%N then 1 else 0) + occurs c v)%nat.
Proof. unfold occurs. cbn [List.filter]. destruct (c =? d); reflexivity. Qed.
Definition bracket_pair (o c : char) : Prop := In (o, c) [(40, 41); (91, 93); (123, 125)].
Lemma nested_occurs t : nested t -> bare t -> forall o c, bracket_pair o c -> occurs o t = occurs c t.
Proof.
  induction 1 as [|o c u v Hoc Hu IHu Hv IHv|q u v Hq Hu Hv IHv|u c v Hu Hu' Hc Hv IHv|u v Hu Hv IHv|c v Hc Hv IHv|c v Hc Hv IHv]; intros Hb p d Hpd.
  - reflexivity.
  - pose proof (bare_tl _ _ Hb) as Hb'. apply bare_app in Hb' as [H1 H2]. apply bare_tl in H2.
    rewrite !occurs_cons, !occurs_app, !occurs_cons, (IHu H1 _ _ Hpd), (IHv H2 _ _ Hpd).
    cbn [In] in Hoc. unfold bracket_pair in Hpd. cbn [In] in Hpd.
    destruct Hoc as [E|[E|[E|[]]]]; injection E as <- <-; destruct Hpd as [E|[E|[E|[]]]]; injection E as <- <-; cbn [N.eqb Pos.eqb]; Lia.lia.
  - destruct Hq as [-> | ->]; not_bare Hb.
  - not_bare Hb.
  - not_bare Hb.
  - not_bare Hb.
  - pose proof (bare_tl _ _ Hb) as Hb'. rewrite !occurs_cons, (IHv Hb' _ _ Hpd).
    assert (F : forall k, In k (s_ "()[]{}""'#\") -> (k =? c) = false). { intros k Hk. apply N.eqb_neq. intros ->. contradiction. }
    unfold bracket_pair in Hpd. cbn [In] in Hpd. destruct Hpd as [E|[E|[E|[]]]]; injection E as <- <-; rewrite !F by (cbn; tauto); reflexivity.
Qed.

(** Everything that was read, and texts that were read to the end *)
Lemma query_nested i r q : sparql_query_stmt i = Ok r q -> exists t, i = t ++ r /\ nested t.
Proof. intros H. exact (bal_query_stmt _ _ _ H). Qed.
Lemma update_nested i r u : update i = Ok r u -> exists t, i = t ++ r /\ nested t.
Proof. intros H. exact (bal_update _ _ _ H). Qed.
Lemma group_nested i r g : group_graph_pattern i = Ok r g -> exists t, i = t ++ r /\ nested t.
Proof. intros H. exact (bal_group _ _ _ H). Qed.
Lemma expression_nested i r e : expression i = Ok r e -> exists t, i = t ++ r /\ nested t.
Proof. intros H. exact (bal_expression _ _ _ H). Qed.

Lemma query_matching i q : bare i -> sparql_query_stmt i = Ok [] q -> matching [] i = true.
Proof. intros Hb H. apply query_nested in H as (t & -> & H). rewrite app_nil_r in *. now apply nested_matches. Qed.
Lemma update_matching i u : bare i -> update i = Ok [] u -> matching [] i = true.
Proof. intros Hb H. apply update_nested in H as (t & -> & H). rewrite app_nil_r in *. now apply nested_matches. Qed.
Lemma query_occurs i r q : sparql_query_stmt i = Ok r q -> exists t, i = t ++ r /\ (bare t -> forall o c, In (o, c) [(40, 41); (91, 93); (123, 125)] -> occurs o t = occurs c t).
Proof. intros H. apply query_nested in H as (t & -> & H). exists t. split; [reflexivity|]. intros Hb o c. now apply nested_occurs. Qed.
Lemma update_occurs i r q : update i = Ok r q -> exists t, i = t ++ r /\ (bare t -> forall o c, In (o, c) [(40, 41); (91, 93); (123, 125)] -> occurs o t = occurs c t).
Proof. intros H. apply update_nested in H as (t & -> & H). exists t. split; [reflexivity|]. intros Hb o c. now apply nested_occurs. Qed.

(** A test for [bare] *)
Lemma bare_test t : forallb (fun c => negb (existsb (N.eqb c) (s_ """'#\<"))) t = true -> bare t.
Proof.
  intros H c Hc Hi. rewrite forallb_forall in H. specialize (H c Hc). apply Bool.negb_true_iff in H.
  assert (X : existsb (N.eqb c) (s_ """'#\<") = true). { apply existsb_exists. exists c. split; [exact Hi|]. apply N.eqb_refl. }
  congruence.
Qed.
