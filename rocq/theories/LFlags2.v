(** Select modifiers, directions, forms of CONSTRUCT, sub-selects, and lists that need a blank after them. *)
From Verif Require Export LPrint1 LFlags.
Notation length := List.length (only parsing).
Open Scope N_scope.
Open Scope list_scope.

(** ** DISTINCT and REDUCED *)
Lemma select_modifier_inv i r m : select_modifier i = Ok r m ->
  exists w, i = w ++ r /\ kw (match m with SmDistinct => "distinct" | SmReduced => "reduced" end) w.
Proof.
  intros H. apply alt_inv in H. destruct H as (p & [<-|[<-|[]]] & H); apply map_inv in H; destruct H as (w & H & <-);
    (apply tnc_kw in H; [|reflexivity]); exists w; exact H.
Qed.
Lemma select_modifier_ok i : begins "distinct" i \/ begins "reduced" i -> exists r m, select_modifier i = Ok r m.
Proof.
  intros [(w & r & -> & W)|(w & r & -> & W)].
  - exists r, SmDistinct. apply alt_first. eapply map_ok; [now apply (tnc_ok (s_ "distinct"))|reflexivity].
  - exists r, SmReduced. apply alt_next.
    + apply map_fails, kw_fails; try reflexivity. intros B. revert B. cut (begins "reduced" (w ++ r)); [|exists w, r; auto]. apply begins_differ; reflexivity.
    + apply alt_first. eapply map_ok; [now apply (tnc_ok (s_ "reduced"))|reflexivity].
Qed.
Lemma select_says i r m v : select_clause i = Ok r (MkSelectClause m v) -> exists j, after_word "select" i j /\ modifier_says m j.
Proof.
  intros H. apply map_inv in H. destruct H as ([w [m' v']] & H & E). injection E as -> ->. apply pair_inv in H. destruct H as (i1 & H1 & H).
  apply tnc_kw in H1; [|reflexivity]. destruct H1 as [-> W]. apply pair_inv in H. destruct H as (i2 & H & H2). apply opt_inv in H.
  apply preceded_inv in H2. destruct H2 as (i3 & b & H2 & _). apply sp1_iff in H2. destruct H2 as (-> & B & S). destruct m as [m|].
  - apply preceded_inv in H. destruct H as (i4 & b' & H3 & H4). apply sp1_iff in H3. destruct H3 as (-> & B' & S').
    exists i4. split; [exists w, b'; auto|]. apply select_modifier_inv in H4. destruct H4 as (w' & -> & W'). cbn [modifier_says].
    destruct m; exists w', b, i3; auto.
  - destruct H as [E F]. subst i1. exists i3. split; [exists w, b; auto|]. cbn [modifier_says].
    assert (X : begins "distinct" i3 \/ begins "reduced" i3 -> False); [|split; intros B1; apply X; auto].
    intros X. apply select_modifier_ok in X. destruct X as (r' & m & X). destruct (fails_not_ok _ _ r' m F).
    eapply preceded_ok; [now apply sp1_ok|exact X].
Qed.
(** ** Directions *)
Lemma order_inv i r o : MExpr.order i = Ok r o -> exists w, i = w ++ r /\ kw (order_word o) w.
Proof.
  intros H. apply alt_inv in H. destruct H as (p & [<-|[<-|[]]] & H); apply map_inv in H; destruct H as (w & H & <-);
    (apply tnc_kw in H; [|reflexivity]); exists w; exact H.
Qed.
Lemma order_says i r o e : order_condition i = Ok r (OcOrder (MkOrderExpression o e)) -> exists j, after_word (order_word o) i (40 :: j).
Proof.
  intros H. apply alt_inv in H. destruct H as (p & [<-|[<-|[<-|[]]]] & H); apply map_inv in H; destruct H as (x & H & E); try discriminate.
  injection E as ->. apply map_inv in H. destruct H as ([o' e'] & H & E). injection E as -> ->. apply pair_inv in H. destruct H as (i1 & H1 & H).
  apply order_inv in H1. destruct H1 as (w & -> & W). apply preceded_inv in H. destruct H as (i2 & b & H2 & H3). apply sp1_iff in H2. destruct H2 as (-> & B & S).
  apply bracketted_inv in H3. destruct H3 as (j & r1 & -> & _). exists j, w, b. auto.
Qed.
Lemma order_letters o w : kw (order_word o) w -> prefix_name w.
Proof. destruct o; apply letter_kw_prefix; reflexivity. Qed.
Lemma order_built_in o w x : kw (order_word o) w -> starts delims x -> fails built_in_call (w ++ x).
Proof. intros W S. destruct o; (eapply LC4.built_in_word; [exact W|exact S|reflexivity|reflexivity]). Qed.
Lemma order_first o w x c : kw (order_word o) w -> In c (s_ "(?$") -> not_first c (w ++ x).
Proof.
  intros W I. apply (stops_oneof (s_ "(?$")); [|exact I]. destruct o; [apply (begins_stops _ "asc")|apply (begins_stops _ "desc")]; try reflexivity; (eexists _, _; split; [reflexivity|exact W]).
Qed.
Lemma order_only o w b j : kw (order_word o) w -> blank b ->
  forall r c, order_condition (w ++ b ++ 40 :: j) = Ok r c -> exists o' e, c = OcOrder (MkOrderExpression o' e).
Proof.
  intros W B r c H. apply alt_inv in H. destruct H as (p & [<-|[<-|[<-|[]]]] & H); apply map_inv in H; destruct H as (x & H & <-).
  - destruct x as [o' e]. eauto.
  - exfalso. revert H. apply fails_not_ok. assert (S : starts delims (b ++ 40 :: j)).
    { destruct B as [|ch b' B0|bd nl b' B0 Nl B1]; [exists 40, j; cbn; auto 10|exists ch, (b' ++ 40 :: j); split; [reflexivity|cbn in *; tauto]|].
      eexists 35, _. split; [reflexivity|cbn; auto 10]. }
    apply alt_fails_cons; [apply map_fails, bracketted_first; eapply order_first; [exact W|now left]|].
    apply alt_fails_cons; [eapply map_fails, order_built_in; [exact W|exact S]|].
    apply alt_fails_cons; [|apply alt_fails_nil]. apply map_fails, function_call_iri. apply iri_fails_word; [now apply (order_letters o)|apply brk_name|exact B|apply open_solid|discriminate].
    destruct b; [reflexivity|]. apply blank1_brk. split; [exact B|discriminate].
  - exfalso. revert H. apply fails_not_ok. apply var_fails; eapply order_first; try exact W; cbn; auto.
Qed.
Lemma order_decides o w b j r c : kw (order_word o) w -> blank1 b -> order_condition (w ++ b ++ 40 :: j) = Ok r c ->
  exists e, c = OcOrder (MkOrderExpression o e).
Proof.
  intros W [B N] H. pose proof H as H'. apply (order_only o) in H'; [|assumption..]. destruct H' as (o' & e & ->). exists e.
  apply order_says in H. destruct H as (j' & w' & b' & E & W' & _).
  assert (X : begins (order_word o) (w ++ b ++ 40 :: j)) by (eexists _, _; split; [reflexivity|exact W]).
  assert (Y : begins (order_word o') (w ++ b ++ 40 :: j)) by (rewrite E; eexists _, _; split; [reflexivity|exact W']).
  destruct o, o'; try reflexivity; exfalso; revert X Y; apply begins_differ; reflexivity.
Qed.
Lemma order_glued o w j r c : kw (order_word o) w -> order_condition (w ++ 40 :: j) <> Ok r c.
Proof.
  intros W H. pose proof H as H'. apply (order_only o w [] j W) in H'; [|constructor]. destruct H' as (o' & e & ->).
  apply order_says in H. destruct H as (j' & w' & b' & E & W' & [B N] & S).
  assert (X : begins (order_word o) (w ++ 40 :: j)) by (eexists _, _; split; [reflexivity|exact W]).
  assert (Y : begins (order_word o') (w ++ 40 :: j)) by (rewrite E; eexists _, _; split; [reflexivity|exact W']).
  assert (o = o') by (destruct o, o'; try reflexivity; exfalso; revert X Y; apply begins_differ; reflexivity). subst o'.
  assert (L : length w = length w') by (unfold kw, kwd in *; rewrite <- (map_length lower w), <- (map_length lower w'); congruence).
  assert (w = w'). { apply (f_equal (firstn (length w))) in E. rewrite firstn_app, firstn_all, Nat.sub_diag in E. rewrite L, firstn_app, firstn_all, Nat.sub_diag in E. cbn [firstn] in E. now rewrite !app_nil_r in E. }
  subst w'. apply app_inv_head in E. destruct b' as [|c b']; [congruence|]. injection E as <- _. inversion B as [|? ? I|]; subst. cbn in I. clear -I. intuition discriminate.
Qed.
Lemma select_query_says i r m v d w s : sparql_query i = Ok r (SqSelect (MkSelectQuery (MkSelectClause m v) d w s)) ->
  exists j, after_word "select" i j /\ modifier_says m j.
Proof.
  intros H. apply alt_inv in H. destruct H as (p & [<-|[<-|[<-|[<-|[]]]]] & H); apply map_inv in H; destruct H as (x & H & E); try discriminate.
  injection E as ->. apply map_inv in H. destruct H as ([c y] & H & E). apply pair_inv in H. destruct H as (i1 & H & _).
  apply terminated_inv in H. destruct H as (i2 & b & H & _). destruct y as [d' [w' m']]. injection E as -> _ _ _. eapply select_says, H.
Qed.
Lemma sub_select_modifier i r m v w s x : sub_select i = Ok r (MkSubSelect (MkSelectClause m v) w s x) ->
  exists j, after_word "select" i j /\ modifier_says m j.
Proof.
  intros H. apply map_inv in H. destruct H as ([c y] & H & E). apply pair_inv in H. destruct H as (i1 & H & _).
  destruct y as [d' [w' m']]. injection E as -> _ _ _. eapply select_says, H.
Qed.
