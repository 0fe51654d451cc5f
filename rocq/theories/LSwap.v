(** Clauses that differ in a keyword only, and named expressions, are read alike. *)
From Verif Require Import LMods LC8.
From Verif Require Export LForms LPlace LSub.
From Verif Require Import Nom.
Notation length := List.length (only parsing).
Open Scope N_scope.
Open Scope list_scope.

(** the words of the modifiers of SELECT *)
Definition modifier_word (m : SelectModifier) : string := match m with SmDistinct => "distinct" | SmReduced => "reduced" end.
Lemma modifier_at m w j : kw (modifier_word m) w -> select_modifier (w ++ j) = Ok j m.
Proof.
  intros K. unfold select_modifier. destruct m.
  - apply alt_first. eapply map_ok; [apply tnc_ok; [reflexivity|exact K]|reflexivity].
  - skip K. eapply map_ok; [apply tnc_ok; [reflexivity|exact K]|reflexivity].
Qed.
Lemma modifier_solid m w j : kw (modifier_word m) w -> solid (w ++ j).
Proof. intros K. apply (begins_solid (modifier_word m)); [now destruct m|exists w, j; auto]. Qed.
(** what follows SELECT and a modifier *)
Lemma modified_at m w b w1 b1 j r v : kw "select" w -> blank1 b -> kw (modifier_word m) w1 -> blank1 b1 -> solid j ->
  (select_clause (w ++ b ++ w1 ++ b1 ++ j) = Ok r (MkSelectClause (Some m) v) <-> select_vars_of expression j = Ok r v).
Proof.
  intros K B K1 B1 S. assert (E1 : tag_no_case (s_ "select") (w ++ b ++ w1 ++ b1 ++ j) = Ok (b ++ w1 ++ b1 ++ j) w) by (apply tnc_ok; [reflexivity|exact K]).
  assert (E2 : opt (preceded sp1 select_modifier) (b ++ w1 ++ b1 ++ j) = Ok (b1 ++ j) (Some m)).
  { apply opt_some. eapply preceded_ok; [apply sp1_ok; [exact B|now apply (modifier_solid m)]|now apply modifier_at]. }
  unfold select_clause, select_clause_of. split; intros H.
  - apply map_inv in H. destruct H as ((y & m' & v') & H & X). injection X as -> ->. apply pair_inv in H. destruct H as (i & H1 & H). rewrite E1 in H1. injection H1 as <- <-.
    apply pair_inv in H. destruct H as (i & H1 & H). rewrite E2 in H1. injection H1 as <-. apply preceded_inv in H. destruct H as (i & z & H1 & H).
    rewrite (sp1_ok b1 _ B1 S) in H1. now injection H1 as <- <-.
  - eapply (map_ok _ _ _ _ (w, (Some m, v))); [|reflexivity]. eapply pair_ok; [exact E1|]. eapply pair_ok; [exact E2|]. eapply preceded_ok; [now apply sp1_ok|exact H].
Qed.
Theorem modifiers_alike m m' w b w1 b1 w' b' w1' b1' j r v : kw "select" w -> blank1 b -> kw (modifier_word m) w1 -> blank1 b1 ->
  kw "select" w' -> blank1 b' -> kw (modifier_word m') w1' -> blank1 b1' -> solid j ->
  (select_clause (w ++ b ++ w1 ++ b1 ++ j) = Ok r (MkSelectClause (Some m) v) <-> select_clause (w' ++ b' ++ w1' ++ b1' ++ j) = Ok r (MkSelectClause (Some m') v)).
Proof. intros. rewrite modified_at by auto. now rewrite modified_at by auto. Qed.

(** the items of SELECT start with none of the letters of a modifier *)
Lemma vars_off m j r v : select_vars_of expression j = Ok r v -> fails (tag_no_case (s_ (modifier_word m))) j.
Proof.
  intros H. destruct j as [|c j]; [destruct m; apply tnc_fails_nil|]. destruct (oneof (s_ "*?$(") c) eqn:O.
  - assert (X : c = 42 \/ c = 63 \/ c = 36 \/ c = 40).
    { cbn in O. repeat (apply orb_true_iff in O; destruct O as [O|O]; [apply N.eqb_eq in O; subst; auto|]). discriminate O. }
    destruct m; (apply tnc_fails_first; [reflexivity|]); destruct X as [->|[->|[->| ->]]]; cbn; discriminate.
  - exfalso. revert H. apply fails_not_ok. assert (S : stops (oneof (s_ "*?$(")) (c :: j)) by exact O.
    apply alt_fails_cons; [|apply alt_fails_cons; [|apply alt_fails_nil]].
    + apply map_fails, chr_mark_fails. apply (stops_oneof _ _ _ S). cbn. auto.
    + apply map_fails, many1_fails. apply alt_fails_cons; [|apply alt_fails_cons; [|apply alt_fails_nil]]; apply map_fails.
      * apply var_first. unfold stops. destruct (oneof (s_ "?$") c) eqn:Q; [|reflexivity]. exfalso. cbn in Q.
        repeat (apply orb_true_iff in Q; destruct Q as [Q|Q]; [apply N.eqb_eq in Q; subst; discriminate O|]). discriminate Q.
      * apply delimited_fails1, chr_mark_fails. apply (stops_oneof _ _ _ S). cbn. auto.
Qed.
Lemma modifier_off j r v : select_vars_of expression j = Ok r v -> fails select_modifier j.
Proof.
  intros V. unfold select_modifier. apply alt_fails_cons; [|apply alt_fails_cons; [|apply alt_fails_nil]]; apply map_fails; [apply (vars_off SmDistinct _ _ _ V)|apply (vars_off SmReduced _ _ _ V)].
Qed.
(** a modifier takes nothing away from what follows SELECT *)
Theorem modifier_idle m w b w1 b1 w' b' j r v : kw "select" w -> blank1 b -> kw (modifier_word m) w1 -> blank1 b1 ->
  kw "select" w' -> blank1 b' -> solid j ->
  select_clause (w ++ b ++ w1 ++ b1 ++ j) = Ok r (MkSelectClause (Some m) v) -> select_clause (w' ++ b' ++ j) = Ok r (MkSelectClause None v).
Proof.
  intros K B K1 B1 K' B' S H. apply modified_at in H; auto.
  pose proof (modifier_off _ _ _ H) as F.
  assert (E1 : tag_no_case (s_ "select") (w' ++ b' ++ j) = Ok (b' ++ j) w') by (apply tnc_ok; [reflexivity|exact K']).
  eapply (map_ok _ _ _ _ (w', (None, v))); [|reflexivity]. eapply pair_ok; [exact E1|]. eapply pair_ok.
  - apply opt_none. eapply preceded_fails2; [now apply sp1_ok|exact F].
  - eapply preceded_ok; [now apply sp1_ok|exact H].
Qed.

(** FROM and USING *)
Theorem from_using w b w' b' j r d : kw "from" w -> blank1 b -> kw "using" w' -> blank1 b' -> solid j ->
  (data_set_clause (w ++ b ++ j) = Ok r d <-> using_clause (w' ++ b' ++ j) = Ok r d).
Proof. intros. unfold data_set_clause, using_clause. rewrite (tag1_at "from") by auto. now rewrite (tag1_at "using") by auto. Qed.

(** ASC and DESC *)
Theorem orders_alike o o' w b w' b' j r e : kw (order_word o) w -> blank1 b -> kw (order_word o') w' -> blank1 b' -> solid j ->
  (order_condition (w ++ b ++ j) = Ok r (OcOrder (MkOrderExpression o e)) <-> order_condition (w' ++ b' ++ j) = Ok r (OcOrder (MkOrderExpression o' e))).
Proof. intros. rewrite bracket_order by auto. now rewrite bracket_order by auto. Qed.

(** LIMIT and OFFSET *)
Lemma int_at k w b j r n : low_ascii (s_ k) = true -> kw k w -> blank b -> solid j ->
  (int_clause (tag_no_case (s_ k)) (w ++ b ++ j) = Ok r n <-> map_res (take_while1 (fun c => is_digit (as_u8 c))) parse_u64 j = Ok r n).
Proof.
  intros L K B S. assert (E : terminated (tag_no_case (s_ k)) sp (w ++ b ++ j) = Ok j w) by (eapply terminated_ok; [now apply tnc_ok|now apply sp_ok]).
  unfold int_clause, map_res, preceded. unfold map at 1. unfold pair at 1. rewrite E. destruct (take_while1 _ j) as [i a|e]; [|split; intros H; discriminate H]. cbn [snd].
  destruct (parse_u64 a); [tauto|split; intros H; discriminate H].
Qed.
Theorem limit_offset w b w' b' j r n : kw "limit" w -> blank b -> kw "offset" w' -> blank b' -> solid j ->
  (limit_clause (w ++ b ++ j) = Ok r n <-> offset_clause (w' ++ b' ++ j) = Ok r n).
Proof. intros. unfold limit_clause, offset_clause. rewrite (int_at "limit") by auto. now rewrite (int_at "offset") by auto. Qed.
(** ... and as the only clause of the kind *)
Theorem limit_offset_alone w b w' b' j r n : kw "limit" w -> blank b -> kw "offset" w' -> blank b' -> solid j -> ~ begins "limit" r -> ~ begins "offset" r ->
  (limit_offset_clause (w ++ b ++ j) = Ok r (LimitOffset n None) <-> limit_offset_clause (w' ++ b' ++ j) = Ok r (OffsetLimit n None)).
Proof.
  intros K B K' B' S L O. assert (FL : fails limit_clause r) by (apply map_res_fails1, preceded_fails1, terminated_fails1; now apply (kw_fails "limit")).
  assert (FO : fails offset_clause r) by (apply map_res_fails1, preceded_fails1, terminated_fails1; now apply (kw_fails "offset")).
  split; intros H; apply alt_inv in H; destruct H as (p & I & H); cbn [In] in I; destruct I as [<-|[<-|[]]]; apply map_inv in H; destruct H as ((x & o) & H & X); try discriminate X;
    injection X as -> ->; apply pair_inv in H; destruct H as (i1 & H1 & H); apply preceded_inv in H; destruct H as (i2 & y & H2 & H); apply opt_inv in H; destruct H as [-> _].
  - apply alt_next; [apply map_fails, pair_fails1, map_res_fails1, preceded_fails1, terminated_fails1; apply (off "limit" "offset"); auto|].
    eapply (map_ok _ _ _ _ (n, None)); [|reflexivity]. eapply pair_ok; [apply (limit_offset w b w' b' j _ _ K B K' B' S); exact H1|]. eapply preceded_ok; [exact H2|now apply opt_none].
  - apply alt_first. eapply (map_ok _ _ _ _ (n, None)); [|reflexivity]. eapply pair_ok; [apply (limit_offset w b w' b' j _ _ K B K' B' S); exact H1|]. eapply preceded_ok; [exact H2|now apply opt_none].
Qed.

(** ** Named expressions *)

(** BIND *)
Lemma bind_at w b j r n : kw "bind" w -> blank1 b -> solid j -> (graph_pattern_not_triples (w ++ b ++ j) = Ok r (GpBind n) <-> expression_as_var j = Ok r n).
Proof.
  intros K B S. split; intros H.
  - apply alt_inv in H. destruct H as (p & [<-|[<-|[<-|[<-|[<-|[<-|[<-|[<-|[]]]]]]]]] & H); apply map_inv in H; destruct H as (z & H & X); try discriminate X.
    injection X as ->. unfold bind_of in H. now rewrite (tag1_at "bind") in H by auto.
  - apply alt_next; [now apply map_fails, map_fails, sepne_fails, (brace_not "bind")|]. do 5 (nx K). apply alt_first. eapply map_ok; [|reflexivity].
    unfold bind_of. now rewrite (tag1_at "bind") by auto.
Qed.
(** an item of SELECT *)
Lemma item_at w b j r n : kw "select" w -> blank1 b -> solid j -> stops (oneof (s_ "?$(")) r ->
  (select_clause (w ++ b ++ j) = Ok r (MkSelectClause None (SvList [VoeExpressionAsVar n])) <-> expression_as_var j = Ok r n).
Proof.
  intros K B S R. assert (E1 : tag_no_case (s_ "select") (w ++ b ++ j) = Ok (b ++ j) w) by (apply tnc_ok; [reflexivity|exact K]).
  assert (SH : shrinks (var_or_expression_as_var_of expression)) by (apply (gd_shrinks true IOpen true); mv).
  split; intros H.
  - apply map_inv in H. destruct H as ((y & m & v) & H & X). injection X as -> ->. apply pair_inv in H. destruct H as (i & H1 & H). rewrite E1 in H1. injection H1 as <- <-.
    apply pair_inv in H. destruct H as (i & H1 & H). apply opt_inv in H1. destruct H1 as [-> _]. apply preceded_inv in H. destruct H as (i & z & H1 & H).
    rewrite (sp1_ok b _ B S) in H1. injection H1 as <- <-. apply alt_inv in H. destruct H as (p & [<-|[<-|[]]] & H); apply map_inv in H; destruct H as (l & H & X); [discriminate X|].
    injection X as ->. apply (many1_iff _ _ _ _ SH) in H. destruct H as (i & a & l & H & M & X). injection X as <- <-. inversion M; subst.
    apply alt_inv in H. destruct H as (p & [<-|[<-|[]]] & H); apply map_inv in H; destruct H as (x & H & X); [discriminate X|]. now injection X as ->.
  - assert (V : select_vars_of expression j = Ok r (SvList [VoeExpressionAsVar n])).
    { pose proof H as F. apply delimited_inv in F. destruct F as (i1 & i2 & c1 & c2 & F & _). apply chr_inv in F. destruct F as [F _].
      apply alt_next; [apply map_fails, chr_mark_fails; rewrite F; discriminate|]. eapply map_ok; [|reflexivity]. apply (many1_iff _ _ _ _ SH). exists r, (VoeExpressionAsVar n), [].
      split; [|split; [|reflexivity]].
      - apply alt_next; [apply map_fails, var_first; rewrite F; reflexivity|]. eapply map_ok; [exact H|reflexivity].
      - apply many_stop. apply alt_fails_cons; [|apply alt_fails_cons; [|apply alt_fails_nil]]; apply map_fails.
        + apply var_first. destruct r as [|c r]; [exact I|]. cbn in *. unfold oneof in *. cbn in *. apply orb_false_iff in R. destruct R as [-> R]. apply orb_false_iff in R. now destruct R as [-> _].
        + apply delimited_fails1, chr_mark_fails. apply (stops_oneof _ _ _ R). cbn. auto. }
    eapply (map_ok _ _ _ _ (w, (None, SvList [VoeExpressionAsVar n]))); [|reflexivity]. eapply pair_ok; [exact E1|]. eapply pair_ok.
    + apply opt_none. eapply preceded_fails2; [now apply sp1_ok|exact (modifier_off _ _ _ V)].
    + eapply preceded_ok; [now apply sp1_ok|exact V].
Qed.
Theorem bind_item w b w' b' j r n : kw "bind" w -> blank1 b -> kw "select" w' -> blank1 b' -> solid j -> stops (oneof (s_ "?$(")) r ->
  (graph_pattern_not_triples (w ++ b ++ j) = Ok r (GpBind n) <-> select_clause (w' ++ b' ++ j) = Ok r (MkSelectClause None (SvList [VoeExpressionAsVar n]))).
Proof. intros. rewrite bind_at by auto. now rewrite item_at by auto. Qed.

(** a named group condition is a named expression *)
Lemma group_named j r e v : group_condition j = Ok r (GcExpressionAsVarOpt (MkExpressionAsVarOpt e (Some v))) -> expression_as_var j = Ok r (MkExpressionAsVar e v).
Proof.
  intros H. apply alt_inv in H. destruct H as (p & I & H). cbn [In] in I. destruct I as [<-|[<-|[<-|[<-|[]]]]]; apply map_inv in H; destruct H as (x & H & X); try discriminate X.
  injection X as ->. apply delimited_inv in H. destruct H as (i1 & i2 & c1 & c2 & H1 & H & H2). apply delimited_inv in H. destruct H as (i3 & i4 & c3 & c4 & H3 & H & H4).
  apply map_inv in H. destruct H as ((e' & o) & H & X). injection X as -> ->. apply pair_inv in H. destruct H as (i5 & H5 & H). apply opt_inv in H.
  apply preceded_inv in H. destruct H as (i6 & y & H6 & H). apply delimited_inv in H6. destruct H6 as (i7 & i8 & c5 & c6 & H6 & H7 & H8).
  eapply delimited_ok; [exact H1| |exact H2]. eapply delimited_ok; [exact H3| |exact H4]. eapply (map_ok _ _ _ _ (e, v)); [|reflexivity].
  eapply pair_ok; [exact H5|]. eapply preceded_ok; [|exact H]. eapply delimited_ok; [exact (sp1_sp _ _ _ H6)|exact H7|exact (sp1_sp _ _ _ H8)].
Qed.
Theorem group_bind j r e v w b : group_condition j = Ok r (GcExpressionAsVarOpt (MkExpressionAsVarOpt e (Some v))) -> kw "bind" w -> blank1 b ->
  graph_pattern_not_triples (w ++ b ++ j) = Ok r (GpBind (MkExpressionAsVar e v)).
Proof.
  intros H K B. apply group_named in H. apply bind_at; auto. apply delimited_inv in H. destruct H as (i1 & i2 & c1 & c2 & F & _). apply chr_inv in F. destruct F as [-> _]. now apply char_solid.
Qed.
