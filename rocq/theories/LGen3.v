(** Departures of quads, update sequences and sub-selects from the standard, for every text of a kind. *)
From Verif Require Import LMods LC2 LC8 LFlags3.
From Verif Require Export LGen2 LayoutThen.
Notation length := List.length (only parsing).
Open Scope N_scope.
Open Scope list_scope.

(** ** Update sequences *)
Fixpoint open_chain (ss : list UpdateStatement) : Update :=
  match ss with
  | [] => MkUpdate (MkPrologue []) None None
  | s :: ss => MkUpdate (MkPrologue []) (Some s) (Some (open_chain ss))
  end.
Lemma open_statements ss : statements (open_chain ss) = ss.
Proof. induction ss as [|s ss IH]; cbn; [reflexivity|]. now rewrite IH. Qed.
Lemma open_layout : forall ss t r, W_stmts_then ss t r -> W_update (open_chain ss) t r.
Proof.
  induction ss as [|s ss IH]; intros t r H.
  - destruct H as (-> & H & D). exists [], []. split; [reflexivity|]. split; [split; [reflexivity|exact D]|]. split; [reflexivity|exact H].
  - destruct H as (a & d & -> & H & Hd). apply then_assoc in H. 
    change (manyW (fun s => W_update_stmt s >> gap >> sym ";" >> gap) (fun r => nxt no_stmt r /\ no_decl r) ss d r) with (W_stmts_then ss d r) in Hd.
    apply IH in Hd. apply then_assoc in H. destruct H as (x & y & -> & Hx & Hy). pose proof (stmt_starts _ _ _ Hx) as [S D].
    cbn [open_chain W_update]. exists [], ((x ++ y) ++ d). split; [reflexivity|]. rewrite <- !app_assoc in *.
    split; [split; [reflexivity|exact D]|]. exists [], (x ++ y ++ d). split; [reflexivity|]. rewrite <- !app_assoc.
    split; [split; [constructor|exact S]|]. exists x, (y ++ d). split; [reflexivity|]. rewrite <- app_assoc. split; [exact Hx|].
    apply then_r3. exists y, d. auto.
Qed.
Lemma rest_dropped ss t r : W_stmts_then ss t r -> exists u, update (t ++ r) = Ok r u /\ statements u = ss.
Proof. intros H. exists (open_chain ss). split; [|apply open_statements]. apply rd_update. now apply open_layout. Qed.

(** ** Sub-selects *)
Lemma select_colon_fails w b x : kw "select" w -> blank b -> fails sub_select (w ++ b ++ 58 :: x).
Proof.
  intros W B. assert (SC : solid (58 :: x)) by now apply char_solid.
  apply map_fails, pair_fails1, map_fails. eapply pair_fails2; [now apply (tnc_ok (s_ "select"))|].
  assert (O : opt (preceded sp1 select_modifier) (b ++ 58 :: x) = Ok (b ++ 58 :: x) None).
  { apply opt_none. destruct b as [|c b]; [apply preceded_fails1, sp1_fails, SC|].
    eapply preceded_fails2; [apply (sp1_ok (c :: b) (58 :: x)); [split; [exact B|discriminate]|exact SC]|]. eexists _, _; reflexivity. }
  eapply pair_fails2; [exact O|]. destruct b as [|c b]; [apply preceded_fails1, sp1_fails, SC|].
  eapply preceded_fails2; [apply (sp1_ok (c :: b) (58 :: x)); [split; [exact B|discriminate]|exact SC]|]. eexists _, _; reflexivity.
Qed.
Lemma select_colon b w b' x r g : blank b -> kw "select" w -> blank b' ->
  group_graph_pattern (123 :: b ++ w ++ b' ++ 58 :: x) = Ok r g -> exists s, g = GgpSub s.
Proof.
  intros B W B' H. apply group_inv in H. destruct H as (b0 & j & k & E & B0 & S0 & H & b1 & -> & B1). injection E as E.
  assert (SL : solid (w ++ b' ++ 58 :: x)) by (apply (begins_solid "select"); [reflexivity|exists w, (b' ++ 58 :: x); auto]).
  assert (J : j = w ++ b' ++ 58 :: x).
  { assert (X1 : sp (b ++ w ++ b' ++ 58 :: x) = Ok (w ++ b' ++ 58 :: x) b) by now apply sp_ok.
    assert (X2 : sp (b0 ++ j) = Ok j b0) by now apply sp_ok. rewrite E in X1. congruence. }
  subst j. apply alt_inv in H. destruct H as (p & [<-|[<-|[]]] & H); apply map_inv in H; destruct H as (y & H & <-); [|eauto].
  exfalso. revert H. now apply fails_not_ok, select_colon_fails.
Qed.

(** ** Quads *)
Lemma vot_after_blank i : nxt1 (not_first 58) i -> fails var_or_term i.
Proof.
  intros (b & r & -> & [Hb N] & Hs & H). 
  assert (X : forall f, forallb (fun c => negb (f c)) [32; 9; 10; 13; 35] = true -> stops f (b ++ r)).
  { intros f Hf. destruct b as [|c b]; [congruence|]. pose proof (blank_stops f (c :: b) [] Hf Hb I) as S. rewrite app_nil_r in S. exact S. }
  unfold var_or_term. apply alt_fails_cons; [now apply map_fails, var_first, X|].
  apply alt_fails_cons; [|apply alt_fails_nil]. apply map_fails. unfold graph_term.
  apply alt_fails_cons; [apply map_fails|].
  { apply iri_fails; [apply iri_ref_fails; apply (stops_oneof [60]); [now apply X|now left]|]. apply pname_ns_fails_blank; [now apply X|assumption..]. }
  apply alt_fails_cons; [now apply map_fails, lit_first, X|].
  apply alt_fails_cons; [now apply map_fails, num_first_fails, X|].
  apply alt_fails_cons; [now apply map_fails, boolean_first, X|].
  apply alt_fails_cons; [now apply map_fails, blank_node_first, X|].
  apply alt_fails_cons; [apply map_fails, nil_first|apply alt_fails_nil].
  apply (stops_oneof [40]); [now apply X|now left].
Qed.
Lemma nxt1_stops P f i : nxt1 P i -> forallb (fun c => negb (f c)) [32; 9; 10; 13; 35] = true -> stops f i.
Proof.
  intros (b & r & -> & [Hb N] & _) Hf. destruct b as [|c b]; [congruence|]. pose proof (blank_stops f (c :: b) [] Hf Hb I) as S. rewrite app_nil_r in S. exact S.
Qed.
Lemma tss_after_blank i : nxt1 (not_first 58) i -> fails triples_same_subject i.
Proof.
  intros H. apply tss_fails; [|now apply vot_after_blank].
  apply triples_node_fails1; [apply (stops_oneof [40])|apply (stops_oneof [91])]; try (now left); now apply (nxt1_stops (not_first 58)).
Qed.
Definition W_entry_then (e : QuadsEntry) : lang := fun t r =>
  W_quads_entry e t r \/ exists q, e = MkQuadsEntry q None /\ W_quads_not_triples q t r /\ nxt1 (not_first 58) r.
Lemma rd_entry_then e : rd quads_entry e (W_entry_then e).
Proof.
  intros t r [H|(q & -> & H & N)]; [now apply rd_quads_entry|].
  apply (map_ok _ _ _ _ (q, None)); [|reflexivity]. eapply pair_ok; [now apply rd_quads_not_triples|].
  eapply (preceded_ok _ _ _ r); [apply opt_none, chr_fails; apply (stops_oneof [46]); [now apply (nxt1_stops (not_first 58))|now left]|].
  apply opt_none, template_fails. now apply tss_after_blank.
Qed.
Lemma many_then : forall es q t r, (manyW W_quads_entry (fun _ => True) es >> W_quads_not_triples q) t r -> nxt1 (not_first 58) r ->
  manyW W_entry_then (nxt1 (not_first 58)) (es ++ [MkQuadsEntry q None]) t r.
Proof.
  induction es as [|e es IH]; intros q t r (a & b & -> & Ha & Hb) N.
  - destruct Ha as [-> _]. cbn [app manyW]. exists b, []. rewrite app_nil_r. split; [reflexivity|]. split; [|split; [reflexivity|exact N]].
    right. exists q. auto.
  - destruct Ha as (c & d & -> & Hc & Hd). cbn [app manyW]. exists c, (d ++ b). split; [now rewrite app_assoc|]. split; [left; rewrite <- app_assoc; exact Hc|].
    apply IH; [|exact N]. exists d, b. auto.
Qed.
Lemma nothing_after_graph f es q t b x : W_quads_then f es q t (b ++ x) -> blank1 b -> solid x -> not_first 58 x -> not_first 125 x ->
  exists p k, quads_pattern (t ++ b ++ x) = Err (Error p k).
Proof.
  intros (a & t1 & -> & Ha & c & t2 & -> & Hc & H) B S N M. change (fails quads_pattern ((a ++ c ++ t2) ++ b ++ x)).
  assert (NX : nxt1 (not_first 58) (b ++ x)) by (exists b, x; auto).
  assert (R : rd quads (MkQuads f (es ++ [MkQuadsEntry q None])) (optW (fun f => W_template f >> gap) no_triple f >> manyW W_entry_then (nxt1 (not_first 58)) (es ++ [MkQuadsEntry q None]))).
  { unfold quads. apply (rd_map _ _ (f, es ++ [MkQuadsEntry q None])); [|reflexivity]. apply rd_pair.
    - apply rd_opt.
      + intros l. apply rd_terminated; [apply rd_template|apply rdx_sp].
      + intros r0 H0. apply terminated_fails1, template_fails. now apply no_triple_fails.
    - apply rd_many0; [exact rd_entry_then|eapply mv_gd, gd_quads_entry|].
      intros r0 H0. apply map_fails, pair_fails1, map_fails, pair_fails1. apply (kwf_fails_base "graph"); [reflexivity|]. now apply (nxt1_stops (not_first 58)). }
  assert (E : quads (t2 ++ b ++ x) = Ok (b ++ x) (MkQuads f (es ++ [MkQuadsEntry q None]))).
  { apply R. revert H. intros (u & v & -> & Hu & Hv). exists u, v. split; [reflexivity|]. split; [exact Hu|]. now apply many_then. }
  destruct (rdx_tag "{" a (c ++ t2 ++ b ++ x)) as [y Y]; [rewrite <- !app_assoc in Ha; exact Ha|].
  destruct (rdx_sp c (t2 ++ b ++ x)) as [z Z]; [exact Hc|].
  rewrite <- !app_assoc. unfold quads_pattern. eapply delimited_fails3; [eapply terminated_ok; [exact Y|exact Z]|exact E|].
  apply (terminated_fails2 _ _ _ x b); [apply sp_ok; [apply B|exact S]|]. apply tag_fails_first. exact M.
Qed.
