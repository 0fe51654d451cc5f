(** Printed queries. *)
From Verif Require Import LC8 LMods.
From Verif Require Export LPrint5.
Notation length := List.length (only parsing).
Open Scope N_scope.
Open Scope list_scope.

Lemma stage_before {Bk : blanks} k (P L : lang) u t r : P u (t ++ r) -> stage Bk false k L t r -> stage Bk false k (P >> L) (u ++ t) r.
Proof.
  intros H (v & E & HL). cbn [pend app] in E. exists (u ++ v). split; [cbn [pend app]; now rewrite E, app_assoc|].
  apply then_app; [|exact HL]. rewrite app_assoc, <- E. exact H.
Qed.
Lemma stage_before2 {Bk : blanks} k (P Q L : lang) u t r : (P >> Q) u (t ++ r) -> stage Bk false k L t r -> stage Bk false k (P >> Q >> L) (u ++ t) r.
Proof.
  intros H HL. pose proof (stage_before k (P >> Q) L u t r H HL) as (v & E & X). exists v. split; [exact E|]. apply then_assoc. exact X.
Qed.
Lemma no_iri_nil : no_iri [].
Proof. apply no_iri_fails. do 2 eexists. vm_compute. reflexivity. Qed.

Section Words.
  Context (w : string -> str) (Hw : casing w) (Bk : blanks) (n : nat).
  Notation w_word := (w_word w Hw). Notation w_tame := (w_tame w Hw). Notation w_kw := (w_kw w Hw). Notation w_solid := (w_solid w Hw).
  Let PE := pr_expression w Bk n. Let PG := pr_ggp w Bk n.
  Let HE := proj1 (knot_text w Hw Bk n).
  Let HT := proj1 (proj2 (knot_text w Hw Bk n)).
  Let HD := proj1 (proj2 (proj2 (knot_text w Hw Bk n))).
  Let HG := proj1 (proj2 (proj2 (proj2 (knot_text w Hw Bk n)))).
  Let HB := proj2 (proj2 (proj2 (proj2 (knot_text w Hw Bk n)))).
  Lemma mods_text m r : wfm n m -> mfol r -> stage Bk false (keeps m) (W_mods m) (prm w Bk n m) r.
  Proof. exact (W_mods_text w Hw Bk _ _ _ _ _ _ _ HE HT HD HG HB m r). Qed.
  Lemma mods_first (P : str -> Prop) m r : wfm n m ->
    (forall k x, In k ["group"; "having"; "order"; "limit"; "offset"]%string -> solid x -> not_first 58 x -> P (w k ++ Bk ++ x)) ->
    P r -> P (prm w Bk n m ++ r).
  Proof.
    intros H HP Hr. destruct m as [ob gb h lo]. destruct H as (Ho & Hg & Hh & Hl). unfold prm. cbn [pr_mods]. rewrite !ended_app, !ended_opt.
    destruct gb as [[l]|].
    { cbn [may_ pr_group]. rewrite <- !app_assoc. apply HP; [clear; cbn; tauto|now apply w_solid|now apply (w_not_colon w Hw)]. }
    destruct h as [[l]|].
    { cbn [may_ pr_having some_ app] in *. destruct Hh as (Hh1 & Hh2 & Hh3). rewrite spaced_joined by assumption. rewrite <- !app_assoc.
      apply HP; [clear; cbn; tauto|apply tame_solid; apply (joined_tame _ _ Bk l Hh1 Hh2); apply (constraint_tame w Hw)|].
      apply (having_not_colon w Hw Bk _ _ _ _ _ l _ Hh2 Hh1 Hh3). }
    destruct ob as [[l]|].
    { cbn [may_ pr_order]. rewrite <- !app_assoc. apply HP; [clear; cbn; tauto|now apply w_solid|now apply (w_not_colon w Hw)]. }
    destruct lo as [lo|]; [|exact Hr]. cbn [may_ app].
    assert (X : exists k m t, (k = "limit" \/ k = "offset")%string /\ (pr_limit_offset w Bk lo ++ Bk) ++ r = w k ++ Bk ++ dec m ++ t).
    { destruct lo as [l [o|]|o [l|]]; cbn [pr_limit_offset may_]; unfold pr_num_of; rewrite <- ?app_assoc;
        eexists _, _, _; (split; [|reflexivity]); auto. }
    destruct X as (k & m & t & Hk & ->).
    apply HP; [destruct Hk as [-> | ->]; clear; cbn; tauto|eapply starts_solid|eapply starts_not]; try apply dec_starts; reflexivity.
  Qed.
  Lemma mods_ok m r : wfm n m -> mfol r -> solid (prm w Bk n m ++ r).
  Proof.
    intros H F. apply mods_first; [assumption| |apply F]. intros k x Hk _ _. cbn in Hk. 
    destruct Hk as [<-|[<-|[<-|[<-|[<-|[]]]]]]; now apply w_solid.
  Qed.
  Lemma where_mods g m r : wf_ggp n g -> wfm n m -> mfol r ->
    stage Bk false (keeps m) (W_where W_ggp g >> gap >> W_mods m) (prw w Bk n g ++ prm w Bk n m) r.
  Proof.
    intros Hg Hm F. unfold prw. rewrite <- app_assoc. apply stage_before.
    - apply (W_where_text w Hw Bk _ _ _ HG HB). exact Hg.
    - apply stage_before; [|now apply mods_text]. apply gap_sp. now apply mods_ok.
  Qed.
  Lemma where_word g t : exists x, prw w Bk n g ++ t = w "where" ++ Bk ++ x.
  Proof. unfold prw, pr_where. rewrite <- !app_assoc. eexists. reflexivity. Qed.
  Lemma datasets_text d (L : lang) k t r : Forall wf_don d -> solid (t ++ r) -> ~ begins "from" (t ++ r) -> stage Bk false k L t r ->
    stage Bk false k (W_datasets d >> gap >> L) (pr_datasets w Bk d ++ t) r.
  Proof. intros H S N HL. apply stage_before2; [|exact HL]. now apply (W_datasets_text w Hw). Qed.
  Lemma datasets_solid d r : solid r -> solid (pr_datasets w Bk d ++ r).
  Proof. intros S. apply datasets_first; [|assumption]. intros t. now apply w_solid. Qed.
  Lemma body_text d g m r : Forall wf_don d -> wf_ggp n g -> wfm n m -> mfol r ->
    stage Bk false (keeps m) (W_datasets d >> gap >> W_where W_ggp g >> gap >> W_mods m) (pr_datasets w Bk d ++ prw w Bk n g ++ prm w Bk n m) r /\
    solid ((pr_datasets w Bk d ++ prw w Bk n g ++ prm w Bk n m) ++ r).
  Proof.
    intros Hd Hg Hm F. rewrite <- !app_assoc. destruct (where_word g (prm w Bk n m ++ r)) as [x Ex]. split.
    - apply datasets_text; [assumption| | |now apply where_mods]; rewrite <- app_assoc, Ex; [now apply w_solid|now apply (w_nb w Hw)].
    - apply datasets_solid. rewrite Ex. now apply w_solid.
  Qed.
  Lemma W_query_text q r : wf_query n q -> mfol r -> (r = [] \/ exists d, r = pr_values w Bk d) ->
    stage Bk false (keeps (mods_of q)) (W_query q) (pr_query w Bk n q) r.
  Proof.
    intros H F R. destruct q as [[d g m]|[s d g m]|[d v g m]|[[[t] d g m]|[d t m]]]; cbn [wf_query W_query pr_query mods_of W_ask_query W_select_query
      W_describe_query W_construct_query W_sub_construct W_sub_triples] in *.
    - destruct H as (Hd & Hg & Hm). destruct (body_text d g m r Hd Hg Hm F) as [B S].
      apply stage_before; [now apply w_word|]. apply stage_before; [now apply gap1_sp|exact B].
    - destruct H as (Hs & Hd & Hg & Hm). destruct (body_text d g m r Hd Hg Hm F) as [B S].
      apply stage_before; [rewrite <- !app_assoc; apply (W_select_text w Hw Bk _ _ _ _ HE HT); exact Hs|]. apply stage_before; [now apply gap1_sp|exact B].
    - destruct H as (Hv & Hn & Hd & Hg & Hm).
      set (tw := may_ (prw w Bk n) g ++ prm w Bk n m).
      assert (TW : forall P : str -> Prop, (forall k x, In k ["where"; "group"; "having"; "order"; "limit"; "offset"]%string -> solid x -> not_first 58 x ->
        P (w k ++ Bk ++ x)) -> P r -> P (tw ++ r)).
      { intros P HP Hr. subst tw. destruct g as [g|]; cbn [may_ app some_] in *.
        - unfold prw, pr_where. rewrite <- !app_assoc. destruct (HB g Hg) as [y Ey]. rewrite Ey.
          apply HP; [clear; cbn; tauto|now apply char_solid|discriminate].
        - apply mods_first; [assumption| |assumption]. intros k x Hk. apply HP. now right. }
      assert (SW : stage Bk false (keeps m) (optW (fun w0 => W_where W_ggp w0 >> gap) (fun r => ~ begins "where" r /\ not_first 123 r) g >> W_mods m) tw r).
      { subst tw. destruct g as [g|]; cbn [may_ app optW some_] in *.
        - unfold prw. apply stage_before; [|now apply mods_text]. apply then_app; [apply (W_where_text w Hw Bk _ _ _ HG HB); exact Hg|].
          apply gap_sp. now apply mods_ok.
        - apply (stage_before _ _ _ [] _ _); [|now apply mods_text]. split; [reflexivity|]. cbn [app].
          apply (mods_first (fun r => ~ begins "where" r /\ not_first 123 r)); [assumption| |].
          + intros k x Hk _ _. cbn in Hk. destruct Hk as [<-|[<-|[<-|[<-|[<-|[]]]]]]; (split; [now apply (w_nb w Hw)|]);
              match goal with |- not_first 123 (w ?k ++ _) => destruct (w_starts w Hw k eq_refl) as (c & y & -> & Hc) end;
              cbn in Hc |- *; lia.
          + destruct R as [->|[d' ->]].
            * split; [intros (x & y & Exy & K); destruct x; unfold kw in K; cbn in *; discriminate|exact I].
            * unfold pr_values. split; [now apply (w_nb w Hw)|]. destruct (w_starts w Hw "values" eq_refl) as (c & y & -> & Hc). cbn in Hc |- *. lia. }
      clearbody tw. set (tb := pr_datasets w Bk d ++ tw).
      assert (SB : stage Bk false (keeps m) (W_datasets d >> gap >>
        optW (fun w0 => W_where W_ggp w0 >> gap) (fun r => ~ begins "where" r /\ not_first 123 r) g >> W_mods m) tb r).
      { apply datasets_text; [assumption| | |exact SW]; apply TW; try (apply F).
        - intros k x Hk _ _. cbn in Hk. destruct Hk as [<-|[<-|[<-|[<-|[<-|[<-|[]]]]]]]; now apply w_solid.
        - intros k x Hk _ _. cbn in Hk. destruct Hk as [<-|[<-|[<-|[<-|[<-|[<-|[]]]]]]]; now apply (w_nb w Hw).
        - destruct R as [->|[d' ->]]; [intros (x & y & Exy & K); destruct x; unfold kw in K; cbn in *; discriminate|].
          now apply (w_nb w Hw). }
      assert (NW : forall k x, letter_word k = true -> solid x -> not_first 58 x -> no_target (w k ++ Bk ++ x)).
      { intros k x Hk Sx Cx. assert (WL : word_like k = true) by now apply andb_true_iff in Hk.
        split; [|split]; [now apply (w_not_char w Hw)..|now rewrite <- ?app_assoc; apply (w_plain w Hw)]. }
      assert (NT : no_target (tb ++ r) /\ solid (tb ++ r)).
      { subst tb. rewrite <- app_assoc. split.
        - destruct d as [|d l].
          + change (no_target (tw ++ r)). apply TW.
            * intros k x Hk. cbn in Hk. destruct Hk as [<-|[<-|[<-|[<-|[<-|[<-|[]]]]]]]; now apply NW.
            * destruct R as [->|[d' ->]]; [split; [exact I|split; [exact I|apply no_iri_nil]]|].
              unfold pr_values. apply NW; [reflexivity|rewrite <- (app_nil_r (pr_block _ _ _)); apply tame_solid, block_tame|].
              rewrite <- (app_nil_r (pr_block _ _ _)). apply block_not_colon.
          + unfold pr_datasets. cbn [List.map ended flat_map]. rewrite <- !app_assoc. inversion Hd as [|? ? Hd1 _]; subst.
            apply NW; [reflexivity|now apply tame_solid, (don_tame w Hw)|]. destruct d; cbn [pr_don wf_don] in *; [apply named_not_colon; now split|].
            rewrite <- app_assoc. now apply (w_not_colon w Hw).
        - apply datasets_solid. apply TW; [|apply F].
          intros k x Hk _ _. cbn in Hk. destruct Hk as [<-|[<-|[<-|[<-|[<-|[<-|[]]]]]]]; now apply w_solid. }
      clearbody tb. destruct NT as [NT ST].
      apply stage_before; [now apply w_word|]. destruct v as [l|]; cbn [W_targets].
      + destruct Hv as [N Hl]. rewrite ended_joined by assumption. rewrite <- app_assoc.
        apply stage_before; [apply gap1_sp; rewrite <- app_assoc; apply tame_solid; apply (joined_tame _ _ Bk l N Hl), voi_tame|].
        apply stage_before; [|apply stage_before; [now apply gap1_sp|exact SB]].
        apply (sep1_joined W_var_or_iri pr_voi wf_voi gap1 Bk (fun r => brk r)); [apply W_voi_text|auto| |assumption..|auto|rewrite <- ?app_assoc; now apply nxt1_sp].
        intros a t Ha. apply gap1_sp. now apply tame_solid, voi_tame.
      + apply stage_before; [apply gap1_sp; now apply char_solid|]. rewrite <- ?app_assoc.
        apply stage_before; [reflexivity|]. apply stage_before; [now apply gap1_sp|exact SB].
    - destruct H as (Ht & Hd & Hg & Hm). destruct (body_text d g m r Hd Hg Hm F) as [B S].
      apply stage_before; [now apply w_word|]. apply stage_before.
      { apply gap1_sp. destruct t; now apply char_solid. }
      apply stage_before; [now apply (W_template_text w Hw)|]. apply stage_before; [now apply gap1_sp|exact B].
    - destruct H as (Hd & Ht & Hm).
      apply stage_before; [now apply w_word|]. apply stage_before.
      { apply gap1_sp. rewrite <- app_assoc. apply datasets_solid. rewrite <- app_assoc. now apply w_solid. }
      apply datasets_text; [assumption|rewrite <- app_assoc; now apply w_solid|rewrite <- app_assoc; now apply (w_nb w Hw)|].
      apply stage_before; [now apply w_word|]. apply stage_before.
      { apply gap1_sp. destruct t as [[|]|]; now apply char_solid. }
      apply stage_before; [now apply (W_braced_text w Hw)|]. apply stage_before; [|now apply mods_text].
      apply gap_sp. now apply mods_ok.
  Qed.
  Lemma keeps_same m : keeps m = keeps_blank m.
  Proof. destruct m as [[o|] [g|] [h|] [[l [x|]|l [x|]]|]]; reflexivity. Qed.
  Lemma query_word q r : exists k x, In k ["select"; "ask"; "describe"; "construct"]%string /\ pr_query w Bk n q ++ r = w k ++ x.
  Proof.
    destruct q as [[d g m]|[[[[]|] v] d g m]|[d v g m]|[[[t] d g m]|[d t m]]]; cbn [pr_query pr_select]; rewrite <- !app_assoc;
      eexists _, _; (split; [|reflexivity]); clear; cbn; tauto.
  Qed.
  (** a printed query is laid out, except for a blank left at its end *)
  Theorem W_print q : printable n q -> exists t b, print w Bk n q = t ++ b /\ blank b /\ W_query_stmt q t b.
  Proof.
    destruct q as [p q v]. intros (Hp & Hq & Hv). cbn [print W_query_stmt].
    assert (F : mfol (may_ (pr_values w Bk) v)).
    { destruct v as [d|]; [|apply mfol_nil]. cbn [may_]. rewrite <- (app_nil_r (pr_values w Bk d)). apply (mfol_values w Hw). }
    assert (R : may_ (pr_values w Bk) v = [] \/ exists d, may_ (pr_values w Bk) v = pr_values w Bk d) by (destruct v; [right; eexists; reflexivity|now left]).
    destruct (W_query_text q _ Hq F R) as (u & Eu & Hu). cbn [pend app] in Eu. rewrite Eu.
    assert (PR : forall x, (W_prologue p >> gap) (pr_prologue w Bk p) (u ++ pend Bk (keeps (mods_of q)) ++ x)).
    { intros x. rewrite app_assoc, <- Eu. destruct (query_word q x) as (k & y & Hk & ->).
      apply (W_prologue_text w Hw); [assumption|..].
      - cbn in Hk. destruct Hk as [<-|[<-|[<-|[<-|[]]]]]; now apply w_solid.
      - cbn in Hk. split; destruct Hk as [<-|[<-|[<-|[<-|[]]]]]; now apply (w_nb w Hw). }
    destruct v as [d|]; cbn [may_ some_] in *.
    - destruct Hv as [Hd Hk]. rewrite <- keeps_same in Hk. rewrite Hk in *. cbn [pend] in *.
      exists (pr_prologue w Bk p ++ u ++ Bk ++ pr_values w Bk d), []. split; [now rewrite app_nil_r, <- app_assoc|]. split; [constructor|].
      apply then_assoc. apply then_app; [rewrite <- app_assoc; rewrite app_nil_r; exact (PR (pr_values w Bk d))|].
      apply then_app; [rewrite app_nil_r; exact Hu|]. cbn [optW]. apply then_app; [apply gap1_sp; rewrite app_nil_r; apply F|].
      now apply (W_values_text w Hw).
    - exists (pr_prologue w Bk p ++ u), (pend Bk (keeps (mods_of q))). rewrite app_nil_r in Hu. split; [now rewrite app_nil_r, app_assoc|].
      split; [destruct (keeps (mods_of q)); [apply blank_sp|constructor]|].
      apply then_assoc. apply then_app; [specialize (PR []); now rewrite app_nil_r in PR|]. apply then_last; [exact Hu|].
      split; [reflexivity|]. destruct (keeps (mods_of q)); cbn [pend]; [right; rewrite <- (app_nil_r Bk); apply nxt1_sp; [exact I|]|left; exact I].
      intros (x & y & Exy & K). destruct x; unfold kw in K; cbn in *; discriminate.
  Qed.
  Theorem print_read q : printable n q -> exists b, blank b /\ sparql_query_stmt (print w Bk n q) = Ok b q.
  Proof.
    intros H. destruct (W_print q H) as (t & b & -> & B & W). exists b. split; [assumption|]. now apply rd_query_stmt.
  Qed.
End Words.
