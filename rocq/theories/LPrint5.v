(** Printed conditions, modifiers, projections, patterns and groups. *)
From Verif Require Export LPrint4.
Notation length := List.length (only parsing).
Open Scope N_scope.
Open Scope list_scope.

(** ** Clauses in a row, each followed by a blank; [k]: a blank is pending *)
Lemma btext_not (B : blanks) c r : existsb (N.eqb c) [32; 9; 10; 13; 35] = false -> not_first c (B ++ r).
Proof.
  intros H. destruct B as [b [Hb Nb]]. cbn [btext]. destruct Hb as [|d t Hd _|body nl t _ _ _]; [congruence| |]; cbn [app not_first]; intros X; subst c.
  - cbn [existsb] in H. cbn in Hd. repeat (destruct Hd as [Hd|Hd]; [subst; discriminate H|]). destruct Hd.
  - discriminate H.
Qed.
Definition pend (Bk : blanks) (k : bool) : str := if k then Bk else [].
Definition stage (Bk : blanks) (k k' : bool) (L : lang) (t r : str) : Prop := exists u, pend Bk k ++ t = u ++ pend Bk k' /\ L u (pend Bk k' ++ r).
Lemma pend_gap (Bk : blanks) k r : solid r -> gap (pend Bk k) r.
Proof. destruct k; [apply gap_sp|apply gap_no]. Qed.
Lemma nxt_pending (Bk : blanks) k (P : str -> Prop) r : solid r -> P r -> nxt P (pend Bk k ++ r).
Proof. destruct k; [rewrite <- ?app_assoc; apply nxt_sp|apply nxt_no]. Qed.
Section Stages.
  Context {Bk : blanks} {A : Type} (C : A -> lang) (no : str -> Prop) (L : lang).
  Lemma stage_none k k' t r : stage Bk k k' L t r -> solid (t ++ r) -> no (t ++ r) ->
    stage Bk k k' (optW (fun a => gap >> C a) (nxt no) None >> L) t r.
  Proof.
    intros (u & E & H) S N. exists u. split; [assumption|]. apply then_none; [|exact H]. cbn [optW]. split; [reflexivity|].
    rewrite app_assoc, <- E, <- app_assoc. now apply nxt_pending.
  Qed.
  Lemma stage_some k k' a c t r : C a c (Bk ++ t ++ r) -> tame c -> stage Bk true k' L t r ->
    stage Bk k k' (optW (fun a => gap >> C a) (nxt no) (Some a) >> L) (c ++ Bk ++ t) r.
  Proof.
    intros H T (u & E & HL). cbn [pend app] in E. exists (pend Bk k ++ c ++ u). split; [rewrite E, <- !app_assoc; reflexivity|].
    rewrite app_assoc. apply then_app; [|exact HL]. cbn [optW]. apply then_app.
    - apply pend_gap. now apply tame_solid.
    - rewrite app_assoc, <- E, <- app_assoc. exact H.
  Qed.
  Lemma stage0_none k' t r : stage Bk false k' L t r -> no (t ++ r) -> stage Bk false k' (optW C no None >> L) t r.
  Proof.
    intros (u & E & H) N. exists u. split; [assumption|]. apply then_none; [|exact H]. split; [reflexivity|].
    rewrite app_assoc, <- E. exact N.
  Qed.
  Lemma stage0_some k' a c t r : C a c (Bk ++ t ++ r) -> stage Bk true k' L t r ->
    stage Bk false k' (optW C no (Some a) >> L) (c ++ Bk ++ t) r.
  Proof.
    intros H (u & E & HL). cbn [pend app] in E. exists (c ++ u). split; [rewrite E, <- app_assoc; reflexivity|].
    apply then_app; [|exact HL]. cbn [optW]. rewrite app_assoc, <- E, <- app_assoc. exact H.
  Qed.
End Stages.

(** what follows the modifiers *)
Definition mfol (r : str) : Prop :=
  mod_end r /\ solid r /\ Forall (fun k => ~ begins k r) ["group"; "having"; "order"; "limit"; "offset"]%string /\ stops low_digit r.
Lemma mfol_nil : mfol [].
Proof.
  split; [now left|]. split; [exact I|]. split; [|exact I].
  repeat (apply Forall_cons || apply Forall_nil); (intros (t & r' & E & K); destruct t; unfold kw in K; cbn in *; discriminate).
Qed.
Lemma nb_char k c r : word_like k = true -> c < 65 \/ 122 < c -> ~ begins k (c :: r).
Proof.
  intros H C. apply (nb_starts k [c] [c] r); [assumption|exists c, []; split; [reflexivity|now left]|]. cbn [forallb]. rewrite andb_true_r.
  unfold word_like in H. apply andb_true_iff in H. destruct H as [_ H]. unfold cap2. destruct (s_ k) as [|x s]; [discriminate|].
  apply andb_true_iff in H. rewrite !N.leb_le in H. cbn [existsb]. apply negb_true_iff. rewrite orb_false_r. apply orb_false_iff.
  split; apply N.eqb_neq; lia.
Qed.
Lemma mfol_brace r : mfol (125 :: r).
Proof.
  split; [right; left; now exists r|]. split; [now apply char_solid|]. split; [|reflexivity].
  repeat (apply Forall_cons || apply Forall_nil); apply nb_char; try reflexivity; right; reflexivity.
Qed.

Section Words.
  Context (w : string -> str) (Hw : casing w) (Bk : blanks).
  Notation w_word := (w_word w Hw). Notation w_tame := (w_tame w Hw). Notation w_kw := (w_kw w Hw). Notation w_solid := (w_solid w Hw).
  Lemma block_not_colon d r : not_first 58 (pr_block w Bk d ++ r).
  Proof. destruct d as [[v vs]|[[|vs] l]]; cbn [pr_block]; try discriminate. destruct v; discriminate. Qed.
  Lemma mfol_values d r : mfol (pr_values w Bk d ++ r).
  Proof.
    unfold pr_values. rewrite <- app_assoc. split; [right; right; split|split; [|split]].
    - rewrite <- ?app_assoc; apply (w_plain w Hw); [reflexivity|apply tame_solid, block_tame|apply block_not_colon].
    - do 4 right. now apply w_begins.
    - now apply w_solid.
    - repeat (apply Forall_cons || apply Forall_nil); now apply (w_nb w Hw).
    - destruct (w_starts w Hw "values" eq_refl) as (c & t & -> & [<-|[<-|[]]]); reflexivity.
  Qed.

  Section Core.
    Context {E G : Type} (PE : E -> str) (PG : G -> str) (LE : E -> lang) (LG : G -> lang) (WE : E -> Prop) (WG : G -> Prop) (op : E -> bool).
    Hypothesis HE : forall e r, WE e -> starts X0 r -> fits Bk (op e) (LE e) (PE e) r.
    Hypothesis HT : forall e, WE e -> tame (PE e).
    Hypothesis HD : forall e r, WE e -> no_word1 "distinct" (PE e ++ r).
    Hypothesis HG : forall g r, WG g -> LG g (PG g) r.
    Hypothesis HB : forall g, WG g -> exists t, PG g = 123 :: t.
    Let built_text := W_built_in_text w Hw Bk PE PG LE LG WE WG op HE HT HD HG HB.
    Let brack_text := W_bracketted_text Bk PE LE WE op HE HT.

    Lemma W_constraint_text c r : wf_constraint WE WG op c -> W_constraint LE LG c (pr_constraint w Bk PE PG c) r.
    Proof.
      intros H. destruct c as [e|b|[i a]]; cbn [wf_constraint W_constraint pr_constraint] in *.
      - now apply brack_text.
      - now apply built_text.
      - now apply W_function_text.
    Qed.
    Lemma built_first (P : str -> Prop) b r : (forall k t, word_like k = true -> P (w k ++ t)) -> wf_built_in WE WG op b -> P (pr_built_in w Bk PE PG b ++ r).
    Proof.
      intros HP H. destruct (built_in_word w Bk PE PG WE WG op b H) as (k & x & Hk & ->). rewrite <- app_assoc. apply HP.
      assert (F : forallb word_like built_words = true) by reflexivity. rewrite forallb_forall in F. now apply F.
    Qed.
    Lemma built_tame b : wf_built_in WE WG op b -> tame (pr_built_in w Bk PE PG b).
    Proof. intros H. rewrite <- (app_nil_r (pr_built_in _ _ _ _ _)). apply (built_first (fun t => tame t)); [|assumption]. intros. now apply tame_app, w_tame. Qed.
    Lemma constraint_tame c : wf_constraint WE WG op c -> tame (pr_constraint w Bk PE PG c).
    Proof.
      intros H. destruct c as [e|b|[i a]]; cbn [wf_constraint pr_constraint] in *; [now apply tame_cons|now apply built_tame|].
      unfold pr_function. apply tame_app, iri_tame, H.
    Qed.
    Lemma constraint_not_colon c r : wf_constraint WE WG op c -> wf_first c -> not_first 58 (pr_constraint w Bk PE PG c ++ r).
    Proof.
      intros H F. destruct c as [e|b|[i a]]; cbn [wf_constraint pr_constraint] in *; [discriminate| |].
      - apply built_first; [|assumption]. intros. now apply (w_not_colon w Hw).
      - unfold pr_function. rewrite <- app_assoc. apply named_not_colon. split; [apply H|exact F].
    Qed.
    Lemma having_not_colon l r : Forall (wf_constraint WE WG op) l -> l <> [] -> match l with c :: _ => wf_first c | [] => True end ->
      not_first 58 (joined Bk (List.map (pr_constraint w Bk PE PG) l) ++ r).
    Proof.
      intros H N F. destruct H as [|c l Hc _]; [congruence|]. unfold joined. cbn [List.map]. rewrite <- app_assoc. now apply constraint_not_colon.
    Qed.
    Lemma W_as_text x r : wf_as WE x -> W_expr_as_var LE x (pr_as w Bk PE x) r.
    Proof.
      destruct x as [e v]. intros [H V]. cbn [W_expr_as_var pr_as]. change (s_ "(" ++ Bk ++ ?y) with (40 :: Bk ++ y).
      tcons; [reflexivity|]. apply then_app; [apply gap_sp; rewrite <- app_assoc; now apply tame_solid, HT|].
      destruct (w_starts w Hw "as" eq_refl) as (c & y & Ey & Hc).
      eapply fits_then.
      - apply HE; [assumption|]. rewrite Ey. eexists c, _. split; [reflexivity|]. revert Hc. cbn. tauto.
      - rewrite <- app_assoc. now apply w_solid.
      - apply then_app; [now apply w_word|]. apply then_app; [apply gap_sp; rewrite <- app_assoc; apply tame_solid, var_tame|].
        apply then_app; [now apply W_var_text|]. change (Bk ++ s_ ")") with (Bk ++ [41]). apply then_app; [apply gap_sp; now apply char_solid|reflexivity].
    Qed.
    Lemma W_order_condition_text o r : wf_order_condition WE WG op o -> brk r -> W_order_condition LE LG o (pr_order_condition w Bk PE PG o) r.
    Proof.
      intros H B. destruct o as [[d e]|c|v]; cbn [wf_order_condition W_order_condition] in *.
      - destruct d; cbn [pr_order_condition W_order]; (apply then_app; [now apply w_word|]);
          (apply then_app; [apply gap1_sp; now apply char_solid|now apply brack_text]).
      - now apply W_constraint_text.
      - now apply W_var_text.
    Qed.
    Lemma order_condition_tame o : wf_order_condition WE WG op o -> tame (pr_order_condition w Bk PE PG o).
    Proof.
      intros H. destruct o as [[[] e]|c|v]; cbn [pr_order_condition]; [now apply tame_app, w_tame..|now apply constraint_tame|apply var_tame].
    Qed.
    Lemma W_group_condition_text o r : wf_group_condition WE WG op o -> brk r -> W_group_condition LE LG o (pr_group_condition w Bk PE PG o) r.
    Proof.
      intros H B. destruct o as [b|[i a]|[e [v|]]|v]; cbn [wf_group_condition W_group_condition pr_group_condition] in *.
      - now apply built_text.
      - now apply W_function_text.
      - destruct H as (H & O & V). cbn [pr_as W_expr_as_var_opt optW]. change (s_ "(" ++ Bk ++ ?y) with (40 :: Bk ++ y).
        tcons; [reflexivity|]. apply then_app; [apply gap_sp; rewrite <- app_assoc; now apply tame_solid, HT|].
        destruct (w_starts w Hw "as" eq_refl) as (c & y & Ey & Hc). apply then_app.
        + pose proof (HE e (w "as" ++ Bk ++ pr_var v ++ Bk ++ s_ ")" ++ r) H) as X. rewrite O in X. cbn [fits] in X.
          rewrite <- !app_assoc. apply X.
          rewrite Ey. eexists c, _. split; [reflexivity|]. revert Hc. cbn. tauto.
        + change (Bk ++ s_ ")") with (Bk ++ [41]). rewrite !app_assoc. apply then_l.
          rewrite <- !app_assoc.
          assert (X : (gap1 >> word "as" >> gap1 >> W_var v >> gap >> sym ")") (Bk ++ w "as" ++ Bk ++ pr_var v ++ Bk ++ [41]) r).
          { apply then_app; [apply gap1_sp; rewrite <- app_assoc; now apply w_solid|]. apply then_app; [now apply w_word|].
            apply then_app; [apply gap1_sp; rewrite <- app_assoc; apply tame_solid, var_tame|]. apply then_app; [now apply W_var_text|].
            apply then_app; [apply gap_sp; now apply char_solid|reflexivity]. }
          revert X. apply then_mono. clear. intros t r X. apply then_l. revert X. apply then_mono. clear. intros t r X. apply then_l. exact X.
      - unfold pr_bracketted. cbn [W_expr_as_var_opt optW]. change (s_ "(" ++ Bk ++ ?y) with (40 :: Bk ++ y).
        tcons; [reflexivity|]. apply then_app; [apply gap_sp; rewrite <- app_assoc; now apply tame_solid, HT|].
        change (Bk ++ s_ ")") with (Bk ++ [41]).
        pose proof (HE e (41 :: r) H (starts_char X0 41 r eq_refl)) as X. destruct (op e); cbn [fits] in X.
        + apply then_app; [rewrite <- app_assoc; exact X|]. apply then_none; [split; [reflexivity|]; right|].
          * rewrite <- ?app_assoc; apply nxt1_sp; [now apply char_solid|]. apply nb_char; [reflexivity|left; reflexivity].
          * apply then_app; [apply gap_sp; now apply char_solid|reflexivity].
        + rewrite app_assoc. apply then_app; [exact X|]. apply then_none; [split; [reflexivity|]; left; now apply char_solid|].
          apply then_none; [apply gap_no; now apply char_solid|reflexivity].
      - now apply W_var_text.
    Qed.
    Lemma group_condition_tame o : wf_group_condition WE WG op o -> tame (pr_group_condition w Bk PE PG o).
    Proof.
      intros H. destruct o as [b|[i a]|[e [v|]]|v]; cbn [wf_group_condition pr_group_condition] in *;
        [now apply built_tame| |now apply tame_cons..|apply var_tame].
      unfold pr_function. apply tame_app, iri_tame, H.
    Qed.
    Lemma conditions_text {A} (W : A -> lang) (p : A -> str) (Q : A -> Prop) (l : list A) r :
      (forall a r, Q a -> brk r -> W a (p a) r) -> (forall a, Q a -> tame (p a)) -> l <> [] -> Forall Q l -> solid r -> mod_end r ->
      (gap1 >> sep1W W gap1 (nxt1 mod_end) l) (spaced Bk (List.map p l)) (Bk ++ r).
    Proof.
      intros H1 H2 N H S M. rewrite spaced_joined by assumption. tcons.
      - apply gap1_sp. apply tame_solid. now apply (joined_tame p Q).
      - apply (sep1_joined W p Q gap1 Bk (fun r => brk r)); auto.
        + intros a t Ha. apply gap1_sp. now apply tame_solid, H2.
        + rewrite <- ?app_assoc; now apply nxt1_sp.
    Qed.
    Definition group_tail (gb : option (GroupClause E G)) := list_of (option_map (pr_group w Bk PE PG) gb).
    Lemma ended_app l l' : ended Bk (l ++ l') = ended Bk l ++ ended Bk l'.
    Proof. unfold ended. apply flat_map_app. Qed.
    Lemma ended_opt {A} (f : A -> str) o : ended Bk (list_of (option_map f o)) = may_ (fun a => f a ++ Bk) o.
    Proof. destruct o; [|reflexivity]. cbn. now rewrite app_nil_r. Qed.
    Definition keeps (m : SolutionModifier E G) : bool :=
      match m with
      | MkSolutionModifier _ _ _ (Some l) => both l
      | MkSolutionModifier None None None None => false
      | MkSolutionModifier _ _ _ None => true
      end.
    (** the end of the modifiers: nothing, or a modifier whose word is none of [ks] *)
    Definition no_words (ks : list string) (r : str) : Prop := Forall (fun k => ~ begins k r) ks.
    Lemma w_words k ks t : word_like k = true -> forallb (fun k' => word_like k' && differ (s_ k) (s_ k')) ks = true -> no_words ks (w k ++ t).
    Proof.
      intros H F. apply Forall_forall. intros k' Hk. rewrite forallb_forall in F. apply F in Hk. apply andb_true_iff in Hk.
      apply (w_nb w Hw); [apply Hk|assumption|apply Hk].
    Qed.
    Lemma W_mods_text m r : wf_mods WE WG op m -> mfol r -> stage Bk false (keeps m) (W_modifier LE LG m) (pr_mods w Bk PE PG m) r.
    Proof.
      destruct m as [ob gb h lo]. intros (Ho & Hg & Hh & Hl) (M & S & N & D).
      cbn [pr_mods W_modifier]. rewrite !ended_app, !ended_opt.
      set (tl := may_ (fun a => pr_limit_offset w Bk a ++ Bk) lo).
      assert (Fl : solid (tl ++ r) /\ mod_end (tl ++ r) /\ no_words ["group"; "having"; "order"]%string (tl ++ r)).
      { subst tl. destruct lo as [lo|]; cbn [may_ app].
        - assert (X : exists k n t, (k = "limit" \/ k = "offset")%string /\ (pr_limit_offset w Bk lo ++ Bk) ++ r = w k ++ Bk ++ dec n ++ t).
          { destruct lo as [l [o|]|o [l|]]; cbn [pr_limit_offset may_]; unfold pr_num_of; rewrite <- ?app_assoc;
              eexists _, _, _; (split; [|reflexivity]); auto. }
          destruct X as (k & n & t & Hk & ->).
          assert (P : solid (dec n ++ t) /\ not_first 58 (dec n ++ t)).
          { split; [eapply starts_solid|eapply starts_not]; try apply dec_starts; reflexivity. }
          destruct P as [P1 P2]. split; [|split].
          + destruct Hk as [-> | ->]; now apply w_solid.
          + right. right. destruct Hk as [-> | ->]; (split; [now rewrite <- ?app_assoc; apply (w_plain w Hw)|]); [do 2 right; left|do 3 right; left]; now apply w_begins.
          + destruct Hk as [-> | ->]; now apply w_words.
        - split; [assumption|]. split; [assumption|]. inversion N as [|? ? ? N2]; subst. inversion N2 as [|? ? ? N3]; subst. inversion N3; subst.
          repeat (apply Forall_cons || apply Forall_nil); assumption. }
      assert (Sl : forall k, stage Bk k (match lo with Some l => both l | None => k end)
        (optW (fun l => gap >> W_limit_offset l) (nxt (fun r => ~ begins "limit" r /\ ~ begins "offset" r)) lo) tl r).
      { intros k. inversion N as [|? ? ? N2]; subst. inversion N2 as [|? ? ? N3]; subst. inversion N3 as [|? ? ? N4]; subst.
        inversion N4 as [|? ? N5 N6]; subst. inversion N6; subst. subst tl. destruct lo as [lo|]; cbn [may_ some_ optW] in *.
        - pose proof (W_limit_text w Hw Bk lo r Hl S N5 ltac:(assumption) D) as X.
          exists (pend Bk k ++ pr_limit_offset w Bk lo ++ pend Bk (negb (both lo))). split; [destruct (both lo); cbn [negb pend]; now rewrite <- ?app_assoc, ?app_nil_r|].
          apply then_app.
          + apply pend_gap. rewrite <- !app_assoc. destruct lo as [l [o|]|o [l|]]; cbn [pr_limit_offset may_]; unfold pr_num_of; rewrite <- ?app_assoc; now apply w_solid.
          + destruct (both lo); cbn [negb pend app fits] in *; [rewrite app_nil_r|]; exact X.
        - exists []. split; [now rewrite app_nil_r|]. split; [reflexivity|]. now apply nxt_pending. }
      clearbody tl. clear N D. destruct Fl as (Fs & Fm & Fn).
      set (to := may_ (fun a => pr_order w Bk PE PG a ++ Bk) ob ++ tl).
      assert (Fo : solid (to ++ r) /\ mod_end (to ++ r) /\ no_words ["group"; "having"]%string (to ++ r)).
      { subst to. destruct ob as [[l]|]; cbn [may_ app].
        - cbn [pr_order]. rewrite <- !app_assoc. split; [now apply w_solid|]. split; [|now apply w_words]. right. right. split.
          + rewrite <- ?app_assoc; apply (w_plain w Hw); [reflexivity|now apply w_solid|now apply (w_not_colon w Hw)].
          + right. left. now apply w_begins.
        - inversion Fn as [|? ? ? N2]; subst. inversion N2; subst. repeat split; try assumption. repeat (apply Forall_cons || apply Forall_nil); assumption. }
      set (k1 := fun k => match lo with Some l => both l | None => match ob with Some _ => true | None => k end end).
      assert (So : forall k, stage Bk k (k1 k)
        (optW (fun o => gap >> W_order_clause LE LG o) (nxt (fun r => ~ begins "order" r)) ob >>
         optW (fun l => gap >> W_limit_offset l) (nxt (fun r => ~ begins "limit" r /\ ~ begins "offset" r)) lo) to r).
      { intros k. subst to k1. destruct ob as [[l]|]; cbn [may_ some_] in *.
        - rewrite <- app_assoc. apply stage_some; [|now apply tame_app, w_tame|apply (Sl true)]. cbn [W_order_clause pr_order]. destruct Ho as [Ho1 Ho2].
          apply then_app; [now apply w_word|]. apply then_app; [apply gap1_sp; rewrite <- app_assoc; now apply w_solid|]. apply then_app; [now apply w_word|].
          apply (conditions_text _ _ (wf_order_condition WE WG op)); auto; [apply W_order_condition_text|apply order_condition_tame].
        - cbn [app]. apply stage_none; [apply Sl|assumption|]. inversion Fn as [|? ? ? N2]; subst. inversion N2 as [|? ? ? N3]; subst. now inversion N3. }
      clearbody to. clear Sl Fs Fm Fn. destruct Fo as (Fs & Fm & Fn).
      set (th := may_ (fun a => pr_having w Bk PE PG a ++ Bk) h ++ to).
      assert (Fh : solid (th ++ r) /\ mod_end (th ++ r) /\ ~ begins "group" (th ++ r)).
      { subst th. destruct h as [[l]|]; cbn [may_ app some_] in *.
        - cbn [pr_having]. rewrite <- !app_assoc. destruct Hh as (Hh1 & Hh2 & Hh3). rewrite spaced_joined by assumption. split; [now apply w_solid|].
          split; [|now apply (w_nb w Hw)]. right. right. split; [|left; now apply w_begins].
          rewrite <- ?app_assoc; apply (w_plain w Hw); [reflexivity| |].
          + apply tame_solid. apply (joined_tame _ (wf_constraint WE WG op)); auto. apply constraint_tame.
          + now apply having_not_colon.
        - inversion Fn; subst. auto. }
      set (k2 := fun k => k1 match h with Some _ => true | None => k end).
      assert (Sh : forall k, stage Bk k (k2 k)
        (optW (fun h => gap >> W_having_clause LE LG h) (nxt (fun r => ~ begins "having" r)) h >>
         optW (fun o => gap >> W_order_clause LE LG o) (nxt (fun r => ~ begins "order" r)) ob >>
         optW (fun l => gap >> W_limit_offset l) (nxt (fun r => ~ begins "limit" r /\ ~ begins "offset" r)) lo) th r).
      { intros k. subst th k2. destruct h as [[l]|]; cbn [may_ some_] in *.
        - rewrite <- app_assoc. apply stage_some; [|now apply tame_app, w_tame|apply (So true)]. cbn [W_having_clause pr_having]. destruct Hh as (Hh1 & Hh2 & Hh3).
          apply then_app; [now apply w_word|].
          apply (conditions_text _ _ (wf_constraint WE WG op)); auto; [intros; now apply W_constraint_text|apply constraint_tame].
        - cbn [app]. apply stage_none; [apply So|assumption|]. inversion Fn as [|? ? ? N2]; subst. now inversion N2. }
      clearbody th. clear So Fs Fm Fn. destruct Fh as (Fs & Fm & Fn).
      replace (keeps (MkSolutionModifier ob gb h lo)) with (k2 (match gb with Some _ => true | None => false end))
        by (subst k1 k2; destruct lo, ob, h, gb; reflexivity).
      destruct gb as [[l]|]; cbn [may_ some_] in *.
      - rewrite <- app_assoc. apply stage0_some; [|apply Sh]. cbn [W_group_clause pr_group]. destruct Hg as [Hg1 Hg2].
        apply then_app; [now apply w_word|]. apply then_app; [apply gap1_sp; rewrite <- app_assoc; now apply w_solid|]. apply then_app; [now apply w_word|].
        apply (conditions_text _ _ (wf_group_condition WE WG op)); auto; [apply W_group_condition_text|apply group_condition_tame].
      - cbn [app]. apply stage0_none; [apply Sh|assumption].
    Qed.

    (** ** Projections *)
    Definition wf_select_var (v : VarOrExpressionAsVar E) : Prop := match v with VoeVar v => wf_var v | VoeExpressionAsVar x => wf_as WE x end.
    Lemma W_select_var_text v r : wf_select_var v -> brk r -> W_select_var LE v (pr_select_var w Bk PE v) r.
    Proof. intros H B. destruct v as [v|x]; cbn [wf_select_var W_select_var pr_select_var] in *; [now apply W_var_text|now apply W_as_text]. Qed.
    Lemma select_var_brk v r : brk (pr_select_var w Bk PE v ++ r).
    Proof. destruct v as [[v|v]|[e v]]; reflexivity. Qed.
    Lemma select_var_starts v : starts (s_ "?$(") (pr_select_var w Bk PE v).
    Proof. destruct v as [[v|v]|[e v]]; now apply starts_char. Qed.
    Lemma W_select_text s r : wf_select WE s -> W_select_clause LE s (pr_select w Bk PE s) (Bk ++ r).
    Proof.
      destruct s as [m v]. intros H. cbn [W_select_clause pr_select].
      set (tv := match v with SvAll => s_ "*" | SvList l => flat_map (pr_select_var w Bk PE) l end).
      assert (T : starts (s_ "?$(*") tv).
      { subst tv. destruct v as [[|a l]|]; [now destruct H| |now apply starts_char]. cbn [flat_map].
        destruct (select_var_starts a) as (c & y & -> & Hc). eexists c, _. split; [reflexivity|]. revert Hc. cbn. tauto. }
      assert (V : W_select_vars LE v tv (Bk ++ r)).
      { subst tv. destruct v as [l|]; cbn [W_select_vars]; [|reflexivity]. destruct H as [N H]. split; [assumption|]. clear N T.
        assert (X : forall l, Forall wf_select_var l -> brk (flat_map (pr_select_var w Bk PE) l ++ Bk ++ r) /\
          manyW (W_select_var LE) (fun r => forall c, In c (s_ "?$(") -> not_first c r) l (flat_map (pr_select_var w Bk PE) l) (Bk ++ r)).
        { clear l H. induction 1 as [|a l Ha Hl [I1 I2]]; cbn [flat_map manyW].
          - split; [apply btext_brk|]. split; [reflexivity|]. intros c Hc. apply btext_not. revert Hc. cbn. intros [<-|[<-|[<-|[]]]]; reflexivity.
          - split; [rewrite <- app_assoc; apply select_var_brk|]. apply then_app; [now apply W_select_var_text|exact I2]. }
        now apply X. }
      clearbody tv. clear H. assert (S : solid (tv ++ Bk ++ r)) by now apply (starts_solid (s_ "?$(*")).
      apply then_app; [now apply w_word|]. apply then_app; [|apply then_app; [now apply gap1_sp|exact V]].
      destruct m as [[]|]; cbn [optW W_select_modifier].
      - apply then_app; [|now apply w_word]. apply gap1_sp. now apply w_solid.
      - apply then_app; [|now apply w_word]. apply gap1_sp. now apply w_solid.
      - split; [reflexivity|]. cbn [app]. rewrite <- ?app_assoc; apply nxt1_sp; [exact S|].
        split; apply (nb_starts _ (s_ "?$(*")); auto; reflexivity.
    Qed.
    Lemma group_solid5 g r : WG g -> solid (PG g ++ r).
    Proof. intros H. destruct (HB g H) as [t ->]. now apply char_solid. Qed.
    Lemma W_where_text g r : WG g -> W_where LG g (pr_where w Bk PG g) r.
    Proof.
      intros H. left. unfold pr_where. apply then_app; [now apply w_word|]. apply then_app; [|now apply HG].
      apply gap1_sp. now apply group_solid5.
    Qed.
    Lemma mods_solid m r : wf_mods WE WG op m -> mfol r -> solid (pr_mods w Bk PE PG m ++ r).
    Proof.
      intros H F. destruct m as [ob gb h lo]. cbn [pr_mods]. rewrite !ended_app, !ended_opt.
      destruct gb as [[l]|]; [cbn; rewrite <- !app_assoc; now apply w_solid|].
      destruct h as [[l]|]; [cbn; rewrite <- !app_assoc; now apply w_solid|].
      destruct ob as [[l]|]; [cbn; rewrite <- !app_assoc; now apply w_solid|].
      destruct lo as [[l [o|]|o [l|]]|]; try (cbn; unfold pr_num_of; rewrite <- !app_assoc; now apply w_solid). apply F.
    Qed.
    Lemma W_sub_select_text s r : wf_sub_select WE WG op s -> (W_sub_select LE LG s >> gap) (pr_sub_select w Bk PE PG s) (125 :: r).
    Proof.
      destruct s as [s g m v]. intros (H1 & H2 & H3 & H4). cbn [W_sub_select pr_sub_select].
      set (tv := may_ (pr_values w Bk) v). set (e := may_ (fun _ => Bk) v).
      replace (may_ (fun d => pr_values w Bk d ++ Bk) v) with (tv ++ e) by now destruct v.
      assert (F : mfol (tv ++ e ++ 125 :: r)) by (subst tv e; destruct v; [apply mfol_values|apply mfol_brace]).
      destruct (W_mods_text m _ H3 F) as (u & Eu & Hm). cbn [pend app] in Eu. rewrite Eu.
      assert (Sm : solid (u ++ pend Bk (keeps m) ++ tv ++ e ++ 125 :: r)) by (rewrite app_assoc, <- Eu; now apply mods_solid).
      replace (pr_select w Bk PE s ++ Bk ++ pr_where w Bk PG g ++ Bk ++ (u ++ pend Bk (keeps m)) ++ tv ++ e)
        with ((pr_select w Bk PE s ++ Bk ++ pr_where w Bk PG g ++ Bk ++ u ++ pend Bk (keeps m) ++ tv) ++ e) by now rewrite <- !app_assoc.
      apply then_app.
      - apply then_app; [rewrite <- !app_assoc; now apply W_select_text|].
        apply then_app; [apply gap_sp; unfold pr_where; rewrite <- !app_assoc; now apply w_solid|].
        apply then_app; [now apply W_where_text|].
        apply then_app; [apply gap_sp; rewrite <- !app_assoc; exact Sm|].
        apply then_app; [rewrite <- app_assoc; exact Hm|].
        apply then_app; [apply pend_gap, F|]. subst tv e. destruct v as [d|]; cbn [may_ optW app].
        + now apply W_values_text.
        + split; [reflexivity|]. apply nb_char; [reflexivity|right; reflexivity].
      - subst e. destruct v; [apply gap_sp|apply gap_no]; now apply char_solid.
    Qed.

    (** ** Patterns *)
    Definition gfol (r : str) : Prop :=
      no_block r /\ solid r /\ Forall (fun c => not_first c r) [63; 58; 44; 59; 46] /\ ~ begins "union" r.
    Lemma gfol_brace c r : c = 125 \/ c = 123 -> gfol (c :: r).
    Proof.
      intros H. split; [|split; [|split]].
      - destruct H as [-> | ->]; [left|right; left]; now exists r.
      - destruct H as [-> | ->]; now apply char_solid.
      - apply Forall_forall. intros x Hx. cbn. intros ->. destruct H as [-> | ->]; cbn in Hx; lia.
      - apply nb_char; [reflexivity|]. destruct H as [-> | ->]; right; reflexivity.
    Qed.
    Lemma gfol_word k r : letter_word k = true -> In k ["optional"; "minus"; "graph"; "service"; "filter"; "bind"; "values"]%string ->
      solid r -> not_first 58 r -> gfol (w k ++ Bk ++ r).
    Proof.
      intros L K S C. assert (WL : word_like k = true) by now apply andb_true_iff in L.
      split; [right; right; split; [|left; now rewrite <- ?app_assoc; apply (w_plain w Hw)]|split; [now apply w_solid|split]].
      - assert (B : begins k (w k ++ Bk ++ r)) by now apply w_begins. cbn in K. intuition (subst; auto).
      - apply Forall_forall. intros x Hx. destruct (w_tame k WL) as (c & t & E1 & E2). destruct (w_starts w Hw k WL) as (c' & t' & E1' & Hc).
        assert (X : x < 65) by (cbn in Hx; lia). now apply (w_not_char w Hw).
      - cbn in K. destruct K as [<-|[<-|[<-|[<-|[<-|[<-|[<-|[]]]]]]]]; now apply (w_nb w Hw).
    Qed.
    Lemma gfol_iri k x r : letter_word k = true -> In k ["graph"; "service"; "filter"]%string ->
      solid (x ++ Bk ++ r) -> no_iri (w k ++ Bk ++ x ++ Bk ++ r) \/ (exists j t, w k ++ Bk ++ x ++ Bk ++ r = t ++ Bk ++ r /\ W_iri j t (Bk ++ r)) ->
      solid r -> group_or_nil r -> gfol (w k ++ Bk ++ x ++ Bk ++ r).
    Proof.
      intros L K S D Sr Gr. assert (WL : word_like k = true) by now apply andb_true_iff in L.
      split; [right; right; split|split; [now apply w_solid|split]].
      - assert (B : begins k (w k ++ Bk ++ x ++ Bk ++ r)) by now apply w_begins. cbn in K. destruct K as [<-|[<-|[<-|[]]]]; tauto.
      - destruct D as [D|(j & t & Et & D)]; [now left|]. right. exists j, t, (Bk ++ r). split; [exact Et|]. split; [exact D|]. now apply nxt_sp.
      - apply Forall_forall. intros y Hy. destruct (w_tame k WL) as (c & t & E1 & E2). destruct (w_starts w Hw k WL) as (c' & t' & E1' & Hc).
        assert (X : y < 65) by (cbn in Hy; lia). now apply (w_not_char w Hw).
      - cbn in K. destruct K as [<-|[<-|[<-|[]]]]; now apply (w_nb w Hw).
    Qed.
    Lemma group_group g r : WG g -> group_or_nil (PG g ++ r).
    Proof. intros H. destruct (HB g H) as [t ->]. left. now eexists. Qed.
    Lemma pattern_gfol p r : wf_pattern WE WG op p -> gfol (pr_pattern w Bk PE PG p ++ r).
    Proof.
      intros H. destruct p as [g|[l]|g|[v g]|[v s g]|c|x|d]; cbn [wf_pattern pr_pattern] in *; rewrite <- ?app_assoc.
      - apply gfol_word; [reflexivity|cbn; tauto|now apply group_solid5|]. destruct (HB g H) as [u ->]. discriminate.
      - destruct H as [N H]. apply (joined_first PG WG); auto. intros a t Ha. destruct (HB a Ha) as [u ->]. apply gfol_brace. auto.
      - apply gfol_word; [reflexivity|cbn; tauto|now apply group_solid5|]. destruct (HB g H) as [u ->]. discriminate.
      - destruct H as [Hv H]. apply gfol_iri; [reflexivity|cbn; tauto|now apply tame_solid, voi_tame|apply (word_voi w Hw); auto|now apply group_solid5|now apply group_group].
      - destruct H as [Hv H]. destruct s; rewrite <- ?app_assoc; cbn [app].
        + apply gfol_word; [reflexivity|cbn; tauto|now apply w_solid|now apply (w_not_colon w Hw)].
        + apply gfol_iri; [reflexivity|cbn; tauto|now apply tame_solid, voi_tame|apply (word_voi w Hw); auto|now apply group_solid5|now apply group_group].
      - pose proof (constraint_tame c H) as T. destruct c as [e|b|[i a]].
        1,2: apply gfol_word; [reflexivity|cbn; tauto|now apply tame_solid|now apply constraint_not_colon].
        cbn [pr_constraint wf_constraint] in *. unfold pr_function in *. destruct H as (H & K & A). rewrite <- !app_assoc. destruct a as [|d a]; [|destruct A].
        apply gfol_iri; [reflexivity|cbn; tauto|now apply tame_solid, iri_tame|apply (word_iri w Hw); auto|now apply char_solid|].
        right. exists [], r. split; [reflexivity|constructor].
      - destruct x as [e v]. apply gfol_word; [reflexivity|cbn; tauto|now apply char_solid|discriminate].
      - unfold pr_values. rewrite <- !app_assoc. apply gfol_word; [reflexivity|cbn; tauto|apply tame_solid, block_tame|apply block_not_colon].
    Qed.
    Lemma W_pattern_text p r : wf_pattern WE WG op p -> solid r -> ~ begins "union" r -> W_pattern LE LG p (pr_pattern w Bk PE PG p) (Bk ++ r).
    Proof.
      intros H S U. destruct p as [g|[l]|g|[v g]|[v s g]|c|x|d]; cbn [wf_pattern pr_pattern W_pattern] in *.
      - apply then_app; [now apply w_word|]. apply then_app; [|now apply HG]. apply gap1_sp. now apply group_solid5.
      - destruct H as [N H]. apply (sep1_joined LG PG WG (gap1 >> word "union" >> gap1) (Bk ++ w "union" ++ Bk) (fun _ => True)); auto.
        + intros a t Ha. apply then_app; [apply gap1_sp; rewrite <- app_assoc; now apply w_solid|].
          apply then_app; [now apply w_word|]. apply gap1_sp. now apply group_solid5.
        + right. rewrite <- ?app_assoc; now apply nxt1_sp.
      - apply then_app; [now apply w_word|]. apply then_app; [|now apply HG]. apply gap1_sp. now apply group_solid5.
      - destruct H as [Hv H]. apply then_app; [now apply w_word|].
        apply then_app; [apply gap1_sp; rewrite <- app_assoc; now apply tame_solid, voi_tame|].
        apply then_app; [now apply W_voi_text|]. apply then_app; [|now apply HG]. apply gap_sp. now apply group_solid5.
      - destruct H as [Hv H]. apply then_app; [now apply w_word|].
        apply then_app; [apply gap1_sp; destruct s; rewrite <- ?app_assoc; cbn [app]; [now apply w_solid|rewrite <- ?app_assoc; now apply tame_solid, voi_tame]|].
        apply then_app.
        + destruct s; cbn [W_silent].
          * apply then_app; [now apply w_word|]. apply gap1_sp. rewrite <- app_assoc. now apply tame_solid, voi_tame.
          * split; [reflexivity|]. rewrite <- !app_assoc. destruct v as [v|i].
            -- apply (nw_starts "silent" (s_ "?$")); [reflexivity| |reflexivity]. destruct v; now apply starts_char.
            -- apply no_word1_iri; [reflexivity|apply Hv].
        + apply then_app; [now apply W_voi_text|]. apply then_app; [|now apply HG]. apply gap_sp. now apply group_solid5.
      - apply then_app; [now apply w_word|]. apply then_app; [|now apply W_constraint_text]. apply gap1_sp. now apply tame_solid, constraint_tame.
      - apply then_app; [now apply w_word|]. apply then_app; [|now apply W_as_text]. apply gap1_sp. destruct x. now apply char_solid.
      - now apply W_values_text.
    Qed.
    Definition wf_pat (p : GraphPatternAndTriples E G) : Prop :=
      match p with MkGraphPatternAndTriples p t => wf_pattern WE WG op p /\ some_ (wf_triples) t end.
    Lemma W_pat_text p r : wf_pat p -> gfol r -> W_pattern_and_triples LE LG p (pr_pattern_and_triples w Bk PE PG p) (Bk ++ r).
    Proof.
      destruct p as [p t]. intros [Hp Ht] (F1 & F2 & F3 & F4). cbn [W_pattern_and_triples pr_pattern_and_triples].
      inversion F3 as [|? ? Q1 F3']; subst. destruct t as [t|]; cbn [may_ some_ optW] in *.
      - change (Bk ++ s_ "?" ++ Bk ++ ?y) with (Bk ++ 63 :: Bk ++ y). apply then_app.
        + rewrite <- !app_assoc. apply W_pattern_text; [assumption|now apply char_solid|]. apply nb_char; [reflexivity|left; reflexivity].
        + replace (Bk ++ 63 :: Bk ++ pr_triples w Bk t) with ((Bk ++ [63]) ++ Bk ++ pr_triples w Bk t) by now rewrite <- !app_assoc. apply then_app.
          * right. apply then_app; [apply gap_sp; now apply char_solid|reflexivity].
          * apply then_app; [apply gap_sp; apply tame_solid; now apply triples_tame|].
            apply (W_triples_text w Hw); [assumption|]. exists Bk, r. auto.
      - rewrite app_nil_r. apply then_last; [now apply W_pattern_text|]. apply then_last.
        + left. split; [reflexivity|]. rewrite <- ?app_assoc; now apply nxt_sp.
        + split; [reflexivity|]. rewrite <- ?app_assoc; now apply nxt_sp.
    Qed.
    Lemma pat_gfol p r : wf_pat p -> gfol (pr_pattern_and_triples w Bk PE PG p ++ r).
    Proof. destruct p as [p t]. intros [Hp Ht]. cbn [pr_pattern_and_triples]. rewrite <- app_assoc. now apply pattern_gfol. Qed.
    Lemma gfol_no_select p r : wf_pattern WE WG op p -> no_word1 "select" (pr_pattern w Bk PE PG p ++ r).
    Proof.
      intros H. apply nw_begins. destruct p as [g|[l]|g|[v g]|[v s g]|c|x|d]; cbn [wf_pattern pr_pattern] in *; unfold pr_values;
        rewrite <- ?app_assoc; try (now apply (w_nb w Hw)).
      destruct H as [N H]. apply (joined_first PG WG); auto. intros a t Ha. destruct (HB a Ha) as [u ->].
      apply nb_char; [reflexivity|right; reflexivity].
    Qed.
    Lemma W_group_sub_text g r : wf_sub WE WG op g ->
      ((fun t r => W_group_sub LE LG g t r /\ no_word1 "select" (t ++ r)) >> gap) (pr_sub w Bk PE PG g) (125 :: r).
    Proof.
      destruct g as [t l]. intros [Ht Hl0]. cbn [pr_sub].
      assert (Hl : Forall wf_pat l) by (revert Hl0; apply Forall_impl; now intros []). clear Hl0.
      set (el := match l with [] => [] | _ => Bk end).
      assert (EL : ended Bk (List.map (pr_pattern_and_triples w Bk PE PG) l) = joined Bk (List.map (pr_pattern_and_triples w Bk PE PG) l) ++ el).
      { destruct l; [reflexivity|]. now apply ended_joined. }
      rewrite EL, app_assoc. apply then_app; [|subst el; destruct l; [apply gap_no|apply gap_sp]; now apply char_solid].
      assert (FL : gfol (joined Bk (List.map (pr_pattern_and_triples w Bk PE PG) l) ++ el ++ 125 :: r)).
      { destruct l as [|p l]; [apply gfol_brace; auto|]. apply (joined_first _ wf_pat); [discriminate|assumption|]. intros. now apply pat_gfol. }
      split.
      - cbn [W_group_sub]. apply then_app.
        + destruct t as [t|]; cbn [may_ optW some_] in *.
          * apply then_app; [|apply gap_sp, FL]. apply (W_triples_text w Hw); [assumption|].
            eexists _, _. split; [reflexivity|]. destruct FL as (_ & F2 & F3 & _). inversion F3; subst. auto.
          * split; [reflexivity|]. apply FL.
        + destruct l as [|p l]; [split; [reflexivity|now exists r]|].
          apply (sep_joined _ (pr_pattern_and_triples w Bk PE PG) wf_pat gap1 Bk (fun r => exists r', r = Bk ++ r' /\ gfol r')); auto.
          * intros a r' Ha (x & -> & F). now apply W_pat_text.
          * intros a x Ha. eexists. split; [reflexivity|]. now apply pat_gfol.
          * intros a x Ha. apply gap1_sp. apply (pat_gfol a x Ha).
          * discriminate.
          * exists (125 :: r). split; [reflexivity|]. apply gfol_brace. auto.
          * rewrite <- ?app_assoc; apply nxt1_sp; [now apply char_solid|now exists r].
      - destruct t as [t|]; cbn [may_ some_ app] in *.
        + rewrite <- !app_assoc. now apply (triples_no_word w Hw).
        + destruct l as [|p l]; [apply nw_begins, nb_char; [reflexivity|right; reflexivity]|].
          apply (joined_first _ wf_pat); [discriminate|assumption|]. intros [a b] x [Ha _]. cbn [pr_pattern_and_triples]. rewrite <- app_assoc.
          now apply gfol_no_select.
    Qed.
  End Core.

  (** ** The knot *)
  Lemma knot_text : forall n,
    (forall e r, wf_expression n e -> starts X0 r -> fits Bk (Print.op_expression e) (W_expression e) (pr_expression w Bk n e) r) /\
    (forall e, wf_expression n e -> tame (pr_expression w Bk n e)) /\
    (forall e r, wf_expression n e -> no_word1 "distinct" (pr_expression w Bk n e ++ r)) /\
    (forall g r, wf_ggp n g -> W_ggp g (pr_ggp w Bk n g) r) /\
    (forall g, wf_ggp n g -> exists t, pr_ggp w Bk n g = 123 :: t).
  Proof.
    unfold wf_expression, pr_expression, wf_ggp, pr_ggp.
    induction n as [|n (I1 & I2 & I3 & I4 & I5)]; [repeat split; intros ? *; intros []|].
    cbn [texts_of wfs]. destruct (texts_of w Bk n) as [PE PG]. destruct (wfs n) as [WE WG]. cbn [fst snd] in *.
    assert (F : forall (P : str -> Prop) e t, opener2 w P -> expression_wf WE WG e -> P (expression_text w Bk PE PG e ++ t)).
    { intros P e t O He. destruct e as [l]. unfold expression_wf in He. destruct He as [N H]. unfold expression_text.
      apply (joined_first (pr_and w Bk PE PG) (wf_and WE WG Print.op_expression) P (Bk ++ s_ "||" ++ Bk) l t N H). intros a x Ha.
      exact (and_first w Bk PE PG WE WG Print.op_expression P a x O Ha). }
    split; [|split; [|split; [|split]]].
    - intros e r He S. destruct e as [l]. unfold expression_wf in He. destruct He as [N H]. unfold Print.op_expression, expression_text.
      apply (fits_mono _ (expression_layout W_expression W_ggp (MkExpression l))); [intros t r'; now apply W_expression_intro|].
      unfold expression_layout. change (Bk ++ s_ "||" ++ Bk) with (Bk ++ s_ "||" ++ Bk).
      apply (fits_sep (W_conditional_and W_expression W_ggp) (pr_and w Bk PE PG) op_and (wf_and WE WG Print.op_expression) "||" (fun r => starts X1 r)); auto.
      + intros a r' Ha Hr. eapply (W_and_text w Hw); eassumption.
      + intros t. now apply starts_char.
      + intros a Ha. eapply and_tame; eassumption.
      + intros t. now apply char_solid.
      + destruct S as (c & y & -> & Hc). exists c, y. split; [reflexivity|]. unfold X1. apply in_or_app. auto.
      + apply nxt_no; [now apply (starts_solid0 X0)|now apply (starts_not0 _ X0)].
      + rewrite <- ?app_assoc; apply nxt_sp; [now apply (starts_solid0 X0)|now apply (starts_not0 _ X0)].
    - intros e H. rewrite <- (app_nil_r (expression_text _ _ _ _ _)). apply (F (fun t => tame t)); [|assumption]. now apply opener2_tame.
    - intros e r H. apply F; [|assumption]. now apply opener2_distinct.
    - intros g r H. apply (W_ggp_intro W_expression W_ggp); auto. destruct g as [s|s]; unfold ggp_layout, ggp_text; unfold ggp_wf in H.
      + change (s_ "{" ++ Bk ++ ?y) with (123 :: Bk ++ y). tcons; [reflexivity|]. tcons.
        * apply gap_sp. destruct s as [[m v] g' m' v']. cbn [pr_sub_select pr_select]. rewrite <- !app_assoc. now apply w_solid.
        * apply then_assoc. apply then_app; [|reflexivity]. eapply W_sub_select_text; eassumption.
      + change (s_ "{" ++ Bk ++ ?y) with (123 :: Bk ++ y). tcons; [reflexivity|].
        assert (X : ((fun t r => W_group_sub W_expression W_ggp s t r /\ no_word1 "select" (t ++ r)) >> gap) (pr_sub w Bk PE PG s) (125 :: r)).
        { eapply W_group_sub_text; eassumption. }
        tcons; [|apply then_assoc; apply then_app; [exact X|reflexivity]].
        apply gap_sp. destruct s as [t l]. destruct H as [Ht Hl]. cbn [pr_sub]. destruct t as [t|]; cbn [may_ some_ app] in *.
        * rewrite <- !app_assoc. apply tame_solid. now apply (triples_tame w Hw).
        * destruct l as [|p l]; [now apply char_solid|]. inversion Hl as [|? ? Hp _]; subst. cbn [List.map].
          assert (X' : wf_pat WE WG Print.op_expression p) by (destruct p; exact Hp).
          unfold ended. cbn [flat_map]. rewrite <- !app_assoc. eapply (pat_gfol PE PG WE WG Print.op_expression I5 p _ X').
    - intros g H. destruct g; eexists; reflexivity.
  Qed.
End Words.
