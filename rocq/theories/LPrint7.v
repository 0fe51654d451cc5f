(** Printed update requests. *)
From Verif Require Import LC8 LMods.
From Verif Require Export LPrint6 PrintU.
Notation length := List.length (only parsing).
Open Scope N_scope.
Open Scope list_scope.

Lemma some_form {A} (P Q : A -> Prop) o : (forall a, P a -> Q a) -> some_ P o -> some_ Q o.
Proof. destruct o; cbn; auto. Qed.

Section Words.
  Context (w : string -> str) (Hw : casing w) (Bk : blanks) (n : nat).
  Notation w_word := (w_word w Hw). Notation w_tame := (w_tame w Hw). Notation w_kw := (w_kw w Hw). Notation w_solid := (w_solid w Hw).
  Let HG := proj1 (proj2 (proj2 (proj2 (knot_text w Hw Bk n)))).
  Let HB := proj2 (proj2 (proj2 (proj2 (knot_text w Hw Bk n)))).

  (** ** Quads *)
  (** after a dotted template *)
  Definition dfol (r : str) : Prop := exists b r', r = b ++ r' /\ blank b /\ solid r' /\ no_triple r'.
  Lemma no_triple_not46 r : no_triple r -> not_first 46 r.
  Proof.
    intros [(t & ->)|[B _]]; [discriminate|]. destruct B as (x & y & -> & K). destruct x as [|c x]; [discriminate|].
    cbn. intros ->. unfold kw in K. cbn in K. discriminate.
  Qed.
  Lemma W_dotted_text l r : wf_tmpl l -> dfol r -> W_template l (pr_dotted w Bk l) r.
  Proof.
    intros [N H] (b & r' & -> & B & S & T). unfold pr_dotted, W_template. apply then_app.
    - apply (sep1_joined W_tss (pr_tss w Bk) (wf_tss) dotsW (Bk ++ s_ "." ++ Bk) (sp_not [58; 44; 59])); auto.
      + intros. now apply (W_tss_text w Hw).
      + intros. rewrite <- ?app_assoc; now apply sp_not_char.
      + intros a x Ha. pose proof (tss_tame w Hw Bk a Ha). apply dots_sep; [now apply tame_solid|now apply tame_not].
      + rewrite <- ?app_assoc; now apply sp_not_char.
      + right. exists (Bk ++ s_ "." ++ b), r'. split; [rewrite <- !app_assoc; reflexivity|]. split; [|assumption].
        apply many1_one; [|apply nxt_no; [assumption|now apply no_triple_not46]].
        apply then_app; [apply gap_sp; now apply char_solid|]. tcons; [reflexivity|]. now split.
    - right. apply then_app; [apply gap_sp; now apply char_solid|reflexivity].
  Qed.
  Lemma dotted_tame l : wf_tmpl l -> tame (pr_dotted w Bk l).
  Proof. intros [N H]. apply tame_app. apply (joined_tame _ wf_tss); auto. apply (tss_tame w Hw). Qed.
  Lemma entry_no_triple e r : wf_quads_entry e -> no_triple (pr_quads_entry w Bk e ++ r).
  Proof.
    destruct e as [[v t] t']. intros (Hv & _). right. cbn [pr_quads_entry]. rewrite <- !app_assoc. split; [now apply (w_begins w Hw)|].
    set (x := pr_template w Bk _ ++ _ ++ r). assert (X : first 123 x) by (subst x; destruct t as [[|]|]; now eexists).
    destruct (word_voi w Hw Bk "graph" v (Bk ++ x) eq_refl Hv ltac:(auto)) as [N|(j & y & E & J)]; [now left|]. right. exists j, y, (Bk ++ x).
    split; [exact E|]. split; [exact J|]. apply nxt_sp; [|assumption]. destruct X as [z ->]. now apply char_solid.
  Qed.
  Lemma entry_solid e r : solid (pr_quads_entry w Bk e ++ r).
  Proof. destruct e as [[v t] t']. cbn [pr_quads_entry]. rewrite <- app_assoc. now apply w_solid. Qed.
  Definition efol (r : str) : Prop := (exists r', r = Bk ++ 125 :: r') \/ (graph_block r /\ solid r).
  Lemma efol_entry e r : wf_quads_entry e -> efol (pr_quads_entry w Bk e ++ r).
  Proof.
    intros H. right. destruct (entry_no_triple e r H) as [(t & X)|B].
    - pose proof (entry_solid e r) as S. destruct e as [[v t0] t']. cbn [pr_quads_entry] in *. rewrite <- app_assoc in *.
      pose proof (w_tame "graph" eq_refl) as (c & y & E & T). rewrite E in X. cbn in X. injection X as -> _. discriminate.
    - split; [assumption|apply entry_solid].
  Qed.
  Lemma efol_d r : efol r -> dfol r.
  Proof.
    intros [(r' & ->)|(B & S)].
    - exists Bk, (125 :: r'). split; [reflexivity|]. split; [apply blank_sp|]. split; [now apply char_solid|]. left. now eexists.
    - exists [], r. split; [reflexivity|]. split; [constructor|]. split; [assumption|]. now right.
  Qed.
  Lemma W_entry_text e r : wf_quads_entry e -> efol r -> W_quads_entry e (pr_quads_entry w Bk e) r.
  Proof.
    destruct e as [[v t] t']. intros (Hv & Ht & Ht') F. cbn [pr_quads_entry W_quads_entry W_quads_not_triples].
    pose proof (voi_tame v Hv) as Tv.
    assert (E : w "graph" ++ Bk ++ pr_voi v ++ Bk ++ pr_template w Bk (match t with Some t => t | None => [] end) ++ may_ (pr_dotted w Bk) t' =
                (w "graph" ++ Bk ++ pr_voi v ++ Bk ++ pr_template w Bk (match t with Some t => t | None => [] end)) ++ may_ (pr_dotted w Bk) t')
      by now rewrite <- !app_assoc.
    rewrite E. clear E. apply then_app.
    - apply then_app; [now apply w_word|]. apply then_app; [rewrite <- app_assoc; now apply gap_sp, tame_solid|].
      apply then_app; [now apply W_voi_text|]. apply then_app; [|apply (W_braced_text w Hw); revert Ht; now apply some_form].
      apply gap_sp. destruct t as [[|]|]; now apply char_solid.
    - destruct t' as [t'|]; cbn [may_ some_ optW] in *.
      + apply then_none; [left; split; [reflexivity|]|apply W_dotted_text; [assumption|now apply efol_d]].
        apply tame_not; [now apply dotted_tame|reflexivity].
      + apply then_none; [left; split; [reflexivity|]|split; [reflexivity|]].
        * destruct F as [(r' & ->)|(B & S)]; [now apply btext_not|]. apply no_triple_not46. now right.
        * destruct F as [(r' & ->)|(B & S)]; [left; rewrite <- ?app_assoc; apply nxt_sp; [now apply char_solid|now eexists]|right; exact B].
  Qed.
  Lemma W_entries_text es r : es <> [] -> Forall wf_quads_entry es -> efol r -> nxt (first 125) r ->
    manyW W_quads_entry (nxt (first 125)) es (flat_map (pr_quads_entry w Bk) es) r.
  Proof.
    intros N H F X. clear N. revert r F X. induction H as [|e es He H IH]; intros r F X; [now split|]. cbn [manyW flat_map].
    apply then_app; [|now apply IH]. apply W_entry_text; [assumption|]. destruct H as [|e' es He' H]; [exact F|].
    cbn [flat_map]. rewrite <- app_assoc. now apply efol_entry.
  Qed.
  Lemma W_quads_text q r : wf_quads q -> W_quads_pattern q (pr_quads w Bk q) r.
  Proof.
    destruct q as [f es]. intros [Hf He]. unfold W_quads_pattern. cbn [pr_quads W_quads].
    set (tl := match es with [] => s_ "}" | _ => Bk ++ s_ "}" end).
    assert (D : dfol (flat_map (pr_quads_entry w Bk) es ++ tl ++ r)).
    { subst tl. destruct He as [|e es He Hes].
      - exists [], (125 :: r). split; [reflexivity|]. split; [constructor|]. split; [now apply char_solid|]. left. now eexists.
      - cbn [flat_map]. rewrite <- app_assoc. apply efol_d. now apply efol_entry. }
    assert (S : solid (flat_map (pr_quads_entry w Bk) es ++ tl ++ r)).
    { subst tl. destruct es as [|e es]; [now apply char_solid|]. cbn [flat_map]. rewrite <- app_assoc. apply entry_solid. }
    assert (T : no_triple (flat_map (pr_quads_entry w Bk) es ++ tl ++ r)).
    { subst tl. destruct He as [|e es He Hes]; [left; now eexists|]. cbn [flat_map]. rewrite <- app_assoc. now apply entry_no_triple. }
    assert (M : manyW W_quads_entry (nxt (first 125)) es (flat_map (pr_quads_entry w Bk) es) (tl ++ r)).
    { destruct es as [|e es]; [split; [reflexivity|]; apply nxt_no; [now apply char_solid|now eexists]|].
      apply W_entries_text; [discriminate|assumption|left; exists r; unfold tl; now rewrite <- app_assoc|]. unfold tl; rewrite <- ?app_assoc; apply nxt_sp; [now apply char_solid|now eexists]. }
    assert (Z : (gap >> sym "}") tl r).
    { subst tl. destruct es; [apply then_none; [apply gap_no; now apply char_solid|reflexivity]|].
      apply then_app; [apply gap_sp; now apply char_solid|reflexivity]. }
    tcons; [reflexivity|]. tcons.
    { apply gap_sp. destruct f as [f|]; cbn [may_ app]; [|now rewrite <- app_assoc]. rewrite <- !app_assoc. now apply tame_solid, dotted_tame. }
    rewrite app_assoc. apply then_app; [|exact Z].
    destruct f as [f|]; cbn [may_ some_ optW] in *.
    - apply then_app; [|exact M]. apply then_app; [|now apply gap_sp]. apply W_dotted_text; [assumption|].
      destruct D as (b & r' & E & B & D). exists (Bk ++ b), r'. split; [rewrite <- ?app_assoc; cbn [app]; f_equal; exact E|]. split; [|assumption].
      apply (blank_app Bk); [apply blank_sp|assumption].
    - apply then_none; [now split|exact M].
  Qed.

  (** ** Statements *)
  Lemma W_silent_text s r : (s = false -> no_word1 "silent" r) -> solid r -> W_silent s (pr_silent w Bk s) r.
  Proof.
    intros H S. destruct s; cbn [W_silent pr_silent]; [|split; auto]. apply then_app; [now apply w_word|now apply gap1_sp].
  Qed.
  Lemma silent_solid s r : solid r -> solid (pr_silent w Bk s ++ r).
  Proof. intros S. destruct s; [|exact S]. cbn [pr_silent]. rewrite <- app_assoc. now apply w_solid. Qed.
  Lemma W_graph_ref_text i r : wf_iri i -> brk r -> W_graph_ref i (pr_graph_ref w Bk i) r.
  Proof.
    intros H B. apply then_app; [now apply w_word|]. apply then_app; [now apply gap1_sp, tame_solid, iri_tame|now apply W_iri_text].
  Qed.
  Lemma W_god_text g r : wf_god g -> brk r -> W_graph_or_default g (pr_graph_or_default w Bk g) r.
  Proof. destruct g; intros H B; cbn; [left; now apply W_graph_ref_text|now apply w_word]. Qed.
  Lemma god_word g r : exists k x, In k ["graph"; "default"]%string /\ pr_graph_or_default w Bk g ++ r = w k ++ x.
  Proof. destruct g; cbn [pr_graph_or_default]; unfold pr_graph_ref; rewrite <- ?app_assoc; eexists _, _; (split; [|reflexivity]); clear; cbn; tauto. Qed.
  Lemma W_gra_text g r : wf_gra g -> brk r -> W_graph_ref_all g (pr_graph_ref_all w Bk g) r.
  Proof. destruct g; intros H B; cbn; [now apply W_graph_ref_text|now apply w_word..]. Qed.
  Lemma gra_word g r : exists k x, In k ["graph"; "default"; "named"; "all"]%string /\ pr_graph_ref_all w Bk g ++ r = w k ++ x.
  Proof. destruct g; cbn [pr_graph_ref_all]; unfold pr_graph_ref; rewrite <- ?app_assoc; eexists _, _; (split; [|reflexivity]); clear; cbn; tauto. Qed.
  Lemma not_silent k x : In k ["graph"; "default"; "named"; "all"]%string -> no_word1 "silent" (w k ++ x).
  Proof. intros H. apply nw_begins. cbn in H. destruct H as [<-|[<-|[<-|[<-|[]]]]]; now apply (w_nb w Hw). Qed.
  Lemma graph_solid k x : In k ["graph"; "default"; "named"; "all"]%string -> solid (w k ++ x).
  Proof. intros H. cbn in H. destruct H as [<-|[<-|[<-|[<-|[]]]]]; now apply w_solid. Qed.
  Lemma W_silent_all_text s g r : wf_gra g -> brk r -> W_silent_all s g (pr_silent w Bk s ++ pr_graph_ref_all w Bk g) r.
  Proof.
    intros H B. apply then_app; [|now apply W_gra_text]. destruct (gra_word g r) as (k & x & Hk & ->).
    apply W_silent_text; [intros _; now apply not_silent|now apply graph_solid].
  Qed.
  Lemma gra_solid s g r : solid (pr_silent w Bk s ++ pr_graph_ref_all w Bk g ++ r).
  Proof. apply silent_solid. destruct (gra_word g r) as (k & x & Hk & ->). now apply graph_solid. Qed.
  Lemma god_first (P : str -> Prop) g r : (forall k x, In k ["graph"; "default"; "named"; "all"]%string -> P (w k ++ x)) ->
    P (pr_graph_or_default w Bk g ++ r).
  Proof. intros H. destruct (god_word g r) as (k & x & Hk & ->). apply H. revert Hk; clear; cbn; tauto. Qed.
  Lemma W_from_to_text s f t r : wf_god f -> wf_god t -> brk r ->
    W_from_to s f t (pr_silent w Bk s ++ pr_graph_or_default w Bk f ++ Bk ++ w "to" ++ Bk ++ pr_graph_or_default w Bk t) r.
  Proof.
    intros Hf Ht B. apply then_app.
    { rewrite <- !app_assoc. apply god_first. intros k x K. apply W_silent_text; [intros _; now apply not_silent|now apply graph_solid]. }
    apply then_app; [now apply W_god_text|]. apply then_app; [apply gap_sp; rewrite <- app_assoc; now apply w_solid|].
    apply then_app; [now apply w_word|]. apply then_app; [|now apply W_god_text]. apply gap_sp.
    apply god_first. exact graph_solid.
  Qed.
  Lemma quads_brace q : exists t, pr_quads w Bk q = 123 :: Bk ++ t.
  Proof. destruct q as [f es]. eexists. reflexivity. Qed.
  Lemma quads_solid q r : solid (pr_quads w Bk q ++ r).
  Proof. destruct (quads_brace q) as [t ->]. now apply char_solid. Qed.
  Lemma W_word_quads k q r : word_like k = true -> wf_quads q -> (word k >> gap1 >> W_quads_pattern q) (w k ++ Bk ++ pr_quads w Bk q) r.
  Proof.
    intros K H. apply then_app; [now apply w_word|]. apply then_app; [|now apply W_quads_text]. apply gap1_sp, quads_solid.
  Qed.
  Lemma W_delete_insert_text d r : wf_delete_insert d -> (exists x, r = Bk ++ x /\ solid x /\ ~ begins "insert" x) ->
    W_delete_insert d (pr_delete_insert w Bk d) r.
  Proof.
    intros H (x & -> & S & B). destruct d as [d i|q]; cbn [wf_delete_insert W_delete_insert pr_delete_insert] in *; [|now apply W_word_quads].
    destruct H as [Hd Hi]. change (w "offset" ++ Bk ++ pr_quads w Bk d ++ may_ (fun q => Bk ++ w "insert" ++ Bk ++ pr_quads w Bk q) i)
      with (w "offset" ++ (Bk ++ (pr_quads w Bk d ++ may_ (fun q => Bk ++ w "insert" ++ Bk ++ pr_quads w Bk q) i))).
    rewrite (app_assoc Bk), (app_assoc (w "offset")). apply then_app; [now apply W_word_quads|].
    destruct i as [q|]; cbn [may_ some_ optW] in *; [|split; [reflexivity|rewrite <- ?app_assoc; now apply nxt_sp]].
    apply then_app; [apply gap_sp; rewrite <- app_assoc; now apply w_solid|now apply W_word_quads].
  Qed.
  Lemma using_tame d : tame (pr_using w Bk d). Proof. unfold pr_using. now apply tame_app, w_tame. Qed.
  Lemma W_usings_text u r : u <> [] -> Forall wf_don u -> (exists x, r = Bk ++ x /\ solid x /\ ~ begins "using" x) ->
    sepW W_using gap1 (fun r => ~ begins "using" r) (nxt1 (fun r => ~ begins "using" r)) u (joined Bk (List.map (pr_using w Bk) u)) r.
  Proof.
    intros N H (x & -> & S & B). apply (sep_joined W_using (pr_using w Bk) wf_don gap1 Bk brk); auto.
    - intros d r Hd Hr. apply then_app; [now apply w_word|]. apply then_app; [|now apply (W_don_text w Hw)].
      now apply gap1_sp, tame_solid, (don_tame w Hw).
    - intros d t Hd. now apply gap1_sp, tame_solid, using_tame.
    - rewrite <- ?app_assoc; now apply nxt1_sp.
  Qed.
  Lemma delete_insert_word d r : exists k x, In k ["insert"; "offset"]%string /\ pr_delete_insert w Bk d ++ r = w k ++ x.
  Proof. destruct d; cbn [pr_delete_insert]; rewrite <- ?app_assoc; eexists _, _; (split; [|reflexivity]); clear; cbn; tauto. Qed.
  Lemma delete_insert_first (P : str -> Prop) d r : (forall x, P (w "insert" ++ x)) -> (forall x, P (w "offset" ++ x)) -> P (pr_delete_insert w Bk d ++ r).
  Proof. intros H1 H2. destruct (delete_insert_word d r) as (k & x & [<-|[<-|[]]] & ->); auto. Qed.
  Lemma W_modify_text i d u g r : wf_stmt n (UsModify (MkModify i d u g)) -> W_modify (MkModify i d u g) (pr_modify w Bk n (MkModify i d u g)) r.
  Proof.
    intros (Hi & Hd & (Nu & Hu) & Hg). cbn [W_modify pr_modify].
    assert (U : forall x, solid ((joined Bk (List.map (pr_using w Bk) u) ++ x) ++ r) /\ ~ begins "insert" ((joined Bk (List.map (pr_using w Bk) u) ++ x) ++ r)).
    { intros x. rewrite <- app_assoc. split.
      - apply (joined_first (pr_using w Bk) wf_don); auto. intros a t _. apply tame_solid, using_tame.
      - apply (joined_first (pr_using w Bk) wf_don (fun t => ~ begins "insert" t)); auto. intros a t _. unfold pr_using. rewrite <- app_assoc. now apply (w_nb w Hw). }
    apply then_app.
    - destruct i as [i|]; cbn [optW may_ some_] in *.
      + apply then_app; [now apply w_word|]. apply then_app; [now apply W_iri_text|]. apply gap1_sp.
        rewrite <- app_assoc. apply delete_insert_first; intros; now apply w_solid.
      + split; [reflexivity|]. rewrite <- app_assoc. apply (delete_insert_first (fun t => ~ begins "where" t)); intros; now apply (w_nb w Hw).
    - apply then_app; [apply W_delete_insert_text; [assumption|]; eexists; split; [rewrite <- app_assoc; reflexivity|apply U]|].
      apply then_app; [apply gap_sp, U|]. apply then_app.
      + apply W_usings_text; [assumption|assumption|]. exists ((w "where" ++ Bk ++ pr_ggp w Bk n g) ++ r). split; [rewrite <- ?app_assoc; reflexivity|]. rewrite <- app_assoc. split; [now apply w_solid|now apply (w_nb w Hw)].
      + apply then_app; [apply gap1_sp; rewrite <- app_assoc; now apply w_solid|]. apply then_app; [now apply w_word|].
        apply then_app; [|now apply HG]. apply gap1_sp. destruct (HB g Hg) as [t ->]. now apply char_solid.
  Qed.
  (** after a statement: the end, or a semicolon *)
  Definition ufol (r : str) : Prop := r = [] \/ exists x, r = Bk ++ 59 :: x.
  Lemma ufol_brk r : ufol r -> brk r. Proof. intros [->|(x & ->)]; [reflexivity|auto]. Qed.
  Lemma W_stmt_text u r : wf_stmt n u -> ufol r -> W_update_stmt u (pr_stmt w Bk n u) r.
  Proof.
    intros H F. pose proof (ufol_brk r F) as B.
    destruct u as [[i s g]|[s g]|[s g]|[s g]|[s f t]|[s f t]|[s f t]|q|q|q|[i d u g]]; cbn [wf_stmt W_update_stmt pr_stmt W_load W_clear W_drop W_create W_copy] in *.
    - destruct H as [Hi Hg]. apply then_app; [now apply w_word|].
      assert (S : forall x, solid (pr_iri i ++ x)) by (intros x; now apply tame_solid, iri_tame).
      apply then_app; [apply gap1_sp; rewrite <- !app_assoc; now apply silent_solid|].
      apply then_app; [rewrite <- app_assoc; apply W_silent_text; [intros _; now apply no_word1_iri|apply S]|].
      destruct g as [g|]; cbn [may_ some_ optW] in *.
      + apply then_app; [now apply W_iri_text|]. apply then_app; [apply gap_sp; rewrite <- app_assoc; now apply w_solid|].
        apply then_app; [now apply w_word|]. apply then_app; [|now apply W_graph_ref_text]. apply gap_sp. unfold pr_graph_ref. rewrite <- app_assoc.
        now apply w_solid.
      + apply then_app; [now apply W_iri_text|]. split; [reflexivity|]. destruct F as [->|(x & ->)].
        * apply nxt_no; [exact I|]. intros (x & y & E & K). destruct x; unfold kw in K; cbn in *; discriminate.
        * rewrite <- ?app_assoc; apply nxt_sp; [now apply char_solid|]. apply nb_char; [reflexivity|]. left. reflexivity.
    - apply then_app; [now apply w_word|]. apply then_app; [|now apply W_silent_all_text]. apply gap1_sp. rewrite <- app_assoc. apply gra_solid.
    - apply then_app; [now apply w_word|]. apply then_app; [|now apply W_silent_all_text]. apply gap1_sp. rewrite <- app_assoc. apply gra_solid.
    - apply then_app; [now apply w_word|]. apply then_app; [apply gap1_sp; rewrite <- app_assoc; apply (gra_solid s (GraGraphRef g))|].
      apply then_app; [|now apply W_graph_ref_text]. destruct (gra_word (GraGraphRef g) r) as (k & x & Hk & E).
      cbn [pr_graph_ref_all] in E. rewrite E. apply W_silent_text; [intros _; now apply not_silent|now apply graph_solid].
    - destruct H.
    - destruct H.
    - destruct H as [Hf Ht]. apply then_app; [now apply w_word|]. apply then_app; [|now apply W_from_to_text]. apply gap1_sp.
      rewrite <- !app_assoc. apply silent_solid. apply god_first. exact graph_solid.
    - apply then_app; [now apply w_word|]. apply then_app; [apply gap1_sp; rewrite <- app_assoc; now apply w_solid|now apply W_word_quads].
    - apply then_app; [now apply w_word|]. apply then_app; [apply gap1_sp; rewrite <- app_assoc; now apply w_solid|now apply W_word_quads].
    - apply then_app; [now apply w_word|]. apply then_app; [apply gap1_sp; rewrite <- app_assoc; now apply w_solid|now apply W_word_quads].
    - now apply W_modify_text.
  Qed.

  (** ** Requests *)
  Lemma stmt_word u r : wf_stmt n u -> exists k x, In k stmt_words /\ pr_stmt w Bk n u ++ r = w k ++ x.
  Proof.
    destruct u as [[i s g]|[s g]|[s g]|[s g]|[s f t]|[s f t]|[s f t]|q|q|q|[[i|] d u g]]; cbn [wf_stmt pr_stmt pr_modify may_]; intros H; try destruct H;
      try (rewrite <- ?app_assoc; eexists _, _; (split; [|reflexivity]); clear; cbn; tauto).
    cbn [app]. rewrite <- app_assoc. destruct (delete_insert_word d ((Bk ++ joined Bk (List.map (pr_using w Bk) u) ++ Bk ++ w "where" ++ Bk ++ pr_ggp w Bk n g) ++ r))
      as (k & x & Hk & E). exists k, x. split; [revert Hk; clear; cbn; tauto|exact E].
  Qed.
  Lemma stmt_solid k x : In k stmt_words -> solid (w k ++ x) /\ no_decl (w k ++ x).
  Proof.
    intros H. cbn in H. repeat (destruct H as [<-|H]; [split; [now apply w_solid|split; now apply (w_nb w Hw)]|]). destruct H.
  Qed.
  Lemma update_solid u r : printable_update n u -> solid r -> solid (print_update w Bk n u ++ r).
  Proof.
    destruct u as [[p] s u]. intros (Hp & Hs & Hu) Hr. cbn [print_update pr_prologue].
    destruct p as [|d p]; [|cbn [List.map]; unfold ended; cbn [flat_map]; rewrite <- !app_assoc; apply tame_solid, (decl_tame w Hw)].
    cbn [List.map ended flat_map app]. destruct s as [s|]; [|destruct u; [destruct Hu|exact Hr]]. cbn [may_ some_] in *. rewrite <- app_assoc.
    destruct (stmt_word s (may_ (fun u => Bk ++ s_ ";" ++ Bk ++ print_update w Bk n u) u ++ r) Hs) as (k & x & Hk & E). rewrite E. now apply stmt_solid.
  Qed.
  Theorem W_print_update : forall u, printable_update n u -> exists t b, print_update w Bk n u = t ++ b /\ blank b /\ W_update u t b.
  Proof.
    fix IH 1. intros [p s u] H. pose proof H as (Hp & Hs & Hu). cbn [print_update W_update].
    destruct s as [s|]; cbn [may_ some_] in *.
    - assert (PR : forall x, (W_prologue p >> gap) (pr_prologue w Bk p) (pr_stmt w Bk n s ++ x)).
      { intros x. destruct (stmt_word s x Hs) as (k & y & Hk & ->). destruct (stmt_solid k y Hk). now apply (W_prologue_text w Hw). }
      destruct u as [u|]; cbn [may_].
      + destruct (IH u Hu) as (t & b & E & B & W). exists (pr_prologue w Bk p ++ pr_stmt w Bk n s ++ Bk ++ s_ ";" ++ Bk ++ t), b. rewrite E.
        split; [now rewrite <- !app_assoc|]. split; [exact B|]. apply then_assoc. apply then_app; [rewrite <- app_assoc; apply PR|].
        apply then_app; [apply W_stmt_text; [assumption|right; rewrite <- !app_assoc; now eexists]|].
        apply then_app; [apply gap_sp; now apply char_solid|]. tcons; [reflexivity|]. tcons; [|exact W].
        apply gap_sp. cbn [app]. rewrite <- E, <- (app_nil_r (print_update w Bk n u)). now apply update_solid.
      + exists (pr_prologue w Bk p ++ pr_stmt w Bk n s), []. split; [now rewrite !app_nil_r|]. split; [constructor|].
        apply then_assoc. apply then_app; [apply PR|]. apply then_last; [apply W_stmt_text; [assumption|now left]|].
        split; [reflexivity|]. apply nxt_no; exact I.
    - destruct u as [u|]; [destruct Hu|]. cbn [may_].
      assert (PR : (W_prologue p >> gap) (pr_prologue w Bk p) []).
      { apply (W_prologue_text w Hw); [assumption|exact I|]. split; intros (x & y & E & K); destruct x; unfold kw in K; cbn in *; discriminate. }
      destruct PR as (x & y & E & P & B & _). exists x, y. rewrite !app_nil_r. split; [exact E|]. split; [exact B|]. rewrite app_nil_r in P.
      apply then_last; [exact P|]. split; [reflexivity|]. exists y, []. split; [now rewrite app_nil_r|]. split; [exact B|]. split; [exact I|].
      intros k Hk (u & v & Eu & K). destruct u; [|discriminate]. cbn in Hk.
      repeat (destruct Hk as [<-|Hk]; [discriminate|]). destruct Hk.
  Qed.
  Theorem print_update_read u : printable_update n u -> exists b, blank b /\ update (print_update w Bk n u) = Ok b u.
  Proof.
    intros H. destruct (W_print_update u H) as (t & b & -> & B & W). exists b. split; [assumption|]. now apply rd_update.
  Qed.
  Theorem print_stmt_read u : wf_stmt n u -> update_stmt (pr_stmt w Bk n u) = Ok [] u.
  Proof.
    intros H. rewrite <- (app_nil_r (pr_stmt w Bk n u)). apply rd_update_stmt. apply W_stmt_text; [assumption|now left].
  Qed.
End Words.
