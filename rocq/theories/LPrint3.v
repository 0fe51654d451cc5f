(** Printed LIMIT and OFFSET, templates, paths and WHERE triples. *)
From Verif Require Export LPrint2.
Notation length := List.length (only parsing).
Open Scope N_scope.
Open Scope list_scope.

(** the text [t], followed by a blank, is laid out; the blank is left ([op]) or taken *)
Definition fits (Bk : blanks) (op : bool) (P : lang) (t r : str) : Prop := if op then P t (Bk ++ r) else P (t ++ Bk) r.
Lemma fits_then {Bk : blanks} op (P Q : lang) t u r : fits Bk op P t (u ++ r) -> solid (u ++ r) -> Q u r -> (P >> gap >> Q) (t ++ Bk ++ u) r.
Proof.
  intros H S HQ. destruct op; cbn [fits] in H.
  - apply then_app; [rewrite <- app_assoc; exact H|]. apply then_app; [now apply gap_sp|assumption].
  - rewrite app_assoc. apply then_app; [exact H|]. apply then_none; [now apply gap_no|assumption].
Qed.
Lemma fits_gap {Bk : blanks} op (P : lang) t r : fits Bk op P t r -> solid r -> (P >> gap) (t ++ Bk) r.
Proof.
  intros H S. destruct op; cbn [fits] in H.
  - apply then_app; [exact H|]. now apply gap_sp.
  - apply then_last; [exact H|]. now apply gap_no.
Qed.

(** lists where the condition on what follows depends on the element *)
Section Lists.
  Context {A : Type} (W : A -> lang) (p : A -> str) (Q : A -> Prop) (S : lang) (sep : str) (F : A -> str -> Prop) (stop : str -> Prop).
  Hypothesis H1 : forall a r, Q a -> F a r -> W a (p a) r.
  Hypothesis H2 : forall a b t, Q a -> Q b -> F a (sep ++ p b ++ t).
  Hypothesis H3 : forall a t, Q a -> S sep (p a ++ t).
  Lemma sep1_last l d r : l <> [] -> Forall Q l -> F (last l d) r -> stop r -> sep1W W S stop l (joined sep (List.map p l)) r.
  Proof.
    intros N Hl Hr Hs. destruct Hl as [|a l Ha Hl]; [congruence|]. clear N. cbn [sep1W List.map joined].
    assert (T : forall a, Q a -> F (last (a :: l) d) r ->
      F a (flat_map (fun x => sep ++ x) (List.map p l) ++ r) /\ tailW W S stop l (flat_map (fun x => sep ++ x) (List.map p l)) r).
    { clear a Ha Hr. induction Hl as [|b l Hb Hl IH]; intros a Ha Hr; [split; [exact Hr|split; auto]|].
      destruct (IH b Hb Hr) as [I1 I2]. cbn [List.map flat_map tailW]. split; [rewrite <- !app_assoc; now apply H2|].
      rewrite <- app_assoc. apply then_app; [rewrite <- app_assoc; now apply H3|]. apply then_app; [|exact I2]. now apply H1. }
    destruct (T a Ha Hr) as [T1 T2]. apply then_app; [|exact T2]. now apply H1.
  Qed.
End Lists.

Lemma semis_sep {Bk : blanks} r : solid r -> not_first 59 r -> semisW (Bk ++ [59] ++ Bk) r.
Proof. intros S N. apply many1_one; [now apply padded_sep|now apply nxt_no]. Qed.
Lemma dots_sep {Bk : blanks} r : solid r -> not_first 46 r -> dotsW (Bk ++ [46] ++ Bk) r.
Proof. intros S N. apply many1_one; [now apply padded_sep|now apply nxt_no]. Qed.
Lemma semis2_sep {Bk : blanks} r : solid r -> not_first 59 r -> semisW (Bk ++ [59; 59] ++ Bk) r.
Proof.
  intros S N. exists [tt]. replace (Bk ++ [59; 59] ++ Bk) with ((Bk ++ [59]) ++ (59 :: Bk)) by (now rewrite <- app_assoc). apply then_app.
  - apply then_app; [apply gap_sp; now apply char_solid|]. apply then_last; [reflexivity|apply gap_no; now apply char_solid].
  - cbn [manyW]. apply then_last; [|split; [reflexivity|now apply nxt_no]].
    apply then_none; [apply gap_no; now apply char_solid|]. tcons; [reflexivity|]. now apply gap_sp.
Qed.

Section Words.
  Context (w : string -> str) (Hw : casing w) (Bk : blanks).
  Notation w_word := (w_word w Hw). Notation w_tame := (w_tame w Hw). Notation w_kw := (w_kw w Hw).

  (** ** LIMIT and OFFSET *)
  Definition both (l : LimitOffsetClause) : bool :=
    match l with LimitOffset _ (Some _) | OffsetLimit _ (Some _) => true | _ => false end.
  Lemma num_of_text k z : word_like k = true -> u64 z -> (kw k ;; blank ;; R_u64 z) (pr_num_of w Bk k z).
  Proof.
    intros K H. exists (w k), (Bk ++ dec (Z.to_N z)). split; [reflexivity|]. split; [now apply w_kw|].
    exists Bk, (dec (Z.to_N z)). split; [reflexivity|]. split; [apply blank_sp|now apply nat_text].
  Qed.
  Lemma W_limit_text l r : wf_limit_offset l -> solid r -> ~ begins "limit" r -> ~ begins "offset" r ->
    stops low_digit r -> fits Bk (both l) (W_limit_offset l) (pr_limit_offset w Bk l) r.
  Proof.
    intros H S N1 N2 D. destruct l as [n [m|]|n [m|]]; cbn [wf_limit_offset both fits pr_limit_offset may_] in *; destruct H as [H1 H2].
    all: split; cbn [R_limit_offset]; try (split; [apply brk_stops; [reflexivity|auto]|exact I]); try (repeat split; assumption).
    - exists (pr_num_of w Bk "limit" n), (Bk ++ pr_num_of w Bk "offset" m). split; [reflexivity|]. split; [now apply num_of_text|].
      exists Bk, (pr_num_of w Bk "offset" m). repeat split; [apply blank_sp|]. now apply num_of_text.
    - exists (pr_num_of w Bk "limit" n), Bk. rewrite app_nil_r. split; [reflexivity|]. split; [now apply num_of_text|].
      exists Bk, []. split; [now rewrite app_nil_r|]. split; [apply blank_sp|reflexivity].
    - exists (pr_num_of w Bk "offset" n), (Bk ++ pr_num_of w Bk "limit" m). split; [reflexivity|]. split; [now apply num_of_text|].
      exists Bk, (pr_num_of w Bk "limit" m). repeat split; [apply blank_sp|]. now apply num_of_text.
    - exists (pr_num_of w Bk "offset" n), Bk. rewrite app_nil_r. split; [reflexivity|]. split; [now apply num_of_text|].
      exists Bk, []. split; [now rewrite app_nil_r|]. split; [apply blank_sp|reflexivity].
  Qed.

  (** ** The first character of a printed text does not depend on the case of the keywords *)
  Definition alike (t t' : str) : Prop :=
    exists c x c' x', t = c :: x /\ t' = c' :: x' /\ (c = c' \/ (65 <= c <= 122 /\ 65 <= c' <= 122)).
  Lemma alike_same t : tame t -> alike t t.
  Proof. intros H. apply tame_hard, hard_nonempty in H. destruct t as [|c x]; [congruence|]. exists c, x, c, x. auto. Qed.
  Lemma alike_app t t' u u' : alike t t' -> alike (t ++ u) (t' ++ u').
  Proof. intros (c & x & c' & x' & -> & -> & H). exists c, (x ++ u), c', (x' ++ u'). auto. Qed.
  Lemma alike_w k : In k ["a"; "true"; "false"]%string -> alike (s_ k) (w k).
  Proof.
    assert (X : forall k, word_like k = true -> (exists d y, s_ k = d :: y /\ 65 <= d <= 122 /\ forallb (fun c => (65 <=? c) && (c <=? 122)) (cap2 k) = true) ->
      alike (s_ k) (w k)).
    { clear k. intros k K (d & y & E & D & F). destruct (w_starts w Hw k K) as (c & x & E' & I). rewrite forallb_forall in F.
      apply F, andb_true_iff in I. rewrite !N.leb_le in I. exists d, y, c, x. auto. }
    intros [<-|[<-|[<-|[]]]]; (apply X; [reflexivity|]; eexists _, _; split; [reflexivity|]; split; [split; discriminate|reflexivity]).
  Qed.
  Lemma alike_not t t' : alike t t' -> not_first 58 t -> not_first 58 t'.
  Proof. intros (c & x & c' & x' & -> & -> & H) N. cbn in *. destruct H as [<-|H]; [exact N|lia]. Qed.
  Lemma alike_plain t t' : alike t t' -> plain_start t -> plain_start t'.
  Proof.
    intros (c & x & c' & x' & -> & -> & H) (d & y & E & D & N). injection E as <- <-. exists c', x'. split; [reflexivity|].
    destruct H as [<-|[_ H]]; [auto|]. split; [lia|]. cbn. lia.
  Qed.
  Lemma alike_joined {A} (p p' : A -> str) (Q : A -> Prop) sep sep' l : (forall a, Q a -> alike (p a) (p' a)) -> l <> [] -> Forall Q l ->
    alike (joined sep (List.map p l)) (joined sep' (List.map p' l)).
  Proof. intros P N H. destruct H as [|a l Ha _]; [congruence|]. cbn [List.map joined]. now apply alike_app, P. Qed.
  Lemma alike_vot v : wf_vot v -> alike (pr_vot s_ v) (pr_vot w v).
  Proof.
    intros H. pose proof (vot_tame w Hw v H) as T. destruct v as [v|[i|l|n|b|b|]]; try now apply alike_same.
    apply alike_w. destruct b; cbn; auto.
  Qed.
  Lemma alike_objects o : wf_objects o -> alike (pr_objects s_ [32] o) (pr_objects w Bk o).
  Proof. destruct o as [l]. intros [N H]. apply (alike_joined _ _ wf_node); auto. intros [v|] Hv; [now apply alike_vot|destruct Hv]. Qed.
  Lemma alike_props p : wf_props p -> alike (pr_props s_ [32] p) (pr_props w Bk p).
  Proof.
    destruct p as [l]. intros [N H]. apply (alike_joined _ _ wf_verb_list); auto. intros [[v|] o] [_ Hv]; cbn [pr_verb_list pr_verb]; apply alike_app.
    - now apply alike_same, voi_tame.
    - apply alike_w. cbn. auto.
  Qed.

  (** ** Templates *)
  Lemma node_tame g : wf_node g -> tame (pr_node w g).
  Proof. destruct g; [apply (vot_tame w Hw)|intros []]. Qed.
  Lemma W_objects_text o r : wf_objects o -> sp_not [58; 44] r -> W_object_list o (pr_objects w Bk o) r.
  Proof.
    intros H S. destruct o as [l]. destruct H as [N H]. cbn [W_object_list pr_objects].
    apply (sep1_joined W_graph_node (pr_node w) wf_node (gap >> sym "," >> gap) (Bk ++ s_ "," ++ Bk) (sp_not [58])); auto.
    - intros g r' Hg Hr. destruct g as [v|]; [|destruct Hg]. now apply (W_vot_sp w Hw).
    - intros g t _. rewrite <- ?app_assoc; now apply sp_not_char.
    - intros g t Hg. apply padded_sep; auto. now apply tame_solid, node_tame.
    - eapply sp_not_weak; [exact S|reflexivity].
    - eapply sp_not_nxt; [exact S|reflexivity].
  Qed.
  Lemma objects_tame o : wf_objects o -> tame (pr_objects w Bk o).
  Proof. destruct o as [l]. intros [N H]. apply (joined_tame _ wf_node); auto. apply node_tame. Qed.
  Lemma verb_tame v : match v with VerbVarOrIri v => wf_voi v | VerbA => True end -> tame (pr_verb w v).
  Proof. destruct v; [apply voi_tame|]. intros _. now apply w_tame. Qed.
  Lemma verb_list_tame v : wf_verb_list v -> tame (pr_verb_list w Bk v).
  Proof. destruct v as [v o]. intros [_ H]. apply tame_app, verb_tame. destruct v; auto. Qed.
  Lemma W_verb_list_text v r : wf_verb_list v -> sp_not [58; 44] r -> W_verb_list v (pr_verb_list w Bk v) r.
  Proof.
    intros H S. destruct v as [v o]. destruct H as [Ho Hv]. cbn [W_verb_list pr_verb_list].
    pose proof (objects_tame o Ho) as T. apply then_app.
    - destruct v as [v|]; cbn [W_verb pr_verb].
      + now apply W_voi_text.
      + split; [now apply w_kw|]. rewrite <- ?app_assoc; apply (w_plain w Hw); [reflexivity|now apply tame_solid|]. apply not_first_app; [|now apply (alike_not (pr_objects s_ [32] o)); [apply alike_objects|]].
        now apply hard_nonempty, tame_hard.
    - apply then_app; [|now apply W_objects_text]. now apply gap_sp, tame_solid.
  Qed.
  Lemma props_tame p : wf_props p -> tame (pr_props w Bk p).
  Proof. destruct p as [l]. intros [N H]. apply (joined_tame _ (wf_verb_list)); auto. apply verb_list_tame. Qed.
  Lemma W_props_text p r : wf_props p -> sp_not [58; 44; 59] r -> W_property_list p (pr_props w Bk p) r.
  Proof.
    intros H S. destruct p as [l]. destruct H as [N H]. cbn [W_property_list pr_props].
    apply then_last; [|exists []; split; [reflexivity|eapply sp_not_nxt; [exact S|reflexivity]]].
    apply (sep1_joined W_verb_list (pr_verb_list w Bk) (wf_verb_list) semisW (Bk ++ s_ ";" ++ Bk) (sp_not [58; 44])); auto.
    - intros g r' Hg Hr. now apply W_verb_list_text.
    - intros g t _. rewrite <- ?app_assoc; now apply sp_not_char.
    - intros g t Hg. pose proof (verb_list_tame g Hg). apply semis_sep; [now apply tame_solid|now apply tame_not].
    - eapply sp_not_weak; [exact S|reflexivity].
    - left. eapply sp_not_nxt; [exact S|reflexivity].
  Qed.
  Lemma item_not_colon g' g r : wf_node g -> wf_item g' g -> match g' with GnVarOrTerm v => is_bool v | _ => false end = true -> not_first 58 (pr_node w g ++ r).
  Proof.
    intros H N V. destruct g as [[v|[i|l|n|b|b|]]|]; [..|destruct H]; cbn [pr_node pr_vot pr_term wf_node wf_vot wf_term] in *.
    - destruct v; discriminate.
    - apply named_not_colon. split; [assumption|]. destruct g' as [[|[]]|]; try discriminate; exact N.
    - eapply starts_not_colon; [apply lit_starts|reflexivity].
    - eapply starts_not_colon; [now apply num_starts|reflexivity].
    - apply (w_not_colon w Hw). now destruct b.
    - eapply starts_not_colon; [apply bnode_starts|reflexivity].
    - discriminate.
  Qed.
  Lemma items_each l : wf_items l -> Forall wf_node l.
  Proof. induction l as [|v l IH]; [constructor|]. intros (H & _ & Hl). constructor; auto. Qed.
  Lemma W_items l r : wf_items l -> manyW (fun g => W_graph_node g >> gap) (first 41) l (ended Bk (List.map (pr_node w) l)) (41 :: r).
  Proof.
    intros H. induction l as [|g l IH]; [split; [reflexivity|now exists r]|]. destruct H as (Hv & Hn & Hl). cbn [manyW List.map].
    change (ended Bk (pr_node w g :: List.map (pr_node w) l)) with ((pr_node w g ++ Bk) ++ ended Bk (List.map (pr_node w) l)).
    assert (X : solid (ended Bk (List.map (pr_node w) l) ++ 41 :: r)).
    { eapply ended_solid; [exact (items_each l Hl)|intros; now apply node_tame|now apply char_solid]. }
    apply then_app; [|now apply IH]. apply then_app; [|now apply gap_sp]. destruct g as [v|]; [|destruct Hv].
    apply (W_vot_text w Hw); [assumption|auto|]. intros V. exists Bk, (ended Bk (List.map (pr_node w) l) ++ 41 :: r). split; [reflexivity|]. split; [assumption|].
    constructor; [|constructor]. destruct l as [|g' l]; [discriminate|]. unfold ended. cbn [List.map flat_map]. rewrite <- !app_assoc.
    apply (item_not_colon (GnVarOrTerm v)); [apply Hl|assumption..].
  Qed.
  Lemma W_triples_node_text n r : wf_triples_node n -> W_triples_node n (pr_triples_node w Bk n) r.
  Proof.
    intros H. destruct n as [[l]|p]; cbn [wf_triples_node pr_triples_node W_triples_node] in *.
    - destruct H as [N H]. change (s_ "(" ++ Bk ++ ?x) with (40 :: Bk ++ x). tcons; [reflexivity|]. apply then_app.
      + apply gap_sp. rewrite <- app_assoc. eapply ended_solid; [exact (items_each l H)|intros g Hg; apply node_tame, Hg|now apply char_solid].
      + apply then_app; [|reflexivity]. split; [assumption|].
        now apply W_items.
    - change (s_ "[" ++ Bk ++ pr_props w Bk p ++ Bk ++ s_ "]") with (91 :: Bk ++ pr_props w Bk p ++ (Bk ++ [93])). tcons; [reflexivity|].
      pose proof (props_tame p H). tcons; [rewrite <- app_assoc; now apply gap_sp, tame_solid|].
      apply then_app; [apply W_props_text; [assumption|rewrite <- ?app_assoc; now apply sp_not_char]|].
      apply then_app; [apply gap_sp; now apply char_solid|]. reflexivity.
  Qed.
  Lemma tss_tame t : wf_tss t -> tame (pr_tss w Bk t).
  Proof.
    destruct t as [v p|n [p|]]; cbn [wf_tss pr_tss]; [| |intros []].
    - intros (H & _). now apply tame_app, (vot_tame w Hw).
    - intros _. apply tame_app. destruct n as [[l]|p']; now apply tame_cons.
  Qed.
  Lemma W_tss_text t r : wf_tss t -> sp_not [58; 44; 59] r -> W_tss t (pr_tss w Bk t) r.
  Proof.
    intros H S. destruct t as [v p|n [p|]]; cbn [wf_tss pr_tss W_tss may_] in *; [| |destruct H].
    - destruct H as (Hv & Hp & Hb). pose proof (props_tame p Hp) as T. apply then_app.
      + apply (W_vot_text w Hw); [assumption|auto|]. intros B. rewrite <- app_assoc. eexists _, _. split; [reflexivity|].
        split; [now apply tame_solid|]. constructor; [|constructor]. apply not_first_app; [now apply hard_nonempty, tame_hard|].
        now apply (alike_not (pr_props s_ [32] p)); [apply alike_props|apply Hb].
      + apply then_app; [now apply gap1_sp, tame_solid|]. now apply W_props_text.
    - destruct H as [Hn Hp]. pose proof (props_tame p Hp) as T. apply then_app; [now apply W_triples_node_text|].
      apply then_app; [now apply gap_sp, tame_solid|]. now apply W_props_text.
  Qed.
  Lemma template_eq l : l <> [] -> pr_template w Bk l = 123 :: Bk ++ joined (Bk ++ s_ "." ++ Bk) (List.map (pr_tss w Bk) l) ++ (Bk ++ [125]).
  Proof. now destruct l. Qed.
  Lemma W_template_text l r : Forall (wf_tss) l -> W_construct_template (MkConstructTemplate l) (pr_template w Bk l) r.
  Proof.
    intros H. cbn [W_construct_template]. destruct l as [|t l].
    - change (pr_template w Bk []) with (123 :: Bk ++ [125]). tcons; [reflexivity|]. apply then_app; [apply gap_sp; now apply char_solid|].
      apply then_none; [split; [reflexivity|now eexists]|]. apply then_none; [apply gap_no; now apply char_solid|]. reflexivity.
    - remember (t :: l) as l'. assert (N : l' <> []) by (subst; discriminate). clear Heql' t l.
      rewrite template_eq by assumption. tcons; [reflexivity|].
      apply then_app; [apply gap_sp; rewrite <- app_assoc; apply tame_solid, (joined_tame _ (wf_tss)); auto; apply tss_tame|].
      apply then_app; [|apply then_app; [apply gap_sp; now apply char_solid|reflexivity]].
      apply (sep_joined W_tss (pr_tss w Bk) (wf_tss) dotsW (Bk ++ s_ "." ++ Bk) (sp_not [58; 44; 59])); auto.
      + intros. now apply W_tss_text.
      + intros. rewrite <- ?app_assoc; now apply sp_not_char.
      + intros a x Ha. pose proof (tss_tame a Ha). apply dots_sep; [now apply tame_solid|now apply tame_not].
      + rewrite <- ?app_assoc; now apply sp_not_char.
      + rewrite <- ?app_assoc; apply nxt_sp; [now apply char_solid|discriminate].
  Qed.
  Lemma W_braced_text o r : some_ (fun t => t <> [] /\ Forall (wf_tss) t) o ->
    W_braced_template o (pr_template w Bk (match o with Some t => t | None => [] end)) r.
  Proof.
    intros H. destruct o as [l|]; cbn [some_] in H.
    - destruct H as [N H]. unfold W_braced_template, optW. destruct l as [|t l]; [congruence|].
      remember (t :: l) as l'. clear Heql' t l.
      rewrite template_eq by assumption. tcons; [reflexivity|].
      apply then_app; [apply gap_sp; rewrite <- app_assoc; apply tame_solid, (joined_tame _ (wf_tss)); auto; apply tss_tame|].
      apply then_app; [|apply then_app; [apply gap_sp; now apply char_solid|reflexivity]].
      assert (E : nxt (not_first 46) ((Bk ++ [125]) ++ r)) by (rewrite <- ?app_assoc; apply nxt_sp; [now apply char_solid|discriminate]).
      apply then_last; [|left; now split].
      apply (sep1_joined W_tss (pr_tss w Bk) (wf_tss) dotsW (Bk ++ s_ "." ++ Bk) (sp_not [58; 44; 59])); auto.
      + intros. now apply W_tss_text.
      + intros. rewrite <- ?app_assoc; now apply sp_not_char.
      + intros a x Ha. pose proof (tss_tame a Ha). apply dots_sep; [now apply tame_solid|now apply tame_not].
      + rewrite <- ?app_assoc; now apply sp_not_char.
      + now left.
    - change (pr_template w Bk []) with (123 :: Bk ++ [125]). tcons; [reflexivity|].
      apply then_app; [apply gap_sp; now apply char_solid|]. apply then_none; [split; [reflexivity|now eexists]|].
      apply then_none; [apply gap_no; now apply char_solid|]. reflexivity.
  Qed.

  (** ** Paths *)
  Definition bare_a (e : PathEltOrInverse) : bool :=
    match e with PeiPathElt (MkPathElt PpA None) | PeiInverse (MkPathElt PpA None) => true | _ => false end.
  Definition bare (e : PathEltOrInverse) : bool :=
    match e with PeiPathElt (MkPathElt _ None) | PeiInverse (MkPathElt _ None) => true | _ => false end.
  Definition pfol (m a : bool) (r : str) : Prop :=
    first 41 r \/ exists x, r = Bk ++ x /\ solid x /\ (m = true -> plain_start x) /\ (a = true -> not_first 58 x).
  Lemma pfol_brk m a r : pfol m a r -> brk r.
  Proof. now intros [[x ->]|(x & -> & _)]. Qed.
  Lemma pfol_mod a r : pfol true a r -> no_mod r.
  Proof. intros [[x ->]|(x & -> & S & P & _)]; [left; now apply char_solid|]. right. specialize (P eq_refl). rewrite <- ?app_assoc; now apply nxt1_sp. Qed.
  Definition afol (r : str) : Prop := first 41 r \/ exists x, r = Bk ++ x /\ solid x /\ not_first 58 x.
  Lemma pfol_afol m r : pfol m true r -> afol r.
  Proof. intros [H|(x & -> & S & _ & N)]; [now left|]. right. exists x. auto. Qed.
  Lemma a_plain r : afol r -> no_iri (97 :: r).
  Proof.
    assert (P : prefix_name [97]) by (apply (letter_kw_prefix "a"); reflexivity).
    intros [[x ->]|(x & -> & S & N)]; apply no_iri_fails.
    - apply (iri_fails_word [97] [] (41 :: x)); [exact P|now apply brk_name|constructor|now apply char_solid|discriminate].
    - apply (iri_fails_word [97] Bk x); auto using blank_sp. now apply brk_name.
  Qed.
  Lemma in_set_tame i : wf_in_set i -> tame (pr_in_set w i).
  Proof. destruct i as [[[i|]|i]]; cbn; [apply iri_tame|intros _; now apply w_tame|intros _; now apply tame_cons]. Qed.
  Lemma W_ioa_text i r : match i with IoaIri i => wf_iri i | IoaA => True end -> sp_not [58] r -> W_iri_or_a i (pr_ioa w i) r.
  Proof.
    intros H (B' & r' & -> & S & F). inversion F; subst. destruct i as [i|]; cbn [W_iri_or_a pr_ioa].
    - now apply W_iri_text.
    - split; [now apply w_kw|now rewrite <- ?app_assoc; apply (w_plain w Hw)].
  Qed.
  Lemma W_negated_text l r : l <> [] -> Forall wf_in_set l ->
    W_negated (MkPathNegatedPropertySet l) (s_ "(" ++ Bk ++ joined (Bk ++ s_ "|" ++ Bk) (List.map (pr_in_set w) l) ++ Bk ++ s_ ")") r.
  Proof.
    intros N H. cbn [W_negated]. change (s_ "(" ++ Bk ++ ?x ++ Bk ++ s_ ")") with (40 :: Bk ++ x ++ (Bk ++ [41])). tcons; [reflexivity|].
    apply then_app; [apply gap_sp; rewrite <- app_assoc; apply tame_solid, (joined_tame _ wf_in_set); auto; apply in_set_tame|].
    apply then_app; [|apply then_app; [apply gap_sp; now apply char_solid|reflexivity]].
    apply (sep1_joined _ (pr_in_set w) wf_in_set barW (Bk ++ s_ "|" ++ Bk) (sp_not [58])); auto.
    - intros [[i|i]] r' Hi Hr; [now apply W_ioa_text|]. cbn [W_iri_or_a_or_caret pr_in_set]. tcons; [reflexivity|now apply W_ioa_text].
    - intros. rewrite <- ?app_assoc; now apply sp_not_char.
    - intros a x Ha. apply padded_sep; auto. now apply tame_solid, in_set_tame.
    - rewrite <- ?app_assoc; now apply sp_not_char.
    - rewrite <- ?app_assoc; apply nxt_sp; [now apply char_solid|discriminate].
  Qed.
  Lemma elt_tame P e : wf_elt_or_inverse P e -> tame (pr_elt_or_inverse w Bk e).
  Proof.
    destruct e as [[p m]|[p m]]; cbn [wf_elt_or_inverse pr_elt_or_inverse pr_elt]; [|intros _; now apply tame_cons].
    intros H. apply tame_app. destruct p as [i| |[l]|p]; cbn [pr_path_primary wf_path_primary] in *; [now apply iri_tame|now apply tame_cons..].
  Qed.
  Lemma W_path_text p : wf_path p -> forall r, pfol (ends_bare p) (ends_a p) r -> nxt (not_first 124) r -> W_path p (pr_path w Bk p) r.
  Proof.
    induction 1 as [P p _ IH H]. intros r Hr Hn.
    destruct p as [[|[l] [|]]]; try destruct H. cbn [path_wf] in H.
    apply (W_path_intro (fun p t r => P p /\ W_path p t r)); [now intros ? ? ? [_ X]|].
    cbn [path_layout pr_path pr_sequence List.map joined]. cbn [flat_map]. rewrite app_nil_r.
    apply (sep1_last _ (pr_elt_or_inverse w Bk) (wf_elt_or_inverse P) barW (Bk ++ s_ "|" ++ Bk) (fun e => pfol (bare e) (bare_a e)))
      with (d := PeiPathElt (MkPathElt PpA (Some PmPlus))); auto.
    - assert (X : forall p m r, wf_path_primary P p -> pfol (bare (PeiPathElt (MkPathElt p m))) (bare_a (PeiPathElt (MkPathElt p m))) r ->
        W_elt (fun p t r => P p /\ W_path p t r) (MkPathElt p m) (pr_elt w Bk (MkPathElt p m)) r).
      { clear Hr Hn H0 H r. intros p m r Hp Hr. cbn [W_elt].
        change (pr_elt w Bk (MkPathElt p m)) with (pr_path_primary w Bk p ++ may_ (fun m => Bk ++ pr_mod m) m).
        assert (Hprim : forall r, brk r -> (p = PpA -> afol r) ->
          W_path_primary (fun p t r => P p /\ W_path p t r) p (pr_path_primary w Bk p) r).
        { intros r' B A. destruct p as [i| |[ls]|p]; cbn [W_path_primary pr_path_primary wf_path_primary] in *.
          - now apply W_iri_text.
          - split; [reflexivity|]. apply a_plain. now apply A.
          - destruct Hp as [N Hp]. change (s_ "!(" ++ Bk ++ ?x) with (33 :: s_ "(" ++ Bk ++ x). tcons; [reflexivity|].
            now apply W_negated_text.
          - change (s_ "(" ++ ?x) with (40 :: x). tcons; [reflexivity|]. apply then_app; [|reflexivity].
            split; [assumption|]. apply IH; [assumption|left; now eexists|]. apply nxt_no; [now apply char_solid|discriminate]. }
        destruct m as [m|]; cbn [optW may_].
        - apply then_app.
          + apply Hprim; [auto|]. intros _. right. rewrite <- ?app_assoc. eexists. split; [reflexivity|].
            destruct m; (split; [now apply char_solid|discriminate]).
          + apply then_app; [apply gap1_sp; destruct m; now apply char_solid|]. destruct m; reflexivity.
        - rewrite app_nil_r. apply then_last; [|split; [reflexivity|eapply pfol_mod; exact Hr]]. apply Hprim; [eapply pfol_brk; exact Hr|]. intros ->. now apply (pfol_afol true). }
      intros [[p m]|[p m]] r' He Hr'; cbn [W_elt_or_inverse pr_elt_or_inverse]; [now apply X|].
      tcons; [reflexivity|]. apply X; [exact He|]. exact Hr'.
    - intros a b t _ _. right. rewrite <- ?app_assoc. eexists. split; [reflexivity|]. split; [now apply char_solid|].
      split; [|discriminate]. intros _. eexists _, _. split; [reflexivity|]. split; [reflexivity|]. cbn. intuition discriminate.
    - intros a t Ha. apply padded_sep; auto. now apply tame_solid, (elt_tame P).
  Qed.
  Lemma path_tame p : wf_path p -> tame (pr_path w Bk p).
  Proof.
    intros [P q _ H]. destruct q as [[|[l] [|]]]; try destruct H. cbn [pr_path pr_sequence List.map joined flat_map]. rewrite app_nil_r.
    apply (joined_tame _ (wf_elt_or_inverse P)); auto. intros a. apply elt_tame.
  Qed.

  Lemma alike_path p : wf_path p -> alike (pr_path s_ [32] p) (pr_path w Bk p).
  Proof.
    intros [P q _ H]. clear p. destruct q as [[|[l] [|]]]; try destruct H. cbn [pr_path pr_sequence List.map joined flat_map]. rewrite !app_nil_r.
    apply (alike_joined _ _ (wf_elt_or_inverse P)); auto. intros [[p m]|[p m]] Hp.
    - change (pr_elt_or_inverse ?w ?B (PeiPathElt (MkPathElt p m))) with (pr_path_primary w B p ++ may_ (fun m => B ++ pr_mod m) m).
      apply alike_app. destruct p as [i| |[ls]|p]; cbn [pr_path_primary].
      + now apply alike_same, iri_tame.
      + now apply alike_same, tame_cons.
      + eexists _, _, _, _. split; [reflexivity|]. split; [reflexivity|]. now left.
      + eexists _, _, _, _. split; [reflexivity|]. split; [reflexivity|]. now left.
    - eexists _, _, _, _. split; [reflexivity|]. split; [reflexivity|]. now left.
  Qed.
  Lemma alike_verb_path v o : wf_verb_path v o -> alike (pr_verb_path s_ [32] v) (pr_verb_path w Bk v).
  Proof. destruct v; [intros [H _]; now apply alike_path|intros _; now apply alike_same, var_tame]. Qed.
  Lemma alike_props_path p : wf_props_path p -> alike (pr_props_path s_ [32] p) (pr_props_path w Bk p).
  Proof. destruct p as [v o es]. intros [H _]. eapply alike_app, alike_verb_path. exact H. Qed.
  Lemma alike_objects_path l : l <> [] -> Forall wf_node_path l -> alike (pr_objects_path s_ [32] (MkObjectListPath l)) (pr_objects_path w Bk (MkObjectListPath l)).
  Proof. intros N H. apply (alike_joined _ _ wf_node_path); auto. intros [v|] Hv; [now apply alike_vot|destruct Hv]. Qed.
  Lemma alike_wf v o o' : alike o o' -> wf_verb_path v o -> wf_verb_path v o'.
  Proof.
    intros A. destruct v; [|auto]. intros (H & P & N). split; [exact H|]. split; [intros X; apply (alike_plain o); auto|]. intros X. apply (alike_not o); auto.
  Qed.

  (** ** WHERE triples *)
  Lemma node_path_tame g : wf_node_path g -> tame (pr_node_path w g).
  Proof. destruct g; [apply (vot_tame w Hw)|intros []]. Qed.
  Lemma W_verb_path_text v o r : wf_verb_path v o -> tame o -> W_verb_path v (pr_verb_path w Bk v) (Bk ++ o ++ r).
  Proof.
    intros H T. destruct v as [p|v]; cbn [wf_verb_path W_verb_path pr_verb_path] in *; [|now apply W_var_text].
    destruct H as (Hp & Hs & Hc). apply W_path_text; [assumption| |rewrite <- ?app_assoc; apply nxt_sp; [now apply tame_solid|now apply tame_not]].
    right. eexists. split; [reflexivity|]. split; [now apply tame_solid|]. split.
    - intros A. destruct (Hs A) as (c & t & -> & X). exists c, (t ++ r). auto.
    - intros A. apply not_first_app; [now apply hard_nonempty, tame_hard|auto].
  Qed.
  Lemma verb_path_tame v o : wf_verb_path v o -> tame (pr_verb_path w Bk v).
  Proof. destruct v; [intros [H _]; now apply path_tame|intros _; apply var_tame]. Qed.
  Lemma W_entry_text e r : wf_entry e -> sp_not [58; 44] r -> W_path_entry e (pr_entry w Bk e) r.
  Proof.
    intros H S. destruct e as [v o]. destruct H as [Hv Ho]. cbn [W_path_entry pr_entry]. pose proof (objects_tame o Ho) as T.
    apply (alike_wf _ _ _ (alike_objects o Ho)) in Hv. apply then_app; [rewrite <- ?app_assoc; now apply W_verb_path_text|]. apply then_app; [now apply gap1_sp, tame_solid|]. now apply W_objects_text.
  Qed.
  Lemma entry_tame e : wf_entry e -> tame (pr_entry w Bk e).
  Proof. destruct e as [v o]. intros [H _]. eapply tame_app, verb_path_tame. exact H. Qed.
  Lemma objects_path_tame l : l <> [] -> Forall wf_node_path l -> tame (pr_objects_path w Bk (MkObjectListPath l)).
  Proof. intros N H. apply (joined_tame _ wf_node_path); auto. apply node_path_tame. Qed.
  Lemma W_props_path_text p r : wf_props_path p -> sp_not [58; 44; 59] r -> W_property_list_path p (pr_props_path w Bk p) r.
  Proof.
    intros H S. destruct p as [v [l] es]. destruct H as (Hv & (N & Hl) & He). cbn [W_property_list_path].
    change (pr_props_path w Bk (MkPropertyListPath v (MkObjectListPath l) es)) with
      (pr_verb_path w Bk v ++ Bk ++ pr_objects_path w Bk (MkObjectListPath l) ++ flat_map (fun e => Bk ++ s_ ";;" ++ Bk ++ pr_entry w Bk e) es).
    pose proof (objects_path_tame l N Hl) as T. apply (alike_wf _ _ _ (alike_objects_path l N Hl)) in Hv.
    assert (X : sp_not [58; 44] (flat_map (fun e => Bk ++ s_ ";;" ++ Bk ++ pr_entry w Bk e) es ++ r) /\ objects_end (flat_map (fun e => Bk ++ s_ ";;" ++ Bk ++ pr_entry w Bk e) es ++ r)).
    { destruct es as [|e es]; cbn [flat_map].
      - split; [eapply sp_not_weak; [exact S|reflexivity]|]. left. eapply sp_not_nxt; [exact S|reflexivity].
      - rewrite <- !app_assoc. change (s_ ";;" ++ ?x) with (59 :: 59 :: x). split; [rewrite <- ?app_assoc; now apply sp_not_char|]. right.
        eexists (Bk ++ [59]), _. split; [rewrite <- app_assoc; reflexivity|]. split; [|left; now eexists].
        apply then_app; [apply gap_sp; now apply char_solid|]. apply then_last; [reflexivity|]. apply gap_no. now apply char_solid. }
    destruct X as [X1 X2]. apply then_app; [rewrite <- !app_assoc; exact (W_verb_path_text v _ _ Hv T)|].
    apply then_app; [apply gap1_sp; rewrite <- app_assoc; now apply tame_solid|].
    apply then_app.
    - apply (sep1_joined W_graph_node_path (pr_node_path w) wf_node_path (gap >> sym ";" >> gap) (Bk ++ s_ ";" ++ Bk) (sp_not [58])); auto.
      + intros g r' Hg Hr. destruct g as [x|]; [|destruct Hg]. now apply (W_vot_sp w Hw).
      + intros g t _. rewrite <- ?app_assoc; now apply sp_not_char.
      + intros g t Hg. apply padded_sep; auto. now apply tame_solid, node_path_tame.
      + eapply sp_not_weak; [exact X1|reflexivity].
    - clear X1 X2 Hv. induction He as [|e es He Hes IH]; [split; [reflexivity|eapply sp_not_nxt; [exact S|reflexivity]]|].
      cbn [manyW flat_map]. pose proof (entry_tame e He) as Te. apply then_app; [|exact IH].
      replace (Bk ++ s_ ";;" ++ Bk ++ pr_entry w Bk e) with ((Bk ++ [59; 59] ++ Bk) ++ pr_entry w Bk e) by (now rewrite <- !app_assoc). apply then_app.
      + apply semis2_sep; [now apply tame_solid|now apply tame_not].
      + apply W_entry_text; [assumption|]. destruct Hes; cbn [flat_map].
        * eapply sp_not_weak; [exact S|reflexivity].
        * rewrite <- ?app_assoc; now apply sp_not_char.
  Qed.
  Lemma props_path_tame p : wf_props_path p -> tame (pr_props_path w Bk p).
  Proof. destruct p as [v o es]. intros [H _]. eapply tame_app, verb_path_tame. exact H. Qed.
  Lemma tssp_tame t : wf_tssp t -> tame (pr_tssp w Bk t).
  Proof. destruct t as [v p|]; [|intros []]. intros [H _]. now apply tame_app, (vot_tame w Hw). Qed.
  Lemma W_tssp_text t r : wf_tssp t -> sp_not [58; 44; 59] r -> W_tssp t (pr_tssp w Bk t) r.
  Proof.
    intros H S. destruct t as [v p|]; [|destruct H]. destruct H as (Hv & Hp & Hb). cbn [W_tssp pr_tssp].
    pose proof (props_path_tame p Hp) as T. apply then_app.
    - apply (W_vot_text w Hw); [assumption|auto|]. intros B. rewrite <- app_assoc. eexists _, _. split; [reflexivity|].
      split; [now apply tame_solid|]. constructor; [|constructor]. apply not_first_app; [now apply hard_nonempty, tame_hard|].
      now apply (alike_not (pr_props_path s_ [32] p)); [apply alike_props_path|apply Hb].
    - apply then_app; [now apply gap1_sp, tame_solid|]. now apply W_props_path_text.
  Qed.
  Lemma W_triples_text b r : wf_triples b -> sp_not [58; 44; 59; 46] r -> W_triples_block b (pr_triples w Bk b) r.
  Proof.
    intros H S. destruct b as [l]. destruct H as [N H]. cbn [W_triples_block pr_triples].
    apply (sep1_joined W_tssp (pr_tssp w Bk) (wf_tssp) dotsW (Bk ++ s_ "." ++ Bk) (sp_not [58; 44; 59])); auto.
    - intros. now apply W_tssp_text.
    - intros. rewrite <- ?app_assoc; now apply sp_not_char.
    - intros a x Ha. pose proof (tssp_tame a Ha). apply dots_sep; [now apply tame_solid|now apply tame_not].
    - eapply sp_not_weak; [exact S|reflexivity].
    - eapply sp_not_nxt; [exact S|reflexivity].
  Qed.
  Lemma triples_tame b : wf_triples b -> tame (pr_triples w Bk b).
  Proof. destruct b as [l]. intros [N H]. apply (joined_tame _ (wf_tssp)); auto. apply tssp_tame. Qed.
  Lemma triples_no_word b k r : wf_triples b -> letter_word k = true -> differ (s_ "true") (s_ k) && differ (s_ "false") (s_ k) = true ->
    no_word1 k (pr_triples w Bk b ++ r).
  Proof.
    destruct b as [l]. intros [N H] K D. cbn [pr_triples]. apply (joined_first (pr_tssp w Bk) (wf_tssp)); auto.
    intros t x Ht. destruct t as [v p|]; [|destruct Ht]. cbn [pr_tssp]. rewrite <- app_assoc. apply (vot_no_word w Hw); auto. apply Ht.
  Qed.
End Words.
