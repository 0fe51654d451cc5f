(** Printed expressions. *)
From Verif Require Export LPrint3.
Notation length := List.length (only parsing).
Open Scope N_scope.
Open Scope list_scope.

Lemma fits_mono {Bk : blanks} op (P Q : lang) t r : (forall t r, P t r -> Q t r) -> fits Bk op P t r -> fits Bk op Q t r.
Proof. intros H. destruct op; apply H. Qed.
Lemma fits_before {Bk : blanks} op (P Q : lang) u t r : P u (t ++ Bk ++ r) -> fits Bk op Q t r -> fits Bk op (P >> Q) (u ++ t) r.
Proof.
  intros H F. destruct op; cbn [fits] in *; [now apply then_app|]. rewrite <- app_assoc. apply then_app; [|assumption].
  rewrite <- app_assoc. exact H.
Qed.
Lemma fits_before1 {Bk : blanks} op (P Q : lang) c t r : P [c] (t ++ Bk ++ r) -> fits Bk op Q t r -> fits Bk op (P >> Q) (c :: t) r.
Proof. apply (fits_before op P Q [c]). Qed.
Lemma fits_none {Bk : blanks} op (P Q : lang) t r : P [] (t ++ Bk ++ r) -> fits Bk op Q t r -> fits Bk op (P >> Q) t r.
Proof. apply (fits_before op P Q []). Qed.
Lemma fits_then2 {Bk : blanks} o1 o2 (P Q : lang) t u r : fits Bk o1 P t (u ++ Bk ++ r) -> solid (u ++ Bk ++ r) -> fits Bk o2 Q u r ->
  fits Bk o2 (P >> gap >> Q) (t ++ Bk ++ u) r.
Proof.
  intros H S F. destruct o2; cbn [fits] in *.
  - eapply fits_then; eassumption.
  - replace ((t ++ Bk ++ u) ++ Bk) with (t ++ Bk ++ u ++ Bk) by now rewrite <- !app_assoc.
    eapply fits_then; rewrite <- ?app_assoc; cbn [app]; eassumption.
Qed.
Lemma op_last_cons {A} (f : A -> bool) a b l : op_last f (a :: b :: l) = op_last f (b :: l).
Proof.
  unfold op_last. cbn [rev]. destruct (rev l) as [|x y] eqn:E; [reflexivity|]. reflexivity.
Qed.
(** lists whose elements may take the blank before the separator *)
Section Lists.
  Context {Bk : blanks} {A : Type} (W : A -> lang) (p : A -> str) (op : A -> bool) (Q : A -> Prop) (s : string) (F stop : str -> Prop).
  Hypothesis H1 : forall a r, Q a -> F r -> fits Bk (op a) (W a) (p a) r.
  Hypothesis H2 : forall t, F (s_ s ++ t).
  Hypothesis H3 : forall a, Q a -> tame (p a).
  Hypothesis H4 : forall t, solid (s_ s ++ t).
  Lemma fits_sep l r : l <> [] -> Forall Q l -> F r -> stop r -> stop (Bk ++ r) ->
    fits Bk (op_last op l) (sep1W W (gap >> sym s >> gap) stop l) (joined (Bk ++ s_ s ++ Bk) (List.map p l)) r.
  Proof.
    intros N Hl Hr Hs Hs'. destruct Hl as [|a l Ha Hl]; [congruence|]. clear N. cbn [sep1W List.map joined].
    revert a Ha. induction Hl as [|b l Hb Hl IH]; intros a Ha; cbn [List.map flat_map tailW].
    - rewrite app_nil_r. unfold op_last. cbn [rev app]. specialize (H1 a r Ha Hr). destruct (op a); cbn [fits] in *.
      + apply then_last; [exact H1|]. now split.
      + apply then_last; [exact H1|]. now split.
    - rewrite op_last_cons. specialize (IH b Hb).
      apply (fits_mono _ (W a >> gap >> sym s >> gap >> W b >> tailW W (gap >> sym s >> gap) stop l)).
      { intros t r' H. revert H. apply then_mono. intros t' r2 H. apply then_l3. exact H. }
      rewrite <- !app_assoc. cbn [app].
      apply (fits_then2 (op a)).
      + rewrite <- app_assoc. apply H1; [assumption|apply H2].
      + rewrite <- app_assoc. apply H4.
      + apply fits_before; [reflexivity|]. apply fits_before; [|exact IH]. apply gap_sp. rewrite <- app_assoc.
        now apply tame_solid, H3.
  Qed.
End Lists.

(** characters that may follow, after a blank, an expression and its parts *)
Definition X0 : str := s_ "),;aA".
Definition X1 : str := X0 ++ s_ "|".
Definition X2 : str := X1 ++ s_ "&".
Definition X3 : str := X2 ++ s_ "=!<>iInN".
Definition X4 : str := X3 ++ s_ "+-0123456789".
Definition X5 : str := X4 ++ s_ "*/".
Lemma starts_char cs c r : existsb (N.eqb c) cs = true -> starts cs (c :: r).
Proof. intros H. exists c, r. split; [reflexivity|]. now apply existsb_In_N in H. Qed.
Definition ufol (r : str) : Prop := solid r /\ not_first 58 r /\ not_first 40 r.
Lemma starts_solid0 cs r : starts cs r -> forallb (fun c => negb (oneof [32; 9; 10; 13; 35] c)) cs = true -> solid r.
Proof. intros S H. rewrite <- (app_nil_r r). eapply starts_solid; eassumption. Qed.
Lemma starts_not0 x cs r : starts cs r -> negb (existsb (N.eqb x) cs) = true -> not_first x r.
Proof. intros S H. rewrite <- (app_nil_r r). eapply starts_not; eassumption. Qed.
Lemma X5_ufol r : starts X5 r -> ufol r.
Proof. intros S. split; [now apply (starts_solid0 X5)|]. split; now apply (starts_not0 _ X5). Qed.
Lemma X4_no_mult r : starts X4 r -> no_mult r.
Proof. intros S. split; now apply (starts_not0 _ X4). Qed.
Lemma X3_no_add r : starts X3 r -> no_add r.
Proof.
  intros S c r' -> Hc. destruct S as (x & y & E & Hx). injection E as <- <-.
  assert (D : forallb (fun c => negb (existsb (N.eqb c) (s_ "+-.0123456789"))) X3 = true) by reflexivity.
  rewrite forallb_forall in D. apply D in Hx. apply existsb_In_N in Hc. rewrite Hc in Hx. discriminate.
Qed.
Lemma X2_no_op r : starts X2 r -> no_op r.
Proof.
  intros (x & y & -> & Hx). exists x, y. split; [reflexivity|]. intros Hc.
  assert (D : forallb (fun c => negb (existsb (N.eqb c) (s_ "=!<>iInN"))) X2 = true) by reflexivity.
  rewrite forallb_forall in D. apply D in Hx. apply existsb_In_N in Hc. rewrite Hc in Hx. discriminate.
Qed.

Section Words.
  Context (w : string -> str) (Hw : casing w) (Bk : blanks).
  Notation w_word := (w_word w Hw). Notation w_tame := (w_tame w Hw). Notation w_kw := (w_kw w Hw).
  Lemma w_not_char c k r : word_like k = true -> c < 65 -> not_first c (w k ++ r).
  Proof.
    intros H C. pose proof (w_starts w Hw k H) as K. unfold word_like in H. apply andb_true_iff in H. destruct H as [_ H].
    unfold cap2 in K. destruct (s_ k) as [|x s]; [discriminate|]. apply andb_true_iff in H. rewrite !N.leb_le in H.
    destruct K as (y & t & -> & [Hc|[Hc|[]]]); cbn; intros ->; lia.
  Qed.
  Definition built_words : list string :=
    ["count"; "sum"; "min"; "max"; "avg"; "sample"; "group_concat"; "str"; "lang"; "langmatches"; "datatype"; "bound"; "iri"; "uri";
     "bnode"; "rand"; "concat"; "strlen"; "ucase"; "lcase"; "encode_for_uri"; "strstarts"; "strends"; "strbefore"; "strafter";
     "year"; "month"; "day"; "hours"; "minutes"; "seconds"; "timezone"; "tz"; "now"; "uuid"; "struuid"; "md5"; "sha1"; "sha256";
     "sha384"; "sha512"; "coalesce"; "if"; "strlang"; "strdt"; "sameterm"; "isiri"; "isuri"; "isblank"; "isliteral"; "isnumeric";
     "regex"; "exists"; "not"]%string.

  Section Core.
    Context {E G : Type} (PE : E -> str) (PG : G -> str) (LE : E -> lang) (LG : G -> lang) (WE : E -> Prop) (WG : G -> Prop) (op : E -> bool).
    Hypothesis HE : forall e r, WE e -> starts X0 r -> fits Bk (op e) (LE e) (PE e) r.
    Hypothesis HT : forall e, WE e -> tame (PE e).
    Hypothesis HD : forall e r, WE e -> no_word1 "distinct" (PE e ++ r).
    Hypothesis HG : forall g r, WG g -> LG g (PG g) r.
    Hypothesis HB : forall g, WG g -> exists t, PG g = 123 :: t.

    Fixpoint chainW (l : list E) (S : lang) : lang := match l with [] => S | a :: l' => argW LE a >> chainW l' S end.
    Lemma chain_text (S : lang) l a r : wf_args WE op (a :: l) -> S [41] r ->
      (LE a >> chainW l S) (pr_args Bk PE (a :: l) ++ Bk ++ s_ ")") r.
    Proof.
      intros [H L] HS. unfold pr_args. cbn [List.map joined]. revert a H L. induction l as [|b l IH]; intros a H L.
      - cbn [List.map flat_map chainW]. rewrite app_nil_r. change (Bk ++ s_ ")") with (Bk ++ [41]). rewrite app_assoc.
        cbn in L. apply then_app; [|exact HS]. inversion H; subst. specialize (HE a (41 :: r)). rewrite L in HE. apply HE; [assumption|].
        now apply starts_char.
      - inversion H as [|? ? Ha Hb]; subst. inversion Hb; subst.
        assert (L' : match rev (b :: l) with e :: _ => op e = false | [] => True end).
        { revert L. cbn [rev]. destruct (rev l); auto. }
        specialize (IH b Hb L'). cbn [List.map flat_map chainW].
        change (Bk ++ s_ "," ++ Bk ++ PE b) with (Bk ++ 44 :: Bk ++ PE b). rewrite <- !app_assoc. cbn [app].
        assert (X : (LE a >> gap >> (sym "," >> gap >> LE b >> chainW l S))
          (PE a ++ Bk ++ 44 :: Bk ++ PE b ++ flat_map (fun x => (Bk ++ s_ "," ++ Bk) ++ x) (List.map PE l) ++ Bk ++ s_ ")") r).
        { eapply fits_then; [apply HE; [assumption|now apply starts_char]|now apply char_solid|].
          tcons; [reflexivity|]. apply then_app; [apply gap_sp; rewrite <- !app_assoc; now apply tame_solid, HT|].
          rewrite app_assoc. exact IH. }
        revert X. apply then_mono. intros t' r' X. apply then_l. apply then_l3. exact X.
    Qed.
    Lemma W_bracketted_text e r : WE e -> W_bracketted LE e (pr_bracketted Bk PE e) r.
    Proof.
      intros H. unfold W_bracketted, pr_bracketted. change (s_ "(" ++ Bk ++ ?x) with (40 :: Bk ++ x). tcons; [reflexivity|].
      apply then_app; [apply gap_sp; rewrite <- app_assoc; now apply tame_solid, HT|].
      eapply (fits_then _ _ _ _ [41]); [apply HE; [assumption|now apply starts_char]|now apply char_solid|reflexivity].
    Qed.
    Lemma call1_text k e r : word_like k = true -> wf_args WE op [e] -> call1W LE k e (pr_call w Bk PE k [e]) r.
    Proof.
      intros K H. unfold call1W, callW, pr_call. apply then_app; [now apply w_word|]. apply then_none; [apply gap_no; now apply char_solid|].
      apply then_app; [reflexivity|]. exact (chain_text (sym ")") [] e r H eq_refl).
    Qed.
    Lemma call2_text k a b r : word_like k = true -> wf_args WE op [a; b] -> call2W LE k a b (pr_call w Bk PE k [a; b]) r.
    Proof.
      intros K H. unfold call2W, callW, pr_call. apply then_app; [now apply w_word|]. apply then_none; [apply gap_no; now apply char_solid|].
      apply then_app; [reflexivity|]. apply then_l. exact (chain_text (sym ")") [b] a r H eq_refl).
    Qed.
    Lemma call0_text k r : word_like k = true -> call0W k (pr_call0 w k) r.
    Proof.
      intros K. unfold call0W, callW, pr_call0. apply then_app; [now apply w_word|]. apply then_none; [apply gap_no; now apply char_solid|].
      change (s_ "(())") with (40 :: s_ "()" ++ [41]). tcons; [reflexivity|]. apply then_app; [apply W_nil_text|reflexivity].
    Qed.
    Lemma distinct_text d e r : WE e -> forall (Q : lang) t, Q (PE e ++ t) r -> (W_distinct d >> Q) (pr_distinct w Bk d ++ PE e ++ t) r.
    Proof.
      intros H Q t HQ. apply then_app; [|exact HQ]. unfold W_distinct, pr_distinct. destruct d.
      - apply then_app; [now apply w_word|]. apply gap1_sp. rewrite <- app_assoc. now apply tame_solid, HT.
      - split; [reflexivity|]. rewrite <- app_assoc. now apply HD.
    Qed.
    Lemma dcall_text k d r : word_like k = true -> wf_distinct_expression WE op d ->
      callW k (W_distinct_expression LE d) (pr_dcall w Bk PE k d) r.
    Proof.
      intros K H. destruct d as [d e]. cbn [wf_distinct_expression] in H. unfold callW, pr_dcall, W_distinct_expression.
      apply then_app; [now apply w_word|]. apply then_none; [apply gap_no; now apply char_solid|].
      apply then_app; [reflexivity|]. apply then_l. apply distinct_text; [now destruct H as [H _]; inversion H|].
      pose proof (chain_text (sym ")") [] e r H eq_refl) as X. unfold pr_args in X. cbn in X. now rewrite app_nil_r in X.
    Qed.
    Lemma W_aggregate_text a r : wf_aggregate WE op a -> W_aggregate LE a (pr_aggregate w Bk PE a) r.
    Proof.
      intros H. destruct a as [[d [|e]]|d|d|d|d|d|[d [s|]]]; cbn [wf_aggregate pr_aggregate W_aggregate] in *;
        try (now apply dcall_text).
      - unfold callW. apply then_app; [now apply w_word|]. apply then_none; [apply gap_no; now apply char_solid|].
        apply then_app; [reflexivity|]. change (s_ "*)") with ([42] ++ [41]). rewrite app_assoc. apply then_app; [|reflexivity].
        apply then_app; [|reflexivity]. unfold W_distinct, pr_distinct. destruct d.
        + apply then_app; [now apply w_word|]. apply gap1_sp. now apply char_solid.
        + split; [reflexivity|]. apply (nw_starts "distinct" (s_ "*") [42]); [reflexivity| |reflexivity]. now apply starts_char.
      - unfold callW, pr_dcall. apply then_app; [now apply w_word|]. apply then_none; [apply gap_no; now apply char_solid|].
        apply then_app; [reflexivity|]. apply then_l. pose proof H as [H' _]. inversion H' as [|? ? He _]; subst. apply distinct_text; [assumption|].
        pose proof (chain_text (sym ")") [] e r H eq_refl) as X. unfold pr_args in X. cbn [List.map joined flat_map] in X. rewrite app_nil_r in X.
        destruct X as (u & v & E1 & X1 & X2). exists u, v. split; [assumption|]. split; [|assumption]. split; [assumption|].
        rewrite app_assoc, <- E1, <- app_assoc. apply tame_not; [now apply HT|reflexivity].
      - destruct d as [d e]. destruct H as [He Hs]. unfold callW, W_distinct_expression. apply then_app; [now apply w_word|].
        apply then_none; [apply gap_no; now apply char_solid|]. apply then_app; [reflexivity|]. apply then_l. apply then_l.
        apply distinct_text; [assumption|]. cbn [optW]. unfold W_separator.
        change (Bk ++ s_ ";" ++ Bk ++ ?x) with (Bk ++ 59 :: Bk ++ x).
        assert (X : (LE e >> gap >> sym ";" >> gap >> word "separator" >> gap >> sym "=" >> gap >> tok (R_string s) >> sym ")")
          (PE e ++ Bk ++ 59 :: Bk ++ w "separator" ++ Bk ++ s_ "=" ++ Bk ++ pr_string s ++ s_ ")") r).
        { eapply fits_then; [apply HE; [assumption|now apply starts_char]|now apply char_solid|].
          tcons; [reflexivity|]. apply then_app; [apply gap_sp; rewrite <- app_assoc; now apply (w_solid w Hw)|].
          apply then_app; [now apply w_word|]. change (Bk ++ s_ "=" ++ Bk ++ ?x) with (Bk ++ 61 :: Bk ++ x).
          apply then_app; [apply gap_sp; now apply char_solid|]. tcons; [reflexivity|].
          apply then_app; [apply gap_sp; unfold pr_string, quote; destruct (plain 34 s); now apply char_solid|]. apply then_app; [now apply string_text|reflexivity]. }
        revert X. apply then_mono. intros t' r' X. apply then_l. revert X. apply then_mono. clear. intros t r X. apply then_l.
        revert X. apply then_mono. clear. intros t r X. apply then_l. revert X. apply then_mono. clear. intros t r X.
        apply then_l. revert X. apply then_mono. clear. intros t r X. apply then_l. revert X. apply then_mono. clear. intros t r X.
        apply then_l. revert X. apply then_mono. clear. intros t r X. apply then_l. exact X.
      - destruct d as [d e]. unfold callW, pr_dcall, W_distinct_expression. cbn [optW wf_distinct_expression] in *.
        apply then_app; [now apply w_word|]. apply then_none; [apply gap_no; now apply char_solid|].
        apply then_app; [reflexivity|]. apply then_l. apply then_l. apply distinct_text; [now destruct H as [H _]; inversion H|].
        pose proof (chain_text (ahead (nxt (not_first 59)) >> sym ")") [] e r H) as X. unfold pr_args in X. cbn in X.
        rewrite app_nil_r in X. apply X. apply then_none; [|reflexivity]. split; [reflexivity|]. apply nxt_no; [now apply char_solid|discriminate].
    Qed.
    Lemma W_arg_list_text a r : wf_arg_list a -> W_arg_list a (pr_arg_list (E := E) a) r.
    Proof. destruct a; [intros _; apply W_nil_text|intros []]. Qed.
    Lemma W_expr_list_text a r : wf_expr_list a -> W_expression_list a (pr_expr_list (E := E) a) r.
    Proof. destruct a; [intros _; apply W_nil_text|intros []]. Qed.
    Lemma arg_list_solid a r : wf_arg_list a -> solid (pr_arg_list (E := E) a ++ r).
    Proof. destruct a; [intros _; now apply char_solid|intros []]. Qed.
    Lemma expr_list_solid a r : wf_expr_list a -> solid (pr_expr_list (E := E) a ++ r).
    Proof. destruct a; [intros _; now apply char_solid|intros []]. Qed.
    Lemma no_comma_close r : (ahead (nxt (not_first 44)) >> sym ")") [41] r.
    Proof. apply then_none; [|reflexivity]. split; [reflexivity|]. apply nxt_no; [now apply char_solid|discriminate]. Qed.
    Lemma W_expr3_text x r : wf_expr3 WE op x -> W_expr3 LE x (pr_expr3 Bk PE x) r.
    Proof.
      intros H. destruct x as [a b c]. cbn [wf_expr3 W_expr3 pr_expr3] in *. apply then_app; [reflexivity|]. destruct c as [c|].
      - exact (chain_text (sym ")") [b; c] a r H eq_refl).
      - exact (chain_text (ahead (nxt (not_first 44)) >> sym ")") [b] a r H (no_comma_close r)).
    Qed.
    Lemma W_str_replace_text x r : wf_str_replace WE op x -> W_str_replace LE x (pr_str_replace Bk PE x) r.
    Proof.
      intros H. destruct x as [a b c d]. cbn [wf_str_replace W_str_replace pr_str_replace] in *. apply then_app; [reflexivity|]. destruct d as [d|].
      - exact (chain_text (sym ")") [b; c; d] a r H eq_refl).
      - exact (chain_text (ahead (nxt (not_first 44)) >> sym ")") [b; c] a r H (no_comma_close r)).
    Qed.
    Lemma group_solid g r : WG g -> solid (PG g ++ r).
    Proof. intros H. destruct (HB g H) as [t ->]. now apply char_solid. Qed.
    Lemma W_built_in_text b r : wf_built_in WE WG op b -> W_built_in LE LG b (pr_built_in w Bk PE PG b) r.
    Proof.
      intros H. destruct b; cbn [wf_built_in W_built_in pr_built_in] in *;
        try (now apply call1_text); try (now apply call2_text); try (now apply call0_text); try (now destruct H).
      all: try match goal with |- context [match ?o with Some _ => _ | None => _ end] => destruct o; [now apply call1_text|now apply call0_text] end.
      - now apply W_aggregate_text.
      - unfold callW. apply then_app; [now apply w_word|]. apply then_none; [apply gap_no; now apply char_solid|].
        apply then_app; [reflexivity|]. apply then_app; [now apply W_var_text|reflexivity].
      - left. now apply call1_text.
      - destruct H as [H1 H2]. apply then_app; [now apply w_word|]. apply then_app; [apply gap1_sp; rewrite <- app_assoc; now apply expr_list_solid|].
        apply then_app; [now apply W_expr_list_text|]. apply then_app; [apply gap_sp; rewrite <- app_assoc; now apply (w_solid w Hw)|].
        apply then_app; [now apply w_word|]. apply then_app; [|now apply W_expr3_text]. apply gap1_sp. destruct s. now apply char_solid.
      - destruct H as [H1 H2]. apply then_app; [now apply w_word|]. apply then_app; [apply gap1_sp; now apply char_solid|].
        apply then_app; [now apply W_bracketted_text|]. apply then_app; [|now apply W_str_replace_text]. apply gap_sp. destruct s. now apply char_solid.
      - unfold pr_call. apply then_app; [now apply w_word|]. apply then_app; [reflexivity|].
        match goal with H : wf_args _ _ [?a; ?b] |- _ => exact (chain_text (sym ")") [b] a r H eq_refl) end.
      - apply then_app; [now apply w_word|]. apply then_app; [|now apply W_expr_list_text]. apply gap1_sp. now apply expr_list_solid.
      - unfold callW, pr_call. apply then_app; [now apply w_word|]. apply then_none; [apply gap_no; now apply char_solid|].
        apply then_app; [reflexivity|]. apply then_l3. match goal with H : wf_args _ _ [?a; ?b; ?c] |- _ => exact (chain_text (sym ")") [b; c] a r H eq_refl) end.
      - apply then_app; [now apply w_word|]. apply then_app; [|now apply W_expr3_text]. apply gap1_sp. destruct r0. now apply char_solid.
      - apply then_app; [now apply w_word|]. apply then_app; [|now apply HG]. apply gap1_sp. now apply group_solid.
      - apply then_app; [now apply w_word|]. apply then_app; [apply gap1_sp; rewrite <- app_assoc; now apply (w_solid w Hw)|].
        apply then_app; [now apply w_word|]. apply then_app; [|now apply HG]. apply gap1_sp. now apply group_solid.
    Qed.
    Lemma built_in_word b : wf_built_in WE WG op b -> exists k t, In k built_words /\ pr_built_in w Bk PE PG b = w k ++ t.
    Proof.
      intros H. unfold built_words.
      destruct b; cbn [wf_built_in pr_built_in] in *; try (now destruct H); unfold pr_call, pr_call0;
        try (eexists _, _; split; [|reflexivity]; cbn; tauto).
      - destruct a as [[d [|e]]|[d e]|[d e]|[d e]|[d e]|[d e]|[[d e] [s|]]]; cbn [pr_aggregate pr_dcall];
          (eexists _, _; split; [|reflexivity]; cbn; tauto).
      - match goal with o : option _ |- _ => destruct o end; unfold pr_call; (eexists _, _; split; [|reflexivity]; cbn; tauto).
    Qed.
    Lemma W_function_text i a r : wf_function i a -> W_function_call (MkFunctionCall i a) (pr_function Bk (E := E) i a) r.
    Proof.
      intros (H & K & A). cbn [W_function_call]. unfold pr_function. apply then_app; [split; [now apply W_iri_text|exact K]|].
      apply then_app; [apply gap_sp; now apply arg_list_solid|now apply W_arg_list_text].
    Qed.
    Lemma W_primary_text p r : wf_primary WE WG op p -> ufol r -> W_primary LE LG p (pr_primary w Bk PE PG p) (Bk ++ r).
    Proof.
      intros H (S & N1 & N2). destruct p as [e|b|[i [a|]]|l|n|b|v]; cbn [wf_primary W_primary pr_primary W_iri_or_fun optW] in *.
      - now apply W_bracketted_text.
      - now apply W_built_in_text.
      - destruct H as (H & K & A). unfold pr_function. apply then_app; [split; [apply W_iri_text; [apply H|auto]|exact K]|].
        apply then_app; [apply gap1_sp; now apply arg_list_solid|now apply W_arg_list_text].
      - destruct H as [H K]. apply then_last; [split; [now apply W_iri_text|exact K]|]. split; [reflexivity|]. right. rewrite <- ?app_assoc; now apply nxt1_sp.
      - now apply W_lit_text.
      - now apply W_num_text.
      - apply (W_bool_text w Hw). exists Bk, r. auto.
      - now apply W_var_text.
    Qed.
    (** first characters *)
    Definition opener (P : str -> Prop) : Prop :=
      (forall t, P (40 :: t)) /\ (forall k t, In k built_words -> P (w k ++ t)) /\ (forall i t, wf_iri i -> P (pr_iri i ++ t)) /\
      (forall l t, P (pr_lit l ++ t)) /\ (forall n t, wf_num n -> Print.unsigned n -> P (pr_num n ++ t)) /\
      (forall b t, P (pr_bool w b ++ t)) /\ (forall v t, P (pr_var v ++ t)).
    Lemma primary_first (P : str -> Prop) p t : opener P -> wf_primary WE WG op p ->
      match p with PeNumericLiteral n => Print.unsigned n | _ => True end -> P (pr_primary w Bk PE PG p ++ t).
    Proof.
      intros (O1 & O2 & O3 & O4 & O5 & O6 & O7) H U. destruct p as [e|b|[i [a|]]|l|n|b|v]; cbn [wf_primary pr_primary] in *; auto.
      - apply O1.
      - destruct (built_in_word b H) as (k & x & Hk & ->). rewrite <- app_assoc. now apply O2.
      - unfold pr_function. rewrite <- app_assoc. apply O3, H.
      - apply O3, H.
    Qed.
    Lemma opener_signs c : In c (s_ "!+-") -> opener (not_first c).
    Proof.
      intros Hc. assert (C : c < 65 /\ (forall cs t u, forallb (fun c => negb (existsb (N.eqb c) (s_ "!+-"))) cs = true -> starts cs t -> not_first c (t ++ u)) /\ base_char c = false /\ c <> 40 /\ c <> 60 /\ c <> 58 /\ c <> 63 /\ c <> 36).
      { split; [cbn in Hc; intuition (subst; reflexivity)|]. split; [|cbn in Hc; repeat split; intuition (subst; try discriminate; reflexivity)].
        intros cs t u F S. eapply starts_not; [exact S|]. destruct (existsb (N.eqb c) cs) eqn:X; [|reflexivity].
        apply existsb_In_N in X. rewrite forallb_forall in F. apply F in X. apply existsb_In_N in Hc. rewrite Hc in X. discriminate. }
      destruct C as (C1 & C2 & C3 & C4 & C5 & C6 & C7 & C8). repeat split.
      - intros t. cbn. auto.
      - intros k t Hk. apply w_not_char; [|assumption].
        assert (F : forallb word_like built_words = true) by reflexivity. rewrite forallb_forall in F. now apply F.
      - intros i t Hi. destruct i as [s|[[p|] l|p]]; cbn [wf_iri pr_iri] in *; [cbn; auto| |cbn; auto|destruct Hi].
        destruct Hi as [(x & y & -> & Hx & _) _]. cbn. intros ->. congruence.
      - intros l t. eapply C2; [|apply lit_starts]. reflexivity.
      - intros n t Hn Hu. eapply C2; [|now apply num_starts_digit]. reflexivity.
      - intros b t. apply w_not_char; [|assumption]. now destruct b.
      - intros v t. destruct v; cbn; auto.
    Qed.
    Lemma opener_tame : opener (fun t => tame t).
    Proof.
      repeat split.
      - intros t. now apply tame_cons.
      - intros k t Hk. apply tame_app, w_tame.
        assert (F : forallb word_like built_words = true) by reflexivity. rewrite forallb_forall in F. now apply F.
      - intros i t Hi. now apply tame_app, iri_tame.
      - intros l t. apply tame_app, lit_tame.
      - intros n t Hn _. now apply tame_app, num_tame.
      - intros b t. apply tame_app, w_tame. now destruct b.
      - intros v t. apply tame_app, var_tame.
    Qed.
    Lemma opener_distinct : opener (no_word1 "distinct").
    Proof.
      repeat split.
      - intros t. apply (nw_starts "distinct" (s_ "(") [40]); [reflexivity| |reflexivity]. now apply starts_char.
      - intros k t Hk. apply nw_begins.
        assert (F : forallb (fun k => word_like k && differ (s_ k) (s_ "distinct")) built_words = true) by reflexivity.
        rewrite forallb_forall in F. apply F in Hk. apply andb_true_iff in Hk. apply (w_nb w Hw); [reflexivity|apply Hk..].
      - intros i t Hi. now apply no_word1_iri.
      - intros l t. eapply (nw_starts "distinct"); [reflexivity|apply lit_starts|reflexivity].
      - intros n t Hn _. eapply (nw_starts "distinct"); [reflexivity|now apply num_starts|reflexivity].
      - intros b t. apply nw_begins. destruct b; now apply (w_nb w Hw).
      - intros v t. apply (nw_starts "distinct" (s_ "?$")); [reflexivity| |reflexivity]. destruct v; now apply starts_char.
    Qed.
    Definition opener2 (P : str -> Prop) : Prop := opener P /\ forall c t, In c (s_ "!+-") -> P (c :: t).
    Lemma unary_first (P : str -> Prop) u t : opener2 P -> wf_unary WE WG op u -> P (pr_unary w Bk PE PG u ++ t).
    Proof.
      intros [O S] H. destruct u as [p|p|p|p]; cbn [wf_unary pr_unary] in *; try (apply S; cbn; tauto).
      now apply primary_first.
    Qed.
    Lemma mult_first (P : str -> Prop) m t : opener2 P -> wf_multiplicative WE WG op m -> P (pr_multiplicative w Bk PE PG m ++ t).
    Proof. destruct m as [u l]. intros O [H _]. cbn [pr_multiplicative]. rewrite <- app_assoc. now apply unary_first. Qed.
    Lemma additive_first (P : str -> Prop) a t : opener2 P -> wf_additive WE WG op a -> P (pr_additive w Bk PE PG a ++ t).
    Proof. destruct a as [u l]. intros O [H _]. cbn [pr_additive]. rewrite <- app_assoc. now apply mult_first. Qed.
    Lemma relational_first (P : str -> Prop) a t : opener2 P -> wf_relational WE WG op a -> P (pr_relational w Bk PE PG a ++ t).
    Proof. destruct a as [u l]. intros O [H _]. cbn [pr_relational]. rewrite <- app_assoc. now apply additive_first. Qed.
    Lemma and_first (P : str -> Prop) a t : opener2 P -> wf_and WE WG op a -> P (pr_and w Bk PE PG a ++ t).
    Proof.
      destruct a as [l]. intros O [N H]. cbn [pr_and]. apply (joined_first (pr_relational w Bk PE PG) (wf_relational WE WG op)); auto.
      intros a x Ha. now apply relational_first.
    Qed.
    Lemma opener2_tame : opener2 (fun t => tame t).
    Proof. split; [apply opener_tame|]. intros c t Hc. apply tame_cons. cbn in Hc. intuition (subst; reflexivity). Qed.
    Lemma opener2_distinct : opener2 (no_word1 "distinct").
    Proof.
      split; [apply opener_distinct|]. intros c t Hc. apply (nw_starts "distinct" (s_ "!+-") [c]); [reflexivity| |reflexivity].
      exists c, []. auto.
    Qed.

    (** ** Operators *)
    Lemma primary_tame p : wf_primary WE WG op p -> tame (pr_primary w Bk PE PG p).
    Proof.
      intros H. destruct p as [e|b|[i [a|]]|l|n|b|v]; try (rewrite <- (app_nil_r (pr_primary _ _ _ _ _));
        apply (primary_first (fun t => tame t)); [apply opener_tame|assumption|exact I]).
      now apply num_tame.
    Qed.
    Lemma W_unary_text u r : wf_unary WE WG op u -> ufol r -> W_unary LE LG u (pr_unary w Bk PE PG u) (Bk ++ r).
    Proof.
      intros H U. destruct u as [p|p|p|p]; cbn [wf_unary W_unary pr_unary] in *.
      1: change (s_ "!" ++ Bk ++ ?y) with (33 :: Bk ++ y).
      2: change (s_ "+" ++ Bk ++ ?y) with (43 :: Bk ++ y).
      3: change (s_ "-" ++ Bk ++ ?y) with (45 :: Bk ++ y).
      1-3: tcons; [reflexivity|]; apply then_app; [apply gap_sp; now apply tame_solid, primary_tame|now apply W_primary_text].
      destruct H as [H N]. split; [now apply W_primary_text|]. intros c Hc. apply primary_first; [now apply opener_signs|assumption..].
    Qed.
    Lemma unary_tame u : wf_unary WE WG op u -> tame (pr_unary w Bk PE PG u).
    Proof. intros H. rewrite <- (app_nil_r (pr_unary _ _ _ _ _)). apply (unary_first (fun t => tame t)); [apply opener2_tame|assumption]. Qed.
    Lemma mult_tame m : wf_multiplicative WE WG op m -> tame (pr_multiplicative w Bk PE PG m).
    Proof. intros H. rewrite <- (app_nil_r (pr_multiplicative _ _ _ _ _)). apply (mult_first (fun t => tame t)); [apply opener2_tame|assumption]. Qed.
    Lemma additive_tame a : wf_additive WE WG op a -> tame (pr_additive w Bk PE PG a).
    Proof. intros H. rewrite <- (app_nil_r (pr_additive _ _ _ _ _)). apply (additive_first (fun t => tame t)); [apply opener2_tame|assumption]. Qed.
    Lemma relational_tame a : wf_relational WE WG op a -> tame (pr_relational w Bk PE PG a).
    Proof. intros H. rewrite <- (app_nil_r (pr_relational _ _ _ _ _)). apply (relational_first (fun t => tame t)); [apply opener2_tame|assumption]. Qed.
    Lemma and_tame a : wf_and WE WG op a -> tame (pr_and w Bk PE PG a).
    Proof. intros H. rewrite <- (app_nil_r (pr_and _ _ _ _ _)). apply (and_first (fun t => tame t)); [apply opener2_tame|assumption]. Qed.

    Lemma W_mult_text m r : wf_mult WE WG op m -> ufol r -> W_mult LE LG m (pr_mult w Bk PE PG m) (Bk ++ r).
    Proof.
      intros H U. destruct m as [u|u]; cbn [wf_mult W_mult pr_mult] in *.
      1: change (s_ "*" ++ Bk ++ ?y) with (42 :: Bk ++ y).
      2: change (s_ "/" ++ Bk ++ ?y) with (47 :: Bk ++ y).
      all: tcons; [reflexivity|]; apply then_app; [apply gap_sp; now apply tame_solid, unary_tame|now apply W_unary_text].
    Qed.
    Lemma mult_starts m t : starts (s_ "*/") (pr_mult w Bk PE PG m ++ t).
    Proof. destruct m; now apply starts_char. Qed.
    Lemma mult_ufol m t : ufol (pr_mult w Bk PE PG m ++ t).
    Proof. apply X5_ufol. destruct m; now apply starts_char. Qed.
    Lemma W_factors_text l r : l <> [] -> Forall (wf_mult WE WG op) l -> starts X4 r ->
      W_factors LE LG l (joined Bk (List.map (pr_mult w Bk PE PG) l)) (Bk ++ r).
    Proof.
      intros N H S. unfold W_factors.
      apply (sep_joined (W_mult LE LG) (pr_mult w Bk PE PG) (wf_mult WE WG op) gap1 Bk (fun r => exists r', r = Bk ++ r' /\ ufol r')); auto.
      - intros a r' Ha (x & -> & U). now apply W_mult_text.
      - intros a t _. exists (pr_mult w Bk PE PG a ++ t). split; [reflexivity|]. apply mult_ufol.
      - intros a t _. apply gap1_sp. apply (mult_ufol a t).
      - exists r. split; [reflexivity|]. apply X5_ufol. destruct S as (c & y & -> & Hc). exists c, y. split; [reflexivity|].
        unfold X5. apply in_or_app. auto.
      - rewrite <- ?app_assoc; apply nxt1_sp; [now apply (starts_solid0 X4)|now apply X4_no_mult].
    Qed.
    Lemma X4_ufol r : starts X4 r -> ufol r.
    Proof. intros (c & y & -> & Hc). apply X5_ufol. exists c, y. split; [reflexivity|]. unfold X5. apply in_or_app. auto. Qed.
    Definition many {A} (l : list A) : bool := match l with [] => false | _ => true end.
    Lemma W_multiplicative_text u l r : wf_multiplicative WE WG op (MkMultiplicative u l) -> starts X4 r ->
      fits Bk (many l) (W_multiplicative LE LG (MkMultiplicative u l)) (pr_multiplicative w Bk PE PG (MkMultiplicative u l)) r.
    Proof.
      intros [H F] S. cbn [W_multiplicative pr_multiplicative]. destruct l as [|m l].
      - cbn [many fits List.map spaced flat_map]. rewrite app_nil_r. apply then_app; [apply W_unary_text; [assumption|now apply X4_ufol]|].
        apply then_last; [apply gap_sp; now apply (starts_solid0 X4)|]. split; [reflexivity|now apply X4_no_mult].
      - rewrite spaced_joined by discriminate. cbn [many fits]. apply then_app.
        + cbn [List.map joined]. rewrite <- !app_assoc. apply W_unary_text; [assumption|apply mult_ufol].
        + tcons; [|apply W_factors_text; [discriminate|assumption..]]. apply gap_sp. cbn [List.map joined]. rewrite <- app_assoc. apply (mult_ufol m).
    Qed.
    Lemma W_term_text a r : wf_add WE WG op a -> starts X4 r -> W_term LE LG a (pr_add w Bk PE PG a) (Bk ++ r).
    Proof.
      intros H S. destruct a as [[u l]|[u l]|n l]; cbn [wf_add W_term pr_add] in *.
      1: change (s_ "+" ++ Bk ++ ?y) with (43 :: Bk ++ y).
      2: change (s_ "-" ++ Bk ++ ?y) with (45 :: Bk ++ y).
      1,2: destruct H as (H & F & N); pose proof (W_multiplicative_text u l r (conj H F) S) as X; destruct l as [|m l]; [congruence|];
        cbn [many fits] in X; tcons; [reflexivity|]; apply then_app; [apply gap_sp; now apply tame_solid, mult_tame; split|exact X].
      destruct H as (H & U & F & N). destruct l as [|m l]; [congruence|]. split.
      - rewrite spaced_joined by discriminate. apply then_app; [apply W_num_text; [assumption|auto]|].
        tcons; [|apply W_factors_text; [discriminate|assumption..]]. apply gap_sp. cbn [List.map joined]. rewrite <- app_assoc. apply (mult_ufol m).
      - rewrite <- app_assoc. split; (eapply starts_not; [now apply num_starts_digit|reflexivity]).
    Qed.
    Lemma add_starts a t : wf_add WE WG op a -> starts X4 (pr_add w Bk PE PG a ++ t).
    Proof.
      intros H. destruct a as [m|m|n l]; [now apply starts_char..|]. destruct H as (H & U & _).
      cbn [pr_add]. destruct (num_starts_digit n H U) as (c & y & -> & Hc). exists c, ((y ++ spaced Bk (List.map (pr_mult w Bk PE PG) l)) ++ t). split; [reflexivity|].
      unfold X4. apply in_or_app. right. right. right. exact Hc.
    Qed.
    Lemma W_additive_text a r : wf_additive WE WG op a -> starts X3 r ->
      fits Bk (op_additive a) (W_additive LE LG a) (pr_additive w Bk PE PG a) r.
    Proof.
      destruct a as [[u f] l]. intros [H F] S.
      assert (S4 : starts X4 r) by (destruct S as (c & y & -> & Hc); exists c, y; split; [reflexivity|]; unfold X4; apply in_or_app; auto).
      cbn [W_additive pr_additive op_additive]. destruct l as [|m l].
      - cbn [List.map spaced flat_map]. rewrite app_nil_r. cbn [fits].
        pose proof (W_multiplicative_text u f r H S4) as X. eapply (fits_gap _ _ _ r) in X; [|now apply (starts_solid0 X4)].
        apply then_assoc. apply then_last; [exact X|]. split; [reflexivity|]. now apply X3_no_add.
      - rewrite spaced_joined by discriminate. inversion F; subst. apply (fits_then2 (many f) true).
        + cbn [List.map joined app]. rewrite <- app_assoc. apply W_multiplicative_text; [assumption|]. now apply add_starts.
        + cbn [List.map joined app]. rewrite <- app_assoc. apply (starts_solid0 X4); [now apply add_starts|reflexivity].
        + cbn [fits]. unfold W_terms.
          apply (sep_joined (W_term LE LG) (pr_add w Bk PE PG) (wf_add WE WG op) gap1 Bk (fun r => exists r', r = Bk ++ r' /\ starts X4 r')); auto.
          * intros a r' Ha (x & -> & U). now apply W_term_text.
          * intros a t Ha. exists (pr_add w Bk PE PG a ++ t). split; [reflexivity|]. now apply add_starts.
          * intros a t Ha. apply gap1_sp. apply (starts_solid0 X4); [now apply add_starts|reflexivity].
          * discriminate.
          * exists r. auto.
          * rewrite <- ?app_assoc; apply nxt1_sp; [now apply (starts_solid0 X4)|now apply X3_no_add].
    Qed.
    Definition op_op (o : OpExpression E G) : bool :=
      match o with OpEQ a | OpNE a | OpLT a | OpGT a | OpLE a | OpGE a => op_additive a | OpIN _ | OpNIN _ => true end.
    Lemma W_op_text o r : wf_op WE WG op o -> starts X3 r -> fits Bk (op_op o) (W_op LE LG o) (pr_op w Bk PE PG o) r.
    Proof.
      intros H S. destruct o as [a|a|a|a|a|a|l|l]; cbn [wf_op op_op W_op pr_op] in *.
      1-6: apply fits_before; [reflexivity|]; apply fits_before; [apply gap_sp; now apply tame_solid, additive_tame|now apply W_additive_text].
      - apply then_app; [now apply w_word|]. apply then_app; [apply gap_sp; now apply expr_list_solid|now apply W_expr_list_text].
      - apply then_app; [now apply w_word|]. apply then_app; [apply gap1_sp; rewrite <- app_assoc; now apply (w_solid w Hw)|].
        apply then_app; [now apply w_word|]. apply then_app; [apply gap1_sp; now apply expr_list_solid|now apply W_expr_list_text].
    Qed.
    Lemma op_starts o t : starts X3 (pr_op w Bk PE PG o ++ t).
    Proof.
      destruct o; cbn [pr_op]; try (now apply starts_char).
      all: match goal with |- context [w ?k ++ _] => destruct (w_starts w Hw k eq_refl) as (c & y & -> & Hc) end;
        eexists c, _; (split; [reflexivity|]); revert Hc; cbn; tauto.
    Qed.
    Lemma W_relational_text a r : wf_relational WE WG op a -> starts X2 r ->
      fits Bk (op_relational a) (W_relational LE LG a) (pr_relational w Bk PE PG a) r.
    Proof.
      destruct a as [a o]. intros [H F] S.
      assert (S3 : starts X3 r) by (destruct S as (c & y & -> & Hc); exists c, y; split; [reflexivity|]; unfold X3; apply in_or_app; auto).
      cbn [W_relational pr_relational]. destruct o as [o|]; cbn [may_ optW].
      - replace (op_relational (MkRelational a (Some o))) with (op_op o) by now destruct o.
        eapply fits_then2; [apply W_additive_text; [assumption|apply op_starts]|apply (starts_solid0 X3); [apply op_starts|reflexivity]|now apply W_op_text].
      - rewrite app_nil_r. pose proof (W_additive_text a r H S3) as X. cbn [op_relational]. destruct (op_additive a); cbn [fits] in *.
        + apply then_last; [exact X|]. split; [reflexivity|]. rewrite <- ?app_assoc; apply nxt_sp; [now apply (starts_solid0 X2)|now apply X2_no_op].
        + apply then_last; [exact X|]. split; [reflexivity|]. apply nxt_no; [now apply (starts_solid0 X2)|now apply X2_no_op].
    Qed.
    Lemma W_and_text a r : wf_and WE WG op a -> starts X1 r -> fits Bk (op_and a) (W_conditional_and LE LG a) (pr_and w Bk PE PG a) r.
    Proof.
      destruct a as [l]. intros [N H] S. cbn [W_conditional_and pr_and op_and].
      apply (fits_sep (W_relational LE LG) (pr_relational w Bk PE PG) op_relational (wf_relational WE WG op) "&&" (fun r => starts X2 r)); auto.
      - intros a r' Ha Hr. now apply W_relational_text.
      - intros t. now apply starts_char.
      - intros a Ha. now apply relational_tame.
      - intros t. now apply char_solid.
      - destruct S as (c & y & -> & Hc). exists c, y. split; [reflexivity|]. unfold X2. apply in_or_app. auto.
      - apply nxt_no; [now apply (starts_solid0 X1)|now apply (starts_not0 _ X1)].
      - rewrite <- ?app_assoc; apply nxt_sp; [now apply (starts_solid0 X1)|now apply (starts_not0 _ X1)].
    Qed.
  End Core.
End Words.
