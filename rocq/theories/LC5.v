(** Safely laid out expressions are read. *)
From Verif Require Export LC4.
Notation length := List.length (only parsing).
Notation ex := expression (only parsing).
Notation gg := group_graph_pattern (only parsing).
Open Scope N_scope.
Open Scope list_scope.

Lemma rd_under {A} (p : parser A) a (X Q Q' : lang) : (forall t r, Q' t r -> Q t r) -> rd p a (X >> Q) -> rd p a (X >> Q').
Proof. intros H R. eapply rd_sub; [exact R|]. intros t r. now apply then_mono. Qed.
Lemma then_l4 P Q S T U t r : (P >> Q >> S >> T >> U) t r -> ((P >> Q >> S >> T) >> U) t r.
Proof. intros H. apply then_l. eapply then_mono; [|exact H]. intros. now apply then_l3. Qed.
(** a part of a text with a condition on it *)
Lemma nf_and {A} (p : parser A) (P : lang) (C : str -> str -> Prop) : nf p P -> nf p (fun t r => P t r /\ C t r).
Proof. intros H t r [K _]. now apply H. Qed.

Lemma kw_self k : low_ascii (s_ k) = true -> kw k (s_ k).
Proof.
  unfold kw. generalize (s_ k). intros l. induction l as [|x l IH]; intros H; [reflexivity|]. unfold low_ascii in H. cbn [forallb] in H.
  apply andb_true_iff in H. destruct H as [H1 H2]. cbn [List.map]. rewrite (IH H2). f_equal. apply andb_true_iff in H1. destruct H1 as [_ H1].
  apply negb_true_iff in H1. unfold lower, in_ranges. cbn [existsb fst snd]. now rewrite H1.
Qed.
Lemma rd_preceded_sym {A} k (p : parser A) a P : low_ascii (s_ k) = true -> rd p a P -> rd (preceded_tag (s_ k) p) a (sym k >> gap >> P).
Proof.
  intros K H t r (w & x & -> & Hw & Hx). hnf in Hw. subst w. apply (rd_preceded_tag k p a P K H). exists (s_ k), x. split; [reflexivity|].
  split; [|exact Hx]. now apply kw_self.
Qed.
Definition opens (k : string) (P : lang) : Prop := forall t r, P t r -> exists w x, t ++ r = w ++ x /\ kw k w /\ starts delims x.
Lemma blank_delims b x : blank b -> starts delims x -> starts delims (b ++ x).
Proof.
  intros H S. destruct H as [|c t Hc _|bd nl t _ _ _]; [exact S| |]; eexists _, _; (split; [reflexivity|]); cbn in *; intuition.
Qed.
Lemma opens_gap k P : opens k (word k >> gap >> sym "(" >> P).
Proof.
  intros t r (w & x & -> & Hw & b & y & -> & [Hb _] & z & v & -> & Hz & _). hnf in Hw, Hz. subst z.
  exists w, ((b ++ s_ "(" ++ v) ++ r). split; [now rewrite <- app_assoc|]. split; [exact Hw|]. rewrite <- app_assoc. apply blank_delims; [exact Hb|].
  eexists _, _. split; [reflexivity|]. cbn. auto 10.
Qed.
Lemma opens_gap1 k P : opens k (word k >> gap1 >> P).
Proof.
  intros t r (w & x & -> & Hw & b & y & -> & [[Hb N] _] & _). exists w, ((b ++ y) ++ r). split; [now rewrite <- app_assoc|]. split; [exact Hw|].
  destruct Hb as [|c b Hc _|bd nl b _ _ _]; [congruence| |]; eexists _, _; (split; [reflexivity|]); cbn in *; intuition.
Qed.
Lemma opens_sym k P : opens k (word k >> sym "(" >> P).
Proof.
  intros t r (w & x & -> & Hw & z & v & -> & Hz & _). hnf in Hz. subst z. exists w, ((s_ "(" ++ v) ++ r). split; [now rewrite <- app_assoc|].
  split; [exact Hw|]. eexists _, _. split; [reflexivity|]. cbn. auto 10.
Qed.
Lemma opens_fails {A} ks k (p : parser A) P : guarded ks p -> opens k P ->
  negb (existsb (String.eqb k) ks) && forallb named ks && named k = true -> nf p P.
Proof.
  intros G O C t r H. apply andb_true_iff in C. destruct C as [C C3]. apply andb_true_iff in C. destruct C as [C1 C2].
  destruct (O _ _ H) as (w & x & -> & Hw & S). apply G. intros k' I. rewrite forallb_forall in C2. apply (word_uncond k); auto.
  intros <-. apply negb_true_iff in C1. assert (existsb (String.eqb k) ks = true) by (apply existsb_exists; exists k; split; [exact I|apply String.eqb_refl]). congruence.
Qed.
Lemma rd_alt_skip {A} ks k (p : parser A) ps a P : guarded ks p -> opens k P ->
  negb (existsb (String.eqb k) ks) && forallb named ks && named k = true -> rd (alt ps) a P -> rd (alt (p :: ps)) a P.
Proof. intros G O C H. apply rd_alt_next; [eapply opens_fails; eassumption|exact H]. Qed.
Ltac pick O := repeat (eapply rd_alt_skip; [gu | first [exact O | apply O] | reflexivity | ]).
Ltac bi O :=
  unfold built_in_call, built_in_call_of; pick O; apply rd_alt_first;
  try (unfold built_in_call_1_of; pick O; apply rd_alt_first);
  try (unfold built_in_call_2_of; pick O; apply rd_alt_first).

Lemma rd_opt_distinct s : rd opt_distinct s (W_distinct s).
Proof.
  unfold opt_distinct, W_distinct. destruct s.
  - apply (rd_map _ _ (Some true)); [|reflexivity]. apply rd_opt_some. apply rd_terminated; [|apply rdx_sp1].
    unfold distinct. now apply (rd_word "distinct").
  - apply (rd_map _ _ None); [|reflexivity]. apply rd_opt_none. intros r H.
    assert (X : fails (terminated (tag_no_case (s_ "distinct")) sp1) r).
    { apply (no_word1_fails "distinct" sp1); [reflexivity|cbn; intuition discriminate|assumption|auto]. }
    unfold distinct. destruct X as (p & k & X). exists p, k. unfold terminated, map, pair in *.
    destruct (tag_no_case (s_ "distinct") r) as [i1 a|]; [|injection X as ->; reflexivity].
    destruct (sp1 i1); [discriminate|injection X as ->; reflexivity].
Qed.
Lemma rd_string s : rd string_literal s (tok (R_string s)).
Proof.
  apply rd_tok. intros t r (q & Q & -> & B & N). replace ((q :: s ++ [q]) ++ r) with (q :: s ++ q :: r) by (cbn; now rewrite <- app_assoc).
  now apply string_literal_ok.
Qed.
Lemma rd_call {A} k (p : parser A) a P : low_ascii (s_ k) = true -> rd p a P -> rd (preceded_bracketted (s_ k) p) a (callW k P).
Proof. intros K H. apply rd_preceded_tag; [exact K|]. now apply rd_bracketted. Qed.
Lemma rd_call0 {A} k (b : A) : low_ascii (s_ k) = true -> rd (map (preceded_bracketted (s_ k) nil_) (fun _ => b)) b (call0W k).
Proof.
  intros K t r H. unfold call0W, callW in H.
  destruct (rdx_preceded (terminated (tag_no_case (s_ k)) sp) (bracketted nil_) (word k >> gap) (sym "(" >> W_nil >> sym ")")) with (t := t) (r := r) as [x X].
  - apply rdx_terminated; [now apply rdx_kw|apply rdx_sp].
  - unfold bracketted. apply rdx_delimited; [now apply rdx_chr| |now apply rdx_chr].
    intros u v Hu. pose proof (rd_nil tt u v Hu) as R. apply map_inv in R. destruct R as (z & R & _). eauto.
  - now apply then_l.
  - now apply (map_ok _ _ _ _ x).
Qed.
Lemma comma_stop r : nxt (not_first 44) r -> fails comma r.
Proof. apply sp_enc_fails. intros x H. now apply chr_fails. Qed.
Lemma rdx_comma : rdx comma commaW. Proof. apply rdx_sp_enc. now apply rdx_chr. Qed.
Lemma nil_not_paren t r : W_nil t r -> starts (s_ "(") t. Proof. apply nil_starts. Qed.

Lemma paren_solid v r : solid ((s_ "(" ++ v) ++ r).
Proof. cbn. split; [intuition discriminate|discriminate]. Qed.
(** [()] is not an expression *)
Lemma nf_nil_expression : nf ex W_nil.
Proof.
  intros t r (x & y & -> & Hx & b & z & -> & Hb & Hz). hnf in Hx, Hz. subst x z. unfold fails. rewrite expression_eq.
  apply map_fails, sepne_fails, map_fails, sepne_fails, map_fails, pair_fails1, map_fails, pair_fails1, map_fails, pair_fails1.
  rewrite <- !app_assoc. change (s_ "(") with [40]. change (s_ ")") with [41]. cbn [app].
  apply alt_fails_cons; [now apply map_fails, tag0_fails, (nc_first 33 "!" [])|].
  apply alt_fails_cons; [now apply map_fails, tag0_fails, (nc_first 43 "+" [])|].
  apply alt_fails_cons; [now apply map_fails, tag0_fails, (nc_first 45 "-" [])|].
  apply alt_fails_cons; [|apply alt_fails_nil]. apply map_fails. unfold primary_expression_of.
  apply alt_fails_cons.
  - apply map_fails. unfold bracketted_expression_of, bracketted. eapply delimited_fails2; [apply chr_ok|]. unfold sp_enc.
    eapply delimited_fails2; [apply sp_ok; [exact Hb|]|].
    + cbn. split; [intuition discriminate|discriminate].
    + now apply expression_first.
  - apply alt_fails_cons; [now apply map_fails, built_in_first|].
    apply alt_fails_cons; [now apply map_fails, map_fails, pair_fails1, iri_fails_first|].
    apply alt_fails_cons; [now apply map_fails, lit_first|].
    apply alt_fails_cons; [now apply map_fails, num_first_fails|].
    apply alt_fails_cons; [now apply map_fails, boolean_first|].
    apply alt_fails_cons; [|apply alt_fails_nil]. now apply map_fails, var_first.
Qed.
Lemma num_first_in x : num_first x = true -> In x (s_ "+-.0123456789").
Proof.
  intros E. unfold num_first, orc in E. apply orb_true_iff in E. destruct E as [E|E].
  - unfold in_ranges, digits in E. cbn [existsb fst snd] in E. rewrite orb_false_r, andb_true_iff, !N.leb_le in E.
    assert (L : x = 48 \/ x = 49 \/ x = 50 \/ x = 51 \/ x = 52 \/ x = 53 \/ x = 54 \/ x = 55 \/ x = 56 \/ x = 57) by lia.
    repeat (destruct L as [-> |L]; [cbn; auto 20|]). subst x. cbn; auto 20.
  - unfold oneof in E. apply existsb_exists in E. destruct E as (y & I & E). apply N.eqb_eq in E. subst y. cbn in I.
    repeat (destruct I as [<-|I]; [cbn; auto 20|]). destruct I.
Qed.
Section Core.
  Context (WE : Expression -> lang) (WG : GroupGraphPattern -> lang).
  Context (HE : forall x, rd ex x (WE x)) (HG : forall x, rd gg x (WG x)).

  Lemma rd_arg e : rd (preceded comma ex) e (argW WE e).
  Proof. apply rd_preceded; [apply rdx_comma|apply HE]. Qed.
  Lemma rd_opt_arg o : rd (opt (preceded comma ex)) o (opt_argW WE o).
  Proof. apply rd_opt; [apply rd_arg|]. intros r H. now apply preceded_fails1, comma_stop. Qed.
  Lemma rd_arg_list a : rd arg_list a (W_arg_list a).
  Proof. unfold arg_list, arg_list_of. destruct a as [|d l]; [|intros t r []]. alt1. apply rd_nil. Qed.
  Lemma rd_expression_list a : rd expression_list a (W_expression_list a).
  Proof. unfold expression_list, expression_list_of. destruct a as [|l]; [|intros t r []]. alt1. apply rd_nil. Qed.
  Lemma rd_iri_expr i : rd iri i (W_iri_expr i).
  Proof. intros t r [H _]. now apply rd_iri. Qed.
  Lemma arg_list_first i : not_first 40 i -> fails arg_list i.
  Proof.
    intros H. unfold arg_list, arg_list_of. apply alt_fails_cons; [now apply map_fails, nil_first|].
    apply alt_fails_cons; [|apply alt_fails_nil]. now apply map_fails, delimited_fails1, terminated_fails1, chr_fails.
  Qed.
  Lemma no_args_fails r : no_args r -> fails (preceded sp1 arg_list) r.
  Proof.
    intros [H|(b & x & -> & Hb & S & H)]; [now apply preceded_fails1, sp1_fails|].
    eapply preceded_fails2; [now apply sp1_ok|]. now apply arg_list_first.
  Qed.
  Lemma rd_iri_or_fun i : rd iri_or_fun i (W_iri_or_fun i).
  Proof.
    destruct i as [i a]. unfold iri_or_fun, iri_or_fun_of. apply (rd_map _ _ (i, a)); [|reflexivity]. apply rd_pair; [apply rd_iri_expr|].
    apply rd_opt; [|apply no_args_fails]. intros x. apply rd_preceded; [apply rdx_sp1|apply rd_arg_list].
  Qed.
  Lemma rd_function_call f : rd function_call f (W_function_call f).
  Proof.
    destruct f as [i a]. unfold function_call, function_call_of. apply (rd_map _ _ (i, a)); [|reflexivity].
    apply rd_separated_pair; [apply rd_iri_expr|apply rdx_sp|apply rd_arg_list].
  Qed.
  Lemma rd_expr3 a b c : rd (bracketted_expr3_of ex) (a, (b, c)) (W_expr3 WE (MkRegex a b c)).
  Proof.
    unfold bracketted_expr3_of. cbn [W_expr3]. eapply rd_under; [|apply rd_bracketted, rd_tuple3; [apply HE|apply rd_arg|apply rd_opt_arg]].
    intros t r. apply then_l3.
  Qed.
  Lemma rd_str_replace s : rd (str_replace_expression_of ex) s (W_str_replace WE s).
  Proof.
    destruct s as [a b c d]. unfold str_replace_expression_of. cbn [W_str_replace]. apply (rd_map _ _ (a, (b, (c, d)))); [|reflexivity].
    eapply rd_under; [|apply rd_bracketted, rd_pair; [apply HE|apply rd_tuple3; [apply rd_arg|apply rd_arg|apply rd_opt_arg]]].
    intros t r. apply then_l4.
  Qed.
  Lemma rd_bracketted_expression e : rd (bracketted_expression_of ex) e (W_bracketted WE e).
  Proof.
    unfold bracketted_expression_of, W_bracketted. eapply rd_under; [|apply rd_bracketted, rd_sp_enc, HE]. intros t r. apply then_l3.
  Qed.
  Lemma rd_distinct_expression d : rd (distinct_expression_of ex) d (W_distinct_expression WE d).
  Proof. destruct d as [d e]. apply (rd_map _ _ (d, e)); [|reflexivity]. apply rd_pair; [apply rd_opt_distinct|apply HE]. Qed.
  Lemma rd_count_target c : rd (count_target_of ex) c (W_count_target WE c).
  Proof.
    unfold count_target_of. destruct c as [|e]; cbn [W_count_target].
    - alt1. intros t r ->. apply (map_ok _ _ _ _ 42); [apply chr_ok|reflexivity].
    - alt_skip; [intros t r [_ H]; now apply chr_fails|]. alt1. eapply rd_map; [|reflexivity]. intros t r [H _]. now apply HE.
  Qed.
  Lemma rd_separator s : rd (preceded sp (preceded (tuple3 (chr (c_ ";")) (sp_enc (tag_no_case (s_ "separator"))) (terminated (chr (c_ "=")) sp)) string_literal))
    s (W_separator s).
  Proof.
    unfold W_separator. apply rd_preceded; [apply rdx_sp|].
    apply (rd_sub _ _ ((sym ";" >> (gap >> word "separator" >> gap) >> sym "=" >> gap) >> tok (R_string s))).
    - apply rd_preceded; [|apply rd_string]. apply rdx_pair; [now apply rdx_chr|]. apply rdx_pair; [apply rdx_sp_enc; now apply rdx_kw|].
      apply rdx_terminated; [now apply rdx_chr|apply rdx_sp].
    - intros t r H. apply then_l. eapply then_mono; [|exact H]. clear t r H. intros t r H. apply then_l.
      apply then_l3 in H. eapply then_mono; [|exact H]. intros u v K. apply then_l, K.
  Qed.
  Lemma rd_aggregate a : rd aggregate a (W_aggregate WE a).
  Proof.
    unfold aggregate, aggregate_of. destruct a as [[d c]|d|d|d|d|d|[d s]]; cbn [W_aggregate].
    - alt1. eapply rd_map; [|reflexivity]. unfold count_of. apply (rd_map _ _ (d, c)); [|reflexivity]. apply (rd_call "count"); [reflexivity|].
      apply rd_pair; [apply rd_opt_distinct|apply rd_count_target].
    - pick (opens_gap "sum"). alt1. eapply rd_map; [|reflexivity]. apply rd_call; [reflexivity|apply rd_distinct_expression].
    - pick (opens_gap "min"). alt1. eapply rd_map; [|reflexivity]. apply rd_call; [reflexivity|apply rd_distinct_expression].
    - pick (opens_gap "max"). alt1. eapply rd_map; [|reflexivity]. apply rd_call; [reflexivity|apply rd_distinct_expression].
    - pick (opens_gap "avg"). alt1. eapply rd_map; [|reflexivity]. apply rd_call; [reflexivity|apply rd_distinct_expression].
    - pick (opens_gap "sample"). alt1. eapply rd_map; [|reflexivity]. apply rd_call; [reflexivity|apply rd_distinct_expression].
    - pick (opens_gap "group_concat"). alt1. eapply rd_map; [|reflexivity]. unfold group_concat_of. apply (rd_map _ _ (d, s)); [|reflexivity].
      apply (rd_call "group_concat"); [reflexivity|]. apply rd_pair; [apply rd_distinct_expression|].
      apply rd_opt; [apply rd_separator|]. intros r. apply sp_fails. intros x H. apply preceded_fails1, pair_fails1. now apply chr_fails.
  Qed.
  Lemma rd_call1 k e (b : Expression -> BuiltInCall Expression GroupGraphPattern) : low_ascii (s_ k) = true -> rd (call1 ex (s_ k) b) (b e) (call1W WE k e).
  Proof. intros K. eapply rd_map; [|reflexivity]. apply rd_call; [exact K|apply HE]. Qed.
  Lemma rd_call2 k x y (b : Expression -> Expression -> BuiltInCall Expression GroupGraphPattern) : low_ascii (s_ k) = true ->
    rd (call2 ex (s_ k) b) (b x y) (call2W WE k x y).
  Proof.
    intros K. unfold call2. apply (rd_map _ _ (x, y)); [|reflexivity]. apply rd_call; [exact K|]. unfold expr2_of.
    apply rd_separated_pair; [apply HE|apply rdx_comma|apply HE].
  Qed.
  Lemma opens_call k P : opens k (callW k P). Proof. apply opens_gap. Qed.
  Lemma opens_call1 k e : opens k (call1W WE k e). Proof. apply opens_gap. Qed.
  Lemma opens_call2 k x y : opens k (call2W WE k x y). Proof. apply opens_gap. Qed.
  Lemma opens_call0 k : opens k (call0W k). Proof. apply opens_gap. Qed.
  Lemma opens_aggregate a : exists k, opens k (W_aggregate WE a) /\ named k = true.
  Proof. destruct a as [[d c]|d|d|d|d|d|[d s]]; cbn [W_aggregate]; eexists; (split; [apply opens_call|reflexivity]). Qed.
  Ltac c1 k := bi (opens_call1 k); apply rd_call1; reflexivity.
  Ltac c2 k := bi (opens_call2 k); apply rd_call2; reflexivity.
  Ltac c0 k := bi (opens_call0 k); apply rd_call0; reflexivity.
  Lemma rd_built_in b : rd built_in_call b (W_built_in WE WG b).
  Proof.
    destruct b; cbn [W_built_in]; try (intros ? ? []; fail).
    - alt1. unfold built_in_call_1_of. alt1. eapply rd_map; [|reflexivity]. apply rd_aggregate.
    - c1 "str"%string.
    - c1 "lang"%string.
    - c2 "langmatches"%string.
    - c1 "datatype"%string.
    - bi (opens_call "bound" (W_var v)). eapply rd_map; [|reflexivity]. apply rd_call; [reflexivity|apply rd_var].
    - c1 "iri"%string.
    - intros t r [H|[H|[H|[H|H]]]]; revert t r H.
      + c1 "uri"%string.
      + c1 "abs"%string.
      + c1 "ceil"%string.
      + c1 "floor"%string.
      + c1 "round"%string.
    - destruct e as [e|].
      + bi (opens_call1 "bnode" e). eapply rd_map; [|reflexivity]. apply rd_call; [reflexivity|]. alt1. eapply rd_map; [|reflexivity]. apply HE.
      + bi (opens_call0 "bnode"). eapply rd_map; [|reflexivity]. apply rd_call; [reflexivity|]. alt_skip; [apply nf_nil_expression|]. alt1. apply rd_nil.
    - c0 "rand"%string.
    - bi (opens_gap1 "concat"). destruct s as [a b c]. apply (rd_map _ _ (l, MkRegex a b c)); [|reflexivity]. apply rd_preceded_tag1; [reflexivity|].
      apply rd_separated_pair; [apply rd_expression_list|apply rdx_sp|]. unfold substring_expression_of. apply (rd_map _ _ (a, (b, c))); [|reflexivity].
      apply rd_preceded_tag1; [reflexivity|apply rd_expr3].
    - bi (opens_gap1 "strlen"). apply (rd_map _ _ (e, s)); [|reflexivity]. apply rd_preceded_tag1; [reflexivity|].
      apply rd_separated_pair; [apply rd_bracketted_expression|apply rdx_sp|apply rd_str_replace].
    - c1 "ucase"%string.
    - c1 "lcase"%string.
    - c1 "encode_for_uri"%string.
    - unfold built_in_call, built_in_call_of. alt1. unfold built_in_call_1_of. pick (opens_sym "strlen"). alt_skip.
      { intros t r (w & x & -> & Hw & z & v & -> & Hz & _). hnf in Hz. subst z. rewrite <- app_assoc. apply preceded_fails1.
        eapply terminated_fails2; [apply tnc_ok; [reflexivity|exact Hw]|]. apply sp1_fails, paren_solid. }
      pick (opens_sym "strlen"). alt1. intros t r (w & x & -> & Hw & z & v & -> & Hz & H). apply (rd_call2 "strlen"); [reflexivity|].
      exists w, (z ++ v). split; [reflexivity|]. split; [exact Hw|]. hnf in Hz. subst z. exists [], (s_ "(" ++ v). split; [reflexivity|]. split.
      { split; [apply blank_nil|]. apply paren_solid. }
      exists (s_ "("), v. split; [reflexivity|]. split; [reflexivity|]. now apply then_l.
    - c2 "strstarts"%string.
    - c2 "strends"%string.
    - c2 "strbefore"%string.
    - c2 "strafter"%string.
    - c1 "year"%string.
    - c1 "month"%string.
    - c1 "day"%string.
    - c1 "hours"%string.
    - c1 "minutes"%string.
    - c1 "seconds"%string.
    - c1 "timezone"%string.
    - c1 "tz"%string.
    - c0 "now"%string.
    - c0 "uuid"%string.
    - c0 "struuid"%string.
    - c1 "md5"%string.
    - c1 "sha1"%string.
    - c1 "sha256"%string.
    - c1 "sha384"%string.
    - c1 "sha512"%string.
    - bi (opens_gap1 "coalesce"). eapply rd_map; [|reflexivity]. apply rd_preceded_tag1; [reflexivity|apply rd_expression_list].
    - bi (opens_call "if"). apply (rd_map _ _ (e1, (e2, e3))); [|reflexivity]. apply rd_call; [reflexivity|]. apply rd_tuple3; [apply HE|apply rd_arg|apply rd_arg].
    - c2 "strlang"%string.
    - c2 "strdt"%string.
    - c2 "sameterm"%string.
    - c1 "isiri"%string.
    - c1 "isuri"%string.
    - c1 "isblank"%string.
    - c1 "isliteral"%string.
    - c1 "isnumeric"%string.
    - destruct r as [a b c]. bi (opens_gap1 "regex"). eapply rd_map; [|reflexivity]. unfold regex_expression_of. apply (rd_map _ _ (a, (b, c))); [|reflexivity].
      apply rd_preceded_tag1; [reflexivity|apply rd_expr3].
    - bi (opens_gap1 "exists"). eapply rd_map; [|reflexivity]. apply rd_preceded_tag1; [reflexivity|apply HG].
    - bi (opens_gap1 "not"). intros t r H. destruct H as (w & x & -> & Hw & H). rewrite <- app_assoc.
      apply then_l3 in H. destruct H as (y & z & -> & Hy & Hz). rewrite <- app_assoc.
      destruct (rdx_sp_enc1 _ _ (rdx_kw "exists" eq_refl) _ _ Hy) as [a Ha].
      apply (map_ok _ _ _ _ (w, (a, g))); [|reflexivity]. eapply pair_ok; [apply tnc_ok; [reflexivity|exact Hw]|].
      eapply pair_ok; [exact Ha|now apply HG].
  Qed.

  Lemma nf_iri_first {A} cs (P : A -> lang) a : (forall t r, P a t r -> starts cs t) -> forallb (fun c => negb (iri_first c)) cs = true -> nf iri_or_fun (P a).
  Proof. intros H C t r K. apply map_fails, pair_fails1, iri_fails_first. eapply starts_stops; [exact (H _ _ K)|exact C]. Qed.
  Lemma nf_built_in_first {A} cs (P : A -> lang) a : (forall t r, P a t r -> starts cs t) -> forallb (fun c => negb (base_char c)) cs = true -> nf built_in_call (P a).
  Proof. intros H C t r K. apply built_in_first. eapply starts_stops; [exact (H _ _ K)|exact C]. Qed.
  Lemma nf_bracketted_first {A} cs (P : A -> lang) a : (forall t r, P a t r -> starts cs t) -> negb (existsb (N.eqb 40) cs) = true -> nf (bracketted_expression_of ex) (P a).
  Proof. intros H C t r K. apply bracketted_first. eapply starts_not; [exact (H _ _ K)|exact C]. Qed.
  Lemma built_in_starts b : nf (bracketted_expression_of ex) (W_built_in WE WG b).
  Proof.
    intros t r H. apply bracketted_first.
    assert (X : exists k w x, t ++ r = w ++ x /\ kw k w /\ word_like k = true).
    { assert (O : forall k (P : lang), P t r -> opens k P -> word_like k = true -> exists k w x, t ++ r = w ++ x /\ kw k w /\ word_like k = true).
      { intros k P K O L. destruct (O _ _ K) as (w & x & E & Hw & _). eauto 7. }
      destruct b; cbn [W_built_in] in H;
        try (exact (O _ _ H (opens_gap _ _) eq_refl)); try (exact (O _ _ H (opens_gap1 _ _) eq_refl)); try (exact (O _ _ H (opens_sym _ _) eq_refl)); try (destruct H; fail).
      - destruct a as [[d c]|d|d|d|d|d|[d s]]; cbn [W_aggregate] in H; exact (O _ _ H (opens_gap _ _) eq_refl).
      - destruct H as [H|[H|[H|[H|H]]]]; exact (O _ _ H (opens_gap _ _) eq_refl).
      - destruct e as [e|]; exact (O _ _ H (opens_gap _ _) eq_refl). }
    destruct X as (k & w & x & E & Hw & L). apply (stops_oneof [40]); [|now left]. apply (begins_stops _ k); [exact L|reflexivity|].
    exists w, x. split; [exact E|exact Hw].
  Qed.
  Lemma rd_primary_expression p : rd primary_expression p (W_primary WE WG p).
  Proof.
    unfold primary_expression, primary_expression_of. destruct p as [e|b|i|l|n|b|v]; cbn [W_primary].
    - alt1. eapply rd_map; [|reflexivity]. apply rd_bracketted_expression.
    - alt_skip; [apply built_in_starts|]. alt1. eapply rd_map; [|reflexivity]. apply rd_built_in.
    - alt_skip.
      { destruct i as [i a]. apply nf_then. intros t r [H _]. apply bracketted_first. now apply (iri_reads_first i). }
      alt_skip; [destruct i as [i a]; apply nf_then; intros t r H; now apply (built_in_iri i)|].
      alt1. eapply rd_map; [|reflexivity]. apply rd_iri_or_fun.
    - alt_skip; [eapply (nf_bracketted_first (s_ "'"""%string) W_rdf_literal); [apply rdf_literal_starts|reflexivity]|].
      alt_skip; [eapply (nf_built_in_first (s_ "'"""%string) W_rdf_literal); [apply rdf_literal_starts|reflexivity]|].
      alt_skip; [eapply (nf_iri_first (s_ "'"""%string) W_rdf_literal); [apply rdf_literal_starts|reflexivity]|].
      alt1. eapply rd_map; [|reflexivity]. apply rd_rdf_literal.
    - alt_skip; [eapply (nf_bracketted_first num_chars W_numeric); [apply numeric_starts|reflexivity]|].
      alt_skip; [eapply (nf_built_in_first num_chars W_numeric); [apply numeric_starts|reflexivity]|].
      alt_skip; [eapply (nf_iri_first num_chars W_numeric); [apply numeric_starts|reflexivity]|].
      alt_skip; [by_start numeric_starts lit_first|].
      alt1. eapply rd_map; [|reflexivity]. apply rd_numeric.
    - alt_skip; [eapply (nf_bracketted_first (s_ "tTfF") W_boolean); [apply boolean_starts|reflexivity]|].
      alt_skip; [intros t r [H _]; apply (built_in_other (if b then "true" else "false")); [exact H|destruct b; reflexivity..]|].
      alt_skip; [intros t r H; apply map_fails, pair_fails1; eapply nf_iri_plain, H|].
      alt_skip; [by_start boolean_starts lit_first|].
      alt_skip; [by_start boolean_starts num_first_fails|].
      alt1. eapply rd_map; [|reflexivity]. apply rd_boolean.
    - assert (S : forall t r, W_var v t r -> starts (s_ "?$") t) by (intros t r [H _]; now apply (var_starts v)).
      alt_skip; [eapply (nf_bracketted_first (s_ "?$") W_var); [exact S|reflexivity]|].
      alt_skip; [eapply (nf_built_in_first (s_ "?$") W_var); [exact S|reflexivity]|].
      alt_skip; [eapply (nf_iri_first (s_ "?$") W_var); [exact S|reflexivity]|].
      alt_skip; [by_start S lit_first|].
      alt_skip; [by_start S num_first_fails|].
      alt_skip; [by_start S boolean_first|].
      alt1. eapply rd_map; [|reflexivity]. apply rd_var.
  Qed.
  Lemma sym_tag_nf c k (P : lang) : s_ k = [c] -> low_ascii (s_ k) = true -> (97 <=? c) && (c <=? 122) = false ->
    (forall t r, P t r -> not_first c (t ++ r)) -> nf (tag_no_case (s_ k)) P.
  Proof. intros E L C H t r K. eapply nc_first; [exact E|exact L|exact C|]. now apply H. Qed.
  Lemma rd_unary u : rd unary_expression u (W_unary WE WG u).
  Proof.
    unfold unary_expression, unary_expression_of. destruct u as [p|p|p|p]; cbn [W_unary].
    - alt1. eapply rd_map; [|reflexivity]. apply rd_preceded_sym; [reflexivity|apply rd_primary_expression].
    - alt_skip; [apply nf_tag0, nf_then, (sym_tag_nf 33); try reflexivity; intros t r ->; discriminate|].
      alt1. eapply rd_map; [|reflexivity]. apply rd_preceded_sym; [reflexivity|apply rd_primary_expression].
    - alt_skip; [apply nf_tag0, nf_then, (sym_tag_nf 33); try reflexivity; intros t r ->; discriminate|].
      alt_skip; [apply nf_tag0, nf_then, (sym_tag_nf 43); try reflexivity; intros t r ->; discriminate|].
      alt1. eapply rd_map; [|reflexivity]. apply rd_preceded_sym; [reflexivity|apply rd_primary_expression].
    - alt_skip; [apply nf_tag0, (sym_tag_nf 33); try reflexivity; intros t r [_ H]; apply H; cbn; auto|].
      alt_skip; [apply nf_tag0, (sym_tag_nf 43); try reflexivity; intros t r [_ H]; apply H; cbn; auto|].
      alt_skip; [apply nf_tag0, (sym_tag_nf 45); try reflexivity; intros t r [_ H]; apply H; cbn; auto|].
      alt1. eapply rd_map; [|reflexivity]. intros t r [H _]. now apply rd_primary_expression.
  Qed.
  Lemma rd_mult m : rd mult_expression m (W_mult WE WG m).
  Proof.
    unfold mult_expression, mult_expression_of. destruct m as [u|u]; cbn [W_mult].
    - alt1. eapply rd_map; [|reflexivity]. apply rd_preceded_sym; [reflexivity|apply rd_unary].
    - alt_skip; [apply nf_tag0, nf_then, (sym_tag_nf 42); try reflexivity; intros t r ->; discriminate|].
      alt1. eapply rd_map; [|reflexivity]. apply rd_preceded_sym; [reflexivity|apply rd_unary].
  Qed.
  Lemma no_mult_fails r : no_mult r -> fails mult_expression r.
  Proof.
    intros [H1 H2]. apply alt_fails_cons; [now apply map_fails, tag0_fails, (nc_first 42 "*" [])|].
    apply alt_fails_cons; [|apply alt_fails_nil]. now apply map_fails, tag0_fails, (nc_first 47 "/" []).
  Qed.
  Lemma mv_mult : moves mult_expression. Proof. mv1 mult_expression. Qed.
  Lemma mv_term : moves add_expression. Proof. mv1 add_expression. Qed.
  Lemma rn_sp : runs sp. Proof. mv. Qed.
  Lemma rd_factors l : rd (separated_list sp mult_expression) l (W_factors WE WG l).
  Proof.
    apply rd_sep; [apply rd_mult|apply mv_mult|apply rn_sp|apply gap1_sp|apply gap1_ne| |apply no_mult_fails].
    intros r. apply sp_back, no_mult_fails.
  Qed.
  Lemma rd_multiplicative m : rd multiplicative_expression m (W_multiplicative WE WG m).
  Proof.
    destruct m as [u l]. unfold multiplicative_expression, multiplicative_expression_of. apply (rd_map _ _ (u, l)); [|reflexivity].
    apply rd_pair; [apply rd_unary|]. apply rd_preceded; [apply rdx_sp|apply rd_factors].
  Qed.
  Lemma rd_term a : rd add_expression a (W_term WE WG a).
  Proof.
    unfold add_expression, add_expression_of. destruct a as [m|m|n l]; cbn [W_term].
    - alt1. eapply rd_map; [|reflexivity]. apply rd_preceded_sym; [reflexivity|apply rd_multiplicative].
    - alt_skip; [apply nf_tag0, nf_then, (sym_tag_nf 43); try reflexivity; intros t r ->; discriminate|].
      alt1. eapply rd_map; [|reflexivity]. apply rd_preceded_sym; [reflexivity|apply rd_multiplicative].
    - alt_skip; [apply nf_tag0, (sym_tag_nf 43); try reflexivity; intros t r [_ [H _]]; exact H|].
      alt_skip; [apply nf_tag0, (sym_tag_nf 45); try reflexivity; intros t r [_ [_ H]]; exact H|].
      alt1. apply (rd_map _ _ (n, l)); [|reflexivity].
      apply (rd_sub _ _ (W_numeric n >> gap >> W_factors WE WG l)); [|intros t r [H _]; exact H].
      apply rd_pair; [apply rd_numeric|]. apply rd_preceded; [apply rdx_sp|apply rd_factors].
  Qed.
  Lemma no_add_fails r : no_add r -> fails add_expression r.
  Proof.
    intros H. assert (X : forall c, In c (s_ "+-.0123456789") -> not_first c r).
    { intros c Hc. destruct r as [|x r]; [exact I|]. cbn. intros ->. now apply (H c r). }
    apply alt_fails_cons; [apply map_fails, tag0_fails, (nc_first 43 "+" []); try reflexivity; apply X; cbn; auto|].
    apply alt_fails_cons; [apply map_fails, tag0_fails, (nc_first 45 "-" []); try reflexivity; apply X; cbn; auto|].
    apply alt_fails_cons; [|apply alt_fails_nil]. apply map_fails, pair_fails1, num_first_fails. destruct r as [|x r]; [exact I|].
    specialize (H x r eq_refl). cbn. destruct (num_first x) eqn:E; [|reflexivity]. destruct H. now apply num_first_in.
  Qed.
  Lemma rd_terms l : rd (separated_list sp add_expression) l (W_terms WE WG l).
  Proof.
    apply rd_sep; [apply rd_term|apply mv_term|apply rn_sp|apply gap1_sp|apply gap1_ne| |apply no_add_fails].
    intros r. apply sp_back, no_add_fails.
  Qed.
  Lemma rd_additive a : rd additive_expression a (W_additive WE WG a).
  Proof.
    destruct a as [m l]. unfold additive_expression, additive_expression_of. apply (rd_map _ _ (m, l)); [|reflexivity].
    apply rd_pair; [apply rd_multiplicative|]. apply rd_preceded; [apply rdx_sp|apply rd_terms].
  Qed.
End Core.
