(** Safely laid out expressions are read: keywords of built-in calls and first characters. *)
From Verif Require Export LayoutExpr LNever.
Notation length := List.length (only parsing).
Open Scope N_scope.
Open Scope list_scope.

(** ** Keywords inside a text *)
Definition nmc (c : char) : bool := in_ranges [(97, 122); (48, 57); (95, 95)] c.
Definition named (k : string) : bool := forallb nmc (s_ k).
Lemma nmc_low k : forallb nmc k = true -> low_ascii k = true.
Proof.
  unfold low_ascii. rewrite !forallb_forall. intros H x Hx. apply H in Hx. unfold nmc, in_ranges, existsb in Hx.
  rewrite !orb_true_iff, !andb_true_iff, !N.leb_le in Hx. apply andb_true_iff. rewrite N.ltb_lt. rewrite negb_true_iff, andb_false_iff, !N.leb_gt.
  destruct Hx as [Hx|[Hx|[Hx|Hx]]]; try discriminate; lia.
Qed.
Lemma named_low k : named k = true -> low_ascii (s_ k) = true. Proof. apply nmc_low. Qed.
Lemma zip_inside k pre c v : forallb nmc k = true -> ~ In 0x212A pre -> nmc (to_lower c) = false ->
  (exists u w, pre = u ++ w /\ kwd k u) \/ zip_same (pre ++ c :: v) k = false.
Proof.
  revert pre. induction k as [|x k IH]; intros pre K N C; [left; exists [], pre; split; reflexivity|].
  cbn [forallb] in K. apply andb_true_iff in K. destruct K as [K1 K2].
  assert (L : low_ascii [x] = true) by (apply nmc_low; cbn [forallb]; now rewrite K1).
  unfold low_ascii in L. cbn [forallb] in L. rewrite andb_true_r in L. pose proof (to_lower_low x L) as X.
  destruct pre as [|a pre]; cbn [app zip_same].
  - right. apply andb_false_iff. left. apply N.eqb_neq. intros E. rewrite X in E. congruence.
  - destruct (to_lower a =? to_lower x) eqn:E; [|now right]. cbn [andb]. destruct (IH pre) as [(u & w & -> & Hu)|Z]; auto.
    + intros H. apply N. now right.
    + left. exists (a :: u), w. split; [reflexivity|]. hnf. cbn. apply N.eqb_eq in E. rewrite X in E.
      rewrite lower_to_lower in E; [now rewrite E, Hu|]. intros ->. apply N. now left.
Qed.
Lemma tag_inside k pre c v : named k = true -> ~ In 0x212A pre -> nmc (to_lower c) = false ->
  (exists u w, pre = u ++ w /\ kw k u) \/ fails (tag_no_case (s_ k)) (pre ++ c :: v).
Proof.
  intros K N C. destruct (zip_inside (s_ k) pre c v K N C) as [H|Z]; [now left|]. right. now apply tnc_fails_zip.
Qed.
Lemma s_inj a b : s_ a = s_ b -> a = b.
Proof.
  revert b. induction a as [|x a IH]; intros [|y b] H; try discriminate; [reflexivity|].
  unfold s_ in H. cbn in H. injection H as H1 H2. rewrite (IH b H2). f_equal.
  rewrite <- (Ascii.ascii_N_embedding x), <- (Ascii.ascii_N_embedding y). now rewrite H1.
Qed.
(** what stops a call: the keyword is not there, or it is followed by neither a bracket nor a brace *)
Definition uncond (k : string) (i : str) : Prop :=
  fails (tag_no_case (s_ k)) i \/
  exists u b c v, tag_no_case (s_ k) i = Ok (b ++ c :: v) u /\ blank b /\ oneof [32; 9; 10; 13; 35; 40; 123] c = false /\ (b = [] \/ c = 58).
Lemma kw_no_kelvin k t : low_ascii (s_ k) = true -> kw k t -> ~ In 0x212A t.
Proof.
  intros K H I. pose proof (kwd_ascii _ _ K H) as A. unfold is_ascii in A. rewrite Forall_forall in A. apply A in I. discriminate.
Qed.
Lemma lower_nmc a : nmc (lower a) = true -> oneof [32; 9; 10; 13; 35; 40; 123] a = false.
Proof.
  intros H. destruct (oneof [32; 9; 10; 13; 35; 40; 123] a) eqn:E; [|reflexivity]. exfalso.
  unfold oneof in E. cbn [existsb] in E. rewrite !orb_true_iff, !N.eqb_eq in E.
  repeat (destruct E as [-> |E]; [discriminate H|]). discriminate.
Qed.
(** the next character of a call: a bracket or a blank *)
Definition delims : str := [32; 9; 10; 13; 35; 40].
Lemma word_uncond k k' w x : kw k w -> starts delims x -> named k = true -> named k' = true -> k <> k' -> uncond k' (w ++ x).
Proof.
  intros Hw (c & v & -> & Hc) N N' D. pose proof (named_low _ N) as L.
  destruct (tag_inside k' w c v N' (kw_no_kelvin _ _ L Hw)) as [(u & w' & -> & Hu)|F]; [| |now left].
  - cbn in Hc. repeat (destruct Hc as [<-|Hc]; [reflexivity|]). destruct Hc.
  - right. destruct w' as [|a w'].
    + exfalso. apply D. rewrite app_nil_r in Hw. hnf in Hw, Hu. rewrite Hw in Hu. now apply s_inj.
    + exists u, [], a, (w' ++ c :: v). rewrite <- app_assoc. split; [apply tnc_ok; [now apply named_low|exact Hu]|]. split; [apply blank_nil|]. split; [|now left].
      apply lower_nmc. hnf in Hw. unfold named in N. rewrite <- Hw, map_app, forallb_app in N. apply andb_true_iff in N. destruct N as [_ N].
      cbn in N. now apply andb_true_iff in N.
Qed.
Definition pfx_char (c : char) : bool := base_char c || name_char c || (c =? 46).
Lemma pfx_plain c : pfx_char c = true -> oneof [32; 9; 10; 13; 35; 40; 123] c = false.
Proof.
  intros H. destruct (oneof [32; 9; 10; 13; 35; 40; 123] c) eqn:E; [|reflexivity]. exfalso.
  unfold oneof in E. cbn [existsb] in E. rewrite !orb_true_iff, !N.eqb_eq in E.
  repeat (destruct E as [-> |E]; [discriminate H|]). discriminate.
Qed.
Lemma prefix_chars p : prefix_name p -> all pfx_char p.
Proof.
  intros (c & t & -> & Hc & d & u & -> & Hd & Hu). constructor; [unfold pfx_char; now rewrite Hc|].
  apply Forall_app. split.
  - eapply Forall_impl; [|exact Hd]. intros x Hx. apply N.eqb_eq in Hx. subst x. reflexivity.
  - destruct Hu as [-> |(a & m & -> & Ha & Hm & _)]; constructor.
    + unfold pfx_char. now rewrite Ha, orb_true_r.
    + eapply Forall_impl; [|exact Hm]. intros x Hx. unfold pfx_char. rewrite <- orb_assoc. now rewrite Hx, orb_true_r.
Qed.
Lemma blank_colon b v : blank b -> exists c v', b ++ 58 :: v = c :: v' /\ nmc (to_lower c) = false.
Proof.
  intros H. destruct b as [|c b]; [eexists _, _; split; reflexivity|]. exists c, (b ++ 58 :: v). split; [reflexivity|].
  inversion H; subst; [|reflexivity]. match goal with I : In c _ |- _ => cbn in I; repeat (destruct I as [<-|I]; [reflexivity|]); destruct I end.
Qed.
Lemma prefix_uncond k p b v : named k = true -> (p = [] \/ prefix_name p) -> ~ In 0x212A p -> blank b -> uncond k (p ++ b ++ 58 :: v).
Proof.
  intros N P K B. destruct (blank_colon b v B) as (c & v' & E & C). rewrite E.
  destruct (tag_inside k p c v' N K C) as [(u & w & -> & Hu)|F]; [|now left]. right. rewrite <- E.
  destruct w as [|a w].
  - exists u, b, 58, v. rewrite app_nil_r. split; [apply tnc_ok; [now apply named_low|exact Hu]|]. split; [assumption|]. split; [reflexivity|now right].
  - exists u, [], a, (w ++ b ++ 58 :: v). rewrite <- app_assoc. split; [apply tnc_ok; [now apply named_low|exact Hu]|].
    split; [apply blank_nil|]. split; [|now left]. apply pfx_plain. destruct P as [P|P]; [now destruct u|].
    apply prefix_chars in P. apply Forall_app in P. destruct P as [_ P]. now inversion P.
Qed.
Lemma ns_shape p t : R_pname_ns p t -> exists q b, t = q ++ b ++ [58] /\ (q = [] \/ prefix_name q) /\ blank b.
Proof.
  intros (q & x & -> & Hq & b & y & -> & Hb & Hy). hnf in Hy. subst y. exists q, b. split; [reflexivity|]. split; [|assumption].
  destruct p; cbn in Hq; [destruct Hq as [-> Hq]; now right|now left].
Qed.
Lemma iri_uncond k j t r : named k = true -> W_iri_expr j t r -> uncond k (t ++ r).
Proof.
  intros N [H K]. unfold W_iri in H. destruct j as [s|[p l|p]]; cbn [iri_at] in H.
  - destruct H as [-> _]. destruct (tag_inside k [] 60 (s ++ 62 :: r) N) as [(u & w & E & Hu)|F]; [intros []|reflexivity| |now left].
    destruct u; [|discriminate].
    right. exists [], [], 60, (s ++ 62 :: r). split; [|repeat split; auto; apply blank_nil]. apply (tnc_ok (s_ k) [] (60 :: s ++ 62 :: r)); [now apply named_low|exact Hu].
  - destruct H as (u & b & E & Hu & Hb & Hl). apply ns_shape in Hu. destruct Hu as (q & b' & -> & Hq & Hb'). rewrite E.
    replace ((q ++ b' ++ [58]) ++ b ++ l ++ r) with (q ++ b' ++ 58 :: (b ++ l ++ r)) by now rewrite <- !app_assoc.
    apply prefix_uncond; auto. intros I. apply K.
    assert (E' : t = (q ++ b' ++ [58]) ++ b ++ l). { rewrite !app_assoc in E. apply app_inv_tail in E. now rewrite <- !app_assoc in *. }
    rewrite E'. rewrite <- app_assoc. apply in_or_app. now left.
  - destruct H as (u & E & Hu & _). apply app_inv_tail in E. subst u. apply ns_shape in Hu. destruct Hu as (q & b' & -> & Hq & Hb').
    replace ((q ++ b' ++ [58]) ++ r) with (q ++ b' ++ 58 :: r) by now rewrite <- !app_assoc.
    apply prefix_uncond; auto. intros I. apply K. apply in_or_app. now left.
Qed.
Lemma first_uncond k i : named k = true -> s_ k <> [] -> stops base_char i -> word_like k = true -> uncond k i.
Proof. intros N E S W. left. now apply kwf_fails_base. Qed.

(** ** Parsers guarded by keywords *)
Definition guarded {A} (ks : list string) (p : parser A) : Prop := forall i, (forall k, In k ks -> uncond k i) -> fails p i.
Lemma gu_map {A B} ks (p : parser A) (f : A -> B) : guarded ks p -> guarded ks (map p f).
Proof. intros H i Hi. now apply map_fails, H. Qed.
Lemma gu_alt1 {A} ks (p : parser A) : guarded ks p -> guarded ks (alt [p]). Proof. intros H i Hi. exact (H i Hi). Qed.
Lemma gu_alt2 {A} ks ks' (p q : parser A) ps : guarded ks p -> guarded ks' (alt (q :: ps)) -> guarded (ks ++ ks') (alt (p :: q :: ps)).
Proof.
  intros H1 H2 i Hi. apply alt_fails_cons; [apply H1|apply H2]; intros k I; apply Hi, in_or_app; auto.
Qed.
Lemma gu_pb {A} k (p : parser A) : guarded [k] (preceded_bracketted (s_ k) p).
Proof.
  intros i H. destruct (H k (or_introl eq_refl)) as [F|(u & b & c & v & E & B & C & D)].
  - now apply tag0_fails.
  - unfold preceded_bracketted, preceded_tag. assert (S : solid (c :: v)).
    { cbn. unfold oneof in C. cbn [existsb] in C. rewrite !orb_false_iff, !N.eqb_neq in C. intuition congruence. }
    eapply preceded_fails2; [eapply terminated_ok; [exact E|now apply sp_ok]|]. unfold bracketted. apply delimited_fails1, chr_fails.
    cbn. intros ->. discriminate C.
Qed.
Lemma gu_tag1 {A} k (p : parser A) : (forall v, fails p (58 :: v)) -> guarded [k] (preceded_tag1 (s_ k) p).
Proof.
  intros P i H. destruct (H k (or_introl eq_refl)) as [F|(u & b & c & v & E & B & C & D)].
  - now apply tag1_fails.
  - assert (S : solid (c :: v)).
    { cbn. unfold oneof in C. cbn [existsb] in C. rewrite !orb_false_iff, !N.eqb_neq in C. intuition congruence. }
    unfold preceded_tag1. destruct b as [|y b].
    + apply preceded_fails1. eapply terminated_fails2; [exact E|]. now apply sp1_fails.
    + destruct D as [D|D]; [discriminate|]. subst c. eapply preceded_fails2; [eapply terminated_ok; [exact E|apply sp1_ok; [split; [exact B|discriminate]|exact S]]|apply P].
Qed.

(** ** First characters *)
Notation ex := expression (only parsing).
Notation gg := group_graph_pattern (only parsing).
Lemma nc_first c k r x : s_ k = c :: r -> low_ascii (s_ k) = true -> (97 <=? c) && (c <=? 122) = false ->
  not_first c x -> fails (tag_no_case (s_ k)) x.
Proof.
  intros E L C N. rewrite E in *. apply tnc_fails_first; [exact L|]. destruct x as [|y x]; [exact I|]. cbn in *. intros H. apply N. clear N E L.
  unfold to_lower in H. apply andb_false_iff in C. rewrite !N.leb_gt in C.
  destruct ((65 <=? y) && (y <=? 90)) eqn:Y.
  - apply andb_true_iff in Y. rewrite !N.leb_le in Y. lia.
  - destruct (y =? 8490); lia.
Qed.
Lemma gg_first i : not_first 123 i -> fails gg i.
Proof.
  intros H. unfold fails. rewrite group_graph_pattern_eq. apply delimited_fails1, chr_fails, H.
Qed.
Lemma expression_list_first i : not_first 40 i -> fails expression_list i.
Proof.
  intros H. unfold expression_list, expression_list_of. apply alt_fails_cons; [now apply map_fails, nil_first|].
  apply alt_fails_cons; [|apply alt_fails_nil]. now apply map_fails, delimited_fails1, chr_fails.
Qed.
Lemma gu_not : guarded ["not"%string] (tuple3 (tag_no_case (s_ "not")) (sp_enc1 (tag_no_case (s_ "exists"))) gg).
Proof.
  intros i H. destruct (H _ (or_introl eq_refl)) as [F|(u & b & c & v & E & B & C & D)].
  - now apply pair_fails1.
  - assert (S : solid (c :: v)).
    { cbn. unfold oneof in C. cbn [existsb] in C. rewrite !orb_false_iff, !N.eqb_neq in C. intuition congruence. }
    eapply pair_fails2; [exact E|]. apply pair_fails1. unfold sp_enc1. destruct b as [|y b].
    + apply delimited_fails1. now apply sp1_fails.
    + destruct D as [D|D]; [discriminate|]. subst c. eapply delimited_fails2; [apply sp1_ok; [split; [exact B|discriminate]|exact S]|].
      now apply (kwf_fails_base "exists").
Qed.
Ltac gu :=
  lazymatch goal with
  | |- guarded _ (map (tuple3 _ _ _) _) => apply gu_map; exact gu_not
  | |- guarded _ (map _ _) => apply gu_map; gu
  | |- guarded _ (alt [_]) => apply gu_alt1; gu
  | |- guarded _ (alt (_ :: _ :: _)) => eapply gu_alt2; [gu|gu]
  | |- guarded _ (call1 _ _ _) => apply gu_map; gu
  | |- guarded _ (call2 _ _ _) => apply gu_map; gu
  | |- guarded _ (call0 _ _) => apply gu_map; gu
  | |- guarded _ (preceded_bracketted _ _) => apply gu_pb
  | |- guarded _ (preceded_tag _ (bracketted _)) => exact (gu_pb _ _)
  | |- guarded _ (preceded_tag1 _ gg) => apply gu_tag1; intros ?; apply gg_first; discriminate
  | |- guarded _ (preceded_tag1 _ (expression_list_of _)) => apply gu_tag1; intros ?; apply expression_list_first; discriminate
  | |- guarded _ (preceded_tag1 _ (separated_pair (expression_list_of _) _ _)) =>
      apply gu_tag1; intros ?; apply pair_fails1, expression_list_first; discriminate
  | |- guarded _ (preceded_tag1 _ (separated_pair (bracketted_expression_of _) _ _)) =>
      apply gu_tag1; intros ?; apply pair_fails1; apply delimited_fails1, chr_fails; discriminate
  | |- guarded _ (preceded_tag1 _ (bracketted_expr3_of _)) => apply gu_tag1; intros ?; apply delimited_fails1, chr_fails; discriminate
  | |- guarded _ (aggregate_of _) => unfold aggregate_of; gu
  | |- guarded _ (count_of _) => unfold count_of; gu
  | |- guarded _ (group_concat_of _) => unfold group_concat_of; gu
  | |- guarded _ (regex_expression_of _) => unfold regex_expression_of; gu
  | |- guarded _ (built_in_call_1_of _) => unfold built_in_call_1_of; gu
  | |- guarded _ (built_in_call_2_of _) => unfold built_in_call_2_of; gu
  | |- guarded _ (built_in_call_of _ _) => unfold built_in_call_of; gu
  end.
Definition call_names : list string :=
  [ "count"; "sum"; "min"; "max"; "avg"; "sample"; "group_concat"; "str"; "lang"; "langmatches"; "datatype"; "bound"; "iri"; "uri";
    "bnode"; "rand"; "abs"; "ceil"; "floor"; "round"; "concat"; "strlen"; "ucase"; "lcase"; "encode_for_uri"; "strlen"; "strstarts";
    "strends"; "strbefore"; "strafter"; "year"; "month"; "day"; "hours"; "minutes"; "seconds"; "timezone"; "tz"; "now"; "uuid"; "struuid";
    "md5"; "sha1"; "sha256"; "sha384"; "sha512"; "coalesce"; "if"; "strlang"; "strdt"; "sameterm"; "isiri"; "isuri"; "isblank";
    "isliteral"; "isnumeric"; "regex"; "exists"; "not" ]%string.
Lemma gu_built_in : guarded call_names built_in_call.
Proof.
  assert (X : exists ks, guarded ks built_in_call /\ ks = call_names).
  { eexists. split; [unfold built_in_call; gu|reflexivity]. }
  destruct X as (ks & H & <-). exact H.
Qed.
Lemma call_named : forallb (fun k => named k && word_like k) call_names = true. Proof. reflexivity. Qed.
Lemma call_name k : In k call_names -> named k = true /\ word_like k = true.
Proof. intros H. pose proof call_named as C. rewrite forallb_forall in C. apply C in H. now apply andb_true_iff in H. Qed.
Lemma built_in_first i : stops base_char i -> fails built_in_call i.
Proof. intros S. apply gu_built_in. intros k H. apply call_name in H. left. now apply kwf_fails_base. Qed.
Lemma built_in_iri j t r : W_iri_expr j t r -> fails built_in_call (t ++ r).
Proof. intros W. apply gu_built_in. intros k H. apply call_name in H. now apply (iri_uncond k j). Qed.
Lemma built_in_word k w x : kw k w -> starts delims x -> named k = true -> existsb (String.eqb k) call_names = false -> fails built_in_call (w ++ x).
Proof.
  intros W S N D. apply gu_built_in. intros k' H. apply (word_uncond k); auto; [now apply call_name|]. intros <-.
  assert (existsb (String.eqb k) call_names = true) by (apply existsb_exists; exists k; split; [exact H|apply String.eqb_refl]). congruence.
Qed.
Lemma built_in_other k w x : kw k w -> low_ascii (s_ k) = true -> forallb (fun k' => differ (s_ k) (s_ k')) call_names = true -> fails built_in_call (w ++ x).
Proof.
  intros W N D. apply gu_built_in. intros k' H. left. rewrite forallb_forall in D. specialize (D _ H). apply call_name in H.
  apply (tnc_fails_kwd (s_ k)); auto. now apply named_low.
Qed.
Definition expr_first : char -> bool := orc value_first (oneof (s_ "(!?$")).
Lemma expr_first_parts i : stops expr_first i -> stops iri_first i /\ stops num_first i /\ stops (oneof (s_ "'""")) i /\ stops (oneof (s_ "(!?$")) i.
Proof. intros S. apply stops_orc in S. destruct S as [S S4]. apply stops_orc in S. destruct S as [S1 S]. apply stops_orc in S. tauto. Qed.
Lemma bracketted_first i : not_first 40 i -> fails (bracketted_expression_of ex) i.
Proof. intros H. now apply delimited_fails1, chr_fails. Qed.
Lemma primary_expression_first i : stops expr_first i -> fails primary_expression i.
Proof.
  intros S. apply expr_first_parts in S. destruct S as (S1 & S2 & S3 & S4). unfold primary_expression, primary_expression_of.
  apply alt_fails_cons; [apply map_fails, bracketted_first; eapply stops_oneof; [exact S4|cbn; auto]|].
  apply alt_fails_cons; [now apply map_fails, built_in_first, base_iri_first|].
  apply alt_fails_cons; [now apply map_fails, map_fails, pair_fails1, iri_fails_first|].
  apply alt_fails_cons; [now apply map_fails, lit_first|].
  apply alt_fails_cons; [now apply map_fails, num_first_fails|].
  apply alt_fails_cons; [now apply map_fails, boolean_first, base_iri_first|].
  apply alt_fails_cons; [|apply alt_fails_nil]. apply map_fails, var_first. revert S4. now apply sub_oneof.
Qed.
Definition unary_expression := unary_expression_of ex gg.
Definition mult_expression := mult_expression_of ex gg.
Definition multiplicative_expression := multiplicative_expression_of ex gg.
Definition add_expression := add_expression_of ex gg.
Definition additive_expression := additive_expression_of ex gg.
Definition op_expression := op_expression_of ex gg.
Lemma unary_first i : stops expr_first i -> fails unary_expression i.
Proof.
  intros S. pose proof (expr_first_parts _ S) as (S1 & S2 & S3 & S4). apply stops_orc in S2. destruct S2 as [_ S2]. unfold unary_expression, unary_expression_of.
  apply alt_fails_cons; [apply map_fails, tag0_fails, (nc_first 33 "!" []); try reflexivity; eapply stops_oneof; [exact S4|cbn; auto]|].
  apply alt_fails_cons; [apply map_fails, tag0_fails, (nc_first 43 "+" []); try reflexivity; eapply stops_oneof; [exact S2|cbn; auto]|].
  apply alt_fails_cons; [apply map_fails, tag0_fails, (nc_first 45 "-" []); try reflexivity; eapply stops_oneof; [exact S2|cbn; auto]|].
  apply alt_fails_cons; [|apply alt_fails_nil]. now apply map_fails, primary_expression_first.
Qed.
Lemma multiplicative_first i : stops expr_first i -> fails multiplicative_expression i.
Proof. intros S. now apply map_fails, pair_fails1, unary_first. Qed.
Lemma additive_first i : stops expr_first i -> fails additive_expression i.
Proof. intros S. now apply map_fails, pair_fails1, multiplicative_first. Qed.
Lemma expression_first i : stops expr_first i -> fails ex i.
Proof.
  intros S. unfold fails. rewrite expression_eq. apply map_fails, sepne_fails, map_fails, sepne_fails, map_fails, pair_fails1. now apply additive_first.
Qed.
