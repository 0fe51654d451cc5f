(** Inside a block the parsers do not look behind its closing brace: terminals, triples and paths. *)
From Verif Require Export LBlock1.
From Verif Require Import LTerm LGood2 LEval LSound1.
From Verif Require Import Nom.
Notation length := List.length (only parsing).
Open Scope N_scope.
Open Scope list_scope.

Create HintDb loc.
Ltac lo := lazymatch goal with
  | |- loc (map _ _) => apply loc_map; lo
  | |- loc (pair _ _) => apply loc_pair; lo
  | |- loc (tuple3 _ _ _) => unfold tuple3; lo
  | |- loc (tuple4 _ _ _ _) => unfold tuple4; lo
  | |- loc (preceded _ _) => apply loc_preceded; lo
  | |- loc (terminated _ _) => apply loc_terminated; lo
  | |- loc (delimited _ _ _) => unfold delimited; lo
  | |- loc (separated_pair _ _ _) => unfold separated_pair; lo
  | |- loc (sp_sep _ _) => unfold sp_sep; lo
  | |- loc (sp_sep1 _ _) => unfold sp_sep1; lo
  | |- loc (sp_enc _) => unfold sp_enc; lo
  | |- loc (sp_enc1 _) => unfold sp_enc1; lo
  | |- loc (bracketted _) => unfold bracketted; lo
  | |- loc (preceded_tag _ _) => unfold preceded_tag; lo
  | |- loc (preceded_tag1 _ _) => unfold preceded_tag1; lo
  | |- loc (preceded_bracketted _ _) => unfold preceded_bracketted; lo
  | |- loc (alt []) => apply loc_alt_nil
  | |- loc (alt (_ :: _)) => apply loc_alt_cons; lo
  | |- loc (opt _) => apply loc_opt; lo
  | |- loc (cut _) => apply loc_cut; lo
  | |- loc (map_res _ _) => apply loc_map_res; lo
  | |- loc (recognize _) => apply loc_recognize; lo
  | |- loc (many0 _) => apply loc_many0; lo
  | |- loc (many1 _) => apply loc_many1; lo
  | |- loc (separated_list _ _) => apply loc_sepl; lo
  | |- loc (separated_nonempty_list _ _) => apply loc_sepne; lo
  | |- loc (chr _) => apply loc_chr; reflexivity
  | |- loc (tag _) => apply loc_tag; reflexivity
  | |- loc (one_of _) => apply loc_one_of; reflexivity
  | |- loc (tag_no_case _) => apply loc_tnc; reflexivity
  | |- loc (tag_no_case_streaming _) => apply loc_tncs; reflexivity
  | |- loc (take1 _ _) => apply loc_take1; reflexivity
  | |- loc (take_while1 _) => apply loc_take1; reflexivity
  | |- loc (take_while _) => apply loc_take_while; reflexivity
  | |- loc (take_while_m_n _ _ _) => apply loc_take_while_m_n; reflexivity
  | |- _ => first [assumption | solve [auto 1 with loc nocore]]
  end.
Ltac lou p := unfold p; lo.

(** ** Blanks *)
Lemma comment_line d u c i x n : ~ In 10 u -> ~ In 13 u -> c = 10 \/ c = 13 -> (length u < n)%nat ->
  many0_loop n (none_of [10; 13]) (u ++ c :: i ++ x) = Ok (c :: i ++ x) u /\ (ends (S d) i -> True).
Proof.
  intros H1 H2 C. revert n. induction u as [|y u IH]; intros n L; (split; [|auto]); destruct n as [|n]; try (cbn in L; lia); cbn [app many0_loop none_of].
  - destruct C; subst; reflexivity.
  - unfold contains. cbn [existsb]. rewrite (proj2 (N.eqb_neq y 10)) by (intros ->; apply H1; now left). rewrite (proj2 (N.eqb_neq y 13)) by (intros ->; apply H2; now left). cbn [orb].
    replace (str_eqb (u ++ c :: i ++ x) (y :: u ++ c :: i ++ x)) with false.
    + destruct (IH ltac:(intros X; apply H1; now right) ltac:(intros X; apply H2; now right) n ltac:(cbn in L; lia)) as [E _]. now rewrite E.
    + symmetry. apply str_eqb_neq. intros X. apply (f_equal (@length _)) in X. cbn in X. lia.
Qed.
Lemma new_line_comment u c i : ~ In 10 u -> ~ In 13 u -> c = 10 \/ c = 13 -> new_line (35 :: u ++ c :: i) = Ok i (35 :: u ++ [c]).
Proof.
  intros H1 H2 C. unfold new_line, recognize, pair, opt, preceded, map, pair. cbn [chr].
  change (35 =? c_ "#") with true. cbv iota. unfold many0.
  destruct (comment_line 0 u c i [] (S (length (u ++ c :: i))) H1 H2 C) as [E _]; [rewrite app_length; lia|]. rewrite !app_nil_r in E. rewrite E. cbn [snd one_of].
  replace (contains [13; 10] c) with true by (destruct C; subst; reflexivity). f_equal. cbn [length]. rewrite app_length. cbn [length].
  replace (S (length u + S (length i)) - length i)%nat with (S (S (length u))) by lia.
  change (35 :: u ++ c :: i) with ((35 :: u) ++ [c] ++ i). rewrite app_assoc. rewrite firstn_app.
  replace (S (S (length u)) - length ((35%N :: u) ++ [c]))%nat with O by (rewrite app_length; cbn [length]; lia). rewrite firstn_O, app_nil_r.
  apply firstn_all2. cbn [length]. rewrite app_length. cbn [length]. lia.
Qed.
Lemma loc_new_line : loc new_line.
Proof.
  intros d i x D. inversion D as [|d' j H|d' j H|q u d' j Q I H|u c d' j N1 N2 C H|d' j H H'|c d' j I H|c d' j I H]; subst.
  4:{ cbn [app]. rewrite <- app_assoc. cbn [app]. rewrite !new_line_comment by assumption. split; [reflexivity|].
      intros r a X. injection X as <- <-. split; [exact H|]. exists (35 :: u ++ [c]). cbn. now rewrite <- app_assoc. }
  6:{ unfold new_line, recognize, pair, opt, preceded, map, pair. cbn [chr app]. change (c_ "#") with 35.
      rewrite (proj2 (N.eqb_neq c 35)) by (intros ->; apply I; vm_compute; tauto). cbn [one_of]. destruct (contains [13; 10] c); (split; [|]); try reflexivity; try discriminate.
      - f_equal. cbn [length]. replace (S (length (j ++ x)) - length (j ++ x))%nat with 1%nat by lia. replace (S (length j) - length j)%nat with 1%nat by lia. reflexivity.
      - intros r a X. injection X as <- <-. split; [exact H|now exists [c]]. }
  all: try (split; [reflexivity|discriminate]).
  destruct Q; subst; (split; [reflexivity|discriminate]).
Qed.
#[export] Hint Resolve loc_new_line : loc.
Lemma loc_sp : loc sp. Proof. lou sp. Qed.
Lemma loc_sp1 : loc sp1. Proof. lou sp1. Qed.
#[export] Hint Resolve loc_sp loc_sp1 : loc.

(** ** Strings *)
Lemma escaped_inside q u i x i0 : q = 34 \/ q = 39 -> inside q u -> forall n m, (length u < n)%nat -> (length u < m)%nat -> (length (u ++ q :: i) <= length i0)%nat ->
  let p n i0 i := escaped_loop n (none_of [q; 92]) 92 (one_of esc_chars) i0 i in
  p m (i0 ++ x) (u ++ q :: i ++ x) = shifted x (p n i0 (u ++ q :: i)) /\ forall r a, p n i0 (u ++ q :: i) = Ok r a -> r = q :: i.
Proof.
  intros Q I. induction I as [|c u N1 N2 I IH|c u I IH]; intros n m L M L0 p; (destruct n as [|n]; [cbn in L; lia|]); (destruct m as [|m]; [cbn in M; lia|]).
  - unfold p. cbn [app escaped_loop none_of]. replace (contains [q; 92] q) with true by (destruct Q; subst; reflexivity).
    replace (q =? 92) with false by (destruct Q; subst; reflexivity).
    cbn [app] in L0. replace (Nat.eqb (length (i0 ++ x)) (length (q :: i ++ x))) with (Nat.eqb (length i0) (length (q :: i))).
    2:{ cbn [length]. rewrite !app_length. destruct (Nat.eqb (length i0) (S (length i))) eqn:E; symmetry; [apply Nat.eqb_eq in E; apply Nat.eqb_eq; lia|apply Nat.eqb_neq in E; apply Nat.eqb_neq; lia]. }
    destruct (Nat.eqb (length i0) (length (q :: i))); cbn [shifted app].
    + split; [reflexivity|discriminate].
    + split; [|intros r a X; now injection X as <- _]. f_equal. cbn [length]. rewrite !app_length.
      replace (length i0 + length x - S (length i + length x))%nat with (length i0 - S (length i))%nat by lia.
      rewrite firstn_app. replace (length i0 - S (length i) - length i0)%nat with O by lia. now rewrite firstn_O, app_nil_r.
  - unfold p. cbn [app escaped_loop none_of]. replace (contains [q; 92] c) with false.
    2:{ unfold contains. cbn [existsb]. rewrite (proj2 (N.eqb_neq _ _) N1), (proj2 (N.eqb_neq _ _) N2). reflexivity. }
    destruct (u ++ q :: i) as [|y j] eqn:E; [now destruct u|]. destruct (u ++ q :: i ++ x) as [|z k] eqn:E'; [now destruct u|]. cbn [app] in L0. rewrite E in L0.
    apply IH; cbn [length] in L, M, L0 |- *; lia.
  - unfold p. cbn [app escaped_loop none_of]. replace (contains [q; 92] 92) with true by (destruct Q; subst; reflexivity).
    rewrite N.eqb_refl. cbn [one_of]. destruct (contains esc_chars c); [|split; [cbn [shifted app]; now rewrite <- app_assoc|discriminate]].
    destruct (u ++ q :: i) as [|y j] eqn:E; [now destruct u|]. destruct (u ++ q :: i ++ x) as [|z k] eqn:E'; [now destruct u|]. cbn [app] in L0. rewrite E in L0.
    apply IH; cbn [length] in L, M, L0 |- *; lia.
Qed.
Definition quoted (q : char) : parser str := delimited (tag [q]) (escaped (none_of [q; 92]) 92 (one_of esc_chars)) (tag [q]).
Lemma quoted_other q d i x : (forall j, i <> q :: j) -> ends (S d) i -> quoted q (i ++ x) = shifted x (quoted q i) /\ forall r a, quoted q i <> Ok r a.
Proof.
  intros N D. destruct (ends_cons _ _ D) as (y & j & ->). unfold quoted, delimited, preceded, map, pair, tag. cbn [app strip_prefix].
  destruct (q =? y) eqn:E; [apply N.eqb_eq in E; subst; now destruct (N j)|]. split; [reflexivity|discriminate].
Qed.
Lemma quoted_inside q u d i x : q = 34 \/ q = 39 -> inside q u -> ends (S d) i ->
  quoted q ((q :: u ++ q :: i) ++ x) = shifted x (quoted q (q :: u ++ q :: i)) /\ forall r a, quoted q (q :: u ++ q :: i) = Ok r a -> r = i.
Proof.
  intros Q I D. cbn [app]. rewrite <- app_assoc. cbn [app]. unfold quoted, delimited, preceded, terminated, map, pair, tag. cbn [strip_prefix]. rewrite N.eqb_refl. unfold escaped.
  destruct (escaped_inside q u i x (u ++ q :: i) Q I (S (length (u ++ q :: i))) (S (length (u ++ q :: i ++ x)))) as [E R]; try (rewrite !app_length; cbn; lia).
  rewrite <- app_assoc in E. cbn [app] in E. rewrite E.
  destruct (escaped_loop (S (length (u ++ q :: i))) (none_of [q; 92]) 92 (one_of esc_chars) (u ++ q :: i) (u ++ q :: i)) as [r a|[]]; cbn [shifted]; try (split; [reflexivity|discriminate]).
  rewrite (R _ _ eq_refl). cbn [app strip_prefix]. rewrite N.eqb_refl. cbn [snd fst]. split; [reflexivity|]. intros r' a' X. now injection X as <- _.
Qed.
Lemma loc_quoted q : q = 34 \/ q = 39 -> loc (quoted q).
Proof.
  intros Q d i x D. inversion D as [|d' j H|d' j H|q' u d' j Q' I H|u c d' j N1 N2 C H|d' j H H'|c d' j I H|c d' j I H]; subst.
  3:{ destruct (N.eq_dec q q') as [<-|N].
      - destruct (quoted_inside q u d j x Q I H) as [E R]. split; [exact E|]. intros r a X. rewrite (R _ _ X). split; [exact H|]. exists (q :: u ++ [q]). cbn. now rewrite <- app_assoc.
      - destruct (quoted_other q d (q' :: u ++ q' :: j) x) as [E R]; [intros k X; injection X as X _; auto|exact D|]. split; [exact E|]. intros r a X. now destruct (R r a). }
  all: match goal with D : ends _ ?i |- _ => destruct (quoted_other q d i x) as [E R]; [|exact D|split; [exact E|]; intros r a X; now destruct (R r a)] end.
  all: intros k X; injection X as X _; destruct Q; subst; try discriminate.
  all: apply I; vm_compute; tauto.
Qed.
Lemma loc_string_literal : loc string_literal.
Proof. unfold string_literal. apply loc_alt_cons; [|apply loc_alt_cons; [|apply loc_alt_nil]]; apply loc_quoted; auto. Qed.
#[export] Hint Resolve loc_string_literal : loc.

(** ** Names *)
Lemma loc_iri_ref : loc iri_ref.
Proof.
  intros d i x D. destruct (ends_cons _ _ D) as (y & j & ->). destruct (N.eq_dec y 60) as [->|N].
  2:{ unfold iri_ref, delimited, preceded, map, pair, tag. change (s_ "<") with [60]. cbn [app strip_prefix]. rewrite (proj2 (N.eqb_neq 60 y)) by auto. split; [reflexivity|discriminate]. }
  inversion D as [|d' k H|d' k H|q' u d' k Q' I H|u c d' k N1 N2 C H|d' k H H'|c d' k I H|c d' k I H]; subst; try (now destruct Q'); [|exfalso; apply I; vm_compute; tauto].
  assert (S : exists u y k, j = u ++ y :: k /\ all iri_char u /\ iri_char y = false).
  { apply ends_in in H. clear - H. induction j as [|c j IH]; [destruct H|]. destruct (iri_char c) eqn:E; [|exists [], c, j; repeat split; [constructor|exact E]].
    destruct H as [->|H]; [discriminate|]. destruct (IH H) as (u & y & k & -> & F & G). exists (c :: u), y, k. repeat split; auto. constructor; auto. }
  destruct S as (u & y & k & -> & F & G).
  assert (K : forall x, iri_ref (60 :: (u ++ y :: k) ++ x) = if y =? 62 then Ok (k ++ x) u else Err (Error (y :: k ++ x) KTag)).
  { intros z. unfold iri_ref, delimited, preceded, terminated, map, pair, tag. change (s_ "<") with [60]. change (s_ ">") with [62]. cbn [strip_prefix]. rewrite N.eqb_refl.
    rewrite <- app_assoc. cbn [app]. unfold take_while.
    assert (SP : span is_iri_char (u ++ y :: k ++ z) = (u, y :: k ++ z)).
    { clear - F G. induction u as [|c u IH]; cbn [app span]; rewrite is_iri_char_eq; [now rewrite G|]. rewrite (Forall_inv F), (IH (Forall_inv_tail F)). reflexivity. }
    rewrite SP. rewrite (N.eqb_sym 62 y). destruct (y =? 62); reflexivity. }
  change ((60 :: u ++ y :: k) ++ x) with (60 :: (u ++ y :: k) ++ x). rewrite K. pose proof (K []) as K0. rewrite !app_nil_r in K0. rewrite K0.
  destruct (y =? 62) eqn:E; (split; [reflexivity|]); [|discriminate]. intros r a X. injection X as <- <-. apply N.eqb_eq in E. subst y. split; [exact (H' u k F eq_refl)|].
  exists (60 :: u ++ [62]). cbn. now rewrite <- app_assoc.
Qed.
Lemma loc_plx : loc plx.
Proof.
  unfold plx. apply loc_recognize. apply loc_alt_cons; [unfold hex_primary; lo|]. apply loc_alt_cons; [|apply loc_alt_nil].
  intros d i x D. change (s_ "\") with [92]. destruct (ends_cons _ _ D) as (y & j & ->). unfold pair, tag. cbn [app strip_prefix].
  destruct (92 =? y) eqn:E; [|split; [reflexivity|discriminate]]. apply N.eqb_eq in E. subst y.
  inversion D as [|d' k H|d' k H|q' u d' k Q' I H|u c d' k N1 N2 C H|d' k H H'|c d' k I H|c d' k I H]; subst; try (now destruct Q'); [|exfalso; apply I; vm_compute; tauto].
  unfold recognize. cbn [app one_of].
  replace (contains (s_ "_~.-!$&'()*+,;=/?#@%") c) with true by (symmetry; apply existsb_exists; exists c; split; [exact I|apply N.eqb_refl]).
  cbn [shifted length]. replace (S (length k) - length k)%nat with 1%nat by lia. replace (S (length (k ++ x)) - length (k ++ x))%nat with 1%nat by lia.
  split; [reflexivity|]. intros r a X. injection X as <- <-. split; [exact H|now exists [92; c]].
Qed.
#[export] Hint Resolve loc_iri_ref loc_plx : loc.
Lemma loc_pn_local : loc pn_local. Proof. unfold pn_local, pn_chars_u_one, pn_chars_base_one. lo. Qed.
Lemma loc_pn_chars_tail : loc pn_chars_tail. Proof. unfold pn_chars_tail, pn_chars1. lo. Qed.
#[export] Hint Resolve loc_pn_local loc_pn_chars_tail : loc.
Lemma loc_pn_prefix : loc pn_prefix. Proof. unfold pn_prefix, pn_chars_base_one. lo. Qed.
#[export] Hint Resolve loc_pn_prefix : loc.
Lemma loc_pname_ns : loc pname_ns. Proof. lou pname_ns. Qed.
#[export] Hint Resolve loc_pname_ns : loc.
Lemma loc_prefixed_name : loc prefixed_name. Proof. unfold prefixed_name, pname_ln. lo. Qed.
#[export] Hint Resolve loc_prefixed_name : loc.
Lemma loc_iri : loc iri. Proof. lou iri. Qed.
Lemma loc_language_tag : loc language_tag. Proof. unfold language_tag, alpha1, alphanumeric1. lo. Qed.
#[export] Hint Resolve loc_iri loc_language_tag : loc.
Lemma loc_rdf_literal : loc rdf_literal. Proof. lou rdf_literal. Qed.
Lemma loc_anon : loc anon. Proof. lou anon. Qed.
Lemma loc_nil : loc nil_. Proof. lou nil_. Qed.
Lemma loc_boolean : loc boolean. Proof. lou boolean. Qed.
Lemma loc_opt_silent : loc opt_silent. Proof. unfold opt_silent, silent. lo. Qed.
Lemma loc_opt_distinct : loc opt_distinct. Proof. unfold opt_distinct, distinct. lo. Qed.
Lemma loc_var : loc var. Proof. unfold var, var_name. lo. Qed.
#[export] Hint Resolve loc_rdf_literal loc_anon loc_nil loc_boolean loc_opt_silent loc_opt_distinct loc_var : loc.

(** ** Numbers *)
Lemma loc_exponent : loc exponent. Proof. unfold exponent, opt_sign, digit1. lo. Qed.
Lemma loc_float : loc recognize_sparql_float. Proof. unfold recognize_sparql_float, opt_sign, digit1. lo. Qed.
Lemma loc_decimal : loc sparql_decimal.
Proof.
  intros d i x D. destruct (loc_float d i x D) as [E R]. unfold sparql_decimal. rewrite E. destruct (recognize_sparql_float i) as [r a|[]]; cbn [shifted]; try (split; [reflexivity|discriminate]).
  destruct (parse_decimal a); (split; [reflexivity|]); try discriminate. intros r' b X. injection X as <- <-. eauto.
Qed.
Lemma loc_int : loc sparql_int.
Proof.
  assert (K : loc (recognize (pair opt_sign digit1))) by (unfold opt_sign, digit1; lo).
  intros d i x D. destruct (K d i x D) as [E R]. unfold sparql_int. rewrite E. destruct (recognize (pair opt_sign digit1) i) as [r a|[]]; cbn [shifted]; try (split; [reflexivity|discriminate]).
  destruct (R _ _ eq_refl) as [D1 S1]. destruct (ends_cons _ _ D1) as (c & j & ->). cbn [app]. destruct (contains (s_ ".eE") c); [split; [reflexivity|discriminate]|].
  destruct (parse_i64 a); (split; [reflexivity|]); try discriminate. intros r' b X. injection X as <- <-. auto.
Qed.
#[export] Hint Resolve loc_exponent loc_decimal loc_int : loc.
Lemma loc_numeric_literal : loc numeric_literal. Proof. unfold numeric_literal, sparql_double. lo. Qed.
#[export] Hint Resolve loc_numeric_literal : loc.
Lemma loc_path_mod : loc path_mod.
Proof.
  intros d i x D. destruct (ends_cons _ _ D) as (c & j & ->). unfold path_mod. cbn [app split_at].
  destruct (Nat.leb (utf8_len c) 1) eqn:L; [|split; [reflexivity|discriminate]].
  assert (U : (1 - utf8_len c = 0)%nat). { unfold utf8_len. destruct (c <? 128), (c <? 2048), (c <? 65536); reflexivity. }
  rewrite U. assert (Z : forall i, split_at 0 i = Some ([], i)) by (now intros []). rewrite !Z. destruct (path_mod_from_str [c]) as [m|] eqn:M; (split; [reflexivity|]); try discriminate.
  intros r a X. injection X as <- <-. split; [|now exists [c]]. apply (ends_tail _ c); [|exact D]. revert M. apply (easy_by (fun c => match path_mod_from_str [c] with Some _ => true | None => false end) eq_refl c) || (intros M; apply (easy_by (fun c => match path_mod_from_str [c] with Some _ => true | None => false end) eq_refl c); now rewrite M).
Qed.
#[export] Hint Resolve loc_path_mod : loc.

(** ** Terms and data *)
Lemma loc_blank_node : loc blank_node. Proof. unfold blank_node, pn_chars_u_one, pn_chars_base_one. lo. Qed.
#[export] Hint Resolve loc_blank_node : loc.
Lemma loc_graph_term : loc graph_term. Proof. lou graph_term. Qed.
#[export] Hint Resolve loc_graph_term : loc.
Lemma loc_var_or_term : loc var_or_term. Proof. lou var_or_term. Qed.
Lemma loc_var_or_iri : loc var_or_iri. Proof. lou var_or_iri. Qed.
#[export] Hint Resolve loc_var_or_term loc_var_or_iri : loc.
Lemma loc_verb : loc verb. Proof. lou verb. Qed.
Lemma loc_iri_or_a : loc iri_or_a. Proof. lou iri_or_a. Qed.
#[export] Hint Resolve loc_verb loc_iri_or_a : loc.
Lemma loc_iri_or_a_or_caret : loc iri_or_a_or_caret. Proof. lou iri_or_a_or_caret. Qed.
Lemma loc_datablock_value : loc datablock_value. Proof. lou datablock_value. Qed.
#[export] Hint Resolve loc_iri_or_a_or_caret loc_datablock_value : loc.
(** a part between braces *)
Lemma loc_braces {A B C} (o : parser A) (p : parser B) (c : parser C) :
  (forall d i x, ends (S d) i -> o (i ++ x) = shifted x (o i) /\ forall r a, o i = Ok r a -> ends (S (S d)) r /\ suffix r i) -> loc p ->
  (forall d i x, ends (S (S d)) i -> c (i ++ x) = shifted x (c i) /\ forall r a, c i = Ok r a -> ends (S d) r /\ suffix r i) ->
  loc (delimited o p c).
Proof.
  intros HO HP HC d i x D. destruct (HO d i x D) as [E R]. unfold delimited, preceded, terminated, map, pair. rewrite E. destruct (o i) as [i1 a|[]]; cbn [shifted]; try (split; [reflexivity|discriminate]).
  destruct (R _ _ eq_refl) as [D1 S1]. destruct (HP (S d) i1 x D1) as [E1 R1]. rewrite E1. destruct (p i1) as [i2 b|[]]; cbn [shifted]; try (split; [reflexivity|discriminate]).
  destruct (R1 _ _ eq_refl) as [D2 S2]. destruct (HC d i2 x D2) as [E2 R2]. rewrite E2. destruct (c i2) as [i3 z|[]]; cbn [shifted]; (split; [reflexivity|]); try discriminate.
  intros r y X. injection X as <- _. destruct (R2 _ _ eq_refl) as [D3 S3]. split; [exact D3|]. exact (suffix_trans _ _ _ S3 (suffix_trans _ _ _ S2 S1)).
Qed.
Lemma open_brace d i x : ends (S d) i -> chr 123 (i ++ x) = shifted x (chr 123 i) /\ forall r a, chr 123 i = Ok r a -> ends (S (S d)) r /\ suffix r i.
Proof.
  intros D. destruct (ends_cons _ _ D) as (y & j & ->). cbn [chr app]. destruct (y =? 123) eqn:E; (split; [reflexivity|]); [|discriminate].
  intros r a X. injection X as <- _. apply N.eqb_eq in E. subst y. split; [|now exists [123]].
  inversion D as [|d' k H|d' k H|q' u d' k Q' I H|u c d' k N1 N2 C H|d' k H H'|c d' k I H|c d' k I H]; subst; [exact H|now destruct Q'|exfalso; apply I; vm_compute; tauto].
Qed.
Lemma close_brace d i x : ends (S d) i -> chr 125 (i ++ x) = shifted x (chr 125 i) /\ forall r a, chr 125 i = Ok r a -> ends d r /\ suffix r i.
Proof.
  intros D. destruct (ends_cons _ _ D) as (y & j & ->). cbn [chr app]. destruct (y =? 125) eqn:E; (split; [reflexivity|]); [|discriminate].
  intros r a X. injection X as <- _. apply N.eqb_eq in E. subst y. split; [|now exists [125]].
  inversion D as [|d' k H|d' k H|q' u d' k Q' I H|u c d' k N1 N2 C H|d' k H H'|c d' k I H|c d' k I H]; subst; [exact H|now destruct Q'|exfalso; apply I; vm_compute; tauto].
Qed.
Lemma open_enc d i x : ends (S d) i -> sp_enc (chr 123) (i ++ x) = shifted x (sp_enc (chr 123) i) /\ forall r a, sp_enc (chr 123) i = Ok r a -> ends (S (S d)) r /\ suffix r i.
Proof.
  intros D. unfold sp_enc, delimited, preceded, terminated, map, pair. destruct (loc_sp d i x D) as [E R]. rewrite E. destruct (sp i) as [i1 a|[]]; cbn [shifted]; try (split; [reflexivity|discriminate]).
  destruct (R _ _ eq_refl) as [D1 S1]. destruct (open_brace d i1 x D1) as [E1 R1]. rewrite E1. destruct (chr 123 i1) as [i2 b|[]]; cbn [shifted]; try (split; [reflexivity|discriminate]).
  destruct (R1 _ _ eq_refl) as [D2 S2]. destruct (loc_sp (S d) i2 x D2) as [E2 R2]. rewrite E2. destruct (sp i2) as [i3 z|[]]; cbn [shifted]; (split; [reflexivity|]); try discriminate.
  intros r y X. injection X as <- _. destruct (R2 _ _ eq_refl) as [D3 S3]. split; [exact D3|]. exact (suffix_trans _ _ _ S3 (suffix_trans _ _ _ S2 S1)).
Qed.
Lemma close_enc d i x : ends (S d) i -> preceded sp (chr 125) (i ++ x) = shifted x (preceded sp (chr 125) i) /\ forall r a, preceded sp (chr 125) i = Ok r a -> ends d r /\ suffix r i.
Proof.
  intros D. unfold preceded, map, pair. destruct (loc_sp d i x D) as [E R]. rewrite E. destruct (sp i) as [i1 a|[]]; cbn [shifted]; try (split; [reflexivity|discriminate]).
  destruct (R _ _ eq_refl) as [D1 S1]. destruct (close_brace d i1 x D1) as [E1 R1]. rewrite E1. destruct (chr 125 i1) as [i2 b|[]]; cbn [shifted]; (split; [reflexivity|]); try discriminate.
  intros r y X. injection X as <- _. destruct (R1 _ _ eq_refl) as [D3 S3]. split; [exact D3|]. exact (suffix_trans _ _ _ S3 S1).
Qed.
Lemma loc_datablock : loc datablock.
Proof.
  unfold datablock, inline_data_one_var, inline_data_full. apply loc_alt_cons; [|apply loc_alt_cons; [|apply loc_alt_nil]]; apply loc_map, loc_map, loc_pair; try lo;
    (apply loc_braces; [exact open_enc|lo|intros d; exact (close_enc (S d))]).
Qed.
#[export] Hint Resolve loc_datablock : loc.
Lemma loc_inline_data : loc inline_data. Proof. lou inline_data. Qed.
Lemma loc_values_clause : loc values_clause. Proof. lou values_clause. Qed.
Lemma loc_limit_offset : loc limit_offset_clause. Proof. unfold limit_offset_clause, limit_clause, offset_clause, int_clause. lo. Qed.
#[export] Hint Resolve loc_inline_data loc_values_clause loc_limit_offset : loc.

(** ** Triples and paths *)
Lemma loc_iter {A} (body : parser A -> parser A) : (forall p, loc p -> loc (body p)) -> forall n, loc (iter n body).
Proof. intros H n. induction n as [|n IH]; [apply loc_fail; auto|]. exact (H _ IH). Qed.
Lemma loc_fixp {A} b c f (body : parser A -> parser A) : (forall n e e', sim n b c f e e' -> sim (S n) b c f (body e) (body e')) ->
  (forall p, loc p -> loc (body p)) -> loc (fixp body).
Proof.
  intros G H d i x D. set (n := S (length (i ++ x))).
  assert (K : forall j, (length j < n)%nat -> fixp body j = iter n body j). { intros j L. exact (proj1 (fixp_sim_iter b c f body G n n (le_n _) j L)). }
  rewrite !K by (unfold n; rewrite ?app_length; lia). exact (loc_iter body H n d i x D).
Qed.
Lemma loc_graph_node : loc graph_node.
Proof.
  unfold graph_node. apply (loc_fixp true INever false); [intros; now apply sm_graph_node_body|]. intros p H.
  unfold graph_node_body, triples_node_of, collection_of, blank_node_property_list_of, property_list_not_empty_of, object_list_of. lo.
Qed.
#[export] Hint Resolve loc_graph_node : loc.
Lemma loc_object_list : loc object_list. Proof. unfold object_list, object_list_of. lo. Qed.
#[export] Hint Resolve loc_object_list : loc.
Lemma loc_path : loc path_alternative.
Proof.
  unfold path_alternative. apply (loc_fixp true IAny true); [intros; now apply sm_path_alternative_body|]. intros p H.
  unfold path_alternative_body, path_sequence_of, path_elt_or_inverse_of, path_elt_of, path_primary_of, path_negated_property_set, path_one_in_property_set. lo.
Qed.
#[export] Hint Resolve loc_path : loc.
Lemma loc_verb_path : loc verb_path_or_simple. Proof. lou verb_path_or_simple. Qed.
#[export] Hint Resolve loc_verb_path : loc.
Lemma loc_entry : loc property_list_path_entry. Proof. lou property_list_path_entry. Qed.
#[export] Hint Resolve loc_entry : loc.
Lemma loc_graph_node_path : loc graph_node_path.
Proof.
  unfold graph_node_path. apply (loc_fixp true IAny true); [intros; now apply sm_graph_node_path_body|]. intros p H.
  unfold graph_node_path_body, triples_node_path_of, blank_node_property_list_path_of, property_list_path_not_empty_of, object_list_path_of. lo.
Qed.
#[export] Hint Resolve loc_graph_node_path : loc.
Lemma loc_triples_block : loc triples_block.
Proof.
  unfold triples_block, triples_same_subject_path, triples_node_path, property_list_path, property_list_path_not_empty, triples_node_path_of,
    blank_node_property_list_path_of, property_list_path_not_empty_of, object_list_path_of. lo.
Qed.
#[export] Hint Resolve loc_triples_block : loc.
