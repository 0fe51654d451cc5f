(** The depth of recursion is bounded by the number of opening brackets. *)
From Verif Require Import LGood2 SpecDepth.
Notation length := List.length (only parsing).
Open Scope N_scope.
Open Scope list_scope.

Lemma openings_app a b : openings (a ++ b) = (openings a + openings b)%nat.
Proof.
  induction a as [|c a IH]; cbn [app openings]; [reflexivity|].
  destruct ((c =? 40) || (c =? 91) || (c =? 123)); rewrite IH; reflexivity.
Qed.
Lemma openings_suffix r i : suffix r i -> (openings r <= openings i)%nat.
Proof. intros [t ->]. rewrite openings_app. lia. Qed.

(** On texts with fewer than [n] opening brackets the two parsers agree; what is left is a suffix,
    with an opening bracket less if [b]. *)
Definition ag {A} (n : nat) (b : bool) (p q : parser A) : Prop :=
  forall i, (openings i < n)%nat -> p i = q i /\
    forall r a, p i = Ok r a -> suffix r i /\ (b = true -> (openings r < openings i)%nat).

Lemma ag_good {A} n b c d (p : parser A) : good b c d p -> ag n false p p.
Proof.
  intros H i _. split; [reflexivity|]. intros r a E. pose proof (good_elim _ _ _ _ H i) as O.
  rewrite E in O. destruct O as [O _]. now split.
Qed.
Lemma ag_chr n c : (c =? 40) || (c =? 91) || (c =? 123) = true -> ag n true (chr c) (chr c).
Proof.
  intros H i _. split; [reflexivity|]. intros r a E. destruct i as [|x i]; [discriminate|].
  cbn [chr] in E. destruct (x =? c) eqn:X; [|discriminate]. injection E as -> _. apply N.eqb_eq in X. subst x.
  split; [now exists [c]|]. intros _. cbn [openings]. rewrite H. lia.
Qed.
Lemma ag_tag n c : (c =? 40) || (c =? 91) || (c =? 123) = true -> ag n true (tag [c]) (tag [c]).
Proof.
  intros H i _. split; [reflexivity|]. intros r a E. destruct i as [|x i]; [discriminate|].
  unfold tag in E. cbn [strip_prefix] in E. destruct (c =? x) eqn:X; [|discriminate].
  injection E as -> _. apply N.eqb_eq in X. subst x.
  split; [now exists [c]|]. intros _. cbn [openings]. rewrite H. lia.
Qed.
Lemma ag_mono {A} m n b (p q : parser A) : ag n b p q -> (m <= n)%nat -> ag m b p q.
Proof. intros H L i Hi. apply H. lia. Qed.
Lemma ag_weaken {A} n b (p q : parser A) : ag n b p q -> ag n false p q.
Proof.
  intros H i Hi. destruct (H i Hi) as [E O]. split; [exact E|]. intros r a R.
  destruct (O r a R) as [S _]. split; [exact S | discriminate].
Qed.

Lemma ag_pair {A B} n b1 b2 (p p' : parser A) (q q' : parser B) :
  ag n b1 p p' -> ag (if b1 then pred n else n) b2 q q' ->
  ag n (b1 || b2) (pair p q) (pair p' q').
Proof.
  intros Hp Hq i Hi. unfold pair. destruct (Hp i Hi) as [E O]. rewrite <- E.
  destruct (p i) as [i1 a | e]; [|now split].
  destruct (O _ _ eq_refl) as [S L]. pose proof (openings_suffix _ _ S) as M.
  assert (Hi1 : (openings i1 < if b1 then pred n else n)%nat).
  { destruct b1; [specialize (L eq_refl); lia | lia]. }
  destruct (Hq i1 Hi1) as [E' O']. rewrite <- E'. destruct (q i1) as [i2 x | e]; [|now split].
  split; [reflexivity|]. intros r y R. injection R as <- <-.
  destruct (O' _ _ eq_refl) as [S' L']. pose proof (openings_suffix _ _ S') as M'.
  split; [exact (suffix_trans _ _ _ S' S)|]. intros Hb. apply orb_true_iff in Hb.
  destruct Hb as [Hb | Hb]; [specialize (L Hb) | specialize (L' Hb)]; lia.
Qed.
Lemma ag_map {A B} n b (p p' : parser A) (f : A -> B) :
  ag n b p p' -> ag n b (Nom.map p f) (Nom.map p' f).
Proof.
  intros H i Hi. unfold Nom.map. destruct (H i Hi) as [E O]. rewrite <- E. split; [reflexivity|].
  destruct (p i) as [r a | e]; [|discriminate]. intros r' a' R. injection R as <- <-.
  exact (O _ _ eq_refl).
Qed.
Lemma ag_preceded {A B} n b1 b2 (p p' : parser A) (q q' : parser B) :
  ag n b1 p p' -> ag (if b1 then pred n else n) b2 q q' ->
  ag n (b1 || b2) (preceded p q) (preceded p' q').
Proof. intros. apply ag_map. now apply ag_pair. Qed.
Lemma ag_terminated {A B} n b1 b2 (p p' : parser A) (q q' : parser B) :
  ag n b1 p p' -> ag (if b1 then pred n else n) b2 q q' ->
  ag n (b1 || b2) (terminated p q) (terminated p' q').
Proof. intros. apply ag_map. now apply ag_pair. Qed.

Lemma ag_alt_one {A} n b (p p' : parser A) : ag n b p p' -> ag n false (alt [p]) (alt [p']).
Proof. intros H. apply (ag_weaken _ b). exact H. Qed.
Lemma ag_alt_cons {A} n b b' (p p' q q' : parser A) ps ps' :
  ag n b p p' -> ag n b' (alt (q :: ps)) (alt (q' :: ps')) ->
  ag n false (alt (p :: q :: ps)) (alt (p' :: q' :: ps')).
Proof.
  intros Hp Hq i Hi. rewrite (alt_cons p (q :: ps)), (alt_cons p' (q' :: ps')) by discriminate. destruct (Hp i Hi) as [E O]. rewrite <- E.
  destruct (Hq i Hi) as [E' O']. rewrite <- E'.
  destruct (p i) as [r a | []]; try (split; [reflexivity | discriminate]).
  - split; [reflexivity|]. intros r' a' R. injection R as <- <-. destruct (O _ _ eq_refl). now split.
  - destruct (alt (q :: ps) i) as [r a | []]; try (split; [reflexivity | discriminate]).
    split; [reflexivity|]. intros r' a' R. injection R as <- <-. destruct (O' _ _ eq_refl). now split.
Qed.
Lemma ag_opt {A} n b (p p' : parser A) : ag n b p p' -> ag n false (opt p) (opt p').
Proof.
  intros H i Hi. unfold opt. destruct (H i Hi) as [E O]. rewrite <- E. split; [reflexivity|].
  destruct (p i) as [r a | []]; intros r' a' R; try discriminate; injection R as <- <-.
  - destruct (O _ _ eq_refl). now split.
  - split; [apply suffix_refl | discriminate].
Qed.

Lemma ag_many1_loop {A} n b (p p' : parser A) : ag n b p p' -> forall m, ag n false (many1_loop m p) (many1_loop m p').
Proof.
  intros H. induction m as [|m IH]; intros i Hi; [now split|]. cbn [many1_loop].
  destruct (H i Hi) as [E O]. rewrite <- E.
  destruct (p i) as [i1 a | []]; try (split; [reflexivity | discriminate]).
  - destruct (str_eqb i1 i); [now split|]. destruct (O _ _ eq_refl) as [S _].
    pose proof (openings_suffix _ _ S) as M. destruct (IH i1 ltac:(lia)) as [E' O']. rewrite <- E'.
    destruct (many1_loop m p i1) as [r l | e]; [|now split]. split; [reflexivity|].
    intros r' l' R. injection R as <- <-. destruct (O' _ _ eq_refl) as [S' _].
    split; [exact (suffix_trans _ _ _ S' S) | discriminate].
  - split; [reflexivity|]. intros r' l' R. injection R as <- <-. split; [apply suffix_refl | discriminate].
Qed.
Lemma ag_many1 {A} n b (p p' : parser A) : ag n b p p' -> ag n false (many1 p) (many1 p').
Proof.
  intros H i Hi. unfold many1. destruct (H i Hi) as [E O]. rewrite <- E.
  destruct (p i) as [i1 a | e]; [|now split]. destruct (O _ _ eq_refl) as [S _].
  pose proof (openings_suffix _ _ S) as M.
  destruct (ag_many1_loop n b p p' H (Datatypes.S (length i1)) i1 ltac:(lia)) as [E' O']. rewrite <- E'.
  destruct (many1_loop (Datatypes.S (length i1)) p i1) as [r l | e]; [|now split]. split; [reflexivity|].
  intros r' l' R. injection R as <- <-. destruct (O' _ _ eq_refl) as [S' _].
  split; [exact (suffix_trans _ _ _ S' S) | discriminate].
Qed.

Lemma ag_sep_loop {A B} n b b' (s s' : parser B) (p p' : parser A) : ag n b s s' -> ag n b' p p' ->
  forall m, ag n false (sep_loop m s p) (sep_loop m s' p').
Proof.
  intros Hs H. induction m as [|m IH]; intros i Hi; [now split|]. cbn [sep_loop].
  destruct (Hs i Hi) as [E O]. rewrite <- E.
  destruct (s i) as [i1 a | []]; try (split; [reflexivity | discriminate]).
  2:{ split; [reflexivity|]. intros r' l' R. injection R as <- <-. split; [apply suffix_refl | discriminate]. }
  destruct (str_eqb i1 i); [now split|]. destruct (O _ _ eq_refl) as [S _].
  pose proof (openings_suffix _ _ S) as M. destruct (H i1 ltac:(lia)) as [E1 O1]. rewrite <- E1.
  destruct (p i1) as [i2 x | []]; try (split; [reflexivity | discriminate]).
  2:{ split; [reflexivity|]. intros r' l' R. injection R as <- <-. split; [apply suffix_refl | discriminate]. }
  destruct (str_eqb i2 i); [now split|]. destruct (O1 _ _ eq_refl) as [S1 _].
  pose proof (openings_suffix _ _ S1) as M1. destruct (IH i2 ltac:(lia)) as [E' O']. rewrite <- E'.
  destruct (sep_loop m s p i2) as [r l | e]; [|now split]. split; [reflexivity|].
  intros r' l' R. injection R as <- <-. destruct (O' _ _ eq_refl) as [S' _].
  split; [exact (suffix_trans _ _ _ S' (suffix_trans _ _ _ S1 S)) | discriminate].
Qed.
Lemma ag_sepne {A B} n b b' (s s' : parser B) (p p' : parser A) : ag n b s s' -> ag n b' p p' ->
  ag n false (separated_nonempty_list s p) (separated_nonempty_list s' p').
Proof.
  intros Hs H i Hi. unfold separated_nonempty_list. destruct (H i Hi) as [E O]. rewrite <- E.
  destruct (p i) as [i1 a | e]; [|now split]. destruct (O _ _ eq_refl) as [S _].
  destruct (str_eqb i1 i); [now split|].
  pose proof (openings_suffix _ _ S) as M.
  destruct (ag_sep_loop n b b' s s' p p' Hs H (Datatypes.S (length i1)) i1 ltac:(lia)) as [E' O']. rewrite <- E'.
  destruct (sep_loop (Datatypes.S (length i1)) s p i1) as [r l | e]; [|now split]. split; [reflexivity|].
  intros r' l' R. injection R as <- <-. destruct (O' _ _ eq_refl) as [S' _].
  split; [exact (suffix_trans _ _ _ S' S) | discriminate].
Qed.
Lemma ag_sepl {A B} n b b' (s s' : parser B) (p p' : parser A) : ag n b s s' -> ag n b' p p' ->
  ag n false (separated_list s p) (separated_list s' p').
Proof.
  intros Hs H i Hi. unfold separated_list. destruct (H i Hi) as [E O]. rewrite <- E.
  destruct (p i) as [i1 a | []]; try (split; [reflexivity | discriminate]).
  2:{ split; [reflexivity|]. intros r' l' R. injection R as <- <-. split; [apply suffix_refl | discriminate]. }
  destruct (O _ _ eq_refl) as [S _].
  destruct (str_eqb i1 i); [now split|].
  pose proof (openings_suffix _ _ S) as M.
  destruct (ag_sep_loop n b b' s s' p p' Hs H (Datatypes.S (length i1)) i1 ltac:(lia)) as [E' O']. rewrite <- E'.
  destruct (sep_loop (Datatypes.S (length i1)) s p i1) as [r l | e]; [|now split]. split; [reflexivity|].
  intros r' l' R. injection R as <- <-. destruct (O' _ _ eq_refl) as [S' _].
  split; [exact (suffix_trans _ _ _ S' S) | discriminate].
Qed.
Lemma ag_many0_closed {A} n b c d (p : parser A) : good b c d p -> ag n false (many0 p) (many0 p).
Proof. intros H. apply (ag_good n false c d). intros m. exact (sim_many0 m _ _ _ _ _ (H m)). Qed.

(** ** the tactic *)
Create HintDb agdb.
Ltac ag_leaf := first
  [ match goal with H : ag _ _ ?p ?q |- ag _ _ ?p ?q => eapply ag_mono; [exact H | lia] end
  | lazymatch goal with
    | |- ag _ _ (chr (c_ "(")) _ => apply ag_chr; reflexivity
    | |- ag _ _ (chr (c_ "{")) _ => apply ag_chr; reflexivity
    | |- ag _ _ (chr (c_ "[")) _ => apply ag_chr; reflexivity
    | |- ag _ _ (chr _) _ => eapply ag_good, good_chr
    | |- ag _ _ (tag (s_ "(")) _ => apply ag_tag; reflexivity
    | |- ag _ _ (tag (s_ "[")) _ => apply ag_tag; reflexivity
    | |- ag _ _ (tag _) _ => eapply ag_good, good_tag_t; reflexivity
    | |- ag _ _ (tag_no_case ?t) _ => eapply ag_good; first [apply (good_tnc t); reflexivity | apply (good_tnc_k t); reflexivity]
    | |- ag _ _ (tag_no_case_streaming _) _ => eapply ag_good, good_tnc_s; reflexivity
    | |- ag _ _ ?p ?q => constr_eq p q; eapply ag_good; solve [eauto 1 with good nocore]
    end ].
Ltac agt := cbn [orb]; first
  [ ag_leaf
  | lazymatch goal with
    | |- ag _ _ (pair _ _) _ => eapply ag_pair; [agt | agt]
    | |- ag _ _ (Nom.map _ _) _ => eapply ag_map; agt
    | |- ag _ _ (preceded _ _) _ => eapply ag_preceded; [agt | agt]
    | |- ag _ _ (terminated _ _) _ => eapply ag_terminated; [agt | agt]
    | |- ag _ _ (delimited _ _ _) _ => unfold delimited; agt
    | |- ag _ _ (separated_pair _ _ _) _ => unfold separated_pair; agt
    | |- ag _ _ (tuple3 _ _ _) _ => unfold tuple3; agt
    | |- ag _ _ (tuple4 _ _ _ _) _ => unfold tuple4; agt
    | |- ag _ _ (tuple5 _ _ _ _ _) _ => unfold tuple5; agt
    | |- ag _ _ (alt [_]) _ => eapply ag_alt_one; agt
    | |- ag _ _ (alt _) _ => eapply ag_alt_cons; [agt | agt]
    | |- ag _ _ (opt _) _ => eapply ag_opt; agt
    | |- ag _ _ (many1 _) _ => eapply ag_many1; agt
    | |- ag _ _ (many0 ?p) _ => eapply (ag_many0_closed _ true); change p with p; eauto 1 with agdb nocore
    | |- ag _ _ (separated_list _ _) _ => eapply ag_sepl; [agt | agt]
    | |- ag _ _ (separated_nonempty_list _ _) _ => eapply ag_sepne; [agt | agt]
    | |- ag _ _ (sp_enc _) _ => unfold sp_enc; agt
    | |- ag _ _ (sp_enc1 _) _ => unfold sp_enc1; agt
    | |- ag _ _ (sp_sep _ _) _ => unfold sp_sep; agt
    | |- ag _ _ (sp_sep1 _ _) _ => unfold sp_sep1; agt
    | |- ag _ _ (bracketted _) _ => unfold bracketted; agt
    | |- ag _ _ (preceded_tag _ _) _ => unfold preceded_tag; agt
    | |- ag _ _ (preceded_tag1 _ _) _ => unfold preceded_tag1; agt
    | |- ag _ _ (preceded_bracketted _ _) _ => unfold preceded_bracketted; agt
    | |- ag _ _ (call1 _ _ _) _ => unfold call1; agt
    | |- ag _ _ (call2 _ _ _) _ => unfold call2; agt
    | |- ag _ _ (call0 _ _) _ => unfold call0; agt
    | |- ag _ _ (kw_by _) _ => unfold kw_by; agt
    | |- ag _ _ (expr2_of _) _ => unfold expr2_of; agt
    | |- ag _ _ _ _ => solve [eauto 2 with agdb nocore]
    end ].
Ltac agp p := intros; unfold p; eapply ag_weaken; agt.
#[export] Hint Extern 1 (ag _ _ ?p ?q) => (match goal with H : ag _ _ p q |- _ => eapply ag_mono; [exact H | lia] end) : agdb.

(** ** expressions *)
Section Expr.
  Context {E : Type} (n : nat) (e e' : parser E).
  Lemma ag_distinct_expression : ag n false e e' -> ag n false (distinct_expression_of e) (distinct_expression_of e').
  Proof. agp @distinct_expression_of. Qed.
  Lemma ag_count_target : ag n false e e' -> ag n false (count_target_of e) (count_target_of e').
  Proof. agp @count_target_of. Qed.
End Expr.
#[export] Hint Resolve ag_distinct_expression ag_count_target : agdb.

Section Expr1.
  Context {E : Type} (n : nat) (e e' : parser E).
  Hypothesis He : ag (pred n) false e e'.
  Lemma ag_arg_list : ag n false (arg_list_of e) (arg_list_of e').
  Proof. agp @arg_list_of. Qed.
  Lemma ag_expression_list : ag n false (expression_list_of e) (expression_list_of e').
  Proof. agp @expression_list_of. Qed.
  Lemma ag_bracketted_expression : ag n false (bracketted_expression_of e) (bracketted_expression_of e').
  Proof. agp @bracketted_expression_of. Qed.
  Lemma ag_bracketted_expr3 : ag n false (bracketted_expr3_of e) (bracketted_expr3_of e').
  Proof. agp @bracketted_expr3_of. Qed.
  Lemma ag_str_replace : ag n false (str_replace_expression_of e) (str_replace_expression_of e').
  Proof. agp @str_replace_expression_of. Qed.
  Lemma ag_expression_as_var : ag n false (expression_as_var_of e) (expression_as_var_of e').
  Proof. agp @expression_as_var_of. Qed.
  Lemma ag_expression_as_var_opt : ag n false (expression_as_var_opt_of e) (expression_as_var_opt_of e').
  Proof. agp @expression_as_var_opt_of. Qed.
End Expr1.
#[export] Hint Resolve ag_arg_list ag_expression_list ag_bracketted_expression ag_bracketted_expr3
  ag_str_replace ag_expression_as_var ag_expression_as_var_opt : agdb.
Section Expr2.
  Context {E : Type} (n : nat) (e e' : parser E).
  Hypothesis He : ag (pred n) false e e'.
  Lemma ag_bind : ag n false (bind_of e) (bind_of e').
  Proof. agp @bind_of. Qed.
  Lemma ag_function_call : ag n false (function_call_of e) (function_call_of e').
  Proof. agp @function_call_of. Qed.
  Lemma ag_iri_or_fun : ag n false (iri_or_fun_of e) (iri_or_fun_of e').
  Proof. agp @iri_or_fun_of. Qed.
  Lemma ag_regex : ag n false (regex_expression_of e) (regex_expression_of e').
  Proof. agp @regex_expression_of. Qed.
  Lemma ag_substring : ag n false (substring_expression_of e) (substring_expression_of e').
  Proof. agp @substring_expression_of. Qed.
  Lemma ag_count : ag n false (count_of e) (count_of e').
  Proof. agp @count_of. Qed.
  Lemma ag_group_concat : ag n false (group_concat_of e) (group_concat_of e').
  Proof. agp @group_concat_of. Qed.
End Expr2.
#[export] Hint Resolve ag_bind ag_function_call ag_iri_or_fun ag_regex ag_substring ag_count ag_group_concat : agdb.
Lemma ag_aggregate {E} n (e e' : parser E) : ag (pred n) false e e' -> ag n false (aggregate_of e) (aggregate_of e').
Proof. agp @aggregate_of. Qed.
#[export] Hint Resolve ag_aggregate : agdb.

Section BuiltIn.
  Context {E G : Type} (n : nat) (e e' : parser E) (g g' : parser G).
  Hypothesis He : ag (pred n) false e e'.
  Hypothesis Hg : ag n false g g'.
  Lemma ag_built_in_call_1 : ag n false (built_in_call_1_of (G:=G) e) (built_in_call_1_of e').
  Proof. agp @built_in_call_1_of. Qed.
  Lemma ag_built_in_call_2 : ag n false (built_in_call_2_of (G:=G) e) (built_in_call_2_of e').
  Proof. agp @built_in_call_2_of. Qed.
End BuiltIn.
#[export] Hint Resolve ag_built_in_call_1 ag_built_in_call_2 : agdb.
Section Arith.
  Context {E G : Type} (n : nat) (e e' : parser E) (g g' : parser G).
  Lemma ag_built_in_call : ag (pred n) false e e' -> ag n false g g' -> ag n false (built_in_call_of e g) (built_in_call_of e' g').
  Proof. agp @built_in_call_of. Qed.
  Hint Resolve ag_built_in_call : agdb.
  Lemma ag_primary : ag (pred n) false e e' -> ag n false g g' -> ag n false (primary_expression_of e g) (primary_expression_of e' g').
  Proof. agp @primary_expression_of. Qed.
  Hint Resolve ag_primary : agdb.
  Lemma ag_unary : ag (pred n) false e e' -> ag n false g g' -> ag n false (unary_expression_of e g) (unary_expression_of e' g').
  Proof. agp @unary_expression_of. Qed.
  Hint Resolve ag_unary : agdb.
  Lemma ag_mult : ag (pred n) false e e' -> ag n false g g' -> ag n false (mult_expression_of e g) (mult_expression_of e' g').
  Proof. agp @mult_expression_of. Qed.
  Hint Resolve ag_mult : agdb.
  Lemma ag_multiplicative : ag (pred n) false e e' -> ag n false g g' -> ag n false (multiplicative_expression_of e g) (multiplicative_expression_of e' g').
  Proof. agp @multiplicative_expression_of. Qed.
  Hint Resolve ag_multiplicative : agdb.
  Lemma ag_add : ag (pred n) false e e' -> ag n false g g' -> ag n false (add_expression_of e g) (add_expression_of e' g').
  Proof. agp @add_expression_of. Qed.
  Hint Resolve ag_add : agdb.
  Lemma ag_additive : ag (pred n) false e e' -> ag n false g g' -> ag n false (additive_expression_of e g) (additive_expression_of e' g').
  Proof. agp @additive_expression_of. Qed.
  Hint Resolve ag_additive : agdb.
  Lemma ag_op : ag (pred n) false e e' -> ag n false g g' -> ag n false (op_expression_of e g) (op_expression_of e' g').
  Proof. agp @op_expression_of. Qed.
  Hint Resolve ag_op : agdb.
  Lemma ag_relational : ag (pred n) false e e' -> ag n false g g' -> ag n false (relational_expression_of e g) (relational_expression_of e' g').
  Proof. agp @relational_expression_of. Qed.
  Hint Resolve ag_relational : agdb.
  Lemma ag_and : ag (pred n) false e e' -> ag n false g g' -> ag n false (conditional_and_expression_of e g) (conditional_and_expression_of e' g').
  Proof. agp @conditional_and_expression_of. Qed.
End Arith.
#[export] Hint Resolve ag_built_in_call ag_and : agdb.
Lemma ag_expression_body n e e' g g' : ag (pred n) false e e' -> ag n false g g' ->
  ag n false (expression_body e g) (expression_body e' g').
Proof. agp expression_body. Qed.

(** ** clauses and graph patterns *)
Section Clauses.
  Context {E G : Type} (n : nat) (e e' : parser E) (g g' : parser G).
  Lemma ag_constraint : ag (pred n) false e e' -> ag n false g g' -> ag n false (constraint_of e g) (constraint_of e' g').
  Proof. agp @constraint_of. Qed.
  Hint Resolve ag_constraint : agdb.
  Lemma ag_filter : ag (pred n) false e e' -> ag n false g g' -> ag n false (filter_of e g) (filter_of e' g').
  Proof. agp @filter_of. Qed.
  Lemma ag_order_expression : ag (pred n) false e e' -> ag n false (order_expression_of e) (order_expression_of e').
  Proof. agp @order_expression_of. Qed.
  Hint Resolve ag_order_expression : agdb.
  Lemma ag_order_condition : ag (pred n) false e e' -> ag n false g g' -> ag n false (order_condition_of e g) (order_condition_of e' g').
  Proof. agp @order_condition_of. Qed.
  Hint Resolve ag_order_condition : agdb.
  Lemma ag_group_condition : ag (pred n) false e e' -> ag n false g g' -> ag n false (group_condition_of e g) (group_condition_of e' g').
  Proof. agp @group_condition_of. Qed.
  Hint Resolve ag_group_condition : agdb.
  Lemma ag_group_clause : ag (pred n) false e e' -> ag n false g g' -> ag n false (group_clause_of e g) (group_clause_of e' g').
  Proof. agp @group_clause_of. Qed.
  Lemma ag_order_clause : ag (pred n) false e e' -> ag n false g g' -> ag n false (order_clause_of e g) (order_clause_of e' g').
  Proof. agp @order_clause_of. Qed.
  Lemma ag_having_clause : ag (pred n) false e e' -> ag n false g g' -> ag n false (having_clause_of e g) (having_clause_of e' g').
  Proof. agp @having_clause_of. Qed.
  Hint Resolve ag_group_clause ag_order_clause ag_having_clause : agdb.
  Lemma ag_solution_modifier : ag (pred n) false e e' -> ag n false g g' -> ag n false (solution_modifier_of e g) (solution_modifier_of e' g').
  Proof. agp @solution_modifier_of. Qed.
  Lemma ag_where_clause : ag n false g g' -> ag n false (where_clause_of g) (where_clause_of g').
  Proof. agp @where_clause_of. Qed.
  Lemma ag_var_or_expression_as_var : ag (pred n) false e e' -> ag n false (var_or_expression_as_var_of e) (var_or_expression_as_var_of e').
  Proof. agp @var_or_expression_as_var_of. Qed.
  Hint Resolve ag_var_or_expression_as_var : agdb.
  Lemma ag_select_vars : ag (pred n) false e e' -> ag n false (select_vars_of e) (select_vars_of e').
  Proof. agp @select_vars_of. Qed.
  Hint Resolve ag_select_vars : agdb.
  Lemma ag_select_clause : ag (pred n) false e e' -> ag n false (select_clause_of e) (select_clause_of e').
  Proof. agp @select_clause_of. Qed.
  Hint Resolve ag_select_clause ag_where_clause ag_solution_modifier : agdb.
  Lemma ag_sub_select : ag (pred n) false e e' -> ag n false g g' -> ag n false (sub_select_of e g) (sub_select_of e' g').
  Proof. agp @sub_select_of. Qed.
  Lemma ag_group_or_union : ag n false g g' -> ag n false (group_or_union_of g) (group_or_union_of g').
  Proof. agp @group_or_union_of. Qed.
  Lemma ag_optional : ag n false g g' -> ag n false (optional_of g) (optional_of g').
  Proof. agp @optional_of. Qed.
  Lemma ag_minus : ag n false g g' -> ag n false (minus_of g) (minus_of g').
  Proof. agp @minus_of. Qed.
  Lemma ag_graph_graph_pattern : ag n false g g' -> ag n false (graph_graph_pattern_of g) (graph_graph_pattern_of g').
  Proof. agp @graph_graph_pattern_of. Qed.
  Lemma ag_service_graph_pattern : ag n false g g' -> ag n false (service_graph_pattern_of g) (service_graph_pattern_of g').
  Proof. agp @service_graph_pattern_of. Qed.
  Hint Resolve ag_filter ag_group_or_union ag_optional ag_minus ag_graph_graph_pattern ag_service_graph_pattern : agdb.
  Lemma ag_graph_pattern_not_triples : ag (pred n) false e e' -> ag n false g g' ->
    ag n false (graph_pattern_not_triples_of e g) (graph_pattern_not_triples_of e' g').
  Proof. agp @graph_pattern_not_triples_of. Qed.
  Hint Resolve ag_graph_pattern_not_triples : agdb.
  Lemma ag_ggp_and_triples : ag (pred n) false e e' -> ag n false g g' ->
    ag n false (ggp_and_triples_of e g) (ggp_and_triples_of e' g').
  Proof. agp @ggp_and_triples_of. Qed.
  Hint Resolve ag_ggp_and_triples : agdb.
  Lemma ag_ggp_sub : ag (pred n) false e e' -> ag n false g g' -> ag n false (ggp_sub_of e g) (ggp_sub_of e' g').
  Proof. agp @ggp_sub_of. Qed.
End Clauses.
#[export] Hint Resolve ag_sub_select ag_ggp_sub ag_solution_modifier ag_where_clause ag_select_clause : agdb.
Lemma ag_ggp_body n e e' g g' : ag (pred n) false e e' -> ag (pred n) false g g' ->
  ag n false (ggp_body e g) (ggp_body e' g').
Proof.
  intros He Hg. assert (He' : ag (pred (pred n)) false e e') by (eapply ag_mono; [exact He | lia]).
  unfold ggp_body. eapply ag_weaken; agt.
Qed.

(** ** the knots *)
Lemma ag_nested n : forall m,
  ((2 * n <= m)%nat -> ag n false (expression_within m) expression) /\
  ((2 * n - 1 <= m)%nat -> ag n false (group_graph_pattern_within m) group_graph_pattern).
Proof.
  induction n as [|n IH]; intros m; [split; intros _ i Hi; lia|].
  assert (G : forall m, (2 * n + 1 <= m)%nat -> ag (S n) false (group_graph_pattern_within m) group_graph_pattern).
  { clear m. intros [|m] Hm; [lia|]. destruct (IH m) as [He Hg]. intros i Hi. rewrite group_graph_pattern_eq.
    apply (ag_ggp_body (S n)); [apply He; lia | apply Hg; lia | exact Hi]. }
  split; [|intros Hm; apply G; lia]. intros Hm. destruct m as [|m]; [lia|]. destruct (IH m) as [He _].
  intros i Hi. rewrite expression_eq.
  apply (ag_expression_body (S n)); [apply He; lia | apply G; lia | exact Hi].
Qed.
Lemma expression_depth n i : (2 * openings i + 2 <= n)%nat -> expression_within n i = expression i.
Proof. intros H. destruct (ag_nested (S (openings i)) n) as [A _]. apply A; lia. Qed.
Lemma group_graph_pattern_depth n i : (2 * openings i + 1 <= n)%nat ->
  group_graph_pattern_within n i = group_graph_pattern i.
Proof. intros H. destruct (ag_nested (S (openings i)) n) as [_ A]. apply A; lia. Qed.
