(** The counting parsers of SpecCost.v answer as the parsers of the model do. *)
From Verif Require Import MQuery MUpdate.
From Verif Require Export SpecCost.
Open Scope N_scope.
Open Scope list_scope.

Definition erases {A} (p : cparser A) (q : parser A) : Prop := forall i, fst (p i) = q i.
Lemma er_lift {A} (p : parser A) : erases (lift p) p. Proof. intros i. reflexivity. Qed.
Ltac er1 H i := let E := fresh "E" in pose proof (H i) as E; revert E.
Lemma er_pair {A B} (p : cparser A) (q : cparser B) p' q' : erases p p' -> erases q q' -> erases (t_pair p q) (pair p' q').
Proof.
  intros P Q i. unfold t_pair, pair. rewrite <- (P i). destruct (p i) as [[r a|e] n]; cbn [fst]; [|reflexivity].
  rewrite <- (Q r). destruct (q r) as [[r' b|e] m]; reflexivity.
Qed.
Lemma er_map {A B} (p : cparser A) (f : A -> B) p' : erases p p' -> erases (t_map p f) (Nom.map p' f).
Proof. intros P i. unfold t_map, Nom.map. rewrite <- (P i). destruct (p i) as [[r a|e] n]; reflexivity. Qed.
Lemma er_opt {A} (p : cparser A) p' : erases p p' -> erases (t_opt p) (opt p').
Proof. intros P i. unfold t_opt, opt. rewrite <- (P i). destruct (p i) as [[r a|[]] n]; reflexivity. Qed.
Lemma er_alt_one {A} (p : cparser A) p' : erases p p' -> erases (t_alt [p]) (alt [p']).
Proof. intros P. exact P. Qed.
Lemma er_alt_cons {A} (p q : cparser A) p' q' ps ps' : erases p p' -> erases (t_alt (q :: ps)) (alt (q' :: ps')) ->
  erases (t_alt (p :: q :: ps)) (alt (p' :: q' :: ps')).
Proof.
  intros P Q i. change (t_alt (p :: q :: ps) i) with
    (match p i with (Err (Error _ _), n) => let (x, m) := t_alt (q :: ps) i in (x, n + m) | r => r end).
  change (alt (p' :: q' :: ps') i) with (match p' i with Err (Error _ _) => alt (q' :: ps') i | r => r end).
  rewrite <- (P i), <- (Q i). destruct (p i) as [[r a|[]] n]; try reflexivity. cbn [fst].
  destruct (t_alt (q :: ps) i) as [x m]. reflexivity.
Qed.
Lemma er_many0 {A} (p : cparser A) p' : erases p p' -> erases (t_many0 p) (many0 p').
Proof.
  intros P i. unfold t_many0, many0. generalize (S (List.length i)) as k. intros k. revert i.
  induction k as [|k IH]; intros i; [reflexivity|]. cbn [t_many0_loop many0_loop]. rewrite <- (P i).
  destruct (p i) as [[r a|[]] n]; cbn [fst]; try reflexivity. destruct (str_eqb r i); [reflexivity|].
  rewrite <- (IH r). destruct (t_many0_loop k p r) as [[r' l|e] m]; reflexivity.
Qed.
Lemma er_many1 {A} (p : cparser A) p' : erases p p' -> erases (t_many1 p) (many1 p').
Proof.
  intros P i. assert (L : forall k i, fst (t_many1_loop k p i) = many1_loop k p' i).
  { induction k as [|k IH]; intros j; [reflexivity|]. cbn [t_many1_loop many1_loop]. rewrite <- (P j).
    destruct (p j) as [[r a|[]] n]; cbn [fst]; try reflexivity. destruct (str_eqb r j); [reflexivity|].
    rewrite <- (IH r). destruct (t_many1_loop k p r) as [[r' l|e] m]; reflexivity. }
  unfold t_many1, many1. rewrite <- (P i). destruct (p i) as [[r a|e] n]; cbn [fst]; [|reflexivity].
  rewrite <- L. destruct (t_many1_loop (S (List.length r)) p r) as [[r' l|e] m]; reflexivity.
Qed.
Lemma er_sep_loop {A B} (s : cparser B) (p : cparser A) s' p' : erases s s' -> erases p p' ->
  forall k i, fst (t_sep_loop k s p i) = sep_loop k s' p' i.
Proof.
  intros S P. induction k as [|k IH]; intros i; [reflexivity|]. cbn [t_sep_loop sep_loop]. rewrite <- (S i).
  destruct (s i) as [[r b|[]] n]; cbn [fst]; try reflexivity. destruct (str_eqb r i); [reflexivity|].
  rewrite <- (P r). destruct (p r) as [[r' a|[]] m]; cbn [fst]; try reflexivity. destruct (str_eqb r' i); [reflexivity|].
  rewrite <- (IH r'). destruct (t_sep_loop k s p r') as [[r2 l|e] x]; reflexivity.
Qed.
Lemma er_separated_list {A B} (s : cparser B) (p : cparser A) s' p' : erases s s' -> erases p p' ->
  erases (t_separated_list s p) (separated_list s' p').
Proof.
  intros S P i. unfold t_separated_list, separated_list. rewrite <- (P i). destruct (p i) as [[r a|[]] n]; cbn [fst]; try reflexivity.
  destruct (str_eqb r i); [reflexivity|]. rewrite <- (er_sep_loop s p s' p' S P).
  destruct (t_sep_loop (Datatypes.S (List.length r)) s p r) as [[r' l|e] m]; reflexivity.
Qed.
Lemma er_separated_nonempty_list {A B} (s : cparser B) (p : cparser A) s' p' : erases s s' -> erases p p' ->
  erases (t_separated_nonempty_list s p) (separated_nonempty_list s' p').
Proof.
  intros S P i. unfold t_separated_nonempty_list, separated_nonempty_list. rewrite <- (P i). destruct (p i) as [[r a|e] n]; cbn [fst]; try reflexivity.
  destruct (str_eqb r i); [reflexivity|]. rewrite <- (er_sep_loop s p s' p' S P).
  destruct (t_sep_loop (Datatypes.S (List.length r)) s p r) as [[r' l|e] m]; reflexivity.
Qed.
Lemma er_iter {A} (tb : cparser A -> cparser A) b : (forall p p', erases p p' -> erases (tb p) (b p')) ->
  forall k, erases (t_iter k tb) (iter k b).
Proof.
  intros H. induction k as [|k IH]; intros i; [reflexivity|]. cbn [t_iter iter]. unfold tick. specialize (H _ _ IH i).
  destruct (tb (t_iter k tb) i) as [x n]. exact H.
Qed.
Lemma er_fixp {A} (tb : cparser A -> cparser A) b : (forall p p', erases p p' -> erases (tb p) (b p')) ->
  erases (t_fixp tb) (fixp b).
Proof. intros H i. unfold t_fixp, fixp. now apply er_iter. Qed.

Create HintDb erdb.
Ltac er := first
  [ assumption
  | lazymatch goal with
    | |- erases (lift _) _ => apply er_lift
    | |- erases (t_pair _ _) _ => apply er_pair; er
    | |- erases (t_map _ _) _ => apply er_map; er
    | |- erases (t_opt _) _ => apply er_opt; er
    | |- erases (t_alt [_]) _ => apply er_alt_one; er
    | |- erases (t_alt _) _ => apply er_alt_cons; er
    | |- erases (t_many0 _) _ => apply er_many0; er
    | |- erases (t_many1 _) _ => apply er_many1; er
    | |- erases (t_separated_list _ _) _ => apply er_separated_list; er
    | |- erases (t_separated_nonempty_list _ _) _ => apply er_separated_nonempty_list; er
    | |- erases (t_preceded _ _) _ => unfold t_preceded, preceded; er
    | |- erases (t_terminated _ _) _ => unfold t_terminated, terminated; er
    | |- erases (t_delimited _ _ _) _ => unfold t_delimited, delimited; er
    | |- erases (t_separated_pair _ _ _) _ => unfold t_separated_pair, separated_pair; er
    | |- erases (t_tuple3 _ _ _) _ => unfold t_tuple3, tuple3; er
    | |- erases (t_tuple4 _ _ _ _) _ => unfold t_tuple4, tuple4; er
    | |- erases (t_tuple5 _ _ _ _ _) _ => unfold t_tuple5, tuple5; er
    | |- erases (t_bracketted _) _ => unfold t_bracketted, bracketted; er
    | |- erases (t_preceded_tag _ _) _ => unfold t_preceded_tag, preceded_tag; er
    | |- erases (t_preceded_tag1 _ _) _ => unfold t_preceded_tag1, preceded_tag1; er
    | |- erases (t_preceded_bracketted _ _) _ => unfold t_preceded_bracketted, preceded_bracketted; er
    | |- erases (t_sp_enc _) _ => unfold t_sp_enc, sp_enc; er
    | |- erases (t_sp_enc1 _) _ => unfold t_sp_enc1, sp_enc1; er
    | |- erases (t_sp_sep _ _) _ => unfold t_sp_sep, sp_sep; er
    | |- erases (t_sp_sep1 _ _) _ => unfold t_sp_sep1, sp_sep1; er
    | |- erases (t_fixp _) _ => apply er_fixp; intros; er
    | |- _ => solve [eauto 3 with erdb nocore]
    end ].

Lemma er_path_primary_of (pa : cparser PathAlternative) (pa' : parser PathAlternative) :
  erases pa pa' -> erases (t_path_primary_of pa) (path_primary_of pa').
Proof. intros. unfold t_path_primary_of, path_primary_of. er. Qed.
#[export] Hint Resolve er_path_primary_of : erdb.
Lemma er_path_elt_of (pa : cparser PathAlternative) (pa' : parser PathAlternative) :
  erases pa pa' -> erases (t_path_elt_of pa) (path_elt_of pa').
Proof. intros. unfold t_path_elt_of, path_elt_of. er. Qed.
#[export] Hint Resolve er_path_elt_of : erdb.
Lemma er_path_elt_or_inverse_of (pa : cparser PathAlternative) (pa' : parser PathAlternative) :
  erases pa pa' -> erases (t_path_elt_or_inverse_of pa) (path_elt_or_inverse_of pa').
Proof. intros. unfold t_path_elt_or_inverse_of, path_elt_or_inverse_of. er. Qed.
#[export] Hint Resolve er_path_elt_or_inverse_of : erdb.
Lemma er_path_sequence_of (pa : cparser PathAlternative) (pa' : parser PathAlternative) :
  erases pa pa' -> erases (t_path_sequence_of pa) (path_sequence_of pa').
Proof. intros. unfold t_path_sequence_of, path_sequence_of. er. Qed.
#[export] Hint Resolve er_path_sequence_of : erdb.
Lemma er_path_alternative_body (pa : cparser PathAlternative) (pa' : parser PathAlternative) :
  erases pa pa' -> erases (t_path_alternative_body pa) (path_alternative_body pa').
Proof. intros. unfold t_path_alternative_body, path_alternative_body. er. Qed.
#[export] Hint Resolve er_path_alternative_body : erdb.
Lemma er_path_alternative :
  erases t_path_alternative path_alternative.
Proof. intros. unfold t_path_alternative, path_alternative. er. Qed.
#[export] Hint Resolve er_path_alternative : erdb.
Lemma er_path_primary :
  erases t_path_primary path_primary.
Proof. intros. unfold t_path_primary, path_primary. er. Qed.
#[export] Hint Resolve er_path_primary : erdb.
Lemma er_path_elt :
  erases t_path_elt path_elt.
Proof. intros. unfold t_path_elt, path_elt. er. Qed.
#[export] Hint Resolve er_path_elt : erdb.
Lemma er_path_elt_or_inverse :
  erases t_path_elt_or_inverse path_elt_or_inverse.
Proof. intros. unfold t_path_elt_or_inverse, path_elt_or_inverse. er. Qed.
#[export] Hint Resolve er_path_elt_or_inverse : erdb.
Lemma er_path_sequence :
  erases t_path_sequence path_sequence.
Proof. intros. unfold t_path_sequence, path_sequence. er. Qed.
#[export] Hint Resolve er_path_sequence : erdb.
Lemma er_verb_path_or_simple :
  erases t_verb_path_or_simple verb_path_or_simple.
Proof. intros. unfold t_verb_path_or_simple, verb_path_or_simple. er. Qed.
#[export] Hint Resolve er_verb_path_or_simple : erdb.
Lemma er_property_list_path_entry :
  erases t_property_list_path_entry property_list_path_entry.
Proof. intros. unfold t_property_list_path_entry, property_list_path_entry. er. Qed.
#[export] Hint Resolve er_property_list_path_entry : erdb.
Lemma er_object_list_path_of (gnp : cparser GraphNodePath) (gnp' : parser GraphNodePath) :
  erases gnp gnp' -> erases (t_object_list_path_of gnp) (object_list_path_of gnp').
Proof. intros. unfold t_object_list_path_of, object_list_path_of. er. Qed.
#[export] Hint Resolve er_object_list_path_of : erdb.
Lemma er_property_list_path_not_empty_of (gnp : cparser GraphNodePath) (gnp' : parser GraphNodePath) :
  erases gnp gnp' -> erases (t_property_list_path_not_empty_of gnp) (property_list_path_not_empty_of gnp').
Proof. intros. unfold t_property_list_path_not_empty_of, property_list_path_not_empty_of. er. Qed.
#[export] Hint Resolve er_property_list_path_not_empty_of : erdb.
Lemma er_blank_node_property_list_path_of (gnp : cparser GraphNodePath) (gnp' : parser GraphNodePath) :
  erases gnp gnp' -> erases (t_blank_node_property_list_path_of gnp) (blank_node_property_list_path_of gnp').
Proof. intros. unfold t_blank_node_property_list_path_of, blank_node_property_list_path_of. er. Qed.
#[export] Hint Resolve er_blank_node_property_list_path_of : erdb.
Lemma er_triples_node_path_of (gnp : cparser GraphNodePath) (gnp' : parser GraphNodePath) :
  erases gnp gnp' -> erases (t_triples_node_path_of gnp) (triples_node_path_of gnp').
Proof. intros. unfold t_triples_node_path_of, triples_node_path_of. er. Qed.
#[export] Hint Resolve er_triples_node_path_of : erdb.
Lemma er_graph_node_path_body (gnp : cparser GraphNodePath) (gnp' : parser GraphNodePath) :
  erases gnp gnp' -> erases (t_graph_node_path_body gnp) (graph_node_path_body gnp').
Proof. intros. unfold t_graph_node_path_body, graph_node_path_body. er. Qed.
#[export] Hint Resolve er_graph_node_path_body : erdb.
Lemma er_graph_node_path :
  erases t_graph_node_path graph_node_path.
Proof. intros. unfold t_graph_node_path, graph_node_path. er. Qed.
#[export] Hint Resolve er_graph_node_path : erdb.
Lemma er_object_list_path :
  erases t_object_list_path object_list_path.
Proof. intros. unfold t_object_list_path, object_list_path. er. Qed.
#[export] Hint Resolve er_object_list_path : erdb.
Lemma er_property_list_path_not_empty :
  erases t_property_list_path_not_empty property_list_path_not_empty.
Proof. intros. unfold t_property_list_path_not_empty, property_list_path_not_empty. er. Qed.
#[export] Hint Resolve er_property_list_path_not_empty : erdb.
Lemma er_blank_node_property_list_path :
  erases t_blank_node_property_list_path blank_node_property_list_path.
Proof. intros. unfold t_blank_node_property_list_path, blank_node_property_list_path. er. Qed.
#[export] Hint Resolve er_blank_node_property_list_path : erdb.
Lemma er_triples_node_path :
  erases t_triples_node_path triples_node_path.
Proof. intros. unfold t_triples_node_path, triples_node_path. er. Qed.
#[export] Hint Resolve er_triples_node_path : erdb.
Lemma er_property_list_path :
  erases t_property_list_path property_list_path.
Proof. intros. unfold t_property_list_path, property_list_path. er. Qed.
#[export] Hint Resolve er_property_list_path : erdb.
Lemma er_triples_same_subject_path :
  erases t_triples_same_subject_path triples_same_subject_path.
Proof. intros. unfold t_triples_same_subject_path, triples_same_subject_path. er. Qed.
#[export] Hint Resolve er_triples_same_subject_path : erdb.
Lemma er_triples_block :
  erases t_triples_block triples_block.
Proof. intros. unfold t_triples_block, triples_block. er. Qed.
#[export] Hint Resolve er_triples_block : erdb.
Lemma er_expr2_of {E} (e : cparser E) (e' : parser E) :
  erases e e' -> erases (t_expr2_of e) (expr2_of e').
Proof. intros. unfold t_expr2_of, expr2_of. er. Qed.
#[export] Hint Resolve er_expr2_of : erdb.
Lemma er_bracketted_expr3_of {E} (e : cparser E) (e' : parser E) :
  erases e e' -> erases (t_bracketted_expr3_of e) (bracketted_expr3_of e').
Proof. intros. unfold t_bracketted_expr3_of, bracketted_expr3_of. er. Qed.
#[export] Hint Resolve er_bracketted_expr3_of : erdb.
Lemma er_expression_as_var_opt_of {E} (e : cparser E) (e' : parser E) :
  erases e e' -> erases (t_expression_as_var_opt_of e) (expression_as_var_opt_of e').
Proof. intros. unfold t_expression_as_var_opt_of, expression_as_var_opt_of. er. Qed.
#[export] Hint Resolve er_expression_as_var_opt_of : erdb.
Lemma er_expression_as_var_of {E} (e : cparser E) (e' : parser E) :
  erases e e' -> erases (t_expression_as_var_of e) (expression_as_var_of e').
Proof. intros. unfold t_expression_as_var_of, expression_as_var_of. er. Qed.
#[export] Hint Resolve er_expression_as_var_of : erdb.
Lemma er_expression_list_of {E} (e : cparser E) (e' : parser E) :
  erases e e' -> erases (t_expression_list_of e) (expression_list_of e').
Proof. intros. unfold t_expression_list_of, expression_list_of. er. Qed.
#[export] Hint Resolve er_expression_list_of : erdb.
Lemma er_distinct_expression_of {E} (e : cparser E) (e' : parser E) :
  erases e e' -> erases (t_distinct_expression_of e) (distinct_expression_of e').
Proof. intros. unfold t_distinct_expression_of, distinct_expression_of. er. Qed.
#[export] Hint Resolve er_distinct_expression_of : erdb.
Lemma er_bracketted_expression_of {E} (e : cparser E) (e' : parser E) :
  erases e e' -> erases (t_bracketted_expression_of e) (bracketted_expression_of e').
Proof. intros. unfold t_bracketted_expression_of, bracketted_expression_of. er. Qed.
#[export] Hint Resolve er_bracketted_expression_of : erdb.
Lemma er_bind_of {E} (e : cparser E) (e' : parser E) :
  erases e e' -> erases (t_bind_of e) (bind_of e').
Proof. intros. unfold t_bind_of, bind_of. er. Qed.
#[export] Hint Resolve er_bind_of : erdb.
Lemma er_arg_list_of {E} (e : cparser E) (e' : parser E) :
  erases e e' -> erases (t_arg_list_of e) (arg_list_of e').
Proof. intros. unfold t_arg_list_of, arg_list_of. er. Qed.
#[export] Hint Resolve er_arg_list_of : erdb.
Lemma er_function_call_of {E} (e : cparser E) (e' : parser E) :
  erases e e' -> erases (t_function_call_of e) (function_call_of e').
Proof. intros. unfold t_function_call_of, function_call_of. er. Qed.
#[export] Hint Resolve er_function_call_of : erdb.
Lemma er_iri_or_fun_of {E} (e : cparser E) (e' : parser E) :
  erases e e' -> erases (t_iri_or_fun_of e) (iri_or_fun_of e').
Proof. intros. unfold t_iri_or_fun_of, iri_or_fun_of. er. Qed.
#[export] Hint Resolve er_iri_or_fun_of : erdb.
Lemma er_regex_expression_of {E} (e : cparser E) (e' : parser E) :
  erases e e' -> erases (t_regex_expression_of e) (regex_expression_of e').
Proof. intros. unfold t_regex_expression_of, regex_expression_of. er. Qed.
#[export] Hint Resolve er_regex_expression_of : erdb.
Lemma er_substring_expression_of {E} (e : cparser E) (e' : parser E) :
  erases e e' -> erases (t_substring_expression_of e) (substring_expression_of e').
Proof. intros. unfold t_substring_expression_of, substring_expression_of. er. Qed.
#[export] Hint Resolve er_substring_expression_of : erdb.
Lemma er_str_replace_expression_of {E} (e : cparser E) (e' : parser E) :
  erases e e' -> erases (t_str_replace_expression_of e) (str_replace_expression_of e').
Proof. intros. unfold t_str_replace_expression_of, str_replace_expression_of. er. Qed.
#[export] Hint Resolve er_str_replace_expression_of : erdb.
Lemma er_count_target_of {E} (e : cparser E) (e' : parser E) :
  erases e e' -> erases (t_count_target_of e) (count_target_of e').
Proof. intros. unfold t_count_target_of, count_target_of. er. Qed.
#[export] Hint Resolve er_count_target_of : erdb.
Lemma er_count_of {E} (e : cparser E) (e' : parser E) :
  erases e e' -> erases (t_count_of e) (count_of e').
Proof. intros. unfold t_count_of, count_of. er. Qed.
#[export] Hint Resolve er_count_of : erdb.
Lemma er_group_concat_of {E} (e : cparser E) (e' : parser E) :
  erases e e' -> erases (t_group_concat_of e) (group_concat_of e').
Proof. intros. unfold t_group_concat_of, group_concat_of. er. Qed.
#[export] Hint Resolve er_group_concat_of : erdb.
Lemma er_aggregate_of {E} (e : cparser E) (e' : parser E) :
  erases e e' -> erases (t_aggregate_of e) (aggregate_of e').
Proof. intros. unfold t_aggregate_of, aggregate_of. er. Qed.
#[export] Hint Resolve er_aggregate_of : erdb.
Lemma er_call1 {E G} (e : cparser E) (e' : parser E) (name : str) (k : E -> BuiltInCall E G) :
  erases e e' -> erases (t_call1 e name k) (call1 e' name k).
Proof. intros. unfold t_call1, call1. er. Qed.
#[export] Hint Resolve er_call1 : erdb.
Lemma er_call2 {E G} (e : cparser E) (e' : parser E) (name : str) (k : E -> E -> BuiltInCall E G) :
  erases e e' -> erases (t_call2 e name k) (call2 e' name k).
Proof. intros. unfold t_call2, call2. er. Qed.
#[export] Hint Resolve er_call2 : erdb.
Lemma er_call0 {E G} (name : str) (k : BuiltInCall E G) :
  erases (t_call0 name k) (call0 name k).
Proof. intros. unfold t_call0, call0. er. Qed.
#[export] Hint Resolve er_call0 : erdb.
Lemma er_built_in_call_1_of {E G} (e : cparser E) (e' : parser E) :
  erases e e' -> erases (t_built_in_call_1_of (G:=G) e) (built_in_call_1_of (G:=G) e').
Proof. intros. unfold t_built_in_call_1_of, built_in_call_1_of. er. Qed.
#[export] Hint Resolve er_built_in_call_1_of : erdb.
Lemma er_built_in_call_2_of {E G} (e : cparser E) (e' : parser E) :
  erases e e' -> erases (t_built_in_call_2_of (G:=G) e) (built_in_call_2_of (G:=G) e').
Proof. intros. unfold t_built_in_call_2_of, built_in_call_2_of. er. Qed.
#[export] Hint Resolve er_built_in_call_2_of : erdb.
Lemma er_built_in_call_of {E G} (e : cparser E) (e' : parser E) (g : cparser G) (g' : parser G) :
  erases e e' -> erases g g' -> erases (t_built_in_call_of e g) (built_in_call_of e' g').
Proof. intros. unfold t_built_in_call_of, built_in_call_of. er. Qed.
#[export] Hint Resolve er_built_in_call_of : erdb.
Lemma er_primary_expression_of {E G} (e : cparser E) (e' : parser E) (g : cparser G) (g' : parser G) :
  erases e e' -> erases g g' -> erases (t_primary_expression_of e g) (primary_expression_of e' g').
Proof. intros. unfold t_primary_expression_of, primary_expression_of. er. Qed.
#[export] Hint Resolve er_primary_expression_of : erdb.
Lemma er_unary_expression_of {E G} (e : cparser E) (e' : parser E) (g : cparser G) (g' : parser G) :
  erases e e' -> erases g g' -> erases (t_unary_expression_of e g) (unary_expression_of e' g').
Proof. intros. unfold t_unary_expression_of, unary_expression_of. er. Qed.
#[export] Hint Resolve er_unary_expression_of : erdb.
Lemma er_mult_expression_of {E G} (e : cparser E) (e' : parser E) (g : cparser G) (g' : parser G) :
  erases e e' -> erases g g' -> erases (t_mult_expression_of e g) (mult_expression_of e' g').
Proof. intros. unfold t_mult_expression_of, mult_expression_of. er. Qed.
#[export] Hint Resolve er_mult_expression_of : erdb.
Lemma er_multiplicative_expression_of {E G} (e : cparser E) (e' : parser E) (g : cparser G) (g' : parser G) :
  erases e e' -> erases g g' -> erases (t_multiplicative_expression_of e g) (multiplicative_expression_of e' g').
Proof. intros. unfold t_multiplicative_expression_of, multiplicative_expression_of. er. Qed.
#[export] Hint Resolve er_multiplicative_expression_of : erdb.
Lemma er_add_expression_of {E G} (e : cparser E) (e' : parser E) (g : cparser G) (g' : parser G) :
  erases e e' -> erases g g' -> erases (t_add_expression_of e g) (add_expression_of e' g').
Proof. intros. unfold t_add_expression_of, add_expression_of. er. Qed.
#[export] Hint Resolve er_add_expression_of : erdb.
Lemma er_additive_expression_of {E G} (e : cparser E) (e' : parser E) (g : cparser G) (g' : parser G) :
  erases e e' -> erases g g' -> erases (t_additive_expression_of e g) (additive_expression_of e' g').
Proof. intros. unfold t_additive_expression_of, additive_expression_of. er. Qed.
#[export] Hint Resolve er_additive_expression_of : erdb.
Lemma er_op_expression_of {E G} (e : cparser E) (e' : parser E) (g : cparser G) (g' : parser G) :
  erases e e' -> erases g g' -> erases (t_op_expression_of e g) (op_expression_of e' g').
Proof. intros. unfold t_op_expression_of, op_expression_of. er. Qed.
#[export] Hint Resolve er_op_expression_of : erdb.
Lemma er_relational_expression_of {E G} (e : cparser E) (e' : parser E) (g : cparser G) (g' : parser G) :
  erases e e' -> erases g g' -> erases (t_relational_expression_of e g) (relational_expression_of e' g').
Proof. intros. unfold t_relational_expression_of, relational_expression_of. er. Qed.
#[export] Hint Resolve er_relational_expression_of : erdb.
Lemma er_conditional_and_expression_of {E G} (e : cparser E) (e' : parser E) (g : cparser G) (g' : parser G) :
  erases e e' -> erases g g' -> erases (t_conditional_and_expression_of e g) (conditional_and_expression_of e' g').
Proof. intros. unfold t_conditional_and_expression_of, conditional_and_expression_of. er. Qed.
#[export] Hint Resolve er_conditional_and_expression_of : erdb.
Lemma er_expression_body (e : cparser Expression) (e' : parser Expression) (g : cparser GroupGraphPattern) (g' : parser GroupGraphPattern) :
  erases e e' -> erases g g' -> erases (t_expression_body e g) (expression_body e' g').
Proof. intros. unfold t_expression_body, expression_body. er. Qed.
#[export] Hint Resolve er_expression_body : erdb.
Lemma er_constraint_of {E G} (e : cparser E) (e' : parser E) (g : cparser G) (g' : parser G) :
  erases e e' -> erases g g' -> erases (t_constraint_of e g) (constraint_of e' g').
Proof. intros. unfold t_constraint_of, constraint_of. er. Qed.
#[export] Hint Resolve er_constraint_of : erdb.
Lemma er_filter_of {E G} (e : cparser E) (e' : parser E) (g : cparser G) (g' : parser G) :
  erases e e' -> erases g g' -> erases (t_filter_of e g) (filter_of e' g').
Proof. intros. unfold t_filter_of, filter_of. er. Qed.
#[export] Hint Resolve er_filter_of : erdb.
Lemma er_order_expression_of {E} (e : cparser E) (e' : parser E) :
  erases e e' -> erases (t_order_expression_of e) (order_expression_of e').
Proof. intros. unfold t_order_expression_of, order_expression_of. er. Qed.
#[export] Hint Resolve er_order_expression_of : erdb.
Lemma er_order_condition_of {E G} (e : cparser E) (e' : parser E) (g : cparser G) (g' : parser G) :
  erases e e' -> erases g g' -> erases (t_order_condition_of e g) (order_condition_of e' g').
Proof. intros. unfold t_order_condition_of, order_condition_of. er. Qed.
#[export] Hint Resolve er_order_condition_of : erdb.
Lemma er_group_condition_of {E G} (e : cparser E) (e' : parser E) (g : cparser G) (g' : parser G) :
  erases e e' -> erases g g' -> erases (t_group_condition_of e g) (group_condition_of e' g').
Proof. intros. unfold t_group_condition_of, group_condition_of. er. Qed.
#[export] Hint Resolve er_group_condition_of : erdb.
Lemma er_group_clause_of {E G} (e : cparser E) (e' : parser E) (g : cparser G) (g' : parser G) :
  erases e e' -> erases g g' -> erases (t_group_clause_of e g) (group_clause_of e' g').
Proof. intros. unfold t_group_clause_of, group_clause_of. er. Qed.
#[export] Hint Resolve er_group_clause_of : erdb.
Lemma er_order_clause_of {E G} (e : cparser E) (e' : parser E) (g : cparser G) (g' : parser G) :
  erases e e' -> erases g g' -> erases (t_order_clause_of e g) (order_clause_of e' g').
Proof. intros. unfold t_order_clause_of, order_clause_of. er. Qed.
#[export] Hint Resolve er_order_clause_of : erdb.
Lemma er_having_clause_of {E G} (e : cparser E) (e' : parser E) (g : cparser G) (g' : parser G) :
  erases e e' -> erases g g' -> erases (t_having_clause_of e g) (having_clause_of e' g').
Proof. intros. unfold t_having_clause_of, having_clause_of. er. Qed.
#[export] Hint Resolve er_having_clause_of : erdb.
Lemma er_solution_modifier_of {E G} (e : cparser E) (e' : parser E) (g : cparser G) (g' : parser G) :
  erases e e' -> erases g g' -> erases (t_solution_modifier_of e g) (solution_modifier_of e' g').
Proof. intros. unfold t_solution_modifier_of, solution_modifier_of. er. Qed.
#[export] Hint Resolve er_solution_modifier_of : erdb.
Lemma er_where_clause_of {G} (g : cparser G) (g' : parser G) :
  erases g g' -> erases (t_where_clause_of g) (where_clause_of g').
Proof. intros. unfold t_where_clause_of, where_clause_of. er. Qed.
#[export] Hint Resolve er_where_clause_of : erdb.
Lemma er_var_or_expression_as_var_of {E} (e : cparser E) (e' : parser E) :
  erases e e' -> erases (t_var_or_expression_as_var_of e) (var_or_expression_as_var_of e').
Proof. intros. unfold t_var_or_expression_as_var_of, var_or_expression_as_var_of. er. Qed.
#[export] Hint Resolve er_var_or_expression_as_var_of : erdb.
Lemma er_select_vars_of {E} (e : cparser E) (e' : parser E) :
  erases e e' -> erases (t_select_vars_of e) (select_vars_of e').
Proof. intros. unfold t_select_vars_of, select_vars_of. er. Qed.
#[export] Hint Resolve er_select_vars_of : erdb.
Lemma er_select_clause_of {E} (e : cparser E) (e' : parser E) :
  erases e e' -> erases (t_select_clause_of e) (select_clause_of e').
Proof. intros. unfold t_select_clause_of, select_clause_of. er. Qed.
#[export] Hint Resolve er_select_clause_of : erdb.
Lemma er_sub_select_of {E G} (e : cparser E) (e' : parser E) (g : cparser G) (g' : parser G) :
  erases e e' -> erases g g' -> erases (t_sub_select_of e g) (sub_select_of e' g').
Proof. intros. unfold t_sub_select_of, sub_select_of. er. Qed.
#[export] Hint Resolve er_sub_select_of : erdb.
Lemma er_group_or_union_of {G} (g : cparser G) (g' : parser G) :
  erases g g' -> erases (t_group_or_union_of g) (group_or_union_of g').
Proof. intros. unfold t_group_or_union_of, group_or_union_of. er. Qed.
#[export] Hint Resolve er_group_or_union_of : erdb.
Lemma er_optional_of {G} (g : cparser G) (g' : parser G) :
  erases g g' -> erases (t_optional_of g) (optional_of g').
Proof. intros. unfold t_optional_of, optional_of. er. Qed.
#[export] Hint Resolve er_optional_of : erdb.
Lemma er_minus_of {G} (g : cparser G) (g' : parser G) :
  erases g g' -> erases (t_minus_of g) (minus_of g').
Proof. intros. unfold t_minus_of, minus_of. er. Qed.
#[export] Hint Resolve er_minus_of : erdb.
Lemma er_graph_graph_pattern_of {G} (g : cparser G) (g' : parser G) :
  erases g g' -> erases (t_graph_graph_pattern_of g) (graph_graph_pattern_of g').
Proof. intros. unfold t_graph_graph_pattern_of, graph_graph_pattern_of. er. Qed.
#[export] Hint Resolve er_graph_graph_pattern_of : erdb.
Lemma er_service_graph_pattern_of {G} (g : cparser G) (g' : parser G) :
  erases g g' -> erases (t_service_graph_pattern_of g) (service_graph_pattern_of g').
Proof. intros. unfold t_service_graph_pattern_of, service_graph_pattern_of. er. Qed.
#[export] Hint Resolve er_service_graph_pattern_of : erdb.
Lemma er_graph_pattern_not_triples_of {E G} (e : cparser E) (e' : parser E) (g : cparser G) (g' : parser G) :
  erases e e' -> erases g g' -> erases (t_graph_pattern_not_triples_of e g) (graph_pattern_not_triples_of e' g').
Proof. intros. unfold t_graph_pattern_not_triples_of, graph_pattern_not_triples_of. er. Qed.
#[export] Hint Resolve er_graph_pattern_not_triples_of : erdb.
Lemma er_ggp_and_triples_of {E G} (e : cparser E) (e' : parser E) (g : cparser G) (g' : parser G) :
  erases e e' -> erases g g' -> erases (t_ggp_and_triples_of e g) (ggp_and_triples_of e' g').
Proof. intros. unfold t_ggp_and_triples_of, ggp_and_triples_of. er. Qed.
#[export] Hint Resolve er_ggp_and_triples_of : erdb.
Lemma er_ggp_sub_of {E G} (e : cparser E) (e' : parser E) (g : cparser G) (g' : parser G) :
  erases e e' -> erases g g' -> erases (t_ggp_sub_of e g) (ggp_sub_of e' g').
Proof. intros. unfold t_ggp_sub_of, ggp_sub_of. er. Qed.
#[export] Hint Resolve er_ggp_sub_of : erdb.
Lemma er_ggp_body (e : cparser Expression) (e' : parser Expression) (g : cparser GroupGraphPattern) (g' : parser GroupGraphPattern) :
  erases e e' -> erases g g' -> erases (t_ggp_body e g) (ggp_body e' g').
Proof. intros. unfold t_ggp_body, ggp_body. er. Qed.
#[export] Hint Resolve er_ggp_body : erdb.
Lemma er_ggp_of (e : cparser Expression) (e' : parser Expression) :
  erases e e' -> erases (t_ggp_of e) (ggp_of e').
Proof. intros. unfold t_ggp_of, ggp_of. er. Qed.
#[export] Hint Resolve er_ggp_of : erdb.
Lemma er_expression :
  erases t_expression expression.
Proof. intros. unfold t_expression, expression. er. Qed.
#[export] Hint Resolve er_expression : erdb.
Lemma er_group_graph_pattern :
  erases t_group_graph_pattern group_graph_pattern.
Proof. intros. unfold t_group_graph_pattern, group_graph_pattern. er. Qed.
#[export] Hint Resolve er_group_graph_pattern : erdb.
Lemma er_built_in_call :
  erases t_built_in_call built_in_call.
Proof. intros. unfold t_built_in_call, built_in_call. er. Qed.
#[export] Hint Resolve er_built_in_call : erdb.
Lemma er_primary_expression :
  erases t_primary_expression primary_expression.
Proof. intros. unfold t_primary_expression, primary_expression. er. Qed.
#[export] Hint Resolve er_primary_expression : erdb.
Lemma er_relational_expression :
  erases t_relational_expression relational_expression.
Proof. intros. unfold t_relational_expression, relational_expression. er. Qed.
#[export] Hint Resolve er_relational_expression : erdb.
Lemma er_aggregate :
  erases t_aggregate aggregate.
Proof. intros. unfold t_aggregate, aggregate. er. Qed.
#[export] Hint Resolve er_aggregate : erdb.
Lemma er_arg_list :
  erases t_arg_list arg_list.
Proof. intros. unfold t_arg_list, arg_list. er. Qed.
#[export] Hint Resolve er_arg_list : erdb.
Lemma er_expression_list :
  erases t_expression_list expression_list.
Proof. intros. unfold t_expression_list, expression_list. er. Qed.
#[export] Hint Resolve er_expression_list : erdb.
Lemma er_function_call :
  erases t_function_call function_call.
Proof. intros. unfold t_function_call, function_call. er. Qed.
#[export] Hint Resolve er_function_call : erdb.
Lemma er_iri_or_fun :
  erases t_iri_or_fun iri_or_fun.
Proof. intros. unfold t_iri_or_fun, iri_or_fun. er. Qed.
#[export] Hint Resolve er_iri_or_fun : erdb.
Lemma er_constraint :
  erases t_constraint constraint.
Proof. intros. unfold t_constraint, constraint. er. Qed.
#[export] Hint Resolve er_constraint : erdb.
Lemma er_filter :
  erases t_filter filter.
Proof. intros. unfold t_filter, filter. er. Qed.
#[export] Hint Resolve er_filter : erdb.
Lemma er_bind :
  erases t_bind bind.
Proof. intros. unfold t_bind, bind. er. Qed.
#[export] Hint Resolve er_bind : erdb.
Lemma er_expression_as_var :
  erases t_expression_as_var expression_as_var.
Proof. intros. unfold t_expression_as_var, expression_as_var. er. Qed.
#[export] Hint Resolve er_expression_as_var : erdb.
Lemma er_graph_pattern_not_triples :
  erases t_graph_pattern_not_triples graph_pattern_not_triples.
Proof. intros. unfold t_graph_pattern_not_triples, graph_pattern_not_triples. er. Qed.
#[export] Hint Resolve er_graph_pattern_not_triples : erdb.
Lemma er_group_graph_pattern_sub :
  erases t_group_graph_pattern_sub group_graph_pattern_sub.
Proof. intros. unfold t_group_graph_pattern_sub, group_graph_pattern_sub. er. Qed.
#[export] Hint Resolve er_group_graph_pattern_sub : erdb.
Lemma er_select_clause :
  erases t_select_clause select_clause.
Proof. intros. unfold t_select_clause, select_clause. er. Qed.
#[export] Hint Resolve er_select_clause : erdb.
Lemma er_sub_select :
  erases t_sub_select sub_select.
Proof. intros. unfold t_sub_select, sub_select. er. Qed.
#[export] Hint Resolve er_sub_select : erdb.
Lemma er_solution_modifier :
  erases t_solution_modifier solution_modifier.
Proof. intros. unfold t_solution_modifier, solution_modifier. er. Qed.
#[export] Hint Resolve er_solution_modifier : erdb.
Lemma er_where_clause :
  erases t_where_clause where_clause.
Proof. intros. unfold t_where_clause, where_clause. er. Qed.
#[export] Hint Resolve er_where_clause : erdb.
Lemma er_order_condition :
  erases t_order_condition order_condition.
Proof. intros. unfold t_order_condition, order_condition. er. Qed.
#[export] Hint Resolve er_order_condition : erdb.
Lemma er_order_clause :
  erases t_order_clause order_clause.
Proof. intros. unfold t_order_clause, order_clause. er. Qed.
#[export] Hint Resolve er_order_clause : erdb.
Lemma er_group_clause :
  erases t_group_clause group_clause.
Proof. intros. unfold t_group_clause, group_clause. er. Qed.
#[export] Hint Resolve er_group_clause : erdb.
Lemma er_having_clause :
  erases t_having_clause having_clause.
Proof. intros. unfold t_having_clause, having_clause. er. Qed.
#[export] Hint Resolve er_having_clause : erdb.
Lemma er_select_query :
  erases t_select_query select_query.
Proof. intros. unfold t_select_query, select_query. er. Qed.
#[export] Hint Resolve er_select_query : erdb.
Lemma er_ask_query :
  erases t_ask_query ask_query.
Proof. intros. unfold t_ask_query, ask_query. er. Qed.
#[export] Hint Resolve er_ask_query : erdb.
Lemma er_describe_query :
  erases t_describe_query describe_query.
Proof. intros. unfold t_describe_query, describe_query. er. Qed.
#[export] Hint Resolve er_describe_query : erdb.
Lemma er_sub_triples :
  erases t_sub_triples sub_triples.
Proof. intros. unfold t_sub_triples, sub_triples. er. Qed.
#[export] Hint Resolve er_sub_triples : erdb.
Lemma er_sub_construct :
  erases t_sub_construct sub_construct.
Proof. intros. unfold t_sub_construct, sub_construct. er. Qed.
#[export] Hint Resolve er_sub_construct : erdb.
Lemma er_construct_query :
  erases t_construct_query construct_query.
Proof. intros. unfold t_construct_query, construct_query. er. Qed.
#[export] Hint Resolve er_construct_query : erdb.
Lemma er_sparql_query :
  erases t_sparql_query sparql_query.
Proof. intros. unfold t_sparql_query, sparql_query. er. Qed.
#[export] Hint Resolve er_sparql_query : erdb.
Lemma er_sparql_query_stmt :
  erases t_sparql_query_stmt sparql_query_stmt.
Proof. intros. unfold t_sparql_query_stmt, sparql_query_stmt. er. Qed.
#[export] Hint Resolve er_sparql_query_stmt : erdb.
Lemma er_modify_stmt :
  erases t_modify_stmt modify_stmt.
Proof. intros. unfold t_modify_stmt, modify_stmt. er. Qed.
#[export] Hint Resolve er_modify_stmt : erdb.
Lemma er_update_stmt :
  erases t_update_stmt update_stmt.
Proof. intros. unfold t_update_stmt, update_stmt. er. Qed.
#[export] Hint Resolve er_update_stmt : erdb.
Lemma er_update_body (u : cparser Update) (u' : parser Update) :
  erases u u' -> erases (t_update_body u) (update_body u').
Proof. intros. unfold t_update_body, update_body. er. Qed.
#[export] Hint Resolve er_update_body : erdb.
Lemma er_update :
  erases t_update update.
Proof. intros. unfold t_update, update. er. Qed.
