(** Nested calls of STRLEN cost exponentially many calls of [expression]. *)
From Verif Require Import LMods LC8 LDepth2.
From Verif Require Export LCost.
Notation length := List.length (only parsing).
Open Scope N_scope.
Open Scope list_scope.

(** ** lower bounds for the combinators *)
Lemma co_map {A B} (p : cparser A) (f : A -> B) n i : n <= snd (p i) -> n <= snd (t_map p f i).
Proof. unfold t_map. destruct (p i) as [[r a|e] m]; exact (fun H => H). Qed.
Lemma co_opt {A} (p : cparser A) n i : n <= snd (p i) -> n <= snd (t_opt p i).
Proof. unfold t_opt. destruct (p i) as [[r a|[]] m]; exact (fun H => H). Qed.
Lemma co_pair1 {A B} (p : cparser A) (q : cparser B) n i : n <= snd (p i) -> n <= snd (t_pair p q i).
Proof.
  unfold t_pair. destruct (p i) as [[r a|e] m]; [|exact (fun H => H)]. cbn [snd].
  destruct (q r) as [[r' b|e] m']; cbn [snd]; lia.
Qed.
Lemma co_pair2 {A B} (p : cparser A) (q : cparser B) n i r a : fst (p i) = Ok r a -> n <= snd (q r) -> n <= snd (t_pair p q i).
Proof.
  unfold t_pair. destruct (p i) as [x m]; cbn [fst]. intros -> H. destruct (q r) as [[r' b|e] m']; cbn [snd] in *; lia.
Qed.
Lemma co_alt_first {A} (p : cparser A) ps n i : n <= snd (p i) -> n <= snd (t_alt (p :: ps) i).
Proof.
  destruct ps as [|q ps]; [exact (fun H => H)|].
  change (t_alt (p :: q :: ps) i) with
    (match p i with (Err (Error _ _), n) => let (x, m) := t_alt (q :: ps) i in (x, n + m) | r => r end).
  destruct (p i) as [[r a|[]] m]; try exact (fun H => H). destruct (t_alt (q :: ps) i) as [x m']. cbn [snd]. lia.
Qed.
Lemma co_alt_both {A} (p : cparser A) q ps n m i : (exists x k, fst (p i) = Err (Error x k)) ->
  n <= snd (p i) -> m <= snd (t_alt (q :: ps) i) -> n + m <= snd (t_alt (p :: q :: ps) i).
Proof.
  change (t_alt (p :: q :: ps) i) with
    (match p i with (Err (Error _ _), n) => let (x, m) := t_alt (q :: ps) i in (x, n + m) | r => r end).
  destruct (p i) as [x y]; cbn [fst]. intros (z & k & ->). destruct (t_alt (q :: ps) i) as [x' m']. cbn [snd]. lia.
Qed.
Lemma co_alt_next {A} (p : cparser A) q ps m i : (exists x k, fst (p i) = Err (Error x k)) ->
  m <= snd (t_alt (q :: ps) i) -> m <= snd (t_alt (p :: q :: ps) i).
Proof. intros F H. rewrite <- (N.add_0_l m). apply co_alt_both; [exact F | lia | exact H]. Qed.
Lemma co_sepne {A B} (s : cparser B) (p : cparser A) n i : n <= snd (p i) -> n <= snd (t_separated_nonempty_list s p i).
Proof.
  unfold t_separated_nonempty_list. destruct (p i) as [[r a|e] m]; [|exact (fun H => H)].
  destruct (str_eqb r i); [exact (fun H => H)|]. cbn [snd].
  destruct (t_sep_loop (S (length r)) s p r) as [[r' b|e] m']; cbn [snd]; lia.
Qed.
Lemma co_sepl {A B} (s : cparser B) (p : cparser A) n i : n <= snd (p i) -> n <= snd (t_separated_list s p i).
Proof.
  unfold t_separated_list. destruct (p i) as [[r a|[]] m]; try exact (fun H => H).
  destruct (str_eqb r i); [exact (fun H => H)|]. cbn [snd].
  destruct (t_sep_loop (S (length r)) s p r) as [[r' b|e] m']; cbn [snd]; lia.
Qed.

Lemma er_terminated {A B} (p : cparser A) (q : cparser B) p' q' : erases p p' -> erases q q' -> erases (t_terminated p q) (terminated p' q').
Proof. intros P Q. apply er_map, er_pair; assumption. Qed.

(** ** the recursive parsers with their fuel *)
Definition t_body (e : cparser Expression) : cparser Expression := t_expression_body e (t_ggp_of e).
Lemma t_expression_iter k i : (length i < k)%nat -> fst (t_iter k t_body i) = expression i.
Proof.
  intros L. rewrite (er_iter t_body (fun e => expression_body e (ggp_of e))).
  - unfold expression. destruct (fixp_sim_iter true IAny true (fun e => expression_body e (ggp_of e))) with (n := k) (k := k) (i := i) as [E _];
      [intros; now apply sm_expression_knot | lia | lia | symmetry; exact E].
  - intros p p' H. unfold t_body. er.
Qed.

(** ** nested calls are read *)
Definition closing (c : char) : Prop := c = 44 \/ c = 41.
Lemma closing_solid c r : closing c -> solid (c :: r).
Proof. intros [-> | ->]; (split; [cbn; intuition discriminate | discriminate]). Qed.
Lemma calls_first k r : exists c x, calls_text k ++ r = c :: x /\ (c = 49 \/ c = 115).
Proof. destruct k; [exists 49 | exists 115]; cbn; eexists; (split; [reflexivity | tauto]). Qed.
Lemma calls_solid k r : solid (calls_text k ++ r).
Proof.
  destruct (calls_first k r) as (c & x & -> & [-> | ->]); (split; [cbn; intuition discriminate | discriminate]).
Qed.
Definition wrap (x : PrimaryExpression Expression GroupGraphPattern) : Expression :=
  MkExpression [MkConditionalAnd [MkRelational (MkAdditive (MkMultiplicative (UnDefault x) []) []) None]].
Lemma wrap_read c i x r p : closing c -> p = 49 \/ p = 115 -> primary_expression (p :: i) = Ok (c :: r) x ->
  expression (p :: i) = Ok (c :: r) (wrap x).
Proof.
  intros C P H. assert (NE : c :: r <> p :: i) by (destruct C, P; subst; discriminate).
  pose proof (sp_solid _ (closing_solid c r C)) as SP.
  rewrite expression_eq. unfold expression_body. eapply map_ok; [|reflexivity].
  eapply sepne_cons; [eapply (gd_shrinks true INever false); intros k; eapply sim_weaken; [sg|reflexivity ..]|
    eapply (gd_shrinks true IAny true); intros k; sm @conditional_and_expression_of| |exact NE|].
  2:{ apply sep_stop. eapply delimited_fails2; [exact SP|]. destruct C; subst; eexists _, _; reflexivity. }
  eapply map_ok; [|reflexivity].
  eapply sepne_cons; [eapply (gd_shrinks true INever false); intros k; eapply sim_weaken; [sg|reflexivity ..]|
    eapply (gd_shrinks true IAny true); intros k; sm @relational_expression_of| |exact NE|].
  2:{ apply sep_stop. eapply delimited_fails2; [exact SP|]. destruct C; subst; eexists _, _; reflexivity. }
  apply (map_ok _ _ _ _ (MkAdditive (MkMultiplicative (UnDefault x) []) [], None)); [|reflexivity].
  eapply pair_ok.
  2:{ apply opt_none. eapply preceded_fails2; [exact SP|]. destruct C; subst; eexists _, _; reflexivity. }
  apply (map_ok _ _ _ _ (MkMultiplicative (UnDefault x) [], [])); [|reflexivity].
  eapply pair_ok.
  2:{ eapply preceded_ok; [exact SP|]. apply LEval.sepl_nil. destruct C; subst; eexists _, _; reflexivity. }
  apply (map_ok _ _ _ _ (UnDefault x, [])); [|reflexivity].
  eapply pair_ok.
  2:{ eapply preceded_ok; [exact SP|]. apply LEval.sepl_nil. destruct C; subst; eexists _, _; reflexivity. }
  apply alt_next; [apply map_fails, tag0_fails; destruct P; subst; eexists _, _; reflexivity|].
  apply alt_next; [apply map_fails, tag0_fails; destruct P; subst; eexists _, _; reflexivity|].
  apply alt_next; [apply map_fails, tag0_fails; destruct P; subst; eexists _, _; reflexivity|].
  apply alt_first. eapply map_ok; [exact H | reflexivity].
Qed.
Definition one : PrimaryExpression Expression GroupGraphPattern := PeNumericLiteral (NInt 1).
Fixpoint calls_tree (k : nat) : PrimaryExpression Expression GroupGraphPattern :=
  match k with O => one | S k => PeBuiltInCall (BiContains (wrap (calls_tree k)) (wrap one)) end.
Lemma one_read c r : closing c -> primary_expression (49 :: c :: r) = Ok (c :: r) one.
Proof.
  intros C. unfold primary_expression, primary_expression_of.
  apply alt_next; [apply map_fails, bracketted_first; discriminate|].
  apply alt_next; [apply map_fails, built_in_first; reflexivity|].
  apply alt_next; [apply map_fails, map_fails, pair_fails1, iri_fails_first; reflexivity|].
  apply alt_next; [apply map_fails, lit_first; reflexivity|].
  apply alt_first. eapply map_ok; [|reflexivity]. apply (numeric_int 1 [49]).
  - exists [], 1%Z, [49]. repeat split; [constructor | discriminate | repeat constructor | discriminate].
  - destruct C; subst; repeat split; discriminate.
Qed.

Lemma calls_S k r : calls_text (S k) ++ r = s_ "strlen (" ++ calls_text k ++ 44 :: 49 :: 41 :: r.
Proof. cbn [calls_text]. rewrite <- !app_assoc. reflexivity. Qed.
Lemma strlen_tag1 x : solid x -> terminated (tag_no_case (s_ "strlen")) sp1 (s_ "strlen (" ++ x) = Ok (40 :: x) (s_ "strlen").
Proof.
  intros _. eapply terminated_ok; [apply (tnc_ok (s_ "strlen") (s_ "strlen")); reflexivity|].
  apply (sp1_ok [32] (40 :: x)); [split; [exact blank_one|discriminate]|]. split; [cbn; intuition discriminate | discriminate].
Qed.
Lemma strlen_tag x : solid x -> terminated (tag_no_case (s_ "strlen")) sp (s_ "strlen (" ++ x) = Ok (40 :: x) (s_ "strlen").
Proof.
  intros _. eapply terminated_ok; [apply (tnc_ok (s_ "strlen") (s_ "strlen")); reflexivity|].
  apply (sp_ok [32] (40 :: x)); [exact blank_one|]. split; [cbn; intuition discriminate | discriminate].
Qed.
Lemma str_tag x : terminated (tag_no_case (s_ "str")) sp (s_ "strlen (" ++ x) = Ok (s_ "len (" ++ x) (s_ "str").
Proof.
  eapply terminated_ok; [apply (tnc_ok (s_ "str") (s_ "str")); reflexivity|].
  apply sp_solid. split; [cbn; intuition discriminate | discriminate].
Qed.
Lemma calls_primary k : forall c r, closing c -> primary_expression (calls_text k ++ c :: r) = Ok (c :: r) (calls_tree k).
Proof.
  induction k as [|k IH]; intros c r C; [exact (one_read c r C)|]. rewrite calls_S.
  set (u := 44 :: 49 :: 41 :: c :: r).
  assert (E : expression (calls_text k ++ u) = Ok u (wrap (calls_tree k))).
  { pose proof (IH 44 (49 :: 41 :: c :: r) (or_introl eq_refl)) as H. fold u in H.
    destruct (calls_first k u) as (p & x & F & P). rewrite F in *. exact (wrap_read 44 x _ _ p (or_introl eq_refl) P H). }
  assert (E1 : expression (49 :: 41 :: c :: r) = Ok (41 :: c :: r) (wrap one)).
  { apply wrap_read; [right; reflexivity | left; reflexivity|]. apply one_read. now right. }
  pose proof (sp_solid _ (calls_solid k u)) as SP.
  assert (SP' : sp u = Ok u []) by (apply sp_solid, closing_solid; left; reflexivity).
  unfold primary_expression, primary_expression_of.
  apply alt_next; [apply map_fails, bracketted_first; discriminate|].
  apply alt_first. eapply map_ok; [|reflexivity]. unfold built_in_call_of. apply alt_first. unfold built_in_call_1_of.
  apply alt_next; [eexists _, _; reflexivity|].
  apply alt_next; [apply map_fails; eapply preceded_fails2; [apply str_tag|]; eexists _, _; reflexivity|].
  do 13 (apply alt_next; [eexists _, _; reflexivity|]).
  apply alt_next.
  { apply map_fails. eapply preceded_fails2; [apply strlen_tag1, calls_solid|]. apply pair_fails1. eapply preceded_fails2; [reflexivity|].
    eapply terminated_fails2; [eapply delimited_ok; [exact SP|exact E|exact SP']|]. eexists _, _; reflexivity. }
  do 3 (apply alt_next; [eexists _, _; reflexivity|]).
  apply alt_first. apply (map_ok _ _ _ _ (wrap (calls_tree k), wrap one)); [|reflexivity].
  eapply preceded_ok; [apply strlen_tag, calls_solid|]. eapply (delimited_ok _ _ _ _ _ (41 :: c :: r)); [reflexivity| |reflexivity].
  eapply separated_pair_ok; [exact E|eapply delimited_ok; [exact SP'|reflexivity|apply sp_solid; split; [cbn; intuition discriminate | discriminate]]|exact E1].
Qed.
Lemma calls_expression k c r : closing c -> expression (calls_text k ++ c :: r) = Ok (c :: r) (wrap (calls_tree k)).
Proof.
  intros C. pose proof (calls_primary k c r C) as H. destruct (calls_first k (c :: r)) as (p & x & F & P). rewrite F in *.
  exact (wrap_read c x _ _ p C P H).
Qed.

(** ** and cost much *)
Lemma expression_cost (te : cparser Expression) (g : cparser GroupGraphPattern) i n p : p = 49 \/ p = 115 -> n <= snd (t_primary_expression_of te g (p :: i)) -> n <= snd (t_expression_body te g (p :: i)).
Proof.
  intros P H. unfold t_expression_body. apply co_map, co_sepne. unfold t_conditional_and_expression_of. apply co_map, co_sepne.
  unfold t_relational_expression_of. apply co_map, co_pair1. unfold t_additive_expression_of. apply co_map, co_pair1.
  unfold t_multiplicative_expression_of. apply co_map, co_pair1. unfold t_unary_expression_of.
  do 3 (apply co_alt_next; [destruct P; subst; eexists _, _; reflexivity|]). apply co_alt_first, co_map, H.
Qed.
Lemma strlen_cost (te : cparser Expression) (g : cparser GroupGraphPattern) k u x n : fst (te (calls_text k ++ 44 :: u)) = Ok (44 :: u) x -> n <= snd (te (calls_text k ++ 44 :: u)) ->
  n + n <= snd (t_primary_expression_of te g (s_ "strlen (" ++ calls_text k ++ 44 :: u)).
Proof.
  intros E C.
  pose proof (sp_solid _ (calls_solid k (44 :: u))) as SP.
  assert (SP' : sp (44 :: u) = Ok (44 :: u) []) by (apply sp_solid, closing_solid; left; reflexivity).
  assert (T1 : fst (t_terminated (tag_no_case (s_ "strlen")) sp1 (s_ "strlen (" ++ calls_text k ++ 44 :: u)) = Ok (40 :: calls_text k ++ 44 :: u) (s_ "strlen")).
  { rewrite (er_terminated _ _ (tag_no_case (s_ "strlen")) sp1) by er. apply strlen_tag1, calls_solid. }
  assert (T : fst (t_terminated (tag_no_case (s_ "strlen")) sp (s_ "strlen (" ++ calls_text k ++ 44 :: u)) = Ok (40 :: calls_text k ++ 44 :: u) (s_ "strlen")).
  { rewrite (er_terminated _ _ (tag_no_case (s_ "strlen")) sp) by er. apply strlen_tag, calls_solid. }
  set (q := fun i => fst (te i)). assert (Q : erases te q) by (intros i; reflexivity).
  unfold t_primary_expression_of. apply co_alt_next; [eexists _, _; reflexivity|]. apply co_alt_first, co_map.
  unfold t_built_in_call_of. apply co_alt_first. unfold t_built_in_call_1_of.
  apply co_alt_next; [eexists _, _; reflexivity|].
  apply co_alt_next.
  { assert (Er : erases (t_call1 te (s_ "str") (BiStr : _ -> BuiltInCall Expression GroupGraphPattern)) (call1 q (s_ "str") BiStr)) by er.
    rewrite Er. apply (map_fails (preceded_bracketted (s_ "str") q)). eapply preceded_fails2; [apply str_tag|]; eexists _, _; reflexivity. }
  do 13 (apply co_alt_next; [eexists _, _; reflexivity|]).
  apply co_alt_both.
  - assert (Er : erases (t_map (t_preceded_tag1 (s_ "strlen") (t_separated_pair (t_bracketted_expression_of te) sp (t_str_replace_expression_of te))) (fun '(x, s) => BiStrLen x s : BuiltInCall Expression GroupGraphPattern))
      (Nom.map (preceded_tag1 (s_ "strlen") (separated_pair (bracketted_expression_of q) sp (str_replace_expression_of q))) (fun '(x, s) => BiStrLen x s))) by er.
    rewrite Er. apply (map_fails (preceded_tag1 (s_ "strlen") (separated_pair (bracketted_expression_of q) sp (str_replace_expression_of q)))).
    eapply preceded_fails2; [apply strlen_tag1, calls_solid|]. apply pair_fails1. eapply preceded_fails2; [reflexivity|].
    eapply terminated_fails2; [eapply delimited_ok; [exact SP|exact E|exact SP']|]. eexists _, _; reflexivity.
  - apply co_map, co_map. eapply co_pair2; [exact T1|]. apply co_pair1. apply co_map. eapply co_pair2; [reflexivity|].
    apply co_map, co_pair1, co_map. eapply co_pair2; [exact SP|]. apply co_map, co_pair1, C.
  - do 3 (apply co_alt_next; [eexists _, _; reflexivity|]). apply co_alt_first, co_map, co_map. eapply co_pair2; [exact T|].
    apply co_map. eapply co_pair2; [reflexivity|]. apply co_map, co_pair1, co_pair1, C.
Qed.
Lemma tick_cost {A} (p : cparser A) n i : n <= snd (p i) -> n + 1 <= snd (tick p i).
Proof. unfold tick. destruct (p i) as [x m]. cbn [snd]. lia. Qed.
Lemma calls_cost k : forall n c r, closing c -> (length (calls_text k ++ c :: r) < n)%nat ->
  2 ^ N.of_nat k <= snd (t_iter n t_body (calls_text k ++ c :: r)).
Proof.
  induction k as [|k IH]; intros n c r C L; (destruct n as [|n]; [exfalso; lia|]).
  - pose proof (tick_cost (t_body (t_iter n t_body)) 0 (calls_text 0 ++ c :: r) (N.le_0_l _)) as H. cbn [N.of_nat]. rewrite N.pow_0_r.
    exact H.
  - pose proof (IH n 44 (49 :: 41 :: c :: r) (or_introl eq_refl)) as H.
    rewrite calls_S in L |- *. assert (L' : (length (calls_text k ++ 44%N :: 49%N :: 41%N :: c :: r) < n)%nat).
    { rewrite app_length in L. cbn [length s_] in L. change (length (s_ "strlen (")) with 8%nat in L. lia. }
    specialize (H L'). pose proof (t_expression_iter n _ L') as E. rewrite calls_expression in E by (left; reflexivity).
    pose proof (strlen_cost (t_iter n t_body) (t_ggp_of (t_iter n t_body)) k _ _ _ E H) as S.
    rewrite Nat2N.inj_succ, N.pow_succ_r by apply N.le_0_l.
    pose proof (expression_cost (t_iter n t_body) (t_ggp_of (t_iter n t_body)) _ _ 115 (or_intror eq_refl) S) as T.
    pose proof (tick_cost (t_body (t_iter n t_body)) _ _ T) as U. change (t_iter (Datatypes.S n) t_body) with (tick (t_body (t_iter n t_body))).
    eapply N.le_trans; [|exact U]. lia.
Qed.
Lemma calls_t_expression k c r : closing c -> 2 ^ N.of_nat k <= snd (t_expression (calls_text k ++ c :: r)).
Proof. intros C. apply calls_cost; [exact C | lia]. Qed.


(** ** whole queries *)
Definition no_modifiers : SolutionModifier Expression GroupGraphPattern := MkSolutionModifier None None None None.
Definition ask_of (x : GroupGraphPattern) : SparqlQueryStatement :=
  MkSparqlQueryStatement (MkPrologue []) (SqAsk (MkAskQuery [] x no_modifiers)) None.
Lemma ask_tag b : terminated (tag_no_case (s_ "ask")) sp1 (s_ "ASK " ++ 123 :: b) = Ok (123 :: b) (s_ "ASK").
Proof.
  eapply terminated_ok; [apply (tnc_ok (s_ "ask") (s_ "ASK")); reflexivity|]. apply (sp1_ok [32] (123 :: _)); [split; [exact blank_one|discriminate]|apply solid_open].
Qed.
Lemma no_datasets b : terminated (separated_list sp data_set_clause) sp (123 :: b) = Ok (123 :: b) [].
Proof. eapply terminated_ok; [|apply sp_solid, solid_open]. apply LEval.sepl_nil, tag1_fails. eexists _, _; reflexivity. Qed.
Lemma no_prologue b : terminated prologue sp (s_ "ASK " ++ 123 :: b) = Ok (s_ "ASK " ++ 123 :: b) (MkPrologue []).
Proof. eapply terminated_ok; [reflexivity|]. apply (sp_ok []); [exact blank_nil|]. split; [cbn; intuition discriminate | discriminate]. Qed.
Lemma ask_accepts b x : group_graph_pattern (123 :: b) = Ok [] x -> sparql_query_stmt (s_ "ASK " ++ 123 :: b) = Ok [] (ask_of x).
Proof.
  intros R. unfold sparql_query_stmt. apply (map_ok _ _ _ _ (MkPrologue [], (SqAsk (MkAskQuery [] x no_modifiers), None))); [|reflexivity].
  eapply pair_ok; [apply no_prologue|]. eapply (pair_ok _ _ _ []); [|reflexivity]. unfold sparql_query.
  apply alt_next; [apply map_fails, map_fails, pair_fails1, terminated_fails1, map_fails, pair_fails1; eexists _, _; reflexivity|].
  apply alt_next; [apply map_fails, tag1_fails; eexists _, _; reflexivity|].
  apply alt_next; [apply map_fails, map_fails, pair_fails1; eexists _, _; reflexivity|].
  apply alt_first. eapply map_ok; [|reflexivity]. apply (map_ok _ _ _ _ (s_ "ASK", ([], (x, no_modifiers)))); [|reflexivity].
  eapply pair_ok; [apply ask_tag|]. eapply pair_ok; [apply no_datasets|].
  eapply (pair_ok _ _ _ []); [|reflexivity]. eapply (terminated_ok _ _ _ []); [|reflexivity]. eapply preceded_ok; [|exact R].
  apply opt_none, terminated_fails1. eexists _, _; reflexivity.
Qed.
Lemma ask_rejects b : fails group_graph_pattern (123 :: b) -> fails sparql_query_stmt (s_ "ASK " ++ 123 :: b).
Proof.
  intros R. unfold sparql_query_stmt. apply map_fails. eapply pair_fails2; [apply no_prologue|]. apply pair_fails1. unfold sparql_query.
  apply alt_fails_cons; [apply map_fails, map_fails, pair_fails1, terminated_fails1, map_fails, pair_fails1; eexists _, _; reflexivity|].
  apply alt_fails_cons; [apply map_fails, tag1_fails; eexists _, _; reflexivity|].
  apply alt_fails_cons; [apply map_fails, map_fails, pair_fails1; eexists _, _; reflexivity|].
  apply alt_fails_cons; [|apply alt_fails_nil]. apply map_fails, map_fails. eapply pair_fails2; [apply ask_tag|].
  eapply pair_fails2; [apply no_datasets|]. apply pair_fails1, terminated_fails1. eapply preceded_fails2; [|exact R].
  apply opt_none, terminated_fails1. eexists _, _; reflexivity.
Qed.
Lemma ask_cost b n : n <= snd (t_group_graph_pattern (123 :: b)) -> n <= snd (t_sparql_query_stmt (s_ "ASK " ++ 123 :: b)).
Proof.
  intros C. unfold t_sparql_query_stmt. apply co_map. eapply co_pair2.
  { rewrite (er_terminated _ _ prologue sp) by er. apply no_prologue. }
  apply co_pair1. unfold t_sparql_query. do 3 (apply co_alt_next; [eexists _, _; reflexivity|]).
  apply co_alt_first, co_map, co_map. eapply co_pair2.
  { rewrite (er_terminated _ _ (tag_no_case (s_ "ask")) sp1) by er. apply ask_tag. }
  eapply co_pair2.
  { rewrite (er_terminated _ _ (separated_list sp data_set_clause) sp) by er. apply no_datasets. }
  apply co_pair1, co_map, co_pair1. unfold t_where_clause, t_where_clause_of. apply co_map. eapply co_pair2; [reflexivity|exact C].
Qed.

(** ** the query with the nested calls *)
Definition filter_text (k : nat) : str := s_ "FILTER (" ++ calls_text k ++ s_ ") }".
Lemma filter_solid x : solid (s_ "FILTER (" ++ x).
Proof. split; [cbn; intuition discriminate | discriminate]. Qed.
Lemma filter_tag x : terminated (tag_no_case (s_ "filter")) sp1 (s_ "FILTER (" ++ x) = Ok (40 :: x) (s_ "FILTER").
Proof.
  eapply terminated_ok; [apply (tnc_ok (s_ "filter") (s_ "FILTER")); reflexivity|]. apply (sp1_ok [32] (40 :: x)); [split; [exact blank_one|discriminate]|].
  split; [cbn; intuition discriminate | discriminate].
Qed.
Lemma filter_no_block x : fails triples_block (s_ "FILTER (" ++ x).
Proof. eexists _, _; reflexivity. Qed.
Definition filter_tree (k : nat) : GroupGraphPattern :=
  GgpSub (MkGroupGraphPatternSub None [MkGraphPatternAndTriples (GpFilter (CoBracketted (wrap (calls_tree k)))) None]).
Lemma filter_read k : group_graph_pattern (123 :: 32 :: filter_text k) = Ok [] (filter_tree k).
Proof.
  rewrite group_graph_pattern_eq. unfold ggp_body. unfold filter_text. set (x := calls_text k ++ s_ ") }").
  apply (delimited_ok _ _ _ _ (32 :: s_ "FILTER (" ++ x) [125] [] 123 _ 125); [reflexivity| |reflexivity].
  eapply (delimited_ok _ _ _ _ _ [32; 125]); [apply sp_one, filter_solid| |reflexivity].
  apply alt_next; [apply map_fails, map_fails, pair_fails1, map_fails, pair_fails1; eexists _, _; reflexivity|].
  apply alt_first. eapply map_ok; [|reflexivity].
  apply (map_ok _ _ _ _ (None, [MkGraphPatternAndTriples (GpFilter (CoBracketted (wrap (calls_tree k)))) None])); [|reflexivity].
  eapply pair_ok; [apply opt_none, terminated_fails1, filter_no_block|].
  eapply (sepl_cons _ _ _ [32; 125]); [eapply gd_shrinks, gd_sp|eapply (gd_shrinks true IAny true); intros n; sm @ggp_and_triples_of| |discriminate|].
  - apply (map_ok _ _ _ _ (GpFilter (CoBracketted (wrap (calls_tree k))), None)); [|reflexivity].
    eapply (separated_pair_ok _ _ _ _ [32; 125]); [|reflexivity|apply opt_none; eexists _, _; reflexivity].
    unfold graph_pattern_not_triples_of. apply alt_next; [apply map_fails, map_fails, sepne_fails, gg_first; discriminate|].
    apply alt_next; [apply map_fails, tag1_fails; eexists _, _; reflexivity|].
    apply alt_next; [apply map_fails, tag1_fails; eexists _, _; reflexivity|].
    do 2 (apply alt_next; [apply map_fails, map_fails, pair_fails1, terminated_fails1; eexists _, _; reflexivity|]).
    apply alt_first. eapply map_ok; [|reflexivity]. eapply preceded_ok; [apply filter_tag|]. unfold constraint_of. apply alt_first.
    eapply map_ok; [|reflexivity]. eapply (delimited_ok _ _ _ _ _ [41; 32; 125]); [reflexivity| |reflexivity].
    eapply (delimited_ok _ _ _ _ _ [41; 32; 125]); [apply sp_solid, calls_solid| |reflexivity].
    apply calls_expression. right; reflexivity.
  - eapply sep_back; [reflexivity|discriminate|apply close_no_pattern].
Qed.
Lemma filter_cost k : 2 ^ N.of_nat k <= snd (t_group_graph_pattern (123 :: 32 :: filter_text k)).
Proof.
  unfold t_group_graph_pattern, t_ggp_of, t_fixp.
  change (length (123 :: 32 :: filter_text k)) with (S (length (32 :: filter_text k))). set (n := length (32 :: filter_text k)).
  set (tg := t_iter (S n) (t_ggp_body t_expression)).
  change (t_iter (S (S n)) (t_ggp_body t_expression)) with (tick (t_ggp_body t_expression tg)).
  apply N.le_trans with (2 ^ N.of_nat k + 1); [lia|]. apply tick_cost. unfold t_ggp_body, filter_text. set (x := calls_text k ++ s_ ") }").
  apply co_map. eapply co_pair2; [reflexivity|]. apply co_map, co_pair1, co_map. eapply co_pair2; [apply sp_one, filter_solid|].
  apply co_map, co_pair1. apply co_alt_next; [eexists _, _; reflexivity|]. apply co_alt_first, co_map, co_map.
  eapply co_pair2.
  { assert (Er : erases (t_opt (t_terminated t_triples_block sp)) (opt (terminated triples_block sp))) by er. rewrite Er.
    apply opt_none, terminated_fails1, filter_no_block. }
  apply co_sepl, co_map, co_pair1. unfold t_graph_pattern_not_triples_of.
  do 5 (apply co_alt_next; [eexists _, _; reflexivity|]). apply co_alt_first, co_map, co_map. eapply co_pair2.
  { rewrite (er_terminated _ _ (tag_no_case (s_ "filter")) sp1) by er. apply filter_tag. }
  apply co_alt_first, co_map, co_map. eapply co_pair2; [reflexivity|]. apply co_map, co_pair1, co_map. eapply co_pair2; [apply sp_solid, calls_solid|].
  apply co_map, co_pair1. apply calls_t_expression. right; reflexivity.
Qed.

Lemma calls_length k : length (calls_text k) = (11 * k + 1)%nat.
Proof. induction k as [|k IH]; [reflexivity|]. cbn [calls_text]. rewrite !app_length, IH. change (length (s_ "strlen (")) with 8%nat. change (length (s_ ",1)")) with 3%nat. lia. Qed.
Lemma calls_accepted k : length (calls_query k) = (11 * k + 18)%nat /\ sparql_query_stmt (calls_query k) = Ok [] (ask_of (filter_tree k)) /\
  2 ^ N.of_nat k <= snd (t_sparql_query_stmt (calls_query k)).
Proof.
  split; [|split].
  - unfold calls_query. rewrite !app_length, calls_length. change (length (s_ "ASK { FILTER (")) with 14%nat. change (length (s_ ") }")) with 3%nat. lia.
  - exact (ask_accepts (32 :: filter_text k) _ (filter_read k)).
  - exact (ask_cost (32 :: filter_text k) _ (filter_cost k)).
Qed.

(** ** paths that are never closed *)
Lemma path_iter k i : (length i < k)%nat -> fst (t_iter k t_path_alternative_body i) = path_alternative i.
Proof.
  intros L. rewrite (er_iter t_path_alternative_body path_alternative_body).
  - unfold path_alternative. destruct (fixp_sim_iter true IAny true path_alternative_body) with (n := k) (k := k) (i := i) as [E _];
      [intros; now apply sm_path_alternative_body | lia | lia | symmetry; exact E].
  - intros p p' H. er.
Qed.
Lemma er_path_elt pa q : erases pa q -> erases (t_path_elt_or_inverse_of pa) (path_elt_or_inverse_of q).
Proof. intros H. er. Qed.
Lemma er_path_seq pa q : erases pa q -> erases (t_path_sequence_of pa) (path_sequence_of q).
Proof. intros H. er. Qed.
Definition a_elt : PathEltOrInverse := PeiPathElt (MkPathElt (PpIri (IriIri (s_ "a"))) None).
Lemma open_solid k : solid (open_path k).
Proof. destruct k; [exact I|]. split; [cbn; intuition discriminate | discriminate]. Qed.
Lemma bar_solid k : solid (124 :: open_path k).
Proof. split; [cbn; intuition discriminate | discriminate]. Qed.
Lemma a_read q k : path_elt_or_inverse_of q (s_ "<a>|" ++ open_path k) = Ok (124 :: open_path k) a_elt.
Proof.
  unfold path_elt_or_inverse_of. apply alt_first. eapply map_ok; [|reflexivity].
  apply (map_ok _ _ _ _ (PpIri (IriIri (s_ "a")), None)); [|reflexivity]. eapply pair_ok.
  - apply alt_first. eapply map_ok; [|reflexivity]. apply alt_first. eapply map_ok; [|reflexivity].
    apply (iri_ref_ok (s_ "a")). repeat constructor; discriminate.
  - apply opt_none, preceded_fails1, sp1_fails, bar_solid.
Qed.
Lemma bar_read k : delimited sp (tag (s_ "|")) sp (124 :: open_path k) = Ok (open_path k) (s_ "|").
Proof. eapply delimited_ok; [apply sp_solid, bar_solid|reflexivity|apply sp_solid, open_solid]. Qed.

Lemma sepne_one {A B} (s : parser B) (p : parser A) i i1 i2 a b : p i = Ok i1 a -> i1 <> i -> s i1 = Ok i2 b -> i2 <> i1 -> fails p i2 ->
  separated_nonempty_list s p i = Ok i1 [a].
Proof.
  intros E1 N1 E2 N2 (x & e & F). unfold separated_nonempty_list. rewrite E1. apply str_eqb_neq in N1, N2. rewrite N1. cbn [sep_loop].
  rewrite E2, N2, F. reflexivity.
Qed.
Lemma elt_open q k : (k = 0%nat \/ exists j r x, k = S j /\ q (s_ "<a>|" ++ open_path j) = Ok (124 :: r) x) -> fails (path_elt_or_inverse_of q) (open_path k).
Proof.
  intros [-> | (j & r & x & -> & H)]; [eexists _, _; reflexivity|].
  unfold path_elt_or_inverse_of. apply alt_fails_cons; [|apply alt_fails_cons; [|apply alt_fails_nil]].
  2:{ eexists _, _; reflexivity. }
  apply map_fails, map_fails, pair_fails1. unfold path_primary_of. change (open_path (S j)) with (40 :: s_ "<a>|" ++ open_path j).
  do 3 (apply alt_fails_cons; [eexists _, _; reflexivity|]). apply alt_fails_cons; [|apply alt_fails_nil].
  apply map_fails. eapply delimited_fails3; [reflexivity|exact H|eexists _, _; reflexivity].
Qed.
Lemma open_ne k : open_path k <> 124 :: open_path k.
Proof. intros X. apply (f_equal (@length N)) in X. cbn [length] in X. lia. Qed.
Lemma bar_ne k : 124 :: open_path k <> s_ "<a>|" ++ open_path k. Proof. discriminate. Qed.
Lemma sequence_read q k : fails (path_elt_or_inverse_of q) (open_path k) ->
  path_sequence_of q (s_ "<a>|" ++ open_path k) = Ok (124 :: open_path k) (MkPathSequence [a_elt]).
Proof.
  intros F. eapply map_ok; [|reflexivity]. eapply sepne_one; [apply a_read|apply bar_ne|apply bar_read|apply open_ne|exact F].
Qed.
Definition a_path : PathAlternative := MkPathAlternative [MkPathSequence [a_elt]].
Lemma a_path_read k : fails path_elt_or_inverse (open_path k) -> path_alternative (s_ "<a>|" ++ open_path k) = Ok (124 :: open_path k) a_path.
Proof.
  intros F. rewrite path_alternative_eq. unfold path_alternative_body. eapply map_ok; [|reflexivity].
  eapply sepne_one; [|apply bar_ne|apply bar_read|apply open_ne|apply map_fails, sepne_fails, F].
  apply sequence_read, F.
Qed.
Lemma elt_fails k : fails path_elt_or_inverse (open_path k).
Proof.
  induction k as [|k IH]; apply elt_open; [left; reflexivity|]. right. exists k. eexists _, _. split; [reflexivity|]. apply a_path_read, IH.
Qed.
Lemma path_fails k : fails path_alternative (open_path k).
Proof.
  destruct (elt_fails k) as (s & e & F). exists s, e. rewrite path_alternative_eq. unfold path_alternative_body, path_sequence_of, Nom.map, separated_nonempty_list.
  unfold path_elt_or_inverse in F. rewrite F. reflexivity.
Qed.
Lemma co_sepne2 {A B} (s : cparser B) (p : cparser A) i i1 i2 a b n m : fst (p i) = Ok i1 a -> fst (s i1) = Ok i2 b -> i1 <> i -> i2 <> i1 ->
  n <= snd (p i) -> m <= snd (p i2) -> n + m <= snd (t_separated_nonempty_list s p i).
Proof.
  intros E1 E2 N1 N2 C1 C2. unfold t_separated_nonempty_list. destruct (p i) as [x1 m1]. cbn [fst snd] in *. subst x1.
  apply str_eqb_neq in N1. rewrite N1. cbn [t_sep_loop]. destruct (s i1) as [x2 m2]. cbn [fst] in E2. subst x2.
  apply str_eqb_neq in N2. rewrite N2. destruct (p i2) as [[i3 c|[]] m3]; cbn [snd] in *; try lia.
  destruct (str_eqb i3 i1); cbn [snd]; [lia|]. destruct (t_sep_loop _ s p i3) as [[r l|e] m4]; cbn [snd]; lia.
Qed.
Lemma elt_cost k : forall n, (length (open_path k) <= n)%nat ->
  2 ^ N.of_nat k <= 1 + snd (t_path_elt_or_inverse_of (t_iter n t_path_alternative_body) (open_path k)).
Proof.
  induction k as [|k IH]; intros n L; [cbn [N.of_nat]; rewrite N.pow_0_r; lia|].
  rewrite Nat2N.inj_succ, N.pow_succ_r by apply N.le_0_l.
  change (open_path (S k)) with (40 :: s_ "<a>|" ++ open_path k) in *.
  destruct n as [|n]; [exfalso; cbn [length] in L; lia|]. set (pa := t_iter n t_path_alternative_body).
  assert (L' : (length (open_path k) <= n)%nat) by (cbn [length] in L; rewrite app_length in L; lia).
  specialize (IH n L'). fold pa in IH. set (d := snd (t_path_elt_or_inverse_of pa (open_path k))) in *.
  assert (Q : erases pa (fun i => fst (pa i))) by (intros i; reflexivity).
  assert (R : fst (t_path_elt_or_inverse_of pa (s_ "<a>|" ++ open_path k)) = Ok (124 :: open_path k) a_elt).
  { rewrite (er_path_elt pa _ Q). apply a_read. }
  assert (B : fst (t_delimited sp (tag (s_ "|")) sp (124 :: open_path k)) = Ok (open_path k) (s_ "|")).
  { assert (Er : erases (t_delimited sp (tag (s_ "|")) sp) (delimited sp (tag (s_ "|")) sp)) by er. rewrite Er. apply bar_read. }
  assert (C1 : d <= snd (t_path_sequence_of pa (s_ "<a>|" ++ open_path k))).
  { apply co_map. rewrite <- (N.add_0_l d). eapply co_sepne2; [exact R|exact B|apply bar_ne|apply open_ne|lia|apply N.le_refl]. }
  assert (C2 : d <= snd (t_path_sequence_of pa (open_path k))) by (apply co_map, co_sepne, N.le_refl).
  assert (R2 : fst (t_path_sequence_of pa (s_ "<a>|" ++ open_path k)) = Ok (124 :: open_path k) (MkPathSequence [a_elt])).
  { rewrite (er_path_seq pa _ Q). apply sequence_read, elt_open. destruct k as [|k]; [left; reflexivity|]. right. exists k. eexists _, _.
    split; [reflexivity|]. unfold pa. rewrite path_iter; [apply a_path_read, elt_fails|].
    change (open_path (S k)) with (40 :: s_ "<a>|" ++ open_path k) in L'. cbn [length] in L'. lia. }
  assert (C : d + d + 1 <= snd (t_iter (S n) t_path_alternative_body (s_ "<a>|" ++ open_path k))).
  { change (t_iter (S n) t_path_alternative_body) with (tick (t_path_alternative_body pa)). apply tick_cost, co_map.
    eapply co_sepne2; [exact R2|exact B|apply bar_ne|apply open_ne|exact C1|exact C2]. }
  enough (d + d + 1 <= snd (t_path_elt_or_inverse_of (t_iter (S n) t_path_alternative_body) (40 :: s_ "<a>|" ++ open_path k))) by lia.
  unfold t_path_elt_or_inverse_of. apply co_alt_first, co_map, co_map, co_pair1. unfold t_path_primary_of.
  do 3 (apply co_alt_next; [eexists _, _; reflexivity|]). apply co_map, co_map. eapply co_pair2; [reflexivity|].
  apply co_map, co_pair1, C.
Qed.

Lemma path_cost k : 2 ^ N.of_nat k <= snd (t_path_alternative (open_path k)).
Proof.
  unfold t_path_alternative, t_fixp. set (n := length (open_path k)).
  change (t_iter (S n) t_path_alternative_body) with (tick (t_path_alternative_body (t_iter n t_path_alternative_body))).
  pose proof (elt_cost k n (le_n _)) as H. set (d := snd (t_path_elt_or_inverse_of _ _)) in H.
  apply N.le_trans with (d + 1); [lia|]. apply tick_cost, co_map, co_sepne, co_map, co_sepne, N.le_refl.
Qed.
(** [ASK { ?s (<a>|(<a>|] *)
Lemma s_var i : var_or_term (s_ "?s " ++ i) = Ok (32 :: i) (VotVar (QMark (s_ "s"))).
Proof.
  unfold var_or_term. apply alt_first. eapply map_ok; [|reflexivity]. apply (var_ok (QMark (s_ "s")) [] (32 :: i)); [exact blank_nil| |reflexivity].
  assert (E : var_name (s_ "s") = Ok [] (s_ "s")) by reflexivity. now apply var_name_longest in E.
Qed.
Lemma s_solid i : solid (s_ "?s " ++ i).
Proof. split; [cbn; intuition discriminate | discriminate]. Qed.
Lemma no_simple k : fails var (open_path k).
Proof. destruct k; eexists _, _; reflexivity. Qed.
Lemma no_triples k : fails triples_block (s_ "?s " ++ open_path k).
Proof.
  unfold triples_block. apply map_fails, sepne_fails. unfold triples_same_subject_path.
  apply alt_fails_cons; [|apply alt_fails_cons; [|apply alt_fails_nil]]; [|eexists _, _; reflexivity].
  apply map_fails. eapply pair_fails2; [apply s_var|]. eapply preceded_fails2; [apply (sp1_ok [32]); [split; [exact blank_one|discriminate]|apply open_solid]|].
  apply map_fails, pair_fails1, terminated_fails1. apply alt_fails_cons; [apply map_fails, path_fails|]. apply alt_fails_cons; [apply map_fails, no_simple|apply alt_fails_nil].
Qed.

Lemma no_patterns k : fails (ggp_and_triples_of expression group_graph_pattern) (s_ "?s " ++ open_path k).
Proof.
  apply map_fails, pair_fails1. unfold graph_pattern_not_triples_of.
  apply alt_fails_cons; [apply map_fails, map_fails, sepne_fails, gg_first; discriminate|].
  repeat (apply alt_fails_cons; [apply map_fails; first [apply tag1_fails | apply map_fails, pair_fails1, terminated_fails1 | apply pair_fails1, terminated_fails1]; eexists _, _; reflexivity|]).
  apply alt_fails_nil.
Qed.
Lemma path_query_rejected k : fails sparql_query_stmt (s_ "ASK { ?s " ++ open_path k).
Proof.
  change (fails sparql_query_stmt (s_ "ASK " ++ 123 :: 32 :: s_ "?s " ++ open_path k)). apply ask_rejects.
  enough (F : fails (ggp_body expression group_graph_pattern) (123 :: 32 :: s_ "?s " ++ open_path k)).
  { destruct F as (x & e & F). exists x, e. rewrite group_graph_pattern_eq. exact F. }
  eapply (delimited_fails3 _ _ _ _ (32 :: s_ "?s " ++ open_path k) (s_ "?s " ++ open_path k)); [reflexivity| |eexists _, _; reflexivity].
  eapply delimited_ok; [apply sp_one, s_solid| |apply sp_solid, s_solid].
  apply alt_next; [apply map_fails, map_fails, pair_fails1, map_fails, pair_fails1; eexists _, _; reflexivity|].
  apply alt_first. eapply map_ok; [|reflexivity]. apply (map_ok _ _ _ _ (None, [])); [|reflexivity].
  eapply pair_ok; [apply opt_none, terminated_fails1, no_triples|]. apply LEval.sepl_nil, no_patterns.
Qed.
Lemma path_query_cost k : 2 ^ N.of_nat k <= snd (t_sparql_query_stmt (s_ "ASK { ?s " ++ open_path k)).
Proof.
  change (s_ "ASK { ?s " ++ open_path k) with (s_ "ASK " ++ 123 :: 32 :: s_ "?s " ++ open_path k). apply ask_cost.
  unfold t_group_graph_pattern, t_ggp_of, t_fixp. set (n := length _). set (tg := t_iter n (t_ggp_body t_expression)).
  change (t_iter (S n) (t_ggp_body t_expression)) with (tick (t_ggp_body t_expression tg)).
  apply N.le_trans with (2 ^ N.of_nat k + 1); [lia|]. apply tick_cost. unfold t_ggp_body.
  apply co_map. eapply co_pair2; [reflexivity|]. apply co_map, co_pair1, co_map. eapply co_pair2; [apply sp_one, s_solid|].
  apply co_map, co_pair1. apply co_alt_next; [eexists _, _; reflexivity|]. apply co_alt_first, co_map, co_map.
  apply co_pair1, co_opt, co_map, co_pair1. unfold t_triples_block. apply co_map, co_sepne. unfold t_triples_same_subject_path.
  apply co_alt_first, co_map. eapply co_pair2; [apply s_var|]. apply co_map. eapply co_pair2; [apply (sp1_ok [32]); [split; [exact blank_one|discriminate]|apply open_solid]|].
  apply co_map, co_pair1, co_map, co_pair1. unfold t_verb_path_or_simple. apply co_alt_first, co_map, path_cost.
Qed.
Lemma open_length k : length (open_path k) = (5 * k)%nat.
Proof. induction k as [|k IH]; [reflexivity|]. cbn [open_path]. rewrite app_length, IH. change (length (s_ "(<a>|")) with 5%nat. lia. Qed.

(** ** no polynomial bounds the count *)
Lemma pow2_lin n : 2 * n <= 2 ^ n.
Proof.
  induction n as [|n IH] using N.peano_ind; [rewrite N.pow_0_r; lia|]. rewrite N.pow_succ_r by lia.
  destruct (N.eq_dec n 0) as [->|NZ]; [vm_compute; discriminate|]. lia.
Qed.
Lemma beats c d : exists k : nat, c * (30 * N.of_nat k) ^ d < 2 ^ N.of_nat k /\ (1 <= k)%nat.
Proof.
  set (j := 30 * (d + 1) + c). set (m := j + j). exists (N.to_nat (m * (d + 1))). rewrite N2Nat.id.
  assert (J : 30 * (d + 1) <= 2 ^ j /\ c < 2 ^ j /\ m <= 2 ^ j) by (pose proof (pow2_lin j); unfold m in *; unfold j in *; lia).
  destruct J as (J1 & J2 & J3).
  assert (M : 2 ^ m = 2 ^ j * 2 ^ j) by (unfold m; apply N.pow_add_r).
  assert (P : 1 <= 2 ^ j) by lia.
  assert (M1 : 30 * (m * (d + 1)) <= 2 ^ m).
  { rewrite M. replace (30 * (m * (d + 1))) with (30 * (d + 1) * m) by lia. apply N.mul_le_mono; assumption. }
  assert (M2 : c < 2 ^ m) by (rewrite M; nia).
  split; [|unfold m, j; nia].
  rewrite N.pow_mul_r. replace ((2 ^ m) ^ (d + 1)) with (2 ^ m * (2 ^ m) ^ d) by (rewrite <- N.pow_succ_r by lia; f_equal; lia).
  apply N.le_lt_trans with (c * (2 ^ m) ^ d); [apply N.mul_le_mono_l, N.pow_le_mono_l, M1|].
  apply N.mul_lt_mono_pos_r; [|exact M2]. assert ((2 ^ m) ^ d <> 0) by (apply N.pow_nonzero; lia). lia.
Qed.
Lemma accepted_beyond c d : exists i q, sparql_query_stmt i = Ok [] q /\ c * N.of_nat (length i) ^ d < snd (t_sparql_query_stmt i).
Proof.
  destruct (beats c d) as (k & B & K). destruct (calls_accepted k) as (L & E & C). exists (calls_query k). eexists. split; [exact E|].
  eapply N.le_lt_trans; [|eapply N.lt_le_trans; [exact B|exact C]]. apply N.mul_le_mono_l, N.pow_le_mono_l. rewrite L. lia.
Qed.
Lemma rejected_beyond c d : exists i, (exists x e, sparql_query_stmt i = Err (Error x e)) /\ c * N.of_nat (length i) ^ d < snd (t_sparql_query_stmt i).
Proof.
  destruct (beats c d) as (k & B & K). exists (s_ "ASK { ?s " ++ open_path k). split; [exact (path_query_rejected k)|].
  eapply N.le_lt_trans; [|eapply N.lt_le_trans; [exact B|apply path_query_cost]]. apply N.mul_le_mono_l, N.pow_le_mono_l.
  rewrite app_length, open_length. change (length (s_ "ASK { ?s ")) with 9%nat. lia.
Qed.
