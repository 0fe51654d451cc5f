(** For the examples: [lay] shows by computation that a concrete text is laid out as required. *)
From Verif Require Export LC8 LEx.
Notation length := List.length (only parsing).
Open Scope N_scope.
Open Scope list_scope.

Lemma then_re P Q S t r : (P >> Q >> S) t r -> ((P >> Q) >> S) t r.
Proof. apply then_l. Qed.
Lemma starts_other_by cs c r : existsb (N.eqb c) cs = false -> starts_other cs (c :: r).
Proof.
  intros H. exists c, r. split; [reflexivity|]. intros I. assert (X : existsb (N.eqb c) cs = true); [|congruence].
  apply existsb_exists. exists c. split; [exact I|apply N.eqb_refl].
Qed.
Lemma no_add_by r : match r with [] => true | c :: _ => negb (existsb (N.eqb c) (s_ "+-.0123456789")) end = true -> no_add r.
Proof.
  intros H c r' ->. apply negb_true_iff in H. intros I. assert (X : existsb (N.eqb c) (s_ "+-.0123456789") = true); [|congruence].
  apply existsb_exists. exists c. split; [exact I|apply N.eqb_refl].
Qed.
Lemma no_firsts_by cs r : match r with [] => true | c :: _ => negb (existsb (N.eqb c) cs) end = true -> forall c, In c cs -> not_first c r.
Proof.
  intros H c I. destruct r as [|d r]; [exact Logic.I|]. cbn. intros ->. apply negb_true_iff in H. assert (X : existsb (N.eqb c) cs = true); [|congruence].
  apply existsb_exists. exists c. split; [exact I|apply N.eqb_refl].
Qed.
Lemma no_word1_by k i p e : low_ascii (s_ k) = true -> tag_no_case (s_ k) i = Err (Error p e) -> no_word1 k i.
Proof. intros K H w b v -> Hw. rewrite (tnc_ok (s_ k)) in H by assumption. discriminate. Qed.
Lemma no_begins_by k i p e : low_ascii (s_ k) = true -> tag_no_case (s_ k) i = Err (Error p e) -> ~ begins k i.
Proof. intros K H (w & x & -> & Hw). rewrite (tnc_ok (s_ k)) in H by assumption. discriminate. Qed.
Lemma no_named_by k i p e : low_ascii (s_ k) = true -> tag_no_case (s_ k) i = Err (Error p e) ->
  forall w b v, i = w ++ b ++ v -> kw k w -> blank1 b -> no_iri v.
Proof. intros K H w b v E Hw _. exfalso. apply (no_begins_by _ _ _ _ K H). exists w, (b ++ v). auto. Qed.
Lemma no_stmt_by i : forallb (fun k => low_ascii (s_ k) && match tag_no_case (s_ k) i with Err (Error _ _) => true | _ => false end) stmt_words = true -> no_stmt i.
Proof.
  intros H k I. rewrite forallb_forall in H. specialize (H k I). apply andb_true_iff in H. destruct H as [H1 H2].
  destruct (tag_no_case (s_ k) i) as [|e] eqn:E; [discriminate|]. destruct e; try discriminate. eapply no_begins_by; eassumption.
Qed.
Lemma limit_by l t r : limit_offset_clause (t ++ r) = Ok r l -> lo_follow l r -> W_limit_offset l t r.
Proof.
  intros H F. split; [|exact F]. apply sd_limit_offset_clause in H. destruct H as (u & E & H). apply app_inv_tail in E. now subst u.
Qed.
Lemma string_by s t r : string_literal (t ++ r) = Ok r s -> tok (R_string s) t r.
Proof.
  intros H. apply string_literal_iff in H. destruct H as (q & Q & E & B & N). exists q. split; [exact Q|]. split; [|auto].
  apply (app_same _ _ r). rewrite E. cbn. now rewrite <- app_assoc.
Qed.
(** the number of characters of [t] that [p] takes from [t ++ r] *)
Definition took {A} (p : parser A) (t r : str) : option nat :=
  match p (t ++ r) with Ok x _ => Some (length t - (length x - length r))%nat | _ => None end.
Ltac take p t r k := let n := eval vm_compute in (took p t r) in match n with Some ?m => k m end.
Ltac head P := match P with ?f _ => head f | _ => P end.
Ltac unf P := let h := head P in eval cbv beta iota delta [h] in P.
Ltac size P t r k :=
  lazymatch P with
  | (fun u v => ?g u v /\ _) => size g t r k
  | gap => take sp t r k
  | gap1 => take sp1 t r k
  | sym ?s => let n := eval vm_compute in (length (s_ s)) in k n
  | word ?s => let n := eval vm_compute in (length (s_ s)) in k n
  | plain_word ?s => let n := eval vm_compute in (length (s_ s)) in k n
  | W_nil => take nil_ t r k
  | ahead _ => k O
  | W_var _ => take var t r k
  | W_iri _ => take iri t r k
  | W_iri_expr _ => take iri t r k
  | W_numeric _ => take numeric_literal t r k
  | W_rdf_literal _ => take rdf_literal t r k
  | W_boolean _ => take boolean t r k
  | W_var_or_iri _ => take var_or_iri t r k
  | W_var_or_term _ => take var_or_term t r k
  | W_path _ => take path_alternative t r k
  | W_expression _ => take expression t r k
  | W_ggp _ => take group_graph_pattern t r k
  | W_unary _ _ _ => take unary_expression t r k
  | W_primary _ _ _ => take (primary_expression_of expression group_graph_pattern) t r k
  | W_term _ _ _ => take add_expression t r k
  | W_count_target _ _ => take (count_target_of expression) t r k
  | W_built_in _ _ _ => take built_in_call t r k
  | W_triples_block _ => take triples_block t r k
  | W_limit_offset _ => take limit_offset_clause t r k
  | W_where _ _ => take where_clause t r k
  | W_pattern _ _ _ => take (graph_pattern_not_triples_of expression group_graph_pattern) t r k
  | W_pattern_and_triples _ _ _ => take (ggp_and_triples_of expression group_graph_pattern) t r k
  | W_group_sub _ _ _ => take (ggp_sub_of expression group_graph_pattern) t r k
  | W_select_vars _ _ => take (select_vars_of expression) t r k
  | W_template _ => take triples_template t r k
  | W_quads _ => take quads t r k
  | W_quads_pattern _ => take quads_pattern t r k
  | W_construct_template _ => take construct_template t r k
  | W_prologue _ => take prologue t r k
  | W_select_clause _ _ => take select_clause t r k
  | W_modifier _ _ _ => take solution_modifier t r k
  | W_mods _ => take solution_modifier t r k
  | W_default_or_named _ => take default_or_named_iri t r k
  | W_dataset _ => take data_set_clause t r k
  | W_targets _ => take var_or_iris_or_all t r k
  | W_values _ => take inline_data t r k
  | W_datablock _ => take datablock t r k
  | W_query _ => take sparql_query t r k
  | W_update_stmt _ => take update_stmt t r k
  | W_update _ => take update t r k
  | W_delete_insert _ => take delete_insert t r k
  | W_insert_clause _ => take insert_clause t r k
  | W_delete_clause _ => take delete_clause t r k
  | W_graph_ref _ => take graph_ref t r k
  | W_sub_select _ _ _ => take sub_select t r k
  | W_constraint _ _ _ => take (constraint_of expression group_graph_pattern) t r k
  | W_order_condition _ _ _ => take order_condition t r k
  | W_group_condition _ _ _ => take (group_condition_of expression group_graph_pattern) t r k
  | W_expr_as_var _ _ => take (expression_as_var_of expression) t r k
  | W_using _ => take using_clause t r k
  | tok (R_string _) => take string_literal t r k
  | tok (R_mod ?m) => k 1%nat
  end.
Ltac chars := vm_compute; intuition discriminate.
Ltac side :=
  cbv beta; lazymatch goal with
  | |- nxt _ ?r => take sp r (@nil char) ltac:(fun n => apply (nxt_at n); [vr|vr|cbn [skipn app]; side])
  | |- nxt1 _ ?r => take sp1 r (@nil char) ltac:(fun n => apply (nxt1_at n); [vr|vr|cbn [skipn app]; side])
  | |- no_op _ => unfold no_op; side
  | |- starts_other _ _ => apply starts_other_by; vr
  | |- no_add _ => apply no_add_by; vr
  | |- no_word1 _ _ => eapply no_word1_by; vr
  | |- (forall c, In c ?cs -> not_first c _) => apply no_firsts_by; vr
  | |- no_mult _ => split; leaf
  | |- no_args _ => unfold no_args; side
  | |- no_mod _ => unfold no_mod; side
  | |- no_block _ => unfold no_block; side
  | |- mod_end _ => unfold mod_end; side
  | |- (forall w b v, _ = w ++ b ++ v -> kw _ w -> blank1 b -> no_iri v) => eapply no_named_by; vr
  | |- no_decl _ => unfold no_decl; side
  | |- no_target _ => unfold no_target; side
  | |- no_values _ => unfold no_values; side
  | |- no_stmt _ => apply no_stmt_by; vr
  | |- props_end _ => left; side
  | |- objects_end _ => left; side
  | |- template_end _ => left; side
  | |- no_triple _ => unfold no_triple, graph_block; side
  | |- entry_end _ => unfold entry_end, graph_block; side
  | |- closes _ => unfold closes; side
  | |- (_ \/ _) => first [solve [left; side] | right; side]
  | |- (_ /\ _) => split; side
  | |- (exists c r, _ = c :: r /\ c < 128 /\ _) => do 2 eexists; split; [reflexivity|]; split; [vr|chars]
  | |- ~ In _ _ => chars
  | |- ?l <> [] => discriminate
  | |- @eq str _ _ => first [reflexivity|vr]
  | |- True => exact I
  | |- _ => leaf
  end.
Ltac pieces lay :=
  lazymatch goal with
  | |- ((?P >> ?Q) >> ?S) _ _ => apply then_re; pieces lay
  | |- (?P >> ?Q) ?t ?r =>
      first [ size P t r ltac:(fun n => apply (then_at n); cbn [firstn skipn app]; [solve [lay] | lay])
            | let P' := unf P in change ((P' >> Q) t r); pieces lay
            | search lay 0%nat ]
  end
with search lay n :=
  lazymatch goal with
  | |- (_ >> _) ?t _ =>
      let b := eval vm_compute in (Nat.leb n (length t)) in
      lazymatch b with true => first [ apply (then_at n); cbn [firstn skipn app]; [solve [lay] | solve [lay]] | search lay (S n) ] end
  end.
Ltac lay :=
  cbv beta;
  lazymatch goal with
  | |- (_ >> _) _ _ => pieces lay
  | |- ahead _ _ _ => split; [reflexivity|side]
  | |- W_expression _ _ _ => apply (W_expression_intro W_expression W_ggp); [auto|auto|]; unfold expression_layout; lay
  | |- W_ggp _ _ _ => apply (W_ggp_intro W_expression W_ggp); [auto|auto|]; unfold ggp_layout; lay
  | |- W_path _ _ _ => apply (W_path_intro W_path); [auto|]; unfold path_layout; lay
  | |- tok (R_mod _) _ _ => vr
  | |- W_limit_offset _ _ _ => apply limit_by; [vr|cbv beta iota delta [lo_follow]; side]
  | |- tok (R_string _) _ _ => apply string_by; vr
  | |- W_nil _ _ => eexists _, _; repeat split
  | |- many1W _ _ _ _ => first [solve [exists []; lay] | solve [exists [tt]; lay]]
  | |- (exists n : list unit, _) => first [solve [exists []; lay] | solve [exists [tt]; lay]]
  | |- (_ \/ _) => first [solve [left; lay] | solve [right; lay]]
  | |- (_ /\ _) => split; [lay|lay]
  | |- _ => first [ solve [side] | let g := match goal with |- ?G => G end in let g' := unf g in change g'; lay ]
  end.
(** small expressions *)
Definition add1_ u : AdditiveExpression Expression GroupGraphPattern := MkAdditive (MkMultiplicative u []) [].
Definition prim_ p : Expression := MkExpression [MkConditionalAnd [MkRelational (add1_ (UnDefault p)) None]].
Definition var_ s : Expression := prim_ (PeVar (QMark (s_ s))).
Definition un_ s : UnaryExpression Expression GroupGraphPattern := UnDefault (PeVar (QMark (s_ s))).
Ltac go := unfold var_, prim_, un_, add1_; texts; lay.
