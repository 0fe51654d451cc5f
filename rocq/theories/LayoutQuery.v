(** Specification side: safely laid out queries and updates (continues LayoutExpr.v). *)
From Verif Require Export LayoutExpr.
Open Scope N_scope.
Open Scope list_scope.

(** ** Queries *)
Definition W_mods : SolutionModifier Expression GroupGraphPattern -> lang := W_modifier W_expression W_ggp.
Definition W_select_query (q : SelectQuery) : lang :=
  match q with
  | MkSelectQuery s d w m => W_select_clause W_expression s >> gap1 >> W_datasets d >> gap >> W_where W_ggp w >> gap >> W_mods m
  end.
Definition W_ask_query (q : AskQuery) : lang :=
  match q with MkAskQuery d w m => word "ask" >> gap1 >> W_datasets d >> gap >> W_where W_ggp w >> gap >> W_mods m end.
(** neither a variable nor an IRI starts here *)
Definition no_target (r : str) : Prop := not_first 63 r /\ not_first 36 r /\ no_iri r.
Definition W_targets (v : VarOrIrisOrAll) : lang :=
  match v with VoiList l => sep1W W_var_or_iri gap1 (nxt1 no_target) l | VoiAll => sym "*" end.
(** departure: a blank follows the targets even at the end of the text *)
Definition W_describe_query (q : DescribeQuery) : lang :=
  match q with
  | MkDescribeQuery d v w m =>
      word "describe" >> gap1 >> W_targets v >> gap1 >> W_datasets d >> gap >>
      optW (fun w => W_where W_ggp w >> gap) (fun r => ~ begins "where" r /\ not_first 123 r) w >> W_mods m
  end.
Definition W_sub_construct (q : SubConstruct) : lang :=
  match q with
  | MkSubConstruct t d w m =>
      W_construct_template t >> gap1 >> W_datasets d >> gap >> W_where W_ggp w >> gap >> W_mods m
  end.
Definition W_sub_triples (q : SubTriples) : lang :=
  match q with
  | MkSubTriples d t m => W_datasets d >> gap >> word "where" >> gap1 >> W_braced_template t >> gap >> W_mods m
  end.
Definition W_construct_query (q : ConstructQuery) : lang :=
  match q with
  | CqSubConstruct q => word "construct" >> gap1 >> W_sub_construct q
  | CqSubTriples q => word "construct" >> gap1 >> W_sub_triples q
  end.
Definition W_query (q : SparqlQuery) : lang :=
  match q with
  | SqAsk q => W_ask_query q
  | SqSelect q => W_select_query q
  | SqDescribe q => W_describe_query q
  | SqConstruct q => W_construct_query q
  end.
(** no blank follows, or there is one and no VALUES after it *)
Definition no_values (r : str) : Prop := solid r \/ nxt1 (fun r => ~ begins "values" r) r.
Definition W_query_stmt (q : SparqlQueryStatement) : lang :=
  match q with
  | MkSparqlQueryStatement p q v => W_prologue p >> gap >> W_query q >> optW (fun v => gap1 >> W_values v) no_values v
  end.

(** ** Updates *)
(** departure: the keyword of the WITH part is WHERE, without a blank after it; without USING clauses
    the blank before the WHERE part would have to stand at two places, so there is no text *)
Definition W_modify (m : ModifyStatement) : lang :=
  match m with
  | MkModify i d u w =>
      optW (fun i => word "where" >> W_iri i >> gap1) (fun r => ~ begins "where" r) i >>
      W_delete_insert d >> gap >>
      sepW W_using gap1 (fun r => ~ begins "using" r) (nxt1 (fun r => ~ begins "using" r)) u >>
      gap1 >> word "where" >> gap1 >> W_ggp w
  end.
(** departure: ADD and MOVE are not read *)
Definition W_update_stmt (u : UpdateStatement) : lang :=
  match u with
  | UsLoad a => W_load a
  | UsClear a => W_clear a
  | UsDrop a => W_drop a
  | UsCreate a => W_create a
  | UsAdd _ | UsMove _ => fun _ _ => False
  | UsCopy a => W_copy a
  | UsInsertData q => W_insert_data q
  | UsDeleteData q => W_delete_data q
  | UsDeleteWhere q => W_delete_where q
  | UsModify m => W_modify m
  end.
Definition stmt_words : list string := ["load"; "clear"; "drop"; "create"; "copy"; "insert"; "delete"; "where"; "offset"]%string.
(** no statement starts here *)
Definition no_stmt (r : str) : Prop := forall k, In k stmt_words -> ~ begins k r.
Fixpoint W_update (u : Update) : lang :=
  match u with
  | MkUpdate p None None => W_prologue p >> ahead (nxt no_stmt)
  | MkUpdate p None (Some _) => fun _ _ => False
  | MkUpdate p (Some s) None => W_prologue p >> gap >> W_update_stmt s >> ahead (nxt (not_first 59))
  | MkUpdate p (Some s) (Some u) => W_prologue p >> gap >> W_update_stmt s >> gap >> sym ";" >> gap >> W_update u
  end.
(** statements separated by [;] *)
Definition W_stmts (ss : list UpdateStatement) : lang := sep1W W_update_stmt (gap >> sym ";" >> gap) (nxt (not_first 59)) ss.
