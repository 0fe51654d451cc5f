(** Specification side: texts that the standard permits to go on, and where the parsers do not.

    This file does not mention the parsers. *)
From Verif Require Export LayoutQuery.
Open Scope N_scope.
Open Scope list_scope.

(** the statements [ss], each followed by [;]; after them no statement and no declaration that is read *)
Definition W_stmts_then (ss : list UpdateStatement) : lang :=
  manyW (fun s => W_update_stmt s >> gap >> sym ";" >> gap) (fun r => nxt no_stmt r /\ no_decl r) ss.
(** a brace, triples, GRAPH blocks; the last block [q] *)
Definition W_quads_then (f : option TriplesTemplate) (es : list QuadsEntry) (q : QuadsNotTriples) : lang :=
  sym "{" >> gap >> optW (fun f => W_template f >> gap) no_triple f >> manyW W_quads_entry (fun _ => True) es >> W_quads_not_triples q.
(** a query form up to the place of its solution modifiers *)
Definition W_query_head (q : SparqlQuery) : lang :=
  match q with
  | SqAsk (MkAskQuery d w _) => word "ask" >> gap1 >> W_datasets d >> gap >> W_where W_ggp w >> gap
  | SqSelect (MkSelectQuery s d w _) => W_select_clause W_expression s >> gap1 >> W_datasets d >> gap >> W_where W_ggp w >> gap
  | SqDescribe (MkDescribeQuery d v w _) =>
      word "describe" >> gap1 >> W_targets v >> gap1 >> W_datasets d >> gap >>
      optW (fun w => W_where W_ggp w >> gap) (fun r => ~ begins "where" r /\ not_first 123 r) w
  | SqConstruct (CqSubConstruct (MkSubConstruct t d w _)) =>
      word "construct" >> gap1 >> W_construct_template t >> gap1 >> W_datasets d >> gap >> W_where W_ggp w >> gap
  | SqConstruct (CqSubTriples (MkSubTriples d t _)) =>
      word "construct" >> gap1 >> W_datasets d >> gap >> word "where" >> gap1 >> W_braced_template t >> gap
  end.
(** a GROUP BY, HAVING or ORDER BY clause, no blank after its last condition *)
Inductive clause_then : str -> str -> Prop :=
| ct_group l t r : (word "group" >> gap1 >> word "by" >> gap1 >> sep1W (W_group_condition W_expression W_ggp) gap1 solid l) t r -> clause_then t r
| ct_having l t r : (word "having" >> gap1 >> sep1W (W_constraint W_expression W_ggp) gap1 solid l) t r -> clause_then t r
| ct_order l t r : (word "order" >> gap1 >> word "by" >> gap1 >> sep1W (W_order_condition W_expression W_ggp) gap1 solid l) t r -> clause_then t r.
(** the text of an ASK query up to its group *)
Definition W_ask_open : lang := fun t r => exists p, (W_prologue p >> gap >> word "ask" >> gap1) t r.
(** the optional word before the group *)
Definition W_where_word : lang := fun t r => (word "where" >> gap1) t r \/ t = [].
(** the text of a query up to its group; DESCRIBE and CONSTRUCT WHERE are left out *)
Definition W_form_open : lang := fun t r =>
  (exists d, (word "ask" >> gap1 >> W_datasets d >> gap >> W_where_word) t r) \/
  (exists s d, (W_select_clause W_expression s >> gap1 >> W_datasets d >> gap >> W_where_word) t r) \/
  (exists c d, (word "construct" >> gap1 >> W_construct_template c >> gap1 >> W_datasets d >> gap >> W_where_word) t r).
Definition W_query_open : lang := fun t r => exists p, (W_prologue p >> gap >> W_form_open) t r.
