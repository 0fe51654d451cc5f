(** Specification side: the solution modifiers of a query. *)
From Verif Require Export Ast.
From Coq Require Import String List.
Import ListNotations.
Open Scope list_scope.

(** the solution modifiers written at the end of a query *)
Definition mods_of (q : SparqlQuery) : SolutionModifier Expression GroupGraphPattern :=
  match q with
  | SqAsk (MkAskQuery _ _ m) => m
  | SqSelect (MkSelectQuery _ _ _ m) => m
  | SqDescribe (MkDescribeQuery _ _ _ m) => m
  | SqConstruct (CqSubConstruct (MkSubConstruct _ _ _ m)) => m
  | SqConstruct (CqSubTriples (MkSubTriples _ _ m)) => m
  end.
Definition order_of (q : SparqlQuery) := match mods_of q with MkSolutionModifier ob _ _ _ => ob end.
Definition group_of (q : SparqlQuery) := match mods_of q with MkSolutionModifier _ gb _ _ => gb end.
Definition having_of (q : SparqlQuery) := match mods_of q with MkSolutionModifier _ _ h _ => h end.
Definition limit_of (q : SparqlQuery) := match mods_of q with MkSolutionModifier _ _ _ lo => lo end.
(** one of LIMIT and OFFSET is given, the other not *)
Definition single (lo : LimitOffsetClause) : Prop :=
  match lo with LimitOffset _ None | OffsetLimit _ None => True | _ => False end.
(** the keywords a statement may start with (departure: see [R_modify]) *)
Definition stmt_keys (u : UpdateStatement) : list string :=
  match u with
  | UsLoad _ => ["load"] | UsClear _ => ["clear"] | UsDrop _ => ["drop"] | UsCreate _ => ["create"]
  | UsAdd _ => ["add"] | UsMove _ => ["move"] | UsCopy _ => ["copy"]
  | UsInsertData _ => ["insert"] | UsDeleteData _ => ["delete"] | UsDeleteWhere _ => ["delete"]
  | UsModify _ => ["where"; "offset"; "insert"]
  end%string.
(** the statements of a request, in order *)
Fixpoint statements (u : Update) : list UpdateStatement :=
  match u with
  | MkUpdate _ o n =>
      match o with Some s => [s] | None => [] end ++ match n with Some u' => statements u' | None => [] end
  end.
