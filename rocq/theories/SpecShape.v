(** Specification side: what no tree has.

    This file does not mention the parsers.  [shape_x tree] says, at every depth: the lists the grammar wants to be non-empty
    have a first element, and the nodes named below do not occur.
    - argument and expression lists with members ([AlExpression], [ElList]),
    - collections and property lists in brackets as objects, or as subjects in a group ([GnTriplesNode],
      [GnpTriplesNodePath], [TsspNode]),
    - paths with alternatives, that is with more or fewer than one sequence,
    - [BiAbs], [BiCeil], [BiFloor], [BiRound],
    - operands of a sum after the first that are not products or quotients,
    - numbers below zero that are operands: their sign is an operator,
    - [UsAdd], [UsMove], modifications without USING, and requests that go on without a statement. *)
From Verif Require Export Spec.
Open Scope list_scope.

Definition each {A} (P : A -> Prop) : list A -> Prop := fix each l := match l with [] => True | a :: l => P a /\ each l end.
Definition some_ {A} (P : A -> Prop) (l : list A) : Prop := l <> [] /\ each P l.
Definition if_ {A} (P : A -> Prop) (o : option A) : Prop := match o with Some a => P a | None => True end.

(** ** Triples *)
Definition shape_node (g : GraphNode) : Prop := match g with GnVarOrTerm _ => True | GnTriplesNode _ => False end.
Definition shape_objects (o : ObjectList) : Prop := match o with MkObjectList l => some_ shape_node l end.
Definition shape_verb_list (v : VerbList) : Prop := match v with MkVerbList _ o => shape_objects o end.
Definition shape_plist (p : PropertyList) : Prop := match p with MkPropertyList l => some_ shape_verb_list l end.
Definition shape_tnode (n : TriplesNode) : Prop :=
  match n with TnCollection (MkCollection l) => some_ shape_node l | TnBlankNodePropertyList p => shape_plist p end.
Definition shape_tss (t : TriplesSameSubject) : Prop :=
  match t with TssTerm _ p => shape_plist p | TssNode n p => shape_tnode n /\ if_ shape_plist p end.
Definition shape_template (l : TriplesTemplate) : Prop := some_ shape_tss l.

(** ** Paths *)
Fixpoint shape_path (p : PathAlternative) : Prop :=
  match p with
  | MkPathAlternative l => match l with [MkPathSequence s] => s <> [] /\ each shape_elt_or_inverse s | _ => False end
  end
with shape_elt_or_inverse (p : PathEltOrInverse) : Prop := match p with PeiPathElt p => shape_elt p | PeiInverse p => shape_elt p end
with shape_elt (p : PathElt) : Prop := match p with MkPathElt p _ => shape_path_primary p end
with shape_path_primary (p : PathPrimary) : Prop :=
  match p with PpIri _ | PpA => True | PpNegated (MkPathNegatedPropertySet l) => l <> [] | PpPath p => shape_path p end.
Definition shape_verb_path (v : VerbPathOrSimple) : Prop := match v with VpsPath p => shape_path p | VpsSimple _ => True end.
Definition shape_plpe (e : PropertyListPathEntry) : Prop :=
  match e with MkPropertyListPathEntry v o => shape_verb_path v /\ shape_objects o end.
Definition shape_node_path (g : GraphNodePath) : Prop := match g with GnpVarOrTerm _ => True | GnpTriplesNodePath _ => False end.
Definition shape_objects_path (o : ObjectListPath) : Prop := match o with MkObjectListPath l => some_ shape_node_path l end.
Definition shape_plist_path (p : PropertyListPath) : Prop :=
  match p with MkPropertyListPath v o es => shape_verb_path v /\ shape_objects_path o /\ each shape_plpe es end.
Definition shape_tssp (t : TriplesSameSubjectPath) : Prop := match t with TsspTerm _ p => shape_plist_path p | TsspNode _ _ => False end.
Definition shape_block (b : TriplesBlock) : Prop := match b with MkTriplesBlock l => some_ shape_tssp l end.

(** Zero or above; for doubles, no sign bit. *)
Definition no_sign (n : NumericLiteral) : Prop := match n with NInt z => (0 <= z)%Z | NDouble v _ => negative v = false end.

(** ** Expressions and patterns; [HE], [HG]: the shape of the expressions and groups inside *)
Section Core.
  Context {E G : Type} (HE : E -> Prop) (HG : G -> Prop).
  Definition shape_args (a : ArgList E) : Prop := match a with AlNil => True | AlExpression _ _ => False end.
  Definition shape_expression_list (l : ExpressionList E) : Prop := match l with ElNil => True | ElList _ => False end.
  Definition shape_iri_or_fun (i : IriOrFunction E) : Prop := match i with MkIriOrFunction _ a => if_ shape_args a end.
  Definition shape_function_call (f : FunctionCall E) : Prop := match f with MkFunctionCall _ a => shape_args a end.
  Definition shape_expr3 (r : RegexExpression E) : Prop := match r with MkRegex a b c => HE a /\ HE b /\ if_ HE c end.
  Definition shape_str_replace (r : StrReplaceExpression E) : Prop :=
    match r with MkStrReplace a b c d => HE a /\ HE b /\ HE c /\ if_ HE d end.
  Definition shape_distinct (d : DistinctExpression E) : Prop := match d with MkDistinctExpression _ e => HE e end.
  Definition shape_aggregate (a : Aggregate E) : Prop :=
    match a with
    | AgCount (MkCount _ t) => match t with CtAll => True | CtExpr e => HE e end
    | AgSum d | AgMin d | AgMax d | AgAvg d | AgSample d => shape_distinct d
    | AgGroupConcat (MkGroupConcat d _) => shape_distinct d
    end.
  Definition shape_built_in (b : BuiltInCall E G) : Prop :=
    match b with
    | BiAggregate a => shape_aggregate a
    | BiAbs _ | BiCeil _ | BiFloor _ | BiRound _ => False
    | BiStr e | BiLang e | BiDatatype e | BiIri e | BiUri e
    | BiUCase e | BiLCase e | BiEncodeForUri e | BiYear e | BiMonth e | BiDay e | BiHours e | BiMinutes e | BiSeconds e
    | BiTimezone e | BiTz e | BiMD5 e | BiSHA1 e | BiSHA256 e | BiSHA384 e | BiSHA512 e
    | BiIsIri e | BiIsUri e | BiIsBlank e | BiIsLiteral e | BiIsNumeric e => HE e
    | BiLangMatches a b | BiContains a b | BiStrStarts a b | BiStrEnds a b | BiStrBefore a b | BiStrAfter a b
    | BiStrLang a b | BiStrDt a b | BiSameTerm a b => HE a /\ HE b
    | BiBound _ => True
    | BiBnode e => if_ HE e
    | BiRand | BiNow | BiUUID | BiStrUUID => True
    | BiConcat l s => shape_expression_list l /\ shape_expr3 s
    | BiStrLen e s => HE e /\ shape_str_replace s
    | BiCoalesce l => shape_expression_list l
    | BiIf a b c => HE a /\ HE b /\ HE c
    | BiRegex r => shape_expr3 r
    | BiExistsFunc g | BiNotExistsFunc g => HG g
    end.
  Definition shape_primary (p : PrimaryExpression E G) : Prop :=
    match p with
    | PeBracketted e => HE e | PeBuiltInCall b => shape_built_in b | PeIriOrFunction i => shape_iri_or_fun i
    | PeRdfLiteral _ | PeNumericLiteral _ | PeBooleanLiteral _ | PeVar _ => True
    end.
  Definition shape_unary (u : UnaryExpression E G) : Prop :=
    match u with
    | UnNot p | UnAdd p | UnSub p => shape_primary p
    | UnDefault p => shape_primary p /\ match p with PeNumericLiteral n => no_sign n | _ => True end
    end.
  Definition shape_mult (m : MultExpression E G) : Prop := match m with MuMult u | MuDiv u => shape_unary u end.
  Definition shape_multiplicative (m : MultiplicativeExpression E G) : Prop :=
    match m with MkMultiplicative u l => shape_unary u /\ each shape_mult l end.
  Definition shape_add (a : AddExpression E G) : Prop :=
    match a with
    | AddAdd (MkMultiplicative u l) | AddSub (MkMultiplicative u l) => shape_unary u /\ some_ shape_mult l
    | AddNumeric n l => no_sign n /\ some_ shape_mult l
    end.
  Definition shape_additive (a : AdditiveExpression E G) : Prop :=
    match a with MkAdditive m l => shape_multiplicative m /\ each shape_add l end.
  Definition shape_op (o : OpExpression E G) : Prop :=
    match o with
    | OpEQ a | OpNE a | OpLT a | OpGT a | OpLE a | OpGE a => shape_additive a
    | OpIN l | OpNIN l => shape_expression_list l
    end.
  Definition shape_relational (r : RelationalExpression E G) : Prop :=
    match r with MkRelational a o => shape_additive a /\ if_ shape_op o end.
  Definition shape_and (c : ConditionalAndExpression E G) : Prop := match c with MkConditionalAnd l => some_ shape_relational l end.

  Definition shape_constraint (c : Constraint E G) : Prop :=
    match c with CoBracketted e => HE e | CoBuiltInCall b => shape_built_in b | CoFunctionCall f => shape_function_call f end.
  Definition shape_as_var (x : ExpressionAsVar E) : Prop := match x with MkExpressionAsVar e _ => HE e end.
  Definition shape_as_var_opt (x : ExpressionAsVarOpt E) : Prop := match x with MkExpressionAsVarOpt e _ => HE e end.
  Definition shape_order_condition (o : OrderCondition E G) : Prop :=
    match o with OcOrder (MkOrderExpression _ e) => HE e | OcConstraint c => shape_constraint c | OcVar _ => True end.
  Definition shape_group_condition (g : GroupCondition E G) : Prop :=
    match g with
    | GcBuiltInCall b => shape_built_in b | GcFunctionCall f => shape_function_call f
    | GcExpressionAsVarOpt x => shape_as_var_opt x | GcVar _ => True
    end.
  Definition shape_group_clause (g : GroupClause E G) : Prop := match g with MkGroupClause l => some_ shape_group_condition l end.
  Definition shape_order_clause (g : OrderClause E G) : Prop := match g with MkOrderClause l => some_ shape_order_condition l end.
  Definition shape_having_clause (g : HavingClause E G) : Prop := match g with MkHavingClause l => some_ shape_constraint l end.
  Definition shape_modifier (m : SolutionModifier E G) : Prop :=
    match m with
    | MkSolutionModifier ob gb h _ => if_ shape_group_clause gb /\ if_ shape_having_clause h /\ if_ shape_order_clause ob
    end.
  Definition shape_select_var (v : VarOrExpressionAsVar E) : Prop :=
    match v with VoeVar _ => True | VoeExpressionAsVar x => shape_as_var x end.
  Definition shape_select_vars (v : SelectVars E) : Prop := match v with SvAll => True | SvList l => some_ shape_select_var l end.
  Definition shape_select_clause (s : SelectClause E) : Prop := match s with MkSelectClause _ v => shape_select_vars v end.
  Definition shape_sub_select (s : SubSelect E G) : Prop :=
    match s with MkSubSelect s w m _ => shape_select_clause s /\ HG w /\ shape_modifier m end.
  Definition shape_pattern (p : GraphPatternNotTriples E G) : Prop :=
    match p with
    | GpGroupOrUnion (MkGroupOrUnion l) => some_ HG l
    | GpOptional g | GpMinus g => HG g
    | GpGraph (MkGraphGraphPattern _ g) => HG g
    | GpService (MkServiceGraphPattern _ _ g) => HG g
    | GpFilter c => shape_constraint c
    | GpBind x => shape_as_var x
    | GpInlineData _ => True
    end.
  Definition shape_pattern_and_triples (p : GraphPatternAndTriples E G) : Prop :=
    match p with MkGraphPatternAndTriples p t => shape_pattern p /\ if_ shape_block t end.
  Definition shape_group_sub (g : GroupGraphPatternSub E G) : Prop :=
    match g with MkGroupGraphPatternSub t l => if_ shape_block t /\ each shape_pattern_and_triples l end.
End Core.

Section Knot.
  Context (HE : Expression -> Prop) (HG : GroupGraphPattern -> Prop).
  Definition shape_expression_step (e : Expression) : Prop := match e with MkExpression l => some_ (shape_and HE HG) l end.
  Definition shape_ggp_step (g : GroupGraphPattern) : Prop :=
    match g with GgpSubSelect s => shape_sub_select HE HG s | GgpSub s => shape_group_sub HE HG s end.
End Knot.
(** The least predicates closed under the two steps.  ([HE], [HG] stand for parts already known to have the shape, as with
    [R_expression] in Spec.v; [shape_expression_iff] in LShape.v gives the equations.) *)
Inductive shape_expression : Expression -> Prop :=
| shape_expression_intro (HE : Expression -> Prop) (HG : GroupGraphPattern -> Prop) e :
    (forall e, HE e -> shape_expression e) -> (forall g, HG g -> shape_ggp g) -> shape_expression_step HE HG e -> shape_expression e
with shape_ggp : GroupGraphPattern -> Prop :=
| shape_ggp_intro (HE : Expression -> Prop) (HG : GroupGraphPattern -> Prop) g :
    (forall e, HE e -> shape_expression e) -> (forall g, HG g -> shape_ggp g) -> shape_ggp_step HE HG g -> shape_ggp g.

(** ** Queries and updates *)
Definition shape_mods : SolutionModifier Expression GroupGraphPattern -> Prop := shape_modifier shape_expression shape_ggp.
Definition shape_targets (v : VarOrIrisOrAll) : Prop := match v with VoiList l => l <> [] | VoiAll => True end.
Definition shape_query (q : SparqlQuery) : Prop :=
  match q with
  | SqAsk (MkAskQuery _ w m) => shape_ggp w /\ shape_mods m
  | SqSelect (MkSelectQuery s _ w m) => shape_select_clause shape_expression s /\ shape_ggp w /\ shape_mods m
  | SqDescribe (MkDescribeQuery _ v w m) => shape_targets v /\ if_ shape_ggp w /\ shape_mods m
  | SqConstruct (CqSubConstruct (MkSubConstruct (MkConstructTemplate l) _ w m)) => each shape_tss l /\ shape_ggp w /\ shape_mods m
  | SqConstruct (CqSubTriples (MkSubTriples _ t m)) => if_ shape_template t /\ shape_mods m
  end.
Definition shape_query_stmt (q : SparqlQueryStatement) : Prop := match q with MkSparqlQueryStatement _ q _ => shape_query q end.

Definition shape_quads_entry (q : QuadsEntry) : Prop :=
  match q with MkQuadsEntry (MkQuadsNotTriples _ t) t' => if_ shape_template t /\ if_ shape_template t' end.
Definition shape_quads (q : Quads) : Prop := match q with MkQuads f es => if_ shape_template f /\ each shape_quads_entry es end.
Definition shape_delete_insert (d : DeleteInsert) : Prop :=
  match d with DiDeleteInsert d i => shape_quads d /\ if_ shape_quads i | DiInsert i => shape_quads i end.
Definition shape_update_stmt (u : UpdateStatement) : Prop :=
  match u with
  | UsLoad _ | UsClear _ | UsDrop _ | UsCreate _ | UsCopy _ => True
  | UsAdd _ | UsMove _ => False
  | UsInsertData q | UsDeleteData q | UsDeleteWhere q => shape_quads q
  | UsModify (MkModify _ d u w) => shape_delete_insert d /\ u <> [] /\ shape_ggp w
  end.
Fixpoint shape_update (u : Update) : Prop :=
  match u with
  | MkUpdate _ (Some s) inner => shape_update_stmt s /\ if_ shape_update inner
  | MkUpdate _ None inner => inner = None
  end.
