(** Specification side: the size of a tree.

    This file does not mention the parsers.  [size_x tree] counts one for every value of a struct or enum, one for every
    element of a list, and one for every character of a name or literal.  Numbers and booleans are of fixed size and part
    of the value that holds them.  Expressions and groups nested deeper than [n] count as [d]. *)
From Verif Require Export Spec.
Open Scope list_scope.
Open Scope nat_scope.

Definition sum {A} (f : A -> nat) : list A -> nat := fix sum l := match l with [] => 0 | a :: l' => 1 + f a + sum l' end.
Definition of_ {A} (f : A -> nat) (o : option A) : nat := match o with Some a => f a | None => 0 end.
Definition chars (s : str) : nat := List.length s.

Definition size_prefixed (n : PrefixedName) : nat :=
  match n with PnameLN p l => 1 + of_ chars p + chars l | PnameNS p => 1 + of_ chars p end.
Definition size_iri (i : Iri) : nat := match i with IriIri s => 1 + chars s | IriPrefixedName p => 1 + size_prefixed p end.
Definition size_var (v : Var) : nat := match v with QMark s => 1 + chars s | Dollar s => 1 + chars s end.
Definition size_blank_node (b : BlankNode) : nat := match b with Anon => 1 | Label s => 1 + chars s end.
Definition size_descriptor (d : RdfLiteralDescriptor) : nat := match d with LangTag s => 1 + chars s | DescIri i => 1 + size_iri i end.
Definition size_literal (l : RdfLiteral) : nat := match l with MkRdfLiteral s d => 1 + chars s + of_ size_descriptor d end.
Definition size_number (n : NumericLiteral) : nat := 1.
Definition size_term (g : GraphTerm) : nat :=
  match g with
  | GtIri i => 1 + size_iri i | GtRdfLiteral l => 1 + size_literal l | GtNumericLiteral n => 1 + size_number n
  | GtBooleanLiteral b => 1 | GtBlankNode b => 1 + size_blank_node b | GtNil => 1
  end.
Definition size_vot (v : VarOrTerm) : nat := match v with VotVar v => 1 + size_var v | VotTerm g => 1 + size_term g end.
Definition size_voi (v : VarOrIri) : nat := match v with VoiVar v => 1 + size_var v | VoiIri i => 1 + size_iri i end.
Definition size_verb (v : Verb) : nat := match v with VerbVarOrIri v => 1 + size_voi v | VerbA => 1 end.
Definition size_targets (v : VarOrIrisOrAll) : nat := match v with VoiList l => 1 + sum size_voi l | VoiAll => 1 end.
Definition size_iri_or_a (i : IriOrA) : nat := match i with IoaIri i => 1 + size_iri i | IoaA => 1 end.
Definition size_caret (i : IriOrAOrCaret) : nat := match i with IocIriOrA i => 1 + size_iri_or_a i | IocCaret i => 1 + size_iri_or_a i end.
Definition size_decl (d : BaseOrPrefixDecl) : nat :=
  match d with DeclBase s => 1 + chars s | DeclPrefix (MkPrefixDecl p s) => 2 + of_ chars p + chars s end.
Definition size_prologue (p : Prologue) : nat := match p with MkPrologue l => 1 + sum size_decl l end.
Definition size_don (d : DefaultOrNamedIri) : nat := match d with DonDefault i => 1 + size_iri i | DonNamed i => 1 + size_iri i end.
Definition size_value (v : DataBlockValue) : nat :=
  match v with
  | DbvIri i => 1 + size_iri i | DbvRdfLiteral l => 1 + size_literal l | DbvNumericLiteral n => 1 + size_number n
  | DbvBooleanLiteral b => 1 | DbvUnDef => 1
  end.
Definition size_datablock (d : DataBlock) : nat :=
  match d with
  | DbOneVar (MkInlineDataOneVar v vs) => 2 + size_var v + sum size_value vs
  | DbFull (MkInlineDataFull vs rows) => 2 + sum size_var vs + sum (sum size_value) rows
  end.
Definition size_limit_offset (l : LimitOffsetClause) : nat := 1.

Fixpoint size_node (g : GraphNode) : nat :=
  match g with GnVarOrTerm v => 1 + size_vot v | GnTriplesNode n => 1 + size_tnode n end
with size_tnode (n : TriplesNode) : nat :=
  match n with TnCollection c => 1 + size_collection c | TnBlankNodePropertyList p => 1 + size_plist p end
with size_collection (c : Collection) : nat := match c with MkCollection l => 1 + sum size_node l end
with size_plist (p : PropertyList) : nat := match p with MkPropertyList l => 1 + sum size_verb_list l end
with size_verb_list (v : VerbList) : nat := match v with MkVerbList v o => 1 + size_verb v + size_objects o end
with size_objects (o : ObjectList) : nat := match o with MkObjectList l => 1 + sum size_node l end.
Definition size_tss (t : TriplesSameSubject) : nat :=
  match t with TssTerm v p => 1 + size_vot v + size_plist p | TssNode n p => 1 + size_tnode n + of_ size_plist p end.
Definition size_template (l : TriplesTemplate) : nat := sum size_tss l.

Definition size_one (i : PathOneInPropertySet) : nat := match i with MkPathOneInPropertySet i => 1 + size_caret i end.
Definition size_negated (n : PathNegatedPropertySet) : nat := match n with MkPathNegatedPropertySet l => 1 + sum size_one l end.
Fixpoint size_path (p : PathAlternative) : nat := match p with MkPathAlternative l => 1 + sum size_sequence l end
with size_sequence (p : PathSequence) : nat := match p with MkPathSequence l => 1 + sum size_elt_or_inverse l end
with size_elt_or_inverse (p : PathEltOrInverse) : nat := match p with PeiPathElt p => 1 + size_elt p | PeiInverse p => 1 + size_elt p end
with size_elt (p : PathElt) : nat := match p with MkPathElt p m => 1 + size_path_primary p + of_ (fun _ => 1) m end
with size_path_primary (p : PathPrimary) : nat :=
  match p with PpIri i => 1 + size_iri i | PpA => 1 | PpNegated s => 1 + size_negated s | PpPath p => 1 + size_path p end.
Definition size_verb_path (v : VerbPathOrSimple) : nat := match v with VpsPath p => 1 + size_path p | VpsSimple v => 1 + size_var v end.
Definition size_plpe (e : PropertyListPathEntry) : nat :=
  match e with MkPropertyListPathEntry v o => 1 + size_verb_path v + size_objects o end.
Fixpoint size_node_path (g : GraphNodePath) : nat :=
  match g with GnpVarOrTerm v => 1 + size_vot v | GnpTriplesNodePath n => 1 + size_tnode_path n end
with size_tnode_path (n : TriplesNodePath) : nat :=
  match n with TnpCollectionPath l => 1 + sum size_node_path l | TnpBlankNodePropertyListPath p => 1 + size_plist_path p end
with size_plist_path (p : PropertyListPath) : nat :=
  match p with MkPropertyListPath v o es => 1 + size_verb_path v + size_objects_path o + sum size_plpe es end
with size_objects_path (o : ObjectListPath) : nat := match o with MkObjectListPath l => 1 + sum size_node_path l end.
Definition size_tssp (t : TriplesSameSubjectPath) : nat :=
  match t with TsspTerm v p => 1 + size_vot v + size_plist_path p | TsspNode n p => 1 + size_tnode_path n + of_ size_plist_path p end.
Definition size_block (b : TriplesBlock) : nat := match b with MkTriplesBlock l => 1 + sum size_tssp l end.

(** [SE], [SG]: the size of expressions and group graph patterns *)
Section Core.
  Context {E G : Type} (SE : E -> nat) (SG : G -> nat).
  Definition size_args (a : ArgList E) : nat := match a with AlNil => 1 | AlExpression d es => 1 + sum SE es end.
  Definition size_iri_or_fun (i : IriOrFunction E) : nat := match i with MkIriOrFunction i a => 1 + size_iri i + of_ size_args a end.
  Definition size_function_call (f : FunctionCall E) : nat := match f with MkFunctionCall i a => 1 + size_iri i + size_args a end.
  Definition size_expression_list (l : ExpressionList E) : nat := match l with ElNil => 1 | ElList es => 1 + sum SE es end.
  Definition size_expr3 (r : RegexExpression E) : nat := match r with MkRegex a b c => 1 + SE a + SE b + of_ SE c end.
  Definition size_str_replace (r : StrReplaceExpression E) : nat :=
    match r with MkStrReplace a b c d => 1 + SE a + SE b + SE c + of_ SE d end.
  Definition size_distinct (d : DistinctExpression E) : nat := match d with MkDistinctExpression d e => 1 + SE e end.
  Definition size_aggregate (a : Aggregate E) : nat :=
    match a with
    | AgCount (MkCount d t) => 2 + match t with CtAll => 1 | CtExpr e => 1 + SE e end
    | AgSum d | AgMin d | AgMax d | AgAvg d | AgSample d => 1 + size_distinct d
    | AgGroupConcat (MkGroupConcat d s) => 2 + size_distinct d + of_ chars s
    end.
  Definition size_built_in (b : BuiltInCall E G) : nat :=
    match b with
    | BiAggregate a => 1 + size_aggregate a
    | BiStr e | BiLang e | BiDatatype e | BiIri e | BiUri e | BiAbs e | BiCeil e | BiFloor e | BiRound e
    | BiUCase e | BiLCase e | BiEncodeForUri e | BiYear e | BiMonth e | BiDay e | BiHours e | BiMinutes e | BiSeconds e
    | BiTimezone e | BiTz e | BiMD5 e | BiSHA1 e | BiSHA256 e | BiSHA384 e | BiSHA512 e
    | BiIsIri e | BiIsUri e | BiIsBlank e | BiIsLiteral e | BiIsNumeric e => 1 + SE e
    | BiLangMatches a b | BiContains a b | BiStrStarts a b | BiStrEnds a b | BiStrBefore a b | BiStrAfter a b
    | BiStrLang a b | BiStrDt a b | BiSameTerm a b => 1 + SE a + SE b
    | BiBound v => 1 + size_var v
    | BiBnode e => 1 + of_ SE e
    | BiRand | BiNow | BiUUID | BiStrUUID => 1
    | BiConcat l s => 1 + size_expression_list l + size_expr3 s
    | BiStrLen e s => 1 + SE e + size_str_replace s
    | BiCoalesce l => 1 + size_expression_list l
    | BiIf a b c => 1 + SE a + SE b + SE c
    | BiRegex r => 1 + size_expr3 r
    | BiExistsFunc g | BiNotExistsFunc g => 1 + SG g
    end.
  Definition size_primary (p : PrimaryExpression E G) : nat :=
    match p with
    | PeBracketted e => 1 + SE e | PeBuiltInCall b => 1 + size_built_in b | PeIriOrFunction i => 1 + size_iri_or_fun i
    | PeRdfLiteral l => 1 + size_literal l | PeNumericLiteral n => 1 + size_number n | PeBooleanLiteral b => 1 | PeVar v => 1 + size_var v
    end.
  Definition size_unary (u : UnaryExpression E G) : nat :=
    match u with UnNot p => 1 + size_primary p | UnAdd p => 1 + size_primary p | UnSub p => 1 + size_primary p | UnDefault p => 1 + size_primary p end.
  Definition size_mult (m : MultExpression E G) : nat := match m with MuMult u => 1 + size_unary u | MuDiv u => 1 + size_unary u end.
  Definition size_multiplicative (m : MultiplicativeExpression E G) : nat :=
    match m with MkMultiplicative u l => 1 + size_unary u + sum size_mult l end.
  Definition size_add (a : AddExpression E G) : nat :=
    match a with AddAdd m => 1 + size_multiplicative m | AddSub m => 1 + size_multiplicative m | AddNumeric n l => 1 + size_number n + sum size_mult l end.
  Definition size_additive (a : AdditiveExpression E G) : nat :=
    match a with MkAdditive m l => 1 + size_multiplicative m + sum size_add l end.
  Definition size_op (o : OpExpression E G) : nat :=
    match o with
    | OpEQ a => 1 + size_additive a | OpNE a => 1 + size_additive a | OpLT a => 1 + size_additive a | OpGT a => 1 + size_additive a
    | OpLE a => 1 + size_additive a | OpGE a => 1 + size_additive a | OpIN l => 1 + size_expression_list l | OpNIN l => 1 + size_expression_list l
    end.
  Definition size_relational (r : RelationalExpression E G) : nat :=
    match r with MkRelational a o => 1 + size_additive a + of_ size_op o end.
  Definition size_and (c : ConditionalAndExpression E G) : nat := match c with MkConditionalAnd l => 1 + sum size_relational l end.

  Definition size_constraint (c : Constraint E G) : nat :=
    match c with CoBracketted e => 1 + SE e | CoBuiltInCall b => 1 + size_built_in b | CoFunctionCall f => 1 + size_function_call f end.
  Definition size_as_var (x : ExpressionAsVar E) : nat := match x with MkExpressionAsVar e v => 1 + SE e + size_var v end.
  Definition size_as_var_opt (x : ExpressionAsVarOpt E) : nat :=
    match x with MkExpressionAsVarOpt e v => 1 + SE e + of_ size_var v end.
  Definition size_order_condition (o : OrderCondition E G) : nat :=
    match o with OcOrder (MkOrderExpression o e) => 3 + SE e | OcConstraint c => 1 + size_constraint c | OcVar v => 1 + size_var v end.
  Definition size_group_condition (g : GroupCondition E G) : nat :=
    match g with
    | GcBuiltInCall b => 1 + size_built_in b | GcFunctionCall f => 1 + size_function_call f
    | GcExpressionAsVarOpt x => 1 + size_as_var_opt x | GcVar v => 1 + size_var v
    end.
  Definition size_group_clause (g : GroupClause E G) : nat := match g with MkGroupClause l => 1 + sum size_group_condition l end.
  Definition size_order_clause (g : OrderClause E G) : nat := match g with MkOrderClause l => 1 + sum size_order_condition l end.
  Definition size_having_clause (g : HavingClause E G) : nat := match g with MkHavingClause l => 1 + sum size_constraint l end.
  Definition size_modifier (m : SolutionModifier E G) : nat :=
    match m with
    | MkSolutionModifier ob gb h lo =>
        1 + of_ size_group_clause gb + of_ size_having_clause h + of_ size_order_clause ob + of_ size_limit_offset lo
    end.
  Definition size_select_var (v : VarOrExpressionAsVar E) : nat :=
    match v with VoeVar v => 1 + size_var v | VoeExpressionAsVar x => 1 + size_as_var x end.
  Definition size_select_vars (v : SelectVars E) : nat := match v with SvAll => 1 | SvList l => 1 + sum size_select_var l end.
  Definition size_select_clause (s : SelectClause E) : nat := match s with MkSelectClause m v => 1 + of_ (fun _ => 1) m + size_select_vars v end.
  Definition size_sub_select (s : SubSelect E G) : nat :=
    match s with MkSubSelect s w m v => 1 + size_select_clause s + SG w + size_modifier m + of_ size_datablock v end.
  Definition size_pattern (p : GraphPatternNotTriples E G) : nat :=
    match p with
    | GpGroupOrUnion (MkGroupOrUnion l) => 2 + sum SG l
    | GpOptional g => 1 + SG g
    | GpMinus g => 1 + SG g
    | GpGraph (MkGraphGraphPattern v g) => 2 + size_voi v + SG g
    | GpService (MkServiceGraphPattern v s g) => 2 + size_voi v + SG g
    | GpFilter c => 1 + size_constraint c
    | GpBind x => 1 + size_as_var x
    | GpInlineData d => 1 + size_datablock d
    end.
  Definition size_pattern_and_triples (p : GraphPatternAndTriples E G) : nat :=
    match p with MkGraphPatternAndTriples p t => 1 + size_pattern p + of_ size_block t end.
  Definition size_group_sub (g : GroupGraphPatternSub E G) : nat :=
    match g with MkGroupGraphPatternSub t l => 1 + of_ size_block t + sum size_pattern_and_triples l end.
End Core.

Section Knot.
  Context (SE : Expression -> nat) (SG : GroupGraphPattern -> nat).
  Definition size_expression_step (e : Expression) : nat := match e with MkExpression l => 1 + sum (size_and SE SG) l end.
  Definition size_ggp_step (g : GroupGraphPattern) : nat :=
    match g with GgpSubSelect s => 1 + size_sub_select SE SG s | GgpSub s => 1 + size_group_sub SE SG s end.
End Knot.

Section Queries.
  Context (d n : nat).
  (** expressions and groups nested deeper than [n] count as [d] *)
  Fixpoint size_both (n : nat) : (Expression -> nat) * (GroupGraphPattern -> nat) :=
    match n with
    | O => (fun _ => d, fun _ => d)
    | S n => let p := size_both n in (size_expression_step (fst p) (snd p), size_ggp_step (fst p) (snd p))
    end.
  Definition size_expression : Expression -> nat := fst (size_both n).
  Definition size_ggp : GroupGraphPattern -> nat := snd (size_both n).

  Definition size_datasets (l : list DataSetClause) : nat := sum size_don l.
  Definition size_mods : SolutionModifier Expression GroupGraphPattern -> nat := size_modifier size_expression size_ggp.
  Definition size_select_query (q : SelectQuery) : nat :=
    match q with MkSelectQuery s d w m => 1 + size_select_clause size_expression s + size_datasets d + size_ggp w + size_mods m end.
  Definition size_ask_query (q : AskQuery) : nat :=
    match q with MkAskQuery d w m => 1 + size_datasets d + size_ggp w + size_mods m end.
  Definition size_describe_query (q : DescribeQuery) : nat :=
    match q with MkDescribeQuery d v w m => 1 + size_targets v + size_datasets d + of_ size_ggp w + size_mods m end.
  Definition size_construct_query (q : ConstructQuery) : nat :=
    match q with
    | CqSubConstruct (MkSubConstruct (MkConstructTemplate l) d w m) => 3 + sum size_tss l + size_datasets d + size_ggp w + size_mods m
    | CqSubTriples (MkSubTriples d t m) => 2 + size_datasets d + of_ size_template t + size_mods m
    end.
  Definition size_query (q : SparqlQuery) : nat :=
    match q with
    | SqAsk q => 1 + size_ask_query q | SqSelect q => 1 + size_select_query q
    | SqDescribe q => 1 + size_describe_query q | SqConstruct q => 1 + size_construct_query q
    end.
  Definition size_query_stmt (q : SparqlQueryStatement) : nat :=
    match q with MkSparqlQueryStatement p q v => 1 + size_prologue p + size_query q + of_ size_datablock v end.

  Definition size_quads_entry (q : QuadsEntry) : nat :=
    match q with MkQuadsEntry (MkQuadsNotTriples v t) t' => 2 + size_voi v + of_ size_template t + of_ size_template t' end.
  Definition size_quads (q : Quads) : nat :=
    match q with MkQuads f es => 1 + of_ size_template f + sum size_quads_entry es end.
  Definition size_god (g : GraphOrDefault) : nat := match g with GodGraph i => 1 + size_iri i | GodDefault => 1 end.
  Definition size_gra (g : GraphRefAll) : nat := match g with GraGraphRef i => 1 + size_iri i | _ => 1 end.
  Definition size_delete_insert (d : DeleteInsert) : nat :=
    match d with DiDeleteInsert d i => 1 + size_quads d + of_ size_quads i | DiInsert i => 1 + size_quads i end.
  Definition size_update_stmt (u : UpdateStatement) : nat :=
    match u with
    | UsLoad (MkLoad i s g) => 2 + size_iri i + of_ size_iri g
    | UsClear (MkClear s g) => 2 + size_gra g
    | UsDrop (MkDrop s g) => 2 + size_gra g
    | UsCreate (MkCreate s g) => 2 + size_iri g
    | UsAdd (MkAdd s f t) => 2 + size_god f + size_god t
    | UsMove (MkMove s f t) => 2 + size_god f + size_god t
    | UsCopy (MkCopy s f t) => 2 + size_god f + size_god t
    | UsInsertData q => 1 + size_quads q
    | UsDeleteData q => 1 + size_quads q
    | UsDeleteWhere q => 1 + size_quads q
    | UsModify (MkModify i d u w) => 2 + of_ size_iri i + size_delete_insert d + sum size_don u + size_ggp w
    end.
  Fixpoint size_update (u : Update) : nat :=
    match u with MkUpdate p s inner => 1 + size_prologue p + of_ size_update_stmt s + of_ size_update inner end.
End Queries.
