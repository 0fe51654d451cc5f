(** The syntax trees: the [struct]s and [enum]s of the crate.
    [Box<T>] is modelled as [T], [Vec<T>] as [list T], one-field tuple structs as one-constructor
    inductives.  Constructor names are prefixed where Rust relies on the enum name as qualifier. *)
From Verif Require Export Strings.

Unset Elimination Schemes.

(** src/expression/mod.rs:60-67 [PrefixedName] *)
Inductive PrefixedName :=
| PnameLN (pn_prefix : option str) (pn_local : str)
| PnameNS (pn_prefix : option str).

(** src/expression/mod.rs:44-48 [Iri] *)
Inductive Iri :=
| IriIri (s : str)
| IriPrefixedName (p : PrefixedName).

(** src/expression/mod.rs:69-73 [DefaultOrNamedIri]; also [DataSetClause], src/data.rs:20 *)
Inductive DefaultOrNamedIri :=
| DonDefault (i : Iri)
| DonNamed (i : Iri).
Definition DataSetClause := DefaultOrNamedIri.

(** src/expression/iri.rs:16-20 [IriOrA] *)
Inductive IriOrA := IoaIri (i : Iri) | IoaA.
(** src/expression/iri.rs:10-15 [IriOrAOrCaret] *)
Inductive IriOrAOrCaret := IocIriOrA (i : IriOrA) | IocCaret (i : IriOrA).

(** src/prologue.rs:1-14 [PrefixDecl], [BaseOrPrefixDecl], [Prologue] *)
Inductive PrefixDecl := MkPrefixDecl (pname_ns : option str) (iri_ref : str).
Inductive BaseOrPrefixDecl := DeclBase (s : str) | DeclPrefix (p : PrefixDecl).
Inductive Prologue := MkPrologue (l : list BaseOrPrefixDecl).

(** src/node.rs:39-43 [RdfLiteralDescriptor], 15-19 [RdfLiteral], 45-49 [BlankNode] *)
Inductive RdfLiteralDescriptor := LangTag (s : str) | DescIri (i : Iri).
Inductive RdfLiteral := MkRdfLiteral (literal : str) (descriptor : option RdfLiteralDescriptor).
Inductive BlankNode := Anon | Label (s : str).

(** src/literal.rs:20-28 [StringLiteral] *)
Inductive StringLiteral :=
| SLSimple (s : str)
| SLLanguage (s lang : str)
| SLTyped (s : str).

(** Rust's [f64], without NaN (never produced here): sign, mantissa and exponent of a finite number
    (size m * 2^e, see [SpecF64.binary64]), or an infinity *)
Inductive f64 :=
| Finite (negative : bool) (m : N) (e : Z)
| Infinite (negative : bool).

(** src/literal.rs:64-69 [NumericLiteral] *)
Inductive NumericLiteral :=
| NInt (z : Z)
| NDouble (mantissa : f64) (exponent : option Z).

(** src/arithmetic.rs:71-75 [Sign] *)
Inductive Sign := POS | NEG.

(** src/var.rs:21-25 [Var], 15-19 [VarOrIri], 45-50 [Verb], 39-43 [VarOrIrisOrAll] *)
Inductive Var := QMark (s : str) | Dollar (s : str).
Inductive VarOrIri := VoiVar (v : Var) | VoiIri (i : Iri).
Inductive Verb := VerbVarOrIri (v : VarOrIri) | VerbA.
Inductive VarOrIrisOrAll := VoiList (l : list VarOrIri) | VoiAll.

(** src/graph.rs:36-45 [GraphTerm] *)
Inductive GraphTerm :=
| GtIri (i : Iri)
| GtRdfLiteral (l : RdfLiteral)
| GtNumericLiteral (n : NumericLiteral)
| GtBooleanLiteral (b : bool)
| GtBlankNode (b : BlankNode)
| GtNil.
(** src/var.rs:27-31 [VarOrTerm] *)
Inductive VarOrTerm := VotVar (v : Var) | VotTerm (t : GraphTerm).

(** src/data.rs:40-49 [DataBlockValue], 28-38 [InlineDataOneVar], [InlineDataFull],
    22-26 [DataBlock] *)
Inductive DataBlockValue :=
| DbvIri (i : Iri)
| DbvRdfLiteral (l : RdfLiteral)
| DbvNumericLiteral (n : NumericLiteral)
| DbvBooleanLiteral (b : bool)
| DbvUnDef.
Inductive InlineDataOneVar := MkInlineDataOneVar (var : Var) (values : list DataBlockValue).
Inductive InlineDataFull :=
  MkInlineDataFull (vars : list Var) (data_block_values : list (list DataBlockValue)).
Inductive DataBlock := DbOneVar (d : InlineDataOneVar) | DbFull (d : InlineDataFull).

(** src/graph.rs:67-71 [GraphNode]; src/node.rs:6-13 [ObjectList], [PropertyList], [Collection];
    src/node.rs:51-55 [TriplesNode]; src/var.rs:33-37 [VerbList] *)
Inductive GraphNode :=
| GnVarOrTerm (v : VarOrTerm)
| GnTriplesNode (t : TriplesNode)
with TriplesNode :=
| TnCollection (c : Collection)
| TnBlankNodePropertyList (p : PropertyList)
with Collection := MkCollection (l : list GraphNode)
with PropertyList := MkPropertyList (l : list VerbList)
with VerbList := MkVerbList (verb : Verb) (object_list : ObjectList)
with ObjectList := MkObjectList (l : list GraphNode).

(** src/triple.rs:23-33 [TriplesSameSubject]; 44 [TriplesTemplate] *)
Inductive TriplesSameSubject :=
| TssTerm (var_or_term : VarOrTerm) (property_list : PropertyList)
| TssNode (triples_node : TriplesNode) (property_list : option PropertyList).
Definition TriplesTemplate := list TriplesSameSubject.

(** src/path.rs:91-96 [PathMod]; 119-123 [PathNegatedPropertySet], [PathOneInPropertySet] *)
Inductive PathMod := PmQuestionMark | PmAsterisk | PmPlus.
Inductive PathOneInPropertySet := MkPathOneInPropertySet (i : IriOrAOrCaret).
Inductive PathNegatedPropertySet := MkPathNegatedPropertySet (l : list PathOneInPropertySet).
(** src/path.rs:73-89 [PathAlternative], [PathSequence], [PathEltOrInverse], [PathElt];
    111-117 [PathPrimary] *)
Inductive PathAlternative := MkPathAlternative (l : list PathSequence)
with PathSequence := MkPathSequence (l : list PathEltOrInverse)
with PathEltOrInverse := PeiPathElt (p : PathElt) | PeiInverse (p : PathElt)
with PathElt := MkPathElt (path_primary : PathPrimary) (path_mod : option PathMod)
with PathPrimary :=
| PpIri (i : Iri)
| PpA
| PpNegated (s : PathNegatedPropertySet)
| PpPath (p : PathAlternative).

(** src/path.rs:65-69 [VerbPathOrSimple] *)
Inductive VerbPathOrSimple := VpsPath (p : PathAlternative) | VpsSimple (v : Var).
(** src/path.rs:56-60 [PropertyListPathEntry] *)
Inductive PropertyListPathEntry :=
  MkPropertyListPathEntry (verb : VerbPathOrSimple) (object_list : ObjectList).
(** src/path.rs:25-34 [GraphNodePath], [TriplesNodePath]; 48-54 [PropertyListPath];
    62-63 [ObjectListPath] *)
Inductive GraphNodePath :=
| GnpVarOrTerm (v : VarOrTerm)
| GnpTriplesNodePath (t : TriplesNodePath)
with TriplesNodePath :=
| TnpCollectionPath (l : list GraphNodePath)
| TnpBlankNodePropertyListPath (p : PropertyListPath)
with PropertyListPath :=
  MkPropertyListPath (verb_path_or_simple : VerbPathOrSimple) (object_list_path : ObjectListPath)
    (entries : list PropertyListPathEntry)
with ObjectListPath := MkObjectListPath (l : list GraphNodePath).
(** src/path.rs:36-46 [TriplesSameSubjectPath]; src/triple.rs:41-42 [TriplesBlock] *)
Inductive TriplesSameSubjectPath :=
| TsspTerm (var_or_term : VarOrTerm) (property_list : PropertyListPath)
| TsspNode (triples_node : TriplesNodePath) (property_list : option PropertyListPath).
Inductive TriplesBlock := MkTriplesBlock (l : list TriplesSameSubjectPath).

(** src/clauses.rs:39-43 [LimitOffsetClause]; src/order.rs:12-16 [Order];
    src/query/select.rs:47-51 [SelectModifier] *)
Inductive LimitOffsetClause :=
| LimitOffset (limit : Z) (offset : option Z)
| OffsetLimit (offset : Z) (limit : option Z).
Inductive Order := Asc | Desc.
Inductive SelectModifier := SmDistinct | SmReduced.

(** The mutually recursive core: expressions, calls, aggregates, graph patterns, sub-selects and
    solution modifiers.  In Rust these types are mutually recursive through [Expression] and
    [GroupGraphPattern].  Here every other type takes these two as parameters [E] and [G], and the
    knot is tied by the last definition; this is only a way of writing the same types. *)

(** src/expression/mod.rs:81-88 *)
Inductive ArgList {E : Type} := AlNil | AlExpression (distinct : bool) (expressions : list E).
Arguments ArgList : clear implicits.
(** src/expression/mod.rs:75-79 *)
Inductive IriOrFunction {E : Type} := MkIriOrFunction (iri : Iri) (arg_list : option (ArgList E)).
Arguments IriOrFunction : clear implicits.
(** src/expression/mod.rs:27-31 *)
Inductive ExpressionList {E : Type} := ElNil | ElList (l : list E).
Arguments ExpressionList : clear implicits.
(** src/expression/functions.rs:11-18 ([SubstringExpression] is the same type) *)
Inductive RegexExpression {E : Type} := MkRegex (first second : E) (third : option E).
Arguments RegexExpression : clear implicits.
(** src/expression/functions.rs:20-26 *)
Inductive StrReplaceExpression {E : Type} :=
  MkStrReplace (first second third : E) (fourth : option E).
Arguments StrReplaceExpression : clear implicits.
(** src/expression/mod.rs:90-94 *)
Inductive DistinctExpression {E : Type} := MkDistinctExpression (distinct : bool) (expression : E).
Arguments DistinctExpression : clear implicits.
(** src/aggregate.rs:46-50 *)
Inductive CountTarget {E : Type} := CtAll | CtExpr (e : E).
Arguments CountTarget : clear implicits.
(** src/aggregate.rs:40-44 *)
Inductive Count {E : Type} := MkCount (distinct : bool) (target : CountTarget E).
Arguments Count : clear implicits.
(** src/aggregate.rs:52-56 *)
Inductive GroupConcat {E : Type} := MkGroupConcat (expression : DistinctExpression E) (separator : option str).
Arguments GroupConcat : clear implicits.
(** src/aggregate.rs:15-24 *)
Inductive Aggregate {E : Type} :=
| AgCount (c : Count E)
| AgSum (d : DistinctExpression E)
| AgMin (d : DistinctExpression E)
| AgMax (d : DistinctExpression E)
| AgAvg (d : DistinctExpression E)
| AgSample (d : DistinctExpression E)
| AgGroupConcat (g : GroupConcat E).
Arguments Aggregate : clear implicits.
(** src/call.rs:33-88 *)
Inductive BuiltInCall {E G : Type} :=
| BiAggregate (a : Aggregate E)
| BiStr (e : E)
| BiLang (e : E)
| BiLangMatches (e1 e2 : E)
| BiDatatype (e : E)
| BiBound (v : Var)
| BiIri (e : E)
| BiUri (e : E)
| BiBnode (e : option E)
| BiRand
| BiAbs (e : E)
| BiCeil (e : E)
| BiFloor (e : E)
| BiRound (e : E)
| BiConcat (l : ExpressionList E) (s : RegexExpression E)
| BiStrLen (e : E) (s : StrReplaceExpression E)
| BiUCase (e : E)
| BiLCase (e : E)
| BiEncodeForUri (e : E)
| BiContains (e1 e2 : E)
| BiStrStarts (e1 e2 : E)
| BiStrEnds (e1 e2 : E)
| BiStrBefore (e1 e2 : E)
| BiStrAfter (e1 e2 : E)
| BiYear (e : E)
| BiMonth (e : E)
| BiDay (e : E)
| BiHours (e : E)
| BiMinutes (e : E)
| BiSeconds (e : E)
| BiTimezone (e : E)
| BiTz (e : E)
| BiNow
| BiUUID
| BiStrUUID
| BiMD5 (e : E)
| BiSHA1 (e : E)
| BiSHA256 (e : E)
| BiSHA384 (e : E)
| BiSHA512 (e : E)
| BiCoalesce (l : ExpressionList E)
| BiIf (e1 e2 e3 : E)
| BiStrLang (e1 e2 : E)
| BiStrDt (e1 e2 : E)
| BiSameTerm (e1 e2 : E)
| BiIsIri (e : E)
| BiIsUri (e : E)
| BiIsBlank (e : E)
| BiIsLiteral (e : E)
| BiIsNumeric (e : E)
| BiRegex (r : RegexExpression E)
| BiExistsFunc (g : G)
| BiNotExistsFunc (g : G).
Arguments BuiltInCall : clear implicits.
(** src/expression/mod.rs:33-42 *)
Inductive PrimaryExpression {E G : Type} :=
| PeBracketted (e : E)
| PeBuiltInCall (b : BuiltInCall E G)
| PeIriOrFunction (i : IriOrFunction E)
| PeRdfLiteral (l : RdfLiteral)
| PeNumericLiteral (n : NumericLiteral)
| PeBooleanLiteral (b : bool)
| PeVar (v : Var).
Arguments PrimaryExpression : clear implicits.
(** src/arithmetic.rs:63-69 *)
Inductive UnaryExpression {E G : Type} :=
| UnNot (p : PrimaryExpression E G)
| UnAdd (p : PrimaryExpression E G)
| UnSub (p : PrimaryExpression E G)
| UnDefault (p : PrimaryExpression E G).
Arguments UnaryExpression : clear implicits.
(** src/arithmetic.rs:57-61 *)
Inductive MultExpression {E G : Type} := MuMult (u : UnaryExpression E G) | MuDiv (u : UnaryExpression E G).
Arguments MultExpression : clear implicits.
(** src/arithmetic.rs:51-55 *)
Inductive MultiplicativeExpression {E G : Type} := MkMultiplicative (lhs : UnaryExpression E G) (rhs : list (MultExpression E G)).
Arguments MultiplicativeExpression : clear implicits.
(** src/arithmetic.rs:41-49 *)
Inductive AddExpression {E G : Type} :=
| AddAdd (m : MultiplicativeExpression E G)
| AddSub (m : MultiplicativeExpression E G)
| AddNumeric (numeric : NumericLiteral) (expressions : list (MultExpression E G)).
Arguments AddExpression : clear implicits.
(** src/arithmetic.rs:35-39 *)
Inductive AdditiveExpression {E G : Type} := MkAdditive (lhs : MultiplicativeExpression E G) (rhs : list (AddExpression E G)).
Arguments AdditiveExpression : clear implicits.
(** src/arithmetic.rs:23-33 *)
Inductive OpExpression {E G : Type} :=
| OpEQ (a : AdditiveExpression E G)
| OpNE (a : AdditiveExpression E G)
| OpLT (a : AdditiveExpression E G)
| OpGT (a : AdditiveExpression E G)
| OpLE (a : AdditiveExpression E G)
| OpGE (a : AdditiveExpression E G)
| OpIN (l : ExpressionList E)
| OpNIN (l : ExpressionList E).
Arguments OpExpression : clear implicits.
(** src/arithmetic.rs:14-18 *)
Inductive RelationalExpression {E G : Type} := MkRelational (lhs : AdditiveExpression E G) (rhs : option (OpExpression E G)).
Arguments RelationalExpression : clear implicits.
(** src/arithmetic.rs:20-21 *)
Inductive ConditionalAndExpression {E G : Type} := MkConditionalAnd (l : list (RelationalExpression E G)).
Arguments ConditionalAndExpression : clear implicits.
(** src/call.rs:27-31 *)
Inductive FunctionCall {E : Type} := MkFunctionCall (iri : Iri) (args : ArgList E).
Arguments FunctionCall : clear implicits.
(** src/expression/mod.rs:96-100 *)
Inductive ExpressionAsVar {E : Type} := MkExpressionAsVar (expression : E) (var : Var).
Arguments ExpressionAsVar : clear implicits.
(** src/expression/mod.rs:102-106 *)
Inductive ExpressionAsVarOpt {E : Type} := MkExpressionAsVarOpt (expression : E) (var : option Var).
Arguments ExpressionAsVarOpt : clear implicits.
(** src/expression/functions.rs:28-33 *)
Inductive Constraint {E G : Type} :=
| CoBracketted (e : E)
| CoBuiltInCall (b : BuiltInCall E G)
| CoFunctionCall (f : FunctionCall E).
Arguments Constraint : clear implicits.
(** src/graph.rs:109-110 *)
Inductive GroupOrUnionGraphPattern {G : Type} := MkGroupOrUnion (l : list G).
Arguments GroupOrUnionGraphPattern : clear implicits.
(** src/graph.rs:112-116 *)
Inductive GraphGraphPattern {G : Type} := MkGraphGraphPattern (var_or_iri : VarOrIri) (g : G).
Arguments GraphGraphPattern : clear implicits.
(** src/graph.rs:118-123 *)
Inductive ServiceGraphPattern {G : Type} :=
  MkServiceGraphPattern (var_or_iri : VarOrIri) (silent : bool) (g : G).
Arguments ServiceGraphPattern : clear implicits.
(** src/graph.rs:91-101 *)
Inductive GraphPatternNotTriples {E G : Type} :=
| GpOptional (g : G)
| GpGroupOrUnion (g : GroupOrUnionGraphPattern G)
| GpMinus (g : G)
| GpGraph (g : GraphGraphPattern G)
| GpService (s : ServiceGraphPattern G)
| GpFilter (c : Constraint E G)
| GpBind (e : ExpressionAsVar E)
| GpInlineData (d : DataBlock).
Arguments GraphPatternNotTriples : clear implicits.
(** src/graph.rs:103-107 *)
Inductive GraphPatternAndTriples {E G : Type} :=
  MkGraphPatternAndTriples (graph_pattern : GraphPatternNotTriples E G) (triples : option TriplesBlock).
Arguments GraphPatternAndTriples : clear implicits.
(** src/graph.rs:47-51 *)
Inductive GroupGraphPatternSub {E G : Type} :=
  MkGroupGraphPatternSub (triples_block : option TriplesBlock)
    (graph_pattern_and_triples : list (GraphPatternAndTriples E G)).
Arguments GroupGraphPatternSub : clear implicits.
(** src/var.rs:52-56 *)
Inductive VarOrExpressionAsVar {E : Type} := VoeVar (v : Var) | VoeExpressionAsVar (e : ExpressionAsVar E).
Arguments VarOrExpressionAsVar : clear implicits.
(** src/query/select.rs:41-45 *)
Inductive SelectVars {E : Type} := SvList (l : list (VarOrExpressionAsVar E)) | SvAll.
Arguments SelectVars : clear implicits.
(** src/query/select.rs:35-39 *)
Inductive SelectClause {E : Type} := MkSelectClause (modifier : option SelectModifier) (vars : SelectVars E).
Arguments SelectClause : clear implicits.
(** src/clauses.rs:33-37 *)
Inductive HavingClause {E G : Type} := MkHavingClause (l : list (Constraint E G)).
Arguments HavingClause : clear implicits.
(** src/order.rs:18-22 *)
Inductive OrderExpression {E : Type} := MkOrderExpression (order : Order) (expression : E).
Arguments OrderExpression : clear implicits.
(** src/order.rs:24-29 *)
Inductive OrderCondition {E G : Type} :=
| OcOrder (o : OrderExpression E)
| OcConstraint (c : Constraint E G)
| OcVar (v : Var).
Arguments OrderCondition : clear implicits.
Inductive OrderClause {E G : Type} := MkOrderClause (l : list (OrderCondition E G)).
Arguments OrderClause : clear implicits.
Inductive GroupCondition {E G : Type} :=
| GcBuiltInCall (b : BuiltInCall E G)
| GcFunctionCall (f : FunctionCall E)
| GcExpressionAsVarOpt (e : ExpressionAsVarOpt E)
| GcVar (v : Var).
Arguments GroupCondition : clear implicits.
(** src/group.rs:22-31 *)
Inductive GroupClause {E G : Type} := MkGroupClause (l : list (GroupCondition E G)).
Arguments GroupClause : clear implicits.
(** src/clauses.rs:25-31 (field order of the struct) *)
Inductive SolutionModifier {E G : Type} :=
  MkSolutionModifier (order_by : option (OrderClause E G)) (group_by : option (GroupClause E G))
    (having : option (HavingClause E G)) (limit_offset : option LimitOffsetClause).
Arguments SolutionModifier : clear implicits.
(** src/query/select.rs:27-33 *)
Inductive SubSelect {E G : Type} :=
  MkSubSelect (select_clause : SelectClause E) (where_clause : G)
    (solution_modifier : SolutionModifier E G) (values_clause : option DataBlock).
Arguments SubSelect : clear implicits.

(** src/expression/mod.rs:24-25 [Expression] *)
Inductive Expression := MkExpression (l : list (ConditionalAndExpression Expression GroupGraphPattern))
(** src/graph.rs:73-77 *)
with GroupGraphPattern :=
| GgpSubSelect (s : SubSelect Expression GroupGraphPattern)
| GgpSub (g : GroupGraphPatternSub Expression GroupGraphPattern).

(** src/query/select.rs:19-25; ask.rs:11-16; describe.rs:16-22; construct.rs:22-44 *)
Inductive SelectQuery :=
  MkSelectQuery (select_clause : SelectClause Expression) (dataset_clauses : list DataSetClause)
    (where_clause : GroupGraphPattern) (solution_modifier : SolutionModifier Expression GroupGraphPattern).
Inductive AskQuery :=
  MkAskQuery (dataset_clauses : list DataSetClause) (where_clause : GroupGraphPattern)
    (solution_modifier : SolutionModifier Expression GroupGraphPattern).
Inductive DescribeQuery :=
  MkDescribeQuery (dataset_clauses : list DataSetClause) (var_or_iris_or_all : VarOrIrisOrAll)
    (where_clause : option GroupGraphPattern) (solution_modifier : SolutionModifier Expression GroupGraphPattern).
Inductive ConstructTemplate := MkConstructTemplate (l : list TriplesSameSubject).
Inductive SubConstruct :=
  MkSubConstruct (construct_template : ConstructTemplate) (dataset_clauses : list DataSetClause)
    (where_clause : GroupGraphPattern) (solution_modifier : SolutionModifier Expression GroupGraphPattern).
Inductive SubTriples :=
  MkSubTriples (dataset_clauses : list DataSetClause) (triples_template : option TriplesTemplate)
    (solution_modifier : SolutionModifier Expression GroupGraphPattern).
Inductive ConstructQuery := CqSubConstruct (s : SubConstruct) | CqSubTriples (s : SubTriples).
(** src/query/mod.rs:14-27 *)
Inductive SparqlQuery :=
| SqAsk (q : AskQuery)
| SqSelect (q : SelectQuery)
| SqDescribe (q : DescribeQuery)
| SqConstruct (q : ConstructQuery).
Inductive SparqlQueryStatement :=
  MkSparqlQueryStatement (prologue : Prologue) (query : SparqlQuery) (values : option DataBlock).

(** src/quads.rs:24-40 *)
Inductive QuadsNotTriples :=
  MkQuadsNotTriples (var_or_iri : VarOrIri) (triples_template : option TriplesTemplate).
Inductive QuadsEntry :=
  MkQuadsEntry (quads_not_triples : QuadsNotTriples) (triples_template : option TriplesTemplate).
Inductive Quads := MkQuads (first_triple : option TriplesTemplate) (entries : list QuadsEntry).

(** src/graph.rs:53-65 *)
Inductive GraphOrDefault := GodGraph (i : Iri) | GodDefault.
Inductive GraphRefAll := GraGraphRef (i : Iri) | GraDefault | GraNamed | GraAll.

(** src/operations.rs:25-86 *)
Inductive LoadStatement := MkLoad (iri : Iri) (silent : bool) (graph_ref : option Iri).
Inductive ClearStatement := MkClear (silent : bool) (graph_ref_all : GraphRefAll).
Inductive DropStatement := MkDrop (silent : bool) (graph_ref_all : GraphRefAll).
Inductive CreateStatement := MkCreate (silent : bool) (graph_ref : Iri).
Inductive AddStatement := MkAdd (silent : bool) (from to : GraphOrDefault).
Inductive MoveStatement := MkMove (silent : bool) (from to : GraphOrDefault).
Inductive CopyStatement := MkCopy (silent : bool) (from to : GraphOrDefault).
Inductive DeleteInsert := DiDeleteInsert (delete : Quads) (insert : option Quads) | DiInsert (q : Quads).
Inductive ModifyStatement :=
  MkModify (iri : option Iri) (delete_insert : DeleteInsert)
    (using_clauses : list DefaultOrNamedIri) (where_group_graph : GroupGraphPattern).
(** src/update.rs:26-39 *)
Inductive UpdateStatement :=
| UsLoad (s : LoadStatement)
| UsClear (s : ClearStatement)
| UsDrop (s : DropStatement)
| UsCreate (s : CreateStatement)
| UsAdd (s : AddStatement)
| UsMove (s : MoveStatement)
| UsCopy (s : CopyStatement)
| UsInsertData (q : Quads)
| UsDeleteData (q : Quads)
| UsDeleteWhere (q : Quads)
| UsModify (m : ModifyStatement).
(** src/update.rs:19-24 *)
Inductive Update :=
  MkUpdate (prologue : Prologue) (update_stmt : option UpdateStatement)
    (inner_update : option Update).
