(** Specification side: the names, literals and numbers of a tree, in the order of the text.

    This file does not mention the parsers.  [leaves_x tree] lists the pieces of the tree that are copied or
    computed from the text: names, IRIs, literals, labels and language tags ([Name], with their kind), numbers ([Number], [Count])
    and booleans ([Truth]).  [spread l t]: the pieces of [l] stand in the text [t], in this order and without overlap. *)
From Verif Require Export Spec.
Open Scope list_scope.

Inductive name_kind := KIri | KPrefix | KLocal | KVar | KLabel | KString | KLang.
(** the texts of each kind; a string in quotes has no such quote in it but after a backslash *)
Definition lexical (k : name_kind) : str -> Prop :=
  match k with
  | KIri => all iri_char | KPrefix => prefix_name | KLocal => local_name | KVar => var_name_ok | KLabel => label_name
  | KString => fun s => (body 39 s \/ body 34 s) /\ s <> [] | KLang => lang_tag
  end.
Inductive leaf := Name (k : name_kind) (s : str) | Number (n : NumericLiteral) | Count_ (z : Z) | Truth (b : bool).
(** how a piece is written *)
Definition shows (x : leaf) : str -> Prop :=
  match x with Name k s => text (lexical k) s | Number n => R_numeric n | Count_ z => R_u64 z | Truth b => R_boolean b end.
Inductive spread : list leaf -> str -> Prop :=
| spread_nil t : spread [] t
| spread_cons x l u s v : shows x s -> spread l v -> spread (x :: l) (u ++ s ++ v).

Definition of_opt {A B} (f : A -> list B) (o : option A) : list B := match o with Some a => f a | None => [] end.
Definition name (k : name_kind) (s : str) : list leaf := [Name k s].

Definition leaves_prefixed (n : PrefixedName) : list leaf :=
  match n with PnameLN p l => of_opt (name KPrefix) p ++ name KLocal l | PnameNS p => of_opt (name KPrefix) p end.
Definition leaves_iri (i : Iri) : list leaf := match i with IriIri s => name KIri s | IriPrefixedName p => leaves_prefixed p end.
Definition leaves_var (v : Var) : list leaf := match v with QMark s => name KVar s | Dollar s => name KVar s end.
Definition leaves_blank_node (b : BlankNode) : list leaf := match b with Anon => [] | Label s => name KLabel s end.
Definition leaves_descriptor (d : RdfLiteralDescriptor) : list leaf := match d with LangTag s => name KLang s | DescIri i => leaves_iri i end.
Definition leaves_literal (l : RdfLiteral) : list leaf := match l with MkRdfLiteral s d => name KString s ++ of_opt leaves_descriptor d end.
Definition leaves_term (g : GraphTerm) : list leaf :=
  match g with
  | GtIri i => leaves_iri i | GtRdfLiteral l => leaves_literal l | GtNumericLiteral n => [Number n]
  | GtBooleanLiteral b => [Truth b] | GtBlankNode b => leaves_blank_node b | GtNil => []
  end.
Definition leaves_vot (v : VarOrTerm) : list leaf := match v with VotVar v => leaves_var v | VotTerm g => leaves_term g end.
Definition leaves_voi (v : VarOrIri) : list leaf := match v with VoiVar v => leaves_var v | VoiIri i => leaves_iri i end.
Definition leaves_verb (v : Verb) : list leaf := match v with VerbVarOrIri v => leaves_voi v | VerbA => [] end.
Definition leaves_targets (v : VarOrIrisOrAll) : list leaf := match v with VoiList l => flat_map leaves_voi l | VoiAll => [] end.
Definition leaves_iri_or_a (i : IriOrA) : list leaf := match i with IoaIri i => leaves_iri i | IoaA => [] end.
Definition leaves_caret (i : IriOrAOrCaret) : list leaf := match i with IocIriOrA i => leaves_iri_or_a i | IocCaret i => leaves_iri_or_a i end.
Definition leaves_decl (d : BaseOrPrefixDecl) : list leaf :=
  match d with DeclBase s => name KIri s | DeclPrefix (MkPrefixDecl p s) => of_opt (name KPrefix) p ++ name KIri s end.
Definition leaves_prologue (p : Prologue) : list leaf := match p with MkPrologue l => flat_map leaves_decl l end.
Definition leaves_don (d : DefaultOrNamedIri) : list leaf := match d with DonDefault i => leaves_iri i | DonNamed i => leaves_iri i end.
Definition leaves_value (v : DataBlockValue) : list leaf :=
  match v with
  | DbvIri i => leaves_iri i | DbvRdfLiteral l => leaves_literal l | DbvNumericLiteral n => [Number n]
  | DbvBooleanLiteral b => [Truth b] | DbvUnDef => []
  end.
Definition leaves_datablock (d : DataBlock) : list leaf :=
  match d with
  | DbOneVar (MkInlineDataOneVar v vs) => leaves_var v ++ flat_map leaves_value vs
  | DbFull (MkInlineDataFull vs rows) => flat_map leaves_var vs ++ flat_map (flat_map leaves_value) rows
  end.
Definition leaves_limit_offset (l : LimitOffsetClause) : list leaf :=
  match l with
  | LimitOffset n o => [Count_ n] ++ of_opt (fun n => [Count_ n]) o
  | OffsetLimit n o => [Count_ n] ++ of_opt (fun n => [Count_ n]) o
  end.

Fixpoint leaves_node (g : GraphNode) : list leaf :=
  match g with GnVarOrTerm v => leaves_vot v | GnTriplesNode n => leaves_tnode n end
with leaves_tnode (n : TriplesNode) : list leaf :=
  match n with TnCollection c => leaves_collection c | TnBlankNodePropertyList p => leaves_plist p end
with leaves_collection (c : Collection) : list leaf := match c with MkCollection l => flat_map leaves_node l end
with leaves_plist (p : PropertyList) : list leaf := match p with MkPropertyList l => flat_map leaves_verb_list l end
with leaves_verb_list (v : VerbList) : list leaf := match v with MkVerbList v o => leaves_verb v ++ leaves_objects o end
with leaves_objects (o : ObjectList) : list leaf := match o with MkObjectList l => flat_map leaves_node l end.
Definition leaves_tss (t : TriplesSameSubject) : list leaf :=
  match t with TssTerm v p => leaves_vot v ++ leaves_plist p | TssNode n p => leaves_tnode n ++ of_opt leaves_plist p end.
Definition leaves_template (l : TriplesTemplate) : list leaf := flat_map leaves_tss l.

Definition leaves_one (i : PathOneInPropertySet) : list leaf := match i with MkPathOneInPropertySet i => leaves_caret i end.
Definition leaves_negated (n : PathNegatedPropertySet) : list leaf := match n with MkPathNegatedPropertySet l => flat_map leaves_one l end.
Fixpoint leaves_path (p : PathAlternative) : list leaf := match p with MkPathAlternative l => flat_map leaves_sequence l end
with leaves_sequence (p : PathSequence) : list leaf := match p with MkPathSequence l => flat_map leaves_elt_or_inverse l end
with leaves_elt_or_inverse (p : PathEltOrInverse) : list leaf := match p with PeiPathElt p => leaves_elt p | PeiInverse p => leaves_elt p end
with leaves_elt (p : PathElt) : list leaf := match p with MkPathElt p m => leaves_path_primary p end
with leaves_path_primary (p : PathPrimary) : list leaf :=
  match p with PpIri i => leaves_iri i | PpA => [] | PpNegated s => leaves_negated s | PpPath p => leaves_path p end.
Definition leaves_verb_path (v : VerbPathOrSimple) : list leaf := match v with VpsPath p => leaves_path p | VpsSimple v => leaves_var v end.
Definition leaves_plpe (e : PropertyListPathEntry) : list leaf :=
  match e with MkPropertyListPathEntry v o => leaves_verb_path v ++ leaves_objects o end.
Fixpoint leaves_node_path (g : GraphNodePath) : list leaf :=
  match g with GnpVarOrTerm v => leaves_vot v | GnpTriplesNodePath n => leaves_tnode_path n end
with leaves_tnode_path (n : TriplesNodePath) : list leaf :=
  match n with TnpCollectionPath l => flat_map leaves_node_path l | TnpBlankNodePropertyListPath p => leaves_plist_path p end
with leaves_plist_path (p : PropertyListPath) : list leaf :=
  match p with MkPropertyListPath v o es => leaves_verb_path v ++ leaves_objects_path o ++ flat_map leaves_plpe es end
with leaves_objects_path (o : ObjectListPath) : list leaf := match o with MkObjectListPath l => flat_map leaves_node_path l end.
Definition leaves_tssp (t : TriplesSameSubjectPath) : list leaf :=
  match t with TsspTerm v p => leaves_vot v ++ leaves_plist_path p | TsspNode n p => leaves_tnode_path n ++ of_opt leaves_plist_path p end.
Definition leaves_block (b : TriplesBlock) : list leaf := match b with MkTriplesBlock l => flat_map leaves_tssp l end.

(** [LE], [LG]: the leaves of expressions and group graph patterns *)
Section Core.
  Context {E G : Type} (LE : E -> list leaf) (LG : G -> list leaf).
  Definition leaves_args (a : ArgList E) : list leaf := match a with AlNil => [] | AlExpression d es => flat_map LE es end.
  Definition leaves_iri_or_fun (i : IriOrFunction E) : list leaf := match i with MkIriOrFunction i a => leaves_iri i ++ of_opt leaves_args a end.
  Definition leaves_function_call (f : FunctionCall E) : list leaf := match f with MkFunctionCall i a => leaves_iri i ++ leaves_args a end.
  Definition leaves_expression_list (l : ExpressionList E) : list leaf := match l with ElNil => [] | ElList es => flat_map LE es end.
  Definition leaves_expr3 (r : RegexExpression E) : list leaf := match r with MkRegex a b c => LE a ++ LE b ++ of_opt LE c end.
  Definition leaves_str_replace (r : StrReplaceExpression E) : list leaf :=
    match r with MkStrReplace a b c d => LE a ++ LE b ++ LE c ++ of_opt LE d end.
  Definition leaves_distinct (d : DistinctExpression E) : list leaf := match d with MkDistinctExpression d e => LE e end.
  Definition leaves_aggregate (a : Aggregate E) : list leaf :=
    match a with
    | AgCount (MkCount d t) => match t with CtAll => [] | CtExpr e => LE e end
    | AgSum d | AgMin d | AgMax d | AgAvg d | AgSample d => leaves_distinct d
    | AgGroupConcat (MkGroupConcat d s) => leaves_distinct d ++ of_opt (name KString) s
    end.
  Definition leaves_built_in (b : BuiltInCall E G) : list leaf :=
    match b with
    | BiAggregate a => leaves_aggregate a
    | BiStr e | BiLang e | BiDatatype e | BiIri e | BiUri e | BiAbs e | BiCeil e | BiFloor e | BiRound e
    | BiUCase e | BiLCase e | BiEncodeForUri e | BiYear e | BiMonth e | BiDay e | BiHours e | BiMinutes e | BiSeconds e
    | BiTimezone e | BiTz e | BiMD5 e | BiSHA1 e | BiSHA256 e | BiSHA384 e | BiSHA512 e
    | BiIsIri e | BiIsUri e | BiIsBlank e | BiIsLiteral e | BiIsNumeric e => LE e
    | BiLangMatches a b | BiContains a b | BiStrStarts a b | BiStrEnds a b | BiStrBefore a b | BiStrAfter a b
    | BiStrLang a b | BiStrDt a b | BiSameTerm a b => LE a ++ LE b
    | BiBound v => leaves_var v
    | BiBnode e => of_opt LE e
    | BiRand | BiNow | BiUUID | BiStrUUID => []
    | BiConcat l s => leaves_expression_list l ++ leaves_expr3 s
    | BiStrLen e s => LE e ++ leaves_str_replace s
    | BiCoalesce l => leaves_expression_list l
    | BiIf a b c => LE a ++ LE b ++ LE c
    | BiRegex r => leaves_expr3 r
    | BiExistsFunc g | BiNotExistsFunc g => LG g
    end.
  Definition leaves_primary (p : PrimaryExpression E G) : list leaf :=
    match p with
    | PeBracketted e => LE e | PeBuiltInCall b => leaves_built_in b | PeIriOrFunction i => leaves_iri_or_fun i
    | PeRdfLiteral l => leaves_literal l | PeNumericLiteral n => [Number n] | PeBooleanLiteral b => [Truth b] | PeVar v => leaves_var v
    end.
  Definition leaves_unary (u : UnaryExpression E G) : list leaf :=
    match u with UnNot p => leaves_primary p | UnAdd p => leaves_primary p | UnSub p => leaves_primary p | UnDefault p => leaves_primary p end.
  Definition leaves_mult (m : MultExpression E G) : list leaf := match m with MuMult u => leaves_unary u | MuDiv u => leaves_unary u end.
  Definition leaves_multiplicative (m : MultiplicativeExpression E G) : list leaf :=
    match m with MkMultiplicative u l => leaves_unary u ++ flat_map leaves_mult l end.
  Definition leaves_add (a : AddExpression E G) : list leaf :=
    match a with AddAdd m => leaves_multiplicative m | AddSub m => leaves_multiplicative m | AddNumeric n l => [Number n] ++ flat_map leaves_mult l end.
  Definition leaves_additive (a : AdditiveExpression E G) : list leaf :=
    match a with MkAdditive m l => leaves_multiplicative m ++ flat_map leaves_add l end.
  Definition leaves_op (o : OpExpression E G) : list leaf :=
    match o with
    | OpEQ a => leaves_additive a | OpNE a => leaves_additive a | OpLT a => leaves_additive a | OpGT a => leaves_additive a
    | OpLE a => leaves_additive a | OpGE a => leaves_additive a | OpIN l => leaves_expression_list l | OpNIN l => leaves_expression_list l
    end.
  Definition leaves_relational (r : RelationalExpression E G) : list leaf :=
    match r with MkRelational a o => leaves_additive a ++ of_opt leaves_op o end.
  Definition leaves_and (c : ConditionalAndExpression E G) : list leaf := match c with MkConditionalAnd l => flat_map leaves_relational l end.

  Definition leaves_constraint (c : Constraint E G) : list leaf :=
    match c with CoBracketted e => LE e | CoBuiltInCall b => leaves_built_in b | CoFunctionCall f => leaves_function_call f end.
  Definition leaves_as_var (x : ExpressionAsVar E) : list leaf := match x with MkExpressionAsVar e v => LE e ++ leaves_var v end.
  Definition leaves_as_var_opt (x : ExpressionAsVarOpt E) : list leaf :=
    match x with MkExpressionAsVarOpt e v => LE e ++ of_opt leaves_var v end.
  Definition leaves_order_condition (o : OrderCondition E G) : list leaf :=
    match o with OcOrder (MkOrderExpression o e) => LE e | OcConstraint c => leaves_constraint c | OcVar v => leaves_var v end.
  Definition leaves_group_condition (g : GroupCondition E G) : list leaf :=
    match g with
    | GcBuiltInCall b => leaves_built_in b | GcFunctionCall f => leaves_function_call f
    | GcExpressionAsVarOpt x => leaves_as_var_opt x | GcVar v => leaves_var v
    end.
  Definition leaves_group_clause (g : GroupClause E G) : list leaf := match g with MkGroupClause l => flat_map leaves_group_condition l end.
  Definition leaves_order_clause (g : OrderClause E G) : list leaf := match g with MkOrderClause l => flat_map leaves_order_condition l end.
  Definition leaves_having_clause (g : HavingClause E G) : list leaf := match g with MkHavingClause l => flat_map leaves_constraint l end.
  (** in the order of the text: GROUP BY, HAVING, ORDER BY, LIMIT and OFFSET *)
  Definition leaves_modifier (m : SolutionModifier E G) : list leaf :=
    match m with
    | MkSolutionModifier ob gb h lo =>
        of_opt leaves_group_clause gb ++ of_opt leaves_having_clause h ++ of_opt leaves_order_clause ob ++ of_opt leaves_limit_offset lo
    end.
  Definition leaves_select_var (v : VarOrExpressionAsVar E) : list leaf :=
    match v with VoeVar v => leaves_var v | VoeExpressionAsVar x => leaves_as_var x end.
  Definition leaves_select_vars (v : SelectVars E) : list leaf := match v with SvAll => [] | SvList l => flat_map leaves_select_var l end.
  Definition leaves_select_clause (s : SelectClause E) : list leaf := match s with MkSelectClause m v => leaves_select_vars v end.
  Definition leaves_sub_select (s : SubSelect E G) : list leaf :=
    match s with MkSubSelect s w m v => leaves_select_clause s ++ LG w ++ leaves_modifier m ++ of_opt leaves_datablock v end.
  Definition leaves_pattern (p : GraphPatternNotTriples E G) : list leaf :=
    match p with
    | GpGroupOrUnion (MkGroupOrUnion l) => flat_map LG l
    | GpOptional g => LG g
    | GpMinus g => LG g
    | GpGraph (MkGraphGraphPattern v g) => leaves_voi v ++ LG g
    | GpService (MkServiceGraphPattern v s g) => leaves_voi v ++ LG g
    | GpFilter c => leaves_constraint c
    | GpBind x => leaves_as_var x
    | GpInlineData d => leaves_datablock d
    end.
  Definition leaves_pattern_and_triples (p : GraphPatternAndTriples E G) : list leaf :=
    match p with MkGraphPatternAndTriples p t => leaves_pattern p ++ of_opt leaves_block t end.
  Definition leaves_group_sub (g : GroupGraphPatternSub E G) : list leaf :=
    match g with MkGroupGraphPatternSub t l => of_opt leaves_block t ++ flat_map leaves_pattern_and_triples l end.
End Core.

Section Knot.
  Context (LE : Expression -> list leaf) (LG : GroupGraphPattern -> list leaf).
  Definition leaves_expression_step (e : Expression) : list leaf := match e with MkExpression l => flat_map (leaves_and LE LG) l end.
  Definition leaves_ggp_step (g : GroupGraphPattern) : list leaf :=
    match g with GgpSubSelect s => leaves_sub_select LE LG s | GgpSub s => leaves_group_sub LE LG s end.
End Knot.
(** the pieces down to depth [n] of nested expressions and groups; for [n] large enough all of them *)
Fixpoint leaves_both (n : nat) : (Expression -> list leaf) * (GroupGraphPattern -> list leaf) :=
  match n with
  | O => (fun _ => [], fun _ => [])
  | S n => (leaves_expression_step (fst (leaves_both n)) (snd (leaves_both n)), leaves_ggp_step (fst (leaves_both n)) (snd (leaves_both n)))
  end.
Definition leaves_expression (n : nat) : Expression -> list leaf := fst (leaves_both n).
Definition leaves_ggp (n : nat) : GroupGraphPattern -> list leaf := snd (leaves_both n).

Section Queries.
  Context (n : nat).
  Notation LE := (leaves_expression n).
  Notation LG := (leaves_ggp n).
  Definition leaves_datasets (l : list DataSetClause) : list leaf := flat_map leaves_don l.
  Definition leaves_mods : SolutionModifier Expression GroupGraphPattern -> list leaf := leaves_modifier LE LG.
  Definition leaves_select_query (q : SelectQuery) : list leaf :=
    match q with MkSelectQuery s d w m => leaves_select_clause LE s ++ leaves_datasets d ++ LG w ++ leaves_mods m end.
  Definition leaves_ask_query (q : AskQuery) : list leaf :=
    match q with MkAskQuery d w m => leaves_datasets d ++ LG w ++ leaves_mods m end.
  Definition leaves_describe_query (q : DescribeQuery) : list leaf :=
    match q with MkDescribeQuery d v w m => leaves_targets v ++ leaves_datasets d ++ of_opt LG w ++ leaves_mods m end.
  Definition leaves_construct_query (q : ConstructQuery) : list leaf :=
    match q with
    | CqSubConstruct (MkSubConstruct (MkConstructTemplate l) d w m) => flat_map leaves_tss l ++ leaves_datasets d ++ LG w ++ leaves_mods m
    | CqSubTriples (MkSubTriples d t m) => leaves_datasets d ++ of_opt leaves_template t ++ leaves_mods m
    end.
  Definition leaves_query (q : SparqlQuery) : list leaf :=
    match q with
    | SqAsk q => leaves_ask_query q | SqSelect q => leaves_select_query q
    | SqDescribe q => leaves_describe_query q | SqConstruct q => leaves_construct_query q
    end.
  Definition leaves_query_stmt (q : SparqlQueryStatement) : list leaf :=
    match q with MkSparqlQueryStatement p q v => leaves_prologue p ++ leaves_query q ++ of_opt leaves_datablock v end.

  Definition leaves_quads_entry (q : QuadsEntry) : list leaf :=
    match q with MkQuadsEntry (MkQuadsNotTriples v t) t' => leaves_voi v ++ of_opt leaves_template t ++ of_opt leaves_template t' end.
  Definition leaves_quads (q : Quads) : list leaf :=
    match q with MkQuads f es => of_opt leaves_template f ++ flat_map leaves_quads_entry es end.
  Definition leaves_god (g : GraphOrDefault) : list leaf := match g with GodGraph i => leaves_iri i | GodDefault => [] end.
  Definition leaves_gra (g : GraphRefAll) : list leaf := match g with GraGraphRef i => leaves_iri i | _ => [] end.
  Definition leaves_delete_insert (d : DeleteInsert) : list leaf :=
    match d with DiDeleteInsert d i => leaves_quads d ++ of_opt leaves_quads i | DiInsert i => leaves_quads i end.
  Definition leaves_update_stmt (u : UpdateStatement) : list leaf :=
    match u with
    | UsLoad (MkLoad i s g) => leaves_iri i ++ of_opt leaves_iri g
    | UsClear (MkClear s g) => leaves_gra g
    | UsDrop (MkDrop s g) => leaves_gra g
    | UsCreate (MkCreate s g) => leaves_iri g
    | UsAdd (MkAdd s f t) => leaves_god f ++ leaves_god t
    | UsMove (MkMove s f t) => leaves_god f ++ leaves_god t
    | UsCopy (MkCopy s f t) => leaves_god f ++ leaves_god t
    | UsInsertData q => leaves_quads q
    | UsDeleteData q => leaves_quads q
    | UsDeleteWhere q => leaves_quads q
    | UsModify (MkModify i d u w) => of_opt leaves_iri i ++ leaves_delete_insert d ++ flat_map leaves_don u ++ LG w
    end.
  Fixpoint leaves_update (u : Update) : list leaf :=
    match u with MkUpdate p s inner => leaves_prologue p ++ of_opt leaves_update_stmt s ++ of_opt leaves_update inner end.
End Queries.
