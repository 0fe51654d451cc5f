(** Specification side: what a tree may hold that Print.v does not write.

    [tame n q] excludes it, down to a nesting of [n]; [docile q] at every depth.  Nothing is said about the
    spelling of names, about numbers or about lists being empty: those conditions of [printable] are
    not repeated here.  The file does not mention the parsers. *)
From Verif Require Export PrintU.
Open Scope N_scope.
Open Scope list_scope.

(** Prefixed names have a local part. *)
Definition tame_iri (i : Iri) : Prop := match i with IriPrefixedName (PnameNS _) => False | _ => True end.
Definition tame_voi (v : VarOrIri) : Prop := match v with VoiVar _ => True | VoiIri i => tame_iri i end.
Definition tame_lit (l : RdfLiteral) : Prop := match l with MkRdfLiteral _ (Some (DescIri i)) => tame_iri i | _ => True end.
Definition tame_term (g : GraphTerm) : Prop :=
  match g with GtIri i => tame_iri i | GtRdfLiteral l => tame_lit l | _ => True end.
Definition tame_vot (v : VarOrTerm) : Prop := match v with VotVar _ => True | VotTerm g => tame_term g end.
Definition tame_value (v : DataBlockValue) : Prop :=
  match v with DbvIri i => tame_iri i | DbvRdfLiteral l => tame_lit l | _ => True end.
Definition tame_don (d : DefaultOrNamedIri) : Prop := match d with DonDefault i | DonNamed i => tame_iri i end.
Definition tame_block (d : DataBlock) : Prop :=
  match d with
  | DbOneVar (MkInlineDataOneVar v vs) => Forall tame_value vs
  | DbFull (MkInlineDataFull vs rows) => Forall (Forall tame_value) rows
  end.

(** ** Triples *)
Definition tame_node (g : GraphNode) : Prop := match g with GnVarOrTerm v => tame_vot v | GnTriplesNode _ => True end.
Definition tame_objects (o : ObjectList) : Prop := match o with MkObjectList l => Forall tame_node l end.
Definition tame_verb_list (v : VerbList) : Prop :=
  match v with MkVerbList v o => match v with VerbVarOrIri v => tame_voi v | VerbA => True end /\ tame_objects o end.
Definition tame_props (p : PropertyList) : Prop := match p with MkPropertyList l => Forall tame_verb_list l end.
Definition tame_triples_node (n : TriplesNode) : Prop :=
  match n with
  | TnCollection (MkCollection l) => Forall tame_node l
  | TnBlankNodePropertyList p => tame_props p
  end.
(** A collection or a list of properties that is a subject has properties of its own. *)
Definition tame_tss (t : TriplesSameSubject) : Prop :=
  match t with
  | TssTerm v p => tame_vot v /\ tame_props p
  | TssNode n (Some p) => tame_triples_node n /\ tame_props p
  | TssNode n None => False
  end.

(** ** Paths *)
Definition tame_in_set (i : PathOneInPropertySet) : Prop :=
  match i with
  | MkPathOneInPropertySet (IocIriOrA i) | MkPathOneInPropertySet (IocCaret i) =>
      match i with IoaIri i => tame_iri i | IoaA => True end
  end.
Section PathTame.
  Context (P : PathAlternative -> Prop).
  Definition tame_path_primary (p : PathPrimary) : Prop :=
    match p with
    | PpIri i => tame_iri i
    | PpA => True
    | PpNegated (MkPathNegatedPropertySet l) => Forall tame_in_set l
    | PpPath p => P p
    end.
  Definition tame_elt_or_inverse (p : PathEltOrInverse) : Prop :=
    match p with PeiPathElt (MkPathElt p _) | PeiInverse (MkPathElt p _) => tame_path_primary p end.
  Definition path_tame (p : PathAlternative) : Prop :=
    match p with MkPathAlternative l => Forall (fun '(MkPathSequence l) => Forall tame_elt_or_inverse l) l end.
End PathTame.
Inductive tame_path : PathAlternative -> Prop :=
| tame_path_intro (P : PathAlternative -> Prop) p : (forall p, P p -> tame_path p) -> path_tame P p -> tame_path p.
Definition tame_verb_path (v : VerbPathOrSimple) : Prop := match v with VpsPath p => tame_path p | VpsSimple _ => True end.
Definition tame_node_path (g : GraphNodePath) : Prop :=
  match g with GnpVarOrTerm v => tame_vot v | GnpTriplesNodePath _ => True end.
Definition tame_entry (e : PropertyListPathEntry) : Prop :=
  match e with MkPropertyListPathEntry v o => tame_verb_path v /\ tame_objects o end.
Definition tame_props_path (p : PropertyListPath) : Prop :=
  match p with
  | MkPropertyListPath v o es => tame_verb_path v /\
      match o with MkObjectListPath l => Forall tame_node_path l end /\ Forall tame_entry es
  end.
Definition tame_tssp (t : TriplesSameSubjectPath) : Prop :=
  match t with
  | TsspTerm v p => tame_vot v /\ tame_props_path p
  | TsspNode _ _ => True
  end.
Definition tame_triples (b : TriplesBlock) : Prop := match b with MkTriplesBlock l => Forall tame_tssp l end.

(** ** Expressions and patterns *)
(** The expression ends in an IN or NOT IN list. *)
Definition in_relational {E G} (r : RelationalExpression E G) : bool :=
  match r with MkRelational _ (Some (OpIN _ | OpNIN _)) => true | _ => false end.
Definition in_and {E G} (c : ConditionalAndExpression E G) : bool := match c with MkConditionalAnd l => op_last in_relational l end.
Definition in_expression (e : Expression) : bool := match e with MkExpression l => op_last in_and l end.
Section CoreTame.
  Context {E G : Type} (TE : E -> Prop) (TG : G -> Prop) (ends_in : E -> bool).
  (** The last argument of a call does not end in an IN list. *)
  Definition tame_args (l : list E) : Prop :=
    Forall TE l /\ match rev l with e :: _ => ends_in e = false | [] => True end.
  Definition tame_distinct_expression (d : DistinctExpression E) : Prop :=
    match d with MkDistinctExpression _ e => tame_args [e] end.
  Definition tame_aggregate (a : Aggregate E) : Prop :=
    match a with
    | AgCount (MkCount _ CtAll) => True
    | AgCount (MkCount _ (CtExpr e)) => tame_args [e]
    | AgSum d | AgMin d | AgMax d | AgAvg d | AgSample d | AgGroupConcat (MkGroupConcat d None) => tame_distinct_expression d
    | AgGroupConcat (MkGroupConcat (MkDistinctExpression _ e) (Some s)) => TE e
    end.
  Definition tame_expr3 (r : RegexExpression E) : Prop := match r with MkRegex a b c => tame_args (a :: b :: list_of c) end.
  Definition tame_str_replace (r : StrReplaceExpression E) : Prop :=
    match r with MkStrReplace a b c d => tame_args (a :: b :: c :: list_of d) end.
  Definition tame_built_in (b : BuiltInCall E G) : Prop :=
    match b with
    | BiAggregate a => tame_aggregate a
    | BiBound _ | BiBnode None | BiRand | BiNow | BiUUID | BiStrUUID | BiAbs _ | BiCeil _ | BiFloor _ | BiRound _
    | BiCoalesce _ => True
    | BiConcat l s => tame_expr3 s
    | BiStrLen e s => TE e /\ tame_str_replace s
    | BiRegex r => tame_expr3 r
    | BiExistsFunc g | BiNotExistsFunc g => TG g
    | BiIf a b c => tame_args [a; b; c]
    | BiLangMatches a b | BiContains a b | BiStrStarts a b | BiStrEnds a b | BiStrBefore a b | BiStrAfter a b
    | BiStrLang a b | BiStrDt a b | BiSameTerm a b => tame_args [a; b]
    | BiStr e | BiLang e | BiDatatype e | BiIri e | BiUri e | BiBnode (Some e) | BiUCase e | BiLCase e
    | BiEncodeForUri e | BiYear e | BiMonth e | BiDay e | BiHours e | BiMinutes e | BiSeconds e | BiTimezone e
    | BiTz e | BiMD5 e | BiSHA1 e | BiSHA256 e | BiSHA384 e | BiSHA512 e | BiIsIri e | BiIsUri e | BiIsBlank e
    | BiIsLiteral e | BiIsNumeric e => tame_args [e]
    end.
  (** In an expression the names do not hold U+212A. *)
  Definition tame_name (i : Iri) : Prop := tame_iri i /\ no_kelvin_sign i.
  Definition tame_primary (p : PrimaryExpression E G) : Prop :=
    match p with
    | PeBracketted e => TE e
    | PeBuiltInCall b => tame_built_in b
    | PeIriOrFunction (MkIriOrFunction i _) => tame_name i
    | PeRdfLiteral l => tame_lit l
    | PeNumericLiteral _ | PeBooleanLiteral _ | PeVar _ => True
    end.
  Definition tame_unary (u : UnaryExpression E G) : Prop :=
    match u with UnNot p | UnAdd p | UnSub p | UnDefault p => tame_primary p end.
  Definition tame_mult (m : MultExpression E G) : Prop := match m with MuMult u | MuDiv u => tame_unary u end.
  Definition tame_multiplicative (m : MultiplicativeExpression E G) : Prop :=
    match m with MkMultiplicative u l => tame_unary u /\ Forall tame_mult l end.
  Definition tame_add (a : AddExpression E G) : Prop :=
    match a with
    | AddAdd (MkMultiplicative u l) | AddSub (MkMultiplicative u l) => tame_unary u /\ Forall tame_mult l
    | AddNumeric _ l => Forall tame_mult l
    end.
  Definition tame_additive (a : AdditiveExpression E G) : Prop :=
    match a with MkAdditive m l => tame_multiplicative m /\ Forall tame_add l end.
  Definition tame_op (o : OpExpression E G) : Prop :=
    match o with
    | OpEQ a | OpNE a | OpLT a | OpGT a | OpLE a | OpGE a => tame_additive a
    | OpIN l | OpNIN l => True
    end.
  Definition tame_relational (r : RelationalExpression E G) : Prop :=
    match r with MkRelational a o => tame_additive a /\ match o with Some o => tame_op o | None => True end end.
  Definition tame_and (c : ConditionalAndExpression E G) : Prop :=
    match c with MkConditionalAnd l => Forall tame_relational l end.
  Definition tame_constraint (c : Constraint E G) : Prop :=
    match c with
    | CoBracketted e => TE e
    | CoBuiltInCall b => tame_built_in b
    | CoFunctionCall (MkFunctionCall i _) => tame_name i
    end.
  Definition tame_as (x : ExpressionAsVar E) : Prop := match x with MkExpressionAsVar e _ => TE e end.
  Definition tame_order_condition (o : OrderCondition E G) : Prop :=
    match o with
    | OcOrder (MkOrderExpression _ e) => TE e
    | OcConstraint c => tame_constraint c
    | OcVar _ => True
    end.
  Definition tame_group_condition (g : GroupCondition E G) : Prop :=
    match g with
    | GcBuiltInCall b => tame_built_in b
    | GcFunctionCall (MkFunctionCall i _) => tame_name i
    | GcExpressionAsVarOpt (MkExpressionAsVarOpt e _) => TE e
    | GcVar _ => True
    end.
  (** After HAVING no name has an empty prefix. *)
  Definition tame_mods (m : SolutionModifier E G) : Prop :=
    match m with
    | MkSolutionModifier ob gb h _ =>
        some_ (fun '(MkOrderClause l) => Forall tame_order_condition l) ob /\
        some_ (fun '(MkGroupClause l) => Forall tame_group_condition l) gb /\
        some_ (fun '(MkHavingClause l) => Forall tame_constraint l /\ match l with c :: _ => wf_first c | [] => True end) h
    end.
  Definition tame_select (s : SelectClause E) : Prop :=
    match s with
    | MkSelectClause _ SvAll => True
    | MkSelectClause _ (SvList l) =>
        Forall (fun v => match v with VoeVar _ => True | VoeExpressionAsVar x => tame_as x end) l
    end.
  Definition tame_sub_select (s : SubSelect E G) : Prop :=
    match s with MkSubSelect s g m v => tame_select s /\ TG g /\ tame_mods m /\ some_ tame_block v end.
  Definition tame_pattern (p : GraphPatternNotTriples E G) : Prop :=
    match p with
    | GpGroupOrUnion (MkGroupOrUnion l) => Forall TG l
    | GpOptional g | GpMinus g => TG g
    | GpGraph (MkGraphGraphPattern v g) | GpService (MkServiceGraphPattern v _ g) => tame_voi v /\ TG g
    | GpFilter c => tame_constraint c
    | GpBind x => tame_as x
    | GpInlineData d => tame_block d
    end.
  Definition tame_sub (g : GroupGraphPatternSub E G) : Prop :=
    match g with
    | MkGroupGraphPatternSub t l => some_ tame_triples t /\
        Forall (fun '(MkGraphPatternAndTriples p t) => tame_pattern p /\ some_ tame_triples t) l
    end.
End CoreTame.
Definition expression_tame (TE : Expression -> Prop) (TG : GroupGraphPattern -> Prop) (e : Expression) : Prop :=
  match e with MkExpression l => Forall (tame_and TE TG in_expression) l end.
Definition ggp_tame (TE : Expression -> Prop) (TG : GroupGraphPattern -> Prop) (g : GroupGraphPattern) : Prop :=
  match g with
  | GgpSubSelect s => tame_sub_select TE TG in_expression s
  | GgpSub s => tame_sub TE TG in_expression s
  end.
Fixpoint tames (n : nat) : (Expression -> Prop) * (GroupGraphPattern -> Prop) :=
  match n with
  | O => (fun _ => True, fun _ => True)
  | S n => let '(TE, TG) := tames n in (expression_tame TE TG, ggp_tame TE TG)
  end.
Definition tame_expression (n : nat) : Expression -> Prop := fst (tames n).
Definition tame_ggp (n : nat) : GroupGraphPattern -> Prop := snd (tames n).

(** ** Queries and updates *)
Section Tame.
  Context (n : nat).
  Definition tamem := tame_mods (tame_expression n) (tame_ggp n) in_expression.
  Definition tame_query (q : SparqlQuery) : Prop :=
    match q with
    | SqSelect (MkSelectQuery s d g m) => tame_select (tame_expression n) s /\ Forall tame_don d /\ tame_ggp n g /\ tamem m
    | SqAsk (MkAskQuery d g m) => Forall tame_don d /\ tame_ggp n g /\ tamem m
    | SqDescribe (MkDescribeQuery d v g m) =>
        match v with VoiAll => True | VoiList l => Forall tame_voi l end /\
        match d with DonDefault i :: _ => named i | _ => True end /\ Forall tame_don d /\ some_ (tame_ggp n) g /\ tamem m
    | SqConstruct (CqSubConstruct (MkSubConstruct (MkConstructTemplate t) d g m)) =>
        Forall tame_tss t /\ Forall tame_don d /\ tame_ggp n g /\ tamem m
    | SqConstruct (CqSubTriples (MkSubTriples d t m)) => Forall tame_don d /\ some_ (Forall tame_tss) t /\ tamem m
    end.
  Definition tame (q : SparqlQueryStatement) : Prop :=
    match q with MkSparqlQueryStatement p q v => tame_query q /\ some_ tame_block v end.

  Definition tame_quads_entry (e : QuadsEntry) : Prop :=
    match e with MkQuadsEntry (MkQuadsNotTriples v t) t' => tame_voi v /\ some_ (Forall tame_tss) t /\ some_ (Forall tame_tss) t' end.
  Definition tame_quads (q : Quads) : Prop :=
    match q with MkQuads f es => some_ (Forall tame_tss) f /\ Forall tame_quads_entry es end.
  Definition tame_god (g : GraphOrDefault) : Prop := match g with GodGraph i => tame_iri i | GodDefault => True end.
  Definition tame_gra (g : GraphRefAll) : Prop := match g with GraGraphRef i => tame_iri i | _ => True end.
  Definition tame_delete_insert (d : DeleteInsert) : Prop :=
    match d with DiInsert q => tame_quads q | DiDeleteInsert d i => tame_quads d /\ some_ tame_quads i end.
  Definition tame_stmt (u : UpdateStatement) : Prop :=
    match u with
    | UsLoad (MkLoad i s g) => tame_iri i /\ some_ tame_iri g
    | UsClear (MkClear s g) | UsDrop (MkDrop s g) => tame_gra g
    | UsCreate (MkCreate s g) => tame_iri g
    | UsAdd _ | UsMove _ => True
    | UsCopy (MkCopy s f t) => tame_god f /\ tame_god t
    | UsInsertData q | UsDeleteData q | UsDeleteWhere q => tame_quads q
    | UsModify (MkModify i d u g) => some_ tame_iri i /\ tame_delete_insert d /\ Forall tame_don u /\ tame_ggp n g
    end.
  Fixpoint tame_update (u : Update) : Prop :=
    match u with MkUpdate p s u => some_ tame_stmt s /\ match u with None => True | Some u => tame_update u end end.
End Tame.
Definition docile (q : SparqlQueryStatement) : Prop := forall n, tame n q.
Definition docile_update (u : Update) : Prop := forall n, tame_update n u.
