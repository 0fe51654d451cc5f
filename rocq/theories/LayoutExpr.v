(** Specification side: safely laid out expressions, graph patterns, solution modifiers and queries
    (continues LayoutPath.v).  Comments marked "departure" point at places where the texts that are
    read differ from SPARQL. *)
From Verif Require Export LayoutPath.
Open Scope N_scope.
Open Scope list_scope.

Definition commaW : lang := gap >> sym "," >> gap.
(** the rest starts with a character not among [cs] *)
Definition starts_other (cs : str) (r : str) : Prop := exists c r', r = c :: r' /\ ~ In c cs.
Definition W_distinct (d : bool) : lang := if d then word "distinct" >> gap1 else ahead (no_word1 "distinct").
Definition W_order (o : Order) : lang := match o with Asc => word "asc" | Desc => word "desc" end.
Definition W_select_modifier (m : SelectModifier) : lang :=
  match m with SmDistinct => word "distinct" | SmReduced => word "reduced" end.
(** an IRI where a function name could stand (departure: U+212A makes a keyword test panic) *)
Definition W_iri_expr (i : Iri) : lang := fun t r => W_iri i t r /\ ~ In 0x212A t.
(** no argument list follows *)
Definition no_args (r : str) : Prop := solid r \/ nxt1 (not_first 40) r.
Definition no_mult (r : str) : Prop := not_first 42 r /\ not_first 47 r.
(** no sign, digit or dot follows *)
Definition no_add (r : str) : Prop := forall c r', r = c :: r' -> ~ In c (s_ "+-.0123456789").
(** no comparison follows (departure: the test for NOT IN at the end of the text is "incomplete") *)
Definition no_op (r : str) : Prop := starts_other (s_ "=!<>iInN") r.
(** after a condition of a modifier: the end, or the next modifier *)
Definition mod_end (r : str) : Prop :=
  r = [] \/ first 125 r \/
  (no_iri r /\ (begins "having" r \/ begins "order" r \/ begins "limit" r \/ begins "offset" r \/ begins "values" r)).
(** a group or an empty argument list *)
Definition group_or_nil (r : str) : Prop := first 123 r \/ exists b x, r = 40 :: b ++ 41 :: x /\ blank b.
(** where no triples start: the end of the group, a group, or a pattern keyword; for GRAPH, SERVICE and FILTER
    the keyword with the IRI after it may look like a prefixed name *)
Definition no_block (r : str) : Prop :=
  first 125 r \/ first 123 r \/
  ((begins "optional" r \/ begins "minus" r \/ begins "graph" r \/ begins "service" r \/ begins "filter" r \/
    begins "bind" r \/ begins "values" r) /\
   (no_iri r \/ exists i t r', r = t ++ r' /\ W_iri i t r' /\ nxt group_or_nil r')).

(** [WE], [WG]: the layouts of expressions and of group graph patterns *)
Section Core.
  Context {E G : Type} (WE : E -> lang) (WG : G -> lang).

  (** departure: an argument list is empty *)
  Definition W_arg_list (a : ArgList E) : lang :=
    match a with AlNil => W_nil | AlExpression _ _ => fun _ _ => False end.
  Definition W_expression_list (l : ExpressionList E) : lang :=
    match l with ElNil => W_nil | ElList _ => fun _ _ => False end.
  Definition W_iri_or_fun (i : IriOrFunction E) : lang :=
    match i with MkIriOrFunction i a => W_iri_expr i >> optW (fun a => gap1 >> W_arg_list a) no_args a end.
  Definition W_function_call (f : FunctionCall E) : lang :=
    match f with MkFunctionCall i a => W_iri_expr i >> gap >> W_arg_list a end.
  Definition argW (e : E) : lang := commaW >> WE e.
  Definition opt_argW : option E -> lang := optW argW (nxt (not_first 44)).
  Definition W_expr3 (r : RegexExpression E) : lang :=
    match r with MkRegex a b c => sym "(" >> WE a >> argW b >> opt_argW c >> sym ")" end.
  Definition W_str_replace (r : StrReplaceExpression E) : lang :=
    match r with MkStrReplace a b c d => sym "(" >> WE a >> argW b >> argW c >> opt_argW d >> sym ")" end.
  Definition W_distinct_expression (d : DistinctExpression E) : lang :=
    match d with MkDistinctExpression d e => W_distinct d >> WE e end.
  Definition W_count_target (c : CountTarget E) : lang :=
    match c with CtAll => sym "*" | CtExpr e => fun t r => WE e t r /\ not_first 42 (t ++ r) end.
  Definition W_separator (s : str) : lang :=
    gap >> sym ";" >> gap >> word "separator" >> gap >> sym "=" >> gap >> tok (R_string s).
  Definition callW (k : string) (P : lang) : lang := word k >> gap >> sym "(" >> P >> sym ")".
  Definition W_aggregate (a : Aggregate E) : lang :=
    match a with
    | AgCount (MkCount d t) => callW "count" (W_distinct d >> W_count_target t)
    | AgSum d => callW "sum" (W_distinct_expression d)
    | AgMin d => callW "min" (W_distinct_expression d)
    | AgMax d => callW "max" (W_distinct_expression d)
    | AgAvg d => callW "avg" (W_distinct_expression d)
    | AgSample d => callW "sample" (W_distinct_expression d)
    | AgGroupConcat (MkGroupConcat d s) =>
        callW "group_concat" (W_distinct_expression d >> optW W_separator (nxt (not_first 59)) s)
    end.
  Definition call1W (k : string) (e : E) : lang := callW k (WE e).
  Definition call2W (k : string) (a b : E) : lang := callW k (WE a >> argW b).
  Definition call0W (k : string) : lang := callW k W_nil.
  Definition W_bracketted (e : E) : lang := sym "(" >> gap >> WE e >> gap >> sym ")".
  (** departures: as in [Spec.R_built_in] *)
  Definition W_built_in (b : BuiltInCall E G) : lang :=
    match b with
    | BiAggregate a => W_aggregate a
    | BiStr e => call1W "str" e
    | BiLang e => call1W "lang" e
    | BiLangMatches a b => call2W "langmatches" a b
    | BiDatatype e => call1W "datatype" e
    | BiBound v => callW "bound" (W_var v)
    | BiIri e => call1W "iri" e
    | BiUri e => fun t r => call1W "uri" e t r \/ call1W "abs" e t r \/ call1W "ceil" e t r \/
                            call1W "floor" e t r \/ call1W "round" e t r
    | BiBnode (Some e) => call1W "bnode" e
    | BiBnode None => call0W "bnode"
    | BiRand => call0W "rand"
    | BiAbs _ | BiCeil _ | BiFloor _ | BiRound _ => fun _ _ => False
    | BiConcat l s => word "concat" >> gap1 >> W_expression_list l >> gap >> word "substr" >> gap1 >> W_expr3 s
    | BiStrLen e s => word "strlen" >> gap1 >> W_bracketted e >> gap >> W_str_replace s
    | BiUCase e => call1W "ucase" e
    | BiLCase e => call1W "lcase" e
    | BiEncodeForUri e => call1W "encode_for_uri" e
    | BiContains a b => word "strlen" >> sym "(" >> WE a >> argW b >> sym ")"
    | BiStrStarts a b => call2W "strstarts" a b
    | BiStrEnds a b => call2W "strends" a b
    | BiStrBefore a b => call2W "strbefore" a b
    | BiStrAfter a b => call2W "strafter" a b
    | BiYear e => call1W "year" e
    | BiMonth e => call1W "month" e
    | BiDay e => call1W "day" e
    | BiHours e => call1W "hours" e
    | BiMinutes e => call1W "minutes" e
    | BiSeconds e => call1W "seconds" e
    | BiTimezone e => call1W "timezone" e
    | BiTz e => call1W "tz" e
    | BiNow => call0W "now"
    | BiUUID => call0W "uuid"
    | BiStrUUID => call0W "struuid"
    | BiMD5 e => call1W "md5" e
    | BiSHA1 e => call1W "sha1" e
    | BiSHA256 e => call1W "sha256" e
    | BiSHA384 e => call1W "sha384" e
    | BiSHA512 e => call1W "sha512" e
    | BiCoalesce l => word "coalesce" >> gap1 >> W_expression_list l
    | BiIf a b c => callW "if" (WE a >> argW b >> argW c)
    | BiStrLang a b => call2W "strlang" a b
    | BiStrDt a b => call2W "strdt" a b
    | BiSameTerm a b => call2W "sameterm" a b
    | BiIsIri e => call1W "isiri" e
    | BiIsUri e => call1W "isuri" e
    | BiIsBlank e => call1W "isblank" e
    | BiIsLiteral e => call1W "isliteral" e
    | BiIsNumeric e => call1W "isnumeric" e
    | BiRegex r => word "regex" >> gap1 >> W_expr3 r
    | BiExistsFunc g => word "exists" >> gap1 >> WG g
    | BiNotExistsFunc g => word "not" >> gap1 >> word "exists" >> gap1 >> WG g
    end.
  Definition W_primary (p : PrimaryExpression E G) : lang :=
    match p with
    | PeBracketted e => W_bracketted e
    | PeBuiltInCall b => W_built_in b
    | PeIriOrFunction i => W_iri_or_fun i
    | PeRdfLiteral l => W_rdf_literal l
    | PeNumericLiteral n => W_numeric n
    | PeBooleanLiteral b => W_boolean b
    | PeVar v => W_var v
    end.
  (** departure: the sign of a number is an operator *)
  Definition W_unary (u : UnaryExpression E G) : lang :=
    match u with
    | UnNot p => sym "!" >> gap >> W_primary p
    | UnAdd p => sym "+" >> gap >> W_primary p
    | UnSub p => sym "-" >> gap >> W_primary p
    | UnDefault p => fun t r => W_primary p t r /\ (forall c, In c (s_ "!+-") -> not_first c (t ++ r))
    end.
  Definition W_mult (m : MultExpression E G) : lang :=
    match m with
    | MuMult u => sym "*" >> gap >> W_unary u
    | MuDiv u => sym "/" >> gap >> W_unary u
    end.
  (** departure: factors are separated by a blank, and one follows the last *)
  Definition W_factors : list (MultExpression E G) -> lang := sepW W_mult gap1 no_mult (nxt1 no_mult).
  Definition W_multiplicative (m : MultiplicativeExpression E G) : lang :=
    match m with MkMultiplicative u l => W_unary u >> gap >> W_factors l end.
  Definition W_term (a : AddExpression E G) : lang :=
    match a with
    | AddAdd m => sym "+" >> gap >> W_multiplicative m
    | AddSub m => sym "-" >> gap >> W_multiplicative m
    | AddNumeric n l => fun t r => (W_numeric n >> gap >> W_factors l) t r /\ not_first 43 (t ++ r) /\ not_first 45 (t ++ r)
    end.
  (** departure: the same for terms; a term without factors is followed by no blank, so it cannot be
      followed by the blank that is required here *)
  Definition W_terms : list (AddExpression E G) -> lang := sepW W_term gap1 no_add (nxt1 no_add).
  Definition W_additive (a : AdditiveExpression E G) : lang :=
    match a with MkAdditive m l => W_multiplicative m >> gap >> W_terms l end.
  Definition W_op (o : OpExpression E G) : lang :=
    match o with
    | OpEQ a => sym "=" >> gap >> W_additive a
    | OpNE a => sym "!=" >> gap >> W_additive a
    | OpLT a => sym "<" >> gap >> W_additive a
    | OpGT a => sym ">" >> gap >> W_additive a
    | OpLE a => sym "<=" >> gap >> W_additive a
    | OpGE a => sym ">=" >> gap >> W_additive a
    | OpIN l => word "in" >> gap >> W_expression_list l
    | OpNIN l => word "not" >> gap1 >> word "in" >> gap1 >> W_expression_list l
    end.
  Definition W_relational (r : RelationalExpression E G) : lang :=
    match r with MkRelational a o => W_additive a >> optW (fun o => gap >> W_op o) (nxt no_op) o end.
  Definition W_conditional_and (c : ConditionalAndExpression E G) : lang :=
    match c with MkConditionalAnd l => sep1W W_relational (gap >> sym "&&" >> gap) (nxt (not_first 38)) l end.

  Definition W_constraint (c : Constraint E G) : lang :=
    match c with
    | CoBracketted e => W_bracketted e
    | CoBuiltInCall b => W_built_in b
    | CoFunctionCall f => W_function_call f
    end.
  Definition W_expr_as_var (x : ExpressionAsVar E) : lang :=
    match x with
    | MkExpressionAsVar e v => sym "(" >> gap >> WE e >> gap >> word "as" >> gap >> W_var v >> gap >> sym ")"
    end.
  Definition W_expr_as_var_opt (x : ExpressionAsVarOpt E) : lang :=
    match x with
    | MkExpressionAsVarOpt e v =>
        sym "(" >> gap >> WE e >>
        optW (fun v => gap1 >> word "as" >> gap1 >> W_var v) (fun r => solid r \/ nxt1 (fun r => ~ begins "as" r) r) v >>
        gap >> sym ")"
    end.
  Definition W_order_condition (o : OrderCondition E G) : lang :=
    match o with
    | OcOrder (MkOrderExpression o e) => W_order o >> gap1 >> W_bracketted e
    | OcConstraint c => W_constraint c
    | OcVar v => W_var v
    end.
  Definition W_group_condition (g : GroupCondition E G) : lang :=
    match g with
    | GcBuiltInCall b => W_built_in b
    | GcFunctionCall f => W_function_call f
    | GcExpressionAsVarOpt x => W_expr_as_var_opt x
    | GcVar v => W_var v
    end.
  (** departure: a blank follows the last condition *)
  Definition W_group_clause (g : GroupClause E G) : lang :=
    match g with
    | MkGroupClause l => word "group" >> gap1 >> word "by" >> gap1 >> sep1W W_group_condition gap1 (nxt1 mod_end) l
    end.
  Definition W_order_clause (g : OrderClause E G) : lang :=
    match g with
    | MkOrderClause l => word "order" >> gap1 >> word "by" >> gap1 >> sep1W W_order_condition gap1 (nxt1 mod_end) l
    end.
  Definition W_having_clause (g : HavingClause E G) : lang :=
    match g with MkHavingClause l => word "having" >> gap1 >> sep1W W_constraint gap1 (nxt1 mod_end) l end.
  Definition W_modifier (m : SolutionModifier E G) : lang :=
    match m with
    | MkSolutionModifier ob gb h lo =>
        optW W_group_clause (fun r => ~ begins "group" r) gb >>
        optW (fun h => gap >> W_having_clause h) (nxt (fun r => ~ begins "having" r)) h >>
        optW (fun o => gap >> W_order_clause o) (nxt (fun r => ~ begins "order" r)) ob >>
        optW (fun l => gap >> W_limit_offset l) (nxt (fun r => ~ begins "limit" r /\ ~ begins "offset" r)) lo
    end.
  Definition W_where (g : G) : lang := fun t r =>
    (word "where" >> gap1 >> WG g) t r \/ (WG g t r /\ ~ begins "where" (t ++ r)).

  Definition W_select_var (v : VarOrExpressionAsVar E) : lang :=
    match v with VoeVar v => W_var v | VoeExpressionAsVar x => W_expr_as_var x end.
  (** departure: projected variables are not separated *)
  Definition W_select_vars (v : SelectVars E) : lang :=
    match v with
    | SvAll => sym "*"
    | SvList l => fun t r => l <> [] /\
        manyW W_select_var (fun r => forall c, In c (s_ "?$(") -> not_first c r) l t r
    end.
  Definition W_select_clause (s : SelectClause E) : lang :=
    match s with
    | MkSelectClause m v =>
        word "select" >>
        optW (fun m => gap1 >> W_select_modifier m) (nxt1 (fun r => ~ begins "distinct" r /\ ~ begins "reduced" r)) m >>
        gap1 >> W_select_vars v
    end.
  Definition W_sub_select (s : SubSelect E G) : lang :=
    match s with
    | MkSubSelect s w m v =>
        W_select_clause s >> gap >> W_where w >> gap >> W_modifier m >> gap >> optW W_values (fun r => ~ begins "values" r) v
    end.

  Definition W_pattern (p : GraphPatternNotTriples E G) : lang :=
    match p with
    | GpGroupOrUnion (MkGroupOrUnion l) =>
        sep1W WG (gap1 >> word "union" >> gap1) (fun r => solid r \/ nxt1 (fun r => ~ begins "union" r) r) l
    | GpOptional g => word "optional" >> gap1 >> WG g
    | GpMinus g => word "minus" >> gap1 >> WG g
    | GpGraph (MkGraphGraphPattern v g) => word "graph" >> gap1 >> W_var_or_iri v >> gap >> WG g
    | GpService (MkServiceGraphPattern v s g) => word "service" >> gap1 >> W_silent s >> W_var_or_iri v >> gap >> WG g
    | GpFilter c => word "filter" >> gap1 >> W_constraint c
    | GpBind x => word "bind" >> gap1 >> W_expr_as_var x
    | GpInlineData d => W_values d
    end.
  (** departure: the mark after a pattern is [?] instead of [.] *)
  Definition W_pattern_and_triples (p : GraphPatternAndTriples E G) : lang :=
    match p with
    | MkGraphPatternAndTriples p t =>
        W_pattern p >> (fun t r => ahead (nxt (not_first 63)) t r \/ (gap >> sym "?") t r) >>
        optW (fun t => gap >> W_triples_block t) (nxt no_block) t
    end.
  (** departure: a blank follows the last pattern *)
  Definition W_group_sub (g : GroupGraphPatternSub E G) : lang :=
    match g with
    | MkGroupGraphPatternSub t l =>
        optW (fun t => W_triples_block t >> gap) no_block t >> sepW W_pattern_and_triples gap1 (first 125) (nxt1 (first 125)) l
    end.
End Core.

Section Knot.
  Context (WE : Expression -> lang) (WG : GroupGraphPattern -> lang).
  Definition expression_layout (e : Expression) : lang :=
    match e with MkExpression l => sep1W (W_conditional_and WE WG) (gap >> sym "||" >> gap) (nxt (not_first 124)) l end.
  Definition ggp_layout (g : GroupGraphPattern) : lang :=
    match g with
    | GgpSubSelect s => sym "{" >> gap >> W_sub_select WE WG s >> gap >> sym "}"
    | GgpSub s => sym "{" >> gap >> (fun t r => W_group_sub WE WG s t r /\ no_word1 "select" (t ++ r)) >> gap >> sym "}"
    end.
End Knot.
(** the least relations closed under the two rules *)
Inductive W_expression : Expression -> lang :=
| W_expression_intro (WE : Expression -> lang) (WG : GroupGraphPattern -> lang) e t r :
    (forall e t r, WE e t r -> W_expression e t r) -> (forall g t r, WG g t r -> W_ggp g t r) ->
    expression_layout WE WG e t r -> W_expression e t r
with W_ggp : GroupGraphPattern -> lang :=
| W_ggp_intro (WE : Expression -> lang) (WG : GroupGraphPattern -> lang) g t r :
    (forall e t r, WE e t r -> W_expression e t r) -> (forall g t r, WG g t r -> W_ggp g t r) ->
    ggp_layout WE WG g t r -> W_ggp g t r.
