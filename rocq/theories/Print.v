(** Specification side: a way of writing trees.

    [print w B n q] is one text for the query [q], nested at most [n] deep: the text [B] where the
    grammar has blanks, the keyword [k] written as [w k].  [printable n q] describes the trees for which that text is safe:
    names are names, numbers are in range, and the shapes that no text is read back as (see the
    comments marked "departure" in Layout*.v) do not occur.  The file does not mention the parsers. *)
From Verif Require Export Spec2 SpecQuery.
Open Scope N_scope.
Open Scope list_scope.

(** ** Texts *)
Definition joined (sep : str) (l : list str) : str :=
  match l with [] => [] | a :: l' => a ++ flat_map (fun x => sep ++ x) l' end.
(** every text followed by [B] *)
Definition ended (B : str) (l : list str) : str := flat_map (fun x => x ++ B) l.
Definition may_ {A} (f : A -> str) (o : option A) : str := match o with Some a => f a | None => [] end.
Fixpoint digs (f : nat) (n : N) : str :=
  match f with
  | O => []
  | S f => (if n / 10 =? 0 then [] else digs f (n / 10)) ++ [48 + n mod 10]
  end.
(** the decimal digits of a number *)
Definition dec (n : N) : str := digs (S (N.to_nat (N.size n))) n.
Definition pr_int (z : Z) : str := if (z <? 0)%Z then 45 :: dec (Z.to_N (- z)) else dec (Z.to_N z).

(** ** Names and terms *)
Definition pr_prefix (p : option str) : str := may_ (fun x => x) p ++ [58].
Definition pr_iri (i : Iri) : str :=
  match i with
  | IriIri s => 60 :: s ++ [62]
  | IriPrefixedName (PnameLN p l) => pr_prefix p ++ l
  | IriPrefixedName (PnameNS p) => pr_prefix p
  end.
Definition pr_var (v : Var) : str := sigil v :: vname v.
(** [s] can stand between the quotes [q] *)
Fixpoint plain (q : char) (s : str) : bool :=
  match s with
  | [] => true
  | c :: t => if c =? 92 then match t with d :: u => existsb (N.eqb d) (s_ """tbnrf\'") && plain q u | [] => false end
              else negb (c =? q) && plain q t
  end.
Definition quote (s : str) : char := if plain 34 s then 34 else 39.
Definition pr_string (s : str) : str := quote s :: s ++ [quote s].
Definition pr_desc (d : RdfLiteralDescriptor) : str :=
  match d with LangTag g => 64 :: g | DescIri i => 94 :: 94 :: pr_iri i end.
Definition pr_lit (l : RdfLiteral) : str := match l with MkRdfLiteral s d => pr_string s ++ may_ pr_desc d end.
(** the last [k] decimal digits *)
Fixpoint last_digits (k : nat) (n : N) : str := match k with O => [] | S k => last_digits k (n / 10) ++ [48 + n mod 10] end.
(** every binary64 number has a finite decimal form (m * 2^-k = m * 5^k / 10^k) *)
Definition pr_size (v : f64) : str :=
  match v with
  | Finite _ m (Zneg k) => let x := m * 5 ^ Npos k in
      dec (x / 10 ^ Npos k) ++ [46] ++ last_digits (Pos.to_nat k) (x mod 10 ^ Npos k)
  | Finite _ m e => dec (m * 2 ^ Z.to_N e) ++ [46]
  | Infinite _ => dec (2 ^ 1024) ++ [46]
  end.
Definition pr_f64 (v : f64) : str := (if negative v then [45] else []) ++ pr_size v.
Definition pr_num (n : NumericLiteral) : str :=
  match n with NInt z => pr_int z | NDouble v x => pr_f64 v ++ may_ (fun z => 101 :: pr_int z) x end.
Definition pr_bnode (b : BlankNode) : str := match b with Anon => s_ "[]" | Label s => s_ "_:" ++ s end.
Definition pr_mod (m : PathMod) : str :=
  match m with PmQuestionMark => s_ "?" | PmAsterisk => s_ "*" | PmPlus => s_ "+" end.

Definition wf_prefix (p : option str) : Prop := match p with Some p => prefix_name p | None => True end.
(** not covered: prefixed names without a local part (the code looks for one after the blanks) *)
Definition wf_iri (i : Iri) : Prop :=
  match i with
  | IriIri s => all iri_char s
  | IriPrefixedName (PnameLN p l) => wf_prefix p /\ local_name l
  | IriPrefixedName (PnameNS p) => False
  end.
(** where a keyword stands before it, the prefix is not empty (the code takes the keyword for it) *)
Definition named (i : Iri) : Prop := match i with IriPrefixedName (PnameLN None _) => False | _ => True end.
Definition wf_name (i : Iri) : Prop := wf_iri i /\ named i.
Definition wf_var (v : Var) : Prop := var_name_ok (vname v).
Definition wf_string (s : str) : Prop := (body 34 s \/ body 39 s) /\ s <> [].
Definition wf_lit (l : RdfLiteral) : Prop :=
  match l with
  | MkRdfLiteral s d => wf_string s /\
      match d with None => True | Some (LangTag g) => lang_tag g | Some (DescIri i) => wf_iri i end
  end.
Definition wf_f64 (v : f64) : Prop := match v with Finite _ m e => binary64 m e | Infinite _ => True end.
Definition wf_num (n : NumericLiteral) : Prop :=
  match n with NInt z => i64 z | NDouble v x => wf_f64 v /\ match x with Some z => i64 z | None => True end end.
Definition wf_bnode (b : BlankNode) : Prop := match b with Anon => True | Label s => label_name s end.
Definition wf_voi (v : VarOrIri) : Prop := match v with VoiVar v => wf_var v | VoiIri i => wf_iri i end.
Definition wf_term (g : GraphTerm) : Prop :=
  match g with
  | GtIri i => wf_iri i
  | GtRdfLiteral l => wf_lit l
  | GtNumericLiteral n => wf_num n
  | GtBooleanLiteral _ | GtNil => True
  | GtBlankNode b => wf_bnode b
  end.
Definition wf_vot (v : VarOrTerm) : Prop := match v with VotVar v => wf_var v | VotTerm g => wf_term g end.
Definition is_bool (v : VarOrTerm) : bool := match v with VotTerm (GtBooleanLiteral _) => true | _ => false end.
Definition wf_value (v : DataBlockValue) : Prop :=
  match v with
  | DbvIri i => wf_iri i
  | DbvRdfLiteral l => wf_lit l
  | DbvNumericLiteral n => wf_num n
  | DbvBooleanLiteral _ | DbvUnDef => True
  end.

(** after TRUE, FALSE and UNDEF a name has a prefix, see [named] *)
Definition wf_next (v v' : DataBlockValue) : Prop :=
  match v, v' with (DbvBooleanLiteral _ | DbvUnDef), DbvIri i => named i | _, _ => True end.
Fixpoint wf_values (l : list DataBlockValue) : Prop :=
  match l with
  | [] => True
  | v :: l => wf_value v /\ match l with v' :: _ => wf_next v v' | [] => True end /\ wf_values l
  end.

(** a choice of letter case for every keyword *)
Definition casing (w : string -> str) : Prop := forall k, List.map lower (s_ k) = s_ k -> kw k (w k).

Section Print.
  Context (w : string -> str) (B : str).

  Definition pr_bool (b : bool) : str := w (if b then "true" else "false").
  Definition pr_term (g : GraphTerm) : str :=
    match g with
    | GtIri i => pr_iri i
    | GtRdfLiteral l => pr_lit l
    | GtNumericLiteral n => pr_num n
    | GtBooleanLiteral b => pr_bool b
    | GtBlankNode b => pr_bnode b
    | GtNil => s_ "()"
    end.
  Definition pr_vot (v : VarOrTerm) : str := match v with VotVar v => pr_var v | VotTerm g => pr_term g end.
  Definition pr_voi (v : VarOrIri) : str := match v with VoiVar v => pr_var v | VoiIri i => pr_iri i end.
  Definition pr_verb (v : Verb) : str := match v with VerbVarOrIri v => pr_voi v | VerbA => w "a" end.
  Definition pr_value (v : DataBlockValue) : str :=
    match v with
    | DbvIri i => pr_iri i
    | DbvRdfLiteral l => pr_lit l
    | DbvNumericLiteral n => pr_num n
    | DbvBooleanLiteral b => pr_bool b
    | DbvUnDef => w "undef"
    end.

  (** ** Prologue, dataset clauses, data blocks, LIMIT/OFFSET *)
  Definition pr_decl (d : BaseOrPrefixDecl) : str :=
    match d with
    | DeclBase s => w "base" ++ B ++ s_ "<" ++ s ++ s_ ">"
    | DeclPrefix (MkPrefixDecl p s) => w "prefix" ++ B ++ pr_prefix p ++ B ++ s_ "<" ++ s ++ s_ ">"
    end.
  Definition pr_prologue (p : Prologue) : str := match p with MkPrologue l => ended B (List.map pr_decl l) end.
  Definition pr_don (d : DefaultOrNamedIri) : str :=
    match d with DonDefault i => pr_iri i | DonNamed i => w "named" ++ B ++ pr_iri i end.
  Definition pr_datasets (l : list DataSetClause) : str :=
    ended B (List.map (fun d => w "from" ++ B ++ pr_don d) l).
  Definition pr_row (vs : list DataBlockValue) : str := s_ "(" ++ B ++ ended B (List.map pr_value vs) ++ s_ ")".
  Definition pr_block (d : DataBlock) : str :=
    match d with
    | DbOneVar (MkInlineDataOneVar v vs) => pr_var v ++ B ++ s_ "{" ++ B ++ ended B (List.map pr_value vs) ++ s_ "}"
    | DbFull (MkInlineDataFull vs rows) =>
        s_ "(" ++ B ++ ended B (List.map pr_var vs) ++ s_ ")" ++ B ++ s_ "{" ++ B ++ ended B (List.map pr_row rows) ++ s_ "}"
    end.
  Definition pr_values (d : DataBlock) : str := w "values" ++ B ++ pr_block d.
  Definition pr_num_of (k : string) (z : Z) : str := w k ++ B ++ dec (Z.to_N z).
  Definition pr_limit_offset (l : LimitOffsetClause) : str :=
    match l with
    | LimitOffset n o => pr_num_of "limit" n ++ may_ (fun m => B ++ pr_num_of "offset" m) o
    | OffsetLimit n o => pr_num_of "offset" n ++ may_ (fun m => B ++ pr_num_of "limit" m) o
    end.

  (** ** Templates; not covered: nested nodes (C29), a node without properties *)
  Definition pr_node (g : GraphNode) : str := match g with GnVarOrTerm v => pr_vot v | GnTriplesNode _ => [] end.
  Definition pr_objects (o : ObjectList) : str :=
    match o with MkObjectList l => joined (B ++ s_ "," ++ B) (List.map pr_node l) end.
  Definition pr_verb_list (v : VerbList) : str :=
    match v with MkVerbList v o => pr_verb v ++ B ++ pr_objects o end.
  Definition pr_props (p : PropertyList) : str :=
    match p with MkPropertyList l => joined (B ++ s_ ";" ++ B) (List.map pr_verb_list l) end.
  Definition pr_triples_node (n : TriplesNode) : str :=
    match n with
    | TnCollection (MkCollection l) => s_ "(" ++ B ++ ended B (List.map pr_node l) ++ s_ ")"
    | TnBlankNodePropertyList p => s_ "[" ++ B ++ pr_props p ++ B ++ s_ "]"
    end.
  Definition pr_tss (t : TriplesSameSubject) : str :=
    match t with
    | TssTerm v p => pr_vot v ++ B ++ pr_props p
    | TssNode n p => pr_triples_node n ++ B ++ may_ pr_props p
    end.
  Definition pr_template (l : list TriplesSameSubject) : str :=
    match l with [] => s_ "{" ++ B ++ s_ "}" | _ => s_ "{" ++ B ++ joined (B ++ s_ "." ++ B) (List.map pr_tss l) ++ B ++ s_ "}" end.

  (** ** Paths and WHERE triples *)
  Definition pr_ioa (i : IriOrA) : str := match i with IoaIri i => pr_iri i | IoaA => w "a" end.
  Definition pr_in_set (i : PathOneInPropertySet) : str :=
    match i with
    | MkPathOneInPropertySet (IocIriOrA i) => pr_ioa i
    | MkPathOneInPropertySet (IocCaret i) => 94 :: pr_ioa i
    end.
  Fixpoint pr_path (p : PathAlternative) : str :=
    match p with MkPathAlternative l => joined (B ++ s_ "|" ++ B) (List.map pr_sequence l) end
  with pr_sequence (p : PathSequence) : str :=
    match p with MkPathSequence l => joined (B ++ s_ "|" ++ B) (List.map pr_elt_or_inverse l) end
  with pr_elt_or_inverse (p : PathEltOrInverse) : str :=
    match p with PeiPathElt p => pr_elt p | PeiInverse p => 94 :: pr_elt p end
  with pr_elt (p : PathElt) : str :=
    match p with MkPathElt p m => pr_path_primary p ++ may_ (fun m => B ++ pr_mod m) m end
  with pr_path_primary (p : PathPrimary) : str :=
    match p with
    | PpIri i => pr_iri i
    | PpA => s_ "a"
    | PpNegated (MkPathNegatedPropertySet l) => s_ "!(" ++ B ++ joined (B ++ s_ "|" ++ B) (List.map pr_in_set l) ++ B ++ s_ ")"
    | PpPath p => s_ "(" ++ pr_path p ++ s_ ")"
    end.

  Definition pr_verb_path (v : VerbPathOrSimple) : str :=
    match v with VpsPath p => pr_path p | VpsSimple v => pr_var v end.
  Definition pr_node_path (g : GraphNodePath) : str :=
    match g with GnpVarOrTerm v => pr_vot v | GnpTriplesNodePath _ => [] end.
  (** departure: objects are separated by [;], further properties by two of them *)
  Definition pr_objects_path (o : ObjectListPath) : str :=
    match o with MkObjectListPath l => joined (B ++ s_ ";" ++ B) (List.map pr_node_path l) end.
  Definition pr_entry (e : PropertyListPathEntry) : str :=
    match e with MkPropertyListPathEntry v o => pr_verb_path v ++ B ++ pr_objects o end.
  Definition pr_props_path (p : PropertyListPath) : str :=
    match p with
    | MkPropertyListPath v o es =>
        pr_verb_path v ++ B ++ pr_objects_path o ++ flat_map (fun e => B ++ s_ ";;" ++ B ++ pr_entry e) es
    end.
  Definition pr_tssp (t : TriplesSameSubjectPath) : str :=
    match t with TsspTerm v p => pr_vot v ++ B ++ pr_props_path p | TsspNode _ _ => [] end.
  Definition pr_triples (b : TriplesBlock) : str :=
    match b with MkTriplesBlock l => joined (B ++ s_ "." ++ B) (List.map pr_tssp l) end.

  (** ** Expressions and graph patterns; [PE], [PG]: the texts of expressions and groups *)
  Section Core.
    Context {E G : Type} (PE : E -> str) (PG : G -> str).
    Definition pr_args (l : list E) : str := joined (B ++ s_ "," ++ B) (List.map PE l).
    Definition list_of {A} (o : option A) : list A := match o with Some a => [a] | None => [] end.
    Definition pr_bracketted (e : E) : str := s_ "(" ++ B ++ PE e ++ B ++ s_ ")".
    Definition pr_call (k : string) (l : list E) : str := w k ++ s_ "(" ++ pr_args l ++ B ++ s_ ")".
    Definition pr_call0 (k : string) : str := w k ++ s_ "(())".
    Definition pr_distinct (d : bool) : str := if d then w "distinct" ++ B else [].
    Definition pr_dcall (k : string) (d : DistinctExpression E) : str :=
      match d with MkDistinctExpression d e => w k ++ s_ "(" ++ pr_distinct d ++ PE e ++ B ++ s_ ")" end.
    Definition pr_aggregate (a : Aggregate E) : str :=
      match a with
      | AgCount (MkCount d CtAll) => w "count" ++ s_ "(" ++ pr_distinct d ++ s_ "*)"
      | AgCount (MkCount d (CtExpr e)) => pr_dcall "count" (MkDistinctExpression d e)
      | AgSum d => pr_dcall "sum" d
      | AgMin d => pr_dcall "min" d
      | AgMax d => pr_dcall "max" d
      | AgAvg d => pr_dcall "avg" d
      | AgSample d => pr_dcall "sample" d
      | AgGroupConcat (MkGroupConcat d None) => pr_dcall "group_concat" d
      | AgGroupConcat (MkGroupConcat (MkDistinctExpression d e) (Some s)) =>
          w "group_concat" ++ s_ "(" ++ pr_distinct d ++ PE e ++ B ++ s_ ";" ++ B ++ w "separator" ++ B ++ s_ "=" ++ B ++ pr_string s ++ s_ ")"
      end.
    Definition pr_arg_list (a : ArgList E) : str := match a with AlNil => s_ "()" | AlExpression _ _ => [] end.
    Definition pr_expr_list (a : ExpressionList E) : str := match a with ElNil => s_ "()" | ElList _ => [] end.
    Definition pr_expr3 (r : RegexExpression E) : str :=
      match r with MkRegex a b c => s_ "(" ++ pr_args (a :: b :: list_of c) ++ B ++ s_ ")" end.
    Definition pr_str_replace (r : StrReplaceExpression E) : str :=
      match r with MkStrReplace a b c d => s_ "(" ++ pr_args (a :: b :: c :: list_of d) ++ B ++ s_ ")" end.
    Definition pr_built_in (b : BuiltInCall E G) : str :=
      match b with
      | BiAggregate a => pr_aggregate a
      | BiStr e => pr_call "str" [e]
      | BiLang e => pr_call "lang" [e]
      | BiLangMatches a b => pr_call "langmatches" [a; b]
      | BiDatatype e => pr_call "datatype" [e]
      | BiBound v => w "bound" ++ s_ "(" ++ pr_var v ++ s_ ")"
      | BiIri e => pr_call "iri" [e]
      | BiUri e => pr_call "uri" [e]
      | BiBnode (Some e) => pr_call "bnode" [e]
      | BiBnode None => pr_call0 "bnode"
      | BiRand => pr_call0 "rand"
      | BiAbs _ | BiCeil _ | BiFloor _ | BiRound _ => []
      | BiConcat l s => w "concat" ++ B ++ pr_expr_list l ++ B ++ w "substr" ++ B ++ pr_expr3 s
      | BiStrLen e s => w "strlen" ++ B ++ pr_bracketted e ++ B ++ pr_str_replace s
      | BiUCase e => pr_call "ucase" [e]
      | BiLCase e => pr_call "lcase" [e]
      | BiEncodeForUri e => pr_call "encode_for_uri" [e]
      | BiContains a b => pr_call "strlen" [a; b]
      | BiStrStarts a b => pr_call "strstarts" [a; b]
      | BiStrEnds a b => pr_call "strends" [a; b]
      | BiStrBefore a b => pr_call "strbefore" [a; b]
      | BiStrAfter a b => pr_call "strafter" [a; b]
      | BiYear e => pr_call "year" [e]
      | BiMonth e => pr_call "month" [e]
      | BiDay e => pr_call "day" [e]
      | BiHours e => pr_call "hours" [e]
      | BiMinutes e => pr_call "minutes" [e]
      | BiSeconds e => pr_call "seconds" [e]
      | BiTimezone e => pr_call "timezone" [e]
      | BiTz e => pr_call "tz" [e]
      | BiNow => pr_call0 "now"
      | BiUUID => pr_call0 "uuid"
      | BiStrUUID => pr_call0 "struuid"
      | BiMD5 e => pr_call "md5" [e]
      | BiSHA1 e => pr_call "sha1" [e]
      | BiSHA256 e => pr_call "sha256" [e]
      | BiSHA384 e => pr_call "sha384" [e]
      | BiSHA512 e => pr_call "sha512" [e]
      | BiCoalesce l => w "coalesce" ++ B ++ pr_expr_list l
      | BiIf a b c => pr_call "if" [a; b; c]
      | BiStrLang a b => pr_call "strlang" [a; b]
      | BiStrDt a b => pr_call "strdt" [a; b]
      | BiSameTerm a b => pr_call "sameterm" [a; b]
      | BiIsIri e => pr_call "isiri" [e]
      | BiIsUri e => pr_call "isuri" [e]
      | BiIsBlank e => pr_call "isblank" [e]
      | BiIsLiteral e => pr_call "isliteral" [e]
      | BiIsNumeric e => pr_call "isnumeric" [e]
      | BiRegex r => w "regex" ++ B ++ pr_expr3 r
      | BiExistsFunc g => w "exists" ++ B ++ PG g
      | BiNotExistsFunc g => w "not" ++ B ++ w "exists" ++ B ++ PG g
      end.
    Definition pr_function (i : Iri) (a : ArgList E) : str := pr_iri i ++ B ++ pr_arg_list a.
    Definition pr_primary (p : PrimaryExpression E G) : str :=
      match p with
      | PeBracketted e => pr_bracketted e
      | PeBuiltInCall b => pr_built_in b
      | PeIriOrFunction (MkIriOrFunction i None) => pr_iri i
      | PeIriOrFunction (MkIriOrFunction i (Some a)) => pr_function i a
      | PeRdfLiteral l => pr_lit l
      | PeNumericLiteral n => pr_num n
      | PeBooleanLiteral b => pr_bool b
      | PeVar v => pr_var v
      end.
    Definition pr_unary (u : UnaryExpression E G) : str :=
      match u with
      | UnNot p => s_ "!" ++ B ++ pr_primary p
      | UnAdd p => s_ "+" ++ B ++ pr_primary p
      | UnSub p => s_ "-" ++ B ++ pr_primary p
      | UnDefault p => pr_primary p
      end.
    Definition pr_mult (m : MultExpression E G) : str :=
      match m with MuMult u => s_ "*" ++ B ++ pr_unary u | MuDiv u => s_ "/" ++ B ++ pr_unary u end.
    (** every element preceded by a blank *)
    Definition spaced (l : list str) : str := flat_map (fun x => B ++ x) l.
    Definition pr_multiplicative (m : MultiplicativeExpression E G) : str :=
      match m with MkMultiplicative u l => pr_unary u ++ spaced (List.map pr_mult l) end.
    Definition pr_add (a : AddExpression E G) : str :=
      match a with
      | AddAdd m => s_ "+" ++ B ++ pr_multiplicative m
      | AddSub m => s_ "-" ++ B ++ pr_multiplicative m
      | AddNumeric n l => pr_num n ++ spaced (List.map pr_mult l)
      end.
    Definition pr_additive (a : AdditiveExpression E G) : str :=
      match a with MkAdditive m l => pr_multiplicative m ++ spaced (List.map pr_add l) end.
    Definition pr_op (o : OpExpression E G) : str :=
      match o with
      | OpEQ a => s_ "=" ++ B ++ pr_additive a
      | OpNE a => s_ "!=" ++ B ++ pr_additive a
      | OpLT a => s_ "<" ++ B ++ pr_additive a
      | OpGT a => s_ ">" ++ B ++ pr_additive a
      | OpLE a => s_ "<=" ++ B ++ pr_additive a
      | OpGE a => s_ ">=" ++ B ++ pr_additive a
      | OpIN l => w "in" ++ B ++ pr_expr_list l
      | OpNIN l => w "not" ++ B ++ w "in" ++ B ++ pr_expr_list l
      end.
    Definition pr_relational (r : RelationalExpression E G) : str :=
      match r with MkRelational a o => pr_additive a ++ may_ (fun o => B ++ pr_op o) o end.
    Definition pr_and (c : ConditionalAndExpression E G) : str :=
      match c with MkConditionalAnd l => joined (B ++ s_ "&&" ++ B) (List.map pr_relational l) end.

    Definition pr_constraint (c : Constraint E G) : str :=
      match c with
      | CoBracketted e => pr_bracketted e
      | CoBuiltInCall b => pr_built_in b
      | CoFunctionCall (MkFunctionCall i a) => pr_function i a
      end.
    Definition pr_as (x : ExpressionAsVar E) : str :=
      match x with MkExpressionAsVar e v => s_ "(" ++ B ++ PE e ++ B ++ w "as" ++ B ++ pr_var v ++ B ++ s_ ")" end.
    Definition pr_order_condition (o : OrderCondition E G) : str :=
      match o with
      | OcOrder (MkOrderExpression Asc e) => w "asc" ++ B ++ pr_bracketted e
      | OcOrder (MkOrderExpression Desc e) => w "desc" ++ B ++ pr_bracketted e
      | OcConstraint c => pr_constraint c
      | OcVar v => pr_var v
      end.
    Definition pr_group_condition (g : GroupCondition E G) : str :=
      match g with
      | GcBuiltInCall b => pr_built_in b
      | GcFunctionCall (MkFunctionCall i a) => pr_function i a
      | GcExpressionAsVarOpt (MkExpressionAsVarOpt e None) => pr_bracketted e
      | GcExpressionAsVarOpt (MkExpressionAsVarOpt e (Some v)) => pr_as (MkExpressionAsVar e v)
      | GcVar v => pr_var v
      end.
    Definition pr_group (g : GroupClause E G) : str :=
      match g with MkGroupClause l => w "group" ++ B ++ w "by" ++ spaced (List.map pr_group_condition l) end.
    Definition pr_having (g : HavingClause E G) : str :=
      match g with MkHavingClause l => w "having" ++ spaced (List.map pr_constraint l) end.
    Definition pr_order (g : OrderClause E G) : str :=
      match g with MkOrderClause l => w "order" ++ B ++ w "by" ++ spaced (List.map pr_order_condition l) end.
    Definition pr_mods (m : SolutionModifier E G) : str :=
      match m with
      | MkSolutionModifier ob gb h lo =>
          ended B (list_of (option_map pr_group gb) ++ list_of (option_map pr_having h) ++
                 list_of (option_map pr_order ob) ++ list_of (option_map pr_limit_offset lo))
      end.
    Definition pr_where (g : G) : str := w "where" ++ B ++ PG g.
    Definition pr_select_var (v : VarOrExpressionAsVar E) : str :=
      match v with VoeVar v => pr_var v | VoeExpressionAsVar x => pr_as x end.
    (** departure: projected variables are not separated *)
    Definition pr_select (s : SelectClause E) : str :=
      match s with
      | MkSelectClause m v =>
          w "select" ++
          match m with Some SmDistinct => B ++ w "distinct" | Some SmReduced => B ++ w "reduced" | None => [] end ++
          B ++ match v with SvAll => s_ "*" | SvList l => flat_map pr_select_var l end
      end.
    Definition pr_sub_select (s : SubSelect E G) : str :=
      match s with
      | MkSubSelect s g m v => pr_select s ++ B ++ pr_where g ++ B ++ pr_mods m ++ may_ (fun d => pr_values d ++ B) v
      end.
    Definition pr_pattern (p : GraphPatternNotTriples E G) : str :=
      match p with
      | GpGroupOrUnion (MkGroupOrUnion l) => joined (B ++ w "union" ++ B) (List.map PG l)
      | GpOptional g => w "optional" ++ B ++ PG g
      | GpMinus g => w "minus" ++ B ++ PG g
      | GpGraph (MkGraphGraphPattern v g) => w "graph" ++ B ++ pr_voi v ++ B ++ PG g
      | GpService (MkServiceGraphPattern v s g) =>
          w "service" ++ B ++ (if s then w "silent" ++ B else []) ++ pr_voi v ++ B ++ PG g
      | GpFilter c => w "filter" ++ B ++ pr_constraint c
      | GpBind x => w "bind" ++ B ++ pr_as x
      | GpInlineData d => pr_values d
      end.
    (** departure: the mark between a pattern and the triples after it is [?] *)
    Definition pr_pattern_and_triples (p : GraphPatternAndTriples E G) : str :=
      match p with
      | MkGraphPatternAndTriples p t => pr_pattern p ++ may_ (fun t => B ++ s_ "?" ++ B ++ pr_triples t) t
      end.
    Definition pr_sub (g : GroupGraphPatternSub E G) : str :=
      match g with
      | MkGroupGraphPatternSub t l => may_ (fun t => pr_triples t ++ B) t ++ ended B (List.map pr_pattern_and_triples l)
      end.
  End Core.

  (** *** Trees that can be written.  [WE], [WG]: the expressions and groups that can be written;
      [op e]: [e] ends with a sum or an IN list (departure: then the blank after it is not taken
      with it, and an argument list cannot end there) *)

  Definition expression_text (PE : Expression -> str) (PG : GroupGraphPattern -> str) (e : Expression) : str :=
    match e with MkExpression l => joined (B ++ s_ "||" ++ B) (List.map (pr_and PE PG) l) end.
  Definition ggp_text (PE : Expression -> str) (PG : GroupGraphPattern -> str) (g : GroupGraphPattern) : str :=
    match g with
    | GgpSubSelect s => s_ "{" ++ B ++ pr_sub_select PE PG s ++ s_ "}"
    | GgpSub s => s_ "{" ++ B ++ pr_sub PE PG s ++ s_ "}"
    end.
  (** the texts of expressions and groups nested at most [n] deep *)
  Fixpoint texts_of (n : nat) : (Expression -> str) * (GroupGraphPattern -> str) :=
    match n with
    | O => (fun _ => [], fun _ => [])
    | S n => let '(PE, PG) := texts_of n in (expression_text PE PG, ggp_text PE PG)
    end.
  Definition pr_expression (n : nat) : Expression -> str := fst (texts_of n).
  Definition pr_ggp (n : nat) : GroupGraphPattern -> str := snd (texts_of n).


  (** ** Queries *)
  Section Query.
    Context (n : nat).
    Definition prm := pr_mods (pr_expression n) (pr_ggp n).
    Definition prw (g : GroupGraphPattern) : str := pr_where (pr_ggp n) g ++ B.
    Definition pr_query (q : SparqlQuery) : str :=
      match q with
      | SqSelect (MkSelectQuery s d g m) => pr_select (pr_expression n) s ++ B ++ pr_datasets d ++ prw g ++ prm m
      | SqAsk (MkAskQuery d g m) => w "ask" ++ B ++ pr_datasets d ++ prw g ++ prm m
      | SqDescribe (MkDescribeQuery d v g m) =>
          w "describe" ++ B ++ match v with VoiAll => s_ "*" ++ B | VoiList l => ended B (List.map pr_voi l) end ++
          pr_datasets d ++ may_ prw g ++ prm m
      | SqConstruct (CqSubConstruct (MkSubConstruct (MkConstructTemplate t) d g m)) =>
          w "construct" ++ B ++ pr_template t ++ B ++ pr_datasets d ++ prw g ++ prm m
      | SqConstruct (CqSubTriples (MkSubTriples d t m)) =>
          w "construct" ++ B ++ pr_datasets d ++ w "where" ++ B ++ pr_template (match t with Some t => t | None => [] end) ++ B ++ prm m
      end.
    (** departure (C32): VALUES follows GROUP BY, HAVING or ORDER BY without LIMIT, or LIMIT with OFFSET *)
    Definition keeps_blank (m : SolutionModifier Expression GroupGraphPattern) : bool :=
      match m with
      | MkSolutionModifier _ _ _ (Some (LimitOffset _ None | OffsetLimit _ None)) => false
      | MkSolutionModifier _ _ _ (Some _) => true
      | MkSolutionModifier None None None None => false
      | MkSolutionModifier _ _ _ None => true
      end.
    Definition print (q : SparqlQueryStatement) : str :=
      match q with MkSparqlQueryStatement p q v => pr_prologue p ++ pr_query q ++ may_ pr_values v end.
  End Query.
End Print.

(** ** The trees that can be written.  The conditions on the first character of a printed text do not depend on
    the case of the keywords, so they are stated for lower case. *)
Definition wf_decl (d : BaseOrPrefixDecl) : Prop :=
  match d with
  | DeclBase s => all iri_char s
  | DeclPrefix (MkPrefixDecl p s) => wf_prefix p /\ all iri_char s
  end.
Definition wf_prologue (p : Prologue) : Prop := match p with MkPrologue l => Forall wf_decl l end.
Definition wf_don (d : DefaultOrNamedIri) : Prop := match d with DonDefault i | DonNamed i => wf_iri i end.
Definition wf_block (d : DataBlock) : Prop :=
  match d with
  | DbOneVar (MkInlineDataOneVar v vs) => wf_var v /\ wf_values vs
  | DbFull (MkInlineDataFull vs rows) => Forall wf_var vs /\ Forall wf_values rows
  end.
Definition wf_limit_offset (l : LimitOffsetClause) : Prop :=
  match l with
  | LimitOffset n o | OffsetLimit n o => u64 n /\ match o with Some m => u64 m | None => True end
  end.
Definition wf_node (g : GraphNode) : Prop := match g with GnVarOrTerm v => wf_vot v | GnTriplesNode _ => False end.
(** in a collection a name has a prefix after TRUE and FALSE, see [named] *)
Definition wf_item (g g' : GraphNode) : Prop :=
  match g, g' with GnVarOrTerm (VotTerm (GtBooleanLiteral _)), GnVarOrTerm (VotTerm (GtIri i)) => named i | _, _ => True end.
Fixpoint wf_items (l : list GraphNode) : Prop :=
  match l with
  | [] => True
  | g :: l => wf_node g /\ match l with g' :: _ => wf_item g g' | [] => True end /\ wf_items l
  end.
Definition wf_objects (o : ObjectList) : Prop := match o with MkObjectList l => l <> [] /\ Forall wf_node l end.
(** after [a] the object does not start with a colon *)
Definition wf_verb_list (v : VerbList) : Prop :=
  match v with
  | MkVerbList v o => wf_objects o /\
      match v with VerbVarOrIri v => wf_voi v | VerbA => not_first 58 (pr_objects s_ [32] o) end
  end.
Definition wf_props (p : PropertyList) : Prop :=
  match p with MkPropertyList l => l <> [] /\ Forall wf_verb_list l end.
Definition wf_triples_node (n : TriplesNode) : Prop :=
  match n with
  | TnCollection (MkCollection l) => l <> [] /\ wf_items l
  | TnBlankNodePropertyList p => wf_props p
  end.
(** after TRUE and FALSE the verb does not start with a colon *)
Definition wf_tss (t : TriplesSameSubject) : Prop :=
  match t with
  | TssTerm v p => wf_vot v /\ wf_props p /\ (is_bool v = true -> not_first 58 (pr_props s_ [32] p))
  | TssNode n (Some p) => wf_triples_node n /\ wf_props p
  | TssNode n None => False
  end.
Definition wf_in_set (i : PathOneInPropertySet) : Prop :=
  match i with
  | MkPathOneInPropertySet (IocIriOrA i) | MkPathOneInPropertySet (IocCaret i) =>
      match i with IoaIri i => wf_iri i | IoaA => True end
  end.
Section PathWf.
  Context (P : PathAlternative -> Prop).
  Definition wf_path_primary (p : PathPrimary) : Prop :=
    match p with
    | PpIri i => wf_iri i
    | PpA => True
    | PpNegated (MkPathNegatedPropertySet l) => l <> [] /\ Forall wf_in_set l
    | PpPath p => P p
    end.
  Definition wf_elt_or_inverse (p : PathEltOrInverse) : Prop :=
    match p with PeiPathElt (MkPathElt p _) | PeiInverse (MkPathElt p _) => wf_path_primary p end.
  (** departure (C20): the elements joined by [|] form one sequence *)
  Definition path_wf (p : PathAlternative) : Prop :=
    match p with MkPathAlternative [MkPathSequence l] => l <> [] /\ Forall wf_elt_or_inverse l | _ => False end.
End PathWf.
Inductive wf_path : PathAlternative -> Prop :=
| wf_path_intro (P : PathAlternative -> Prop) p : (forall p, P p -> wf_path p) -> path_wf P p -> wf_path p.
(** departure (C20): after a path that ends without a modifier the object does not start with a modifier character, so it
    is not a variable written with a question mark *)
Definition plain_start (t : str) : Prop := exists c t', t = c :: t' /\ c < 128 /\ ~ In c (s_ "?*+").
(** the last element is [a]: then it does not start with a colon either *)
Definition ends_a (p : PathAlternative) : bool :=
  match p with
  | MkPathAlternative [MkPathSequence l] =>
      match last l (PeiPathElt (MkPathElt PpA (Some PmPlus))) with
      | PeiPathElt (MkPathElt PpA None) | PeiInverse (MkPathElt PpA None) => true
      | _ => false
      end
  | _ => false
  end.
(** the last element has no modifier *)
Definition ends_bare (p : PathAlternative) : bool :=
  match p with
  | MkPathAlternative [MkPathSequence l] =>
      match last l (PeiPathElt (MkPathElt PpA (Some PmPlus))) with
      | PeiPathElt (MkPathElt _ None) | PeiInverse (MkPathElt _ None) => true
      | _ => false
      end
  | _ => false
  end.
Definition wf_verb_path (v : VerbPathOrSimple) (objects : str) : Prop :=
  match v with
  | VpsPath p => wf_path p /\ (ends_bare p = true -> plain_start objects) /\ (ends_a p = true -> not_first 58 objects)
  | VpsSimple v => wf_var v
  end.
Definition wf_node_path (g : GraphNodePath) : Prop :=
  match g with GnpVarOrTerm v => wf_vot v | GnpTriplesNodePath _ => False end.
Definition wf_entry (e : PropertyListPathEntry) : Prop :=
  match e with MkPropertyListPathEntry v o => wf_verb_path v (pr_objects s_ [32] o) /\ wf_objects o end.
Definition wf_props_path (p : PropertyListPath) : Prop :=
  match p with
  | MkPropertyListPath v o es => wf_verb_path v (pr_objects_path s_ [32] o) /\
      match o with MkObjectListPath l => l <> [] /\ Forall wf_node_path l end /\ Forall wf_entry es
  end.
Definition wf_tssp (t : TriplesSameSubjectPath) : Prop :=
  match t with
  | TsspTerm v p => wf_vot v /\ wf_props_path p /\ (is_bool v = true -> not_first 58 (pr_props_path s_ [32] p))
  | TsspNode _ _ => False
  end.
Definition wf_triples (b : TriplesBlock) : Prop := match b with MkTriplesBlock l => l <> [] /\ Forall wf_tssp l end.
Section CoreWf.
  Context {E G : Type} (WE : E -> Prop) (WG : G -> Prop) (op : E -> bool).
  Definition wf_args (l : list E) : Prop :=
    Forall WE l /\ match rev l with e :: _ => op e = false | [] => True end.
  Definition wf_distinct_expression (d : DistinctExpression E) : Prop :=
    match d with MkDistinctExpression _ e => wf_args [e] end.
  Definition wf_aggregate (a : Aggregate E) : Prop :=
    match a with
    | AgCount (MkCount _ CtAll) => True
    | AgCount (MkCount _ (CtExpr e)) => wf_args [e]
    | AgSum d | AgMin d | AgMax d | AgAvg d | AgSample d | AgGroupConcat (MkGroupConcat d None) => wf_distinct_expression d
    | AgGroupConcat (MkGroupConcat (MkDistinctExpression _ e) (Some s)) => WE e /\ wf_string s
    end.
  (** departure: argument and expression lists are empty *)
  Definition wf_arg_list (a : ArgList E) : Prop := match a with AlNil => True | AlExpression _ _ => False end.
  Definition wf_expr_list (a : ExpressionList E) : Prop := match a with ElNil => True | ElList _ => False end.
  Definition wf_expr3 (r : RegexExpression E) : Prop := match r with MkRegex a b c => wf_args (a :: b :: list_of c) end.
  Definition wf_str_replace (r : StrReplaceExpression E) : Prop :=
    match r with MkStrReplace a b c d => wf_args (a :: b :: c :: list_of d) end.
  Definition wf_built_in (b : BuiltInCall E G) : Prop :=
    match b with
    | BiAggregate a => wf_aggregate a
    | BiBound v => wf_var v
    | BiBnode None | BiRand | BiNow | BiUUID | BiStrUUID => True
    | BiAbs _ | BiCeil _ | BiFloor _ | BiRound _ => False
    | BiConcat l s => wf_expr_list l /\ wf_expr3 s
    | BiStrLen e s => WE e /\ wf_str_replace s
    | BiCoalesce l => wf_expr_list l
    | BiRegex r => wf_expr3 r
    | BiExistsFunc g | BiNotExistsFunc g => WG g
    | BiIf a b c => wf_args [a; b; c]
    | BiLangMatches a b | BiContains a b | BiStrStarts a b | BiStrEnds a b | BiStrBefore a b | BiStrAfter a b
    | BiStrLang a b | BiStrDt a b | BiSameTerm a b => wf_args [a; b]
    | BiStr e | BiLang e | BiDatatype e | BiIri e | BiUri e | BiBnode (Some e) | BiUCase e | BiLCase e
    | BiEncodeForUri e | BiYear e | BiMonth e | BiDay e | BiHours e | BiMinutes e | BiSeconds e | BiTimezone e
    | BiTz e | BiMD5 e | BiSHA1 e | BiSHA256 e | BiSHA384 e | BiSHA512 e | BiIsIri e | BiIsUri e | BiIsBlank e
    | BiIsLiteral e | BiIsNumeric e => wf_args [e]
    end.
  (** departure: U+212A makes a keyword test panic *)
  Definition no_kelvin_sign (i : Iri) : Prop := ~ In 0x212A (pr_iri i).
  Definition wf_function (i : Iri) (a : ArgList E) : Prop := wf_iri i /\ no_kelvin_sign i /\ wf_arg_list a.
  Definition wf_primary (p : PrimaryExpression E G) : Prop :=
    match p with
    | PeBracketted e => WE e
    | PeBuiltInCall b => wf_built_in b
    | PeIriOrFunction (MkIriOrFunction i None) => wf_iri i /\ no_kelvin_sign i
    | PeIriOrFunction (MkIriOrFunction i (Some a)) => wf_function i a
    | PeRdfLiteral l => wf_lit l
    | PeNumericLiteral n => wf_num n
    | PeBooleanLiteral _ => True
    | PeVar v => wf_var v
    end.
  (** departure: the sign of a number is an operator *)
  Definition unsigned (n : NumericLiteral) : Prop := match n with NInt z => (0 <= z)%Z | NDouble v _ => negative v = false end.
  Definition wf_unary (u : UnaryExpression E G) : Prop :=
    match u with
    | UnNot p | UnAdd p | UnSub p => wf_primary p
    | UnDefault p => wf_primary p /\ match p with PeNumericLiteral n => unsigned n | _ => True end
    end.
  Definition wf_mult (m : MultExpression E G) : Prop := match m with MuMult u | MuDiv u => wf_unary u end.
  Definition wf_multiplicative (m : MultiplicativeExpression E G) : Prop :=
    match m with MkMultiplicative u l => wf_unary u /\ Forall wf_mult l end.
  (** departure: a term has factors *)
  Definition wf_add (a : AddExpression E G) : Prop :=
    match a with
    | AddAdd (MkMultiplicative u l) | AddSub (MkMultiplicative u l) => wf_unary u /\ Forall wf_mult l /\ l <> []
    | AddNumeric n l => wf_num n /\ unsigned n /\ Forall wf_mult l /\ l <> []
    end.
  Definition wf_additive (a : AdditiveExpression E G) : Prop :=
    match a with MkAdditive m l => wf_multiplicative m /\ Forall wf_add l end.
  Definition op_additive (a : AdditiveExpression E G) : bool :=
    match a with MkAdditive _ [] => false | MkAdditive _ _ => true end.
  Definition wf_op (o : OpExpression E G) : Prop :=
    match o with
    | OpEQ a | OpNE a | OpLT a | OpGT a | OpLE a | OpGE a => wf_additive a
    | OpIN l | OpNIN l => wf_expr_list l
    end.
  Definition wf_relational (r : RelationalExpression E G) : Prop :=
    match r with MkRelational a o => wf_additive a /\ match o with Some o => wf_op o | None => True end end.
  Definition op_relational (r : RelationalExpression E G) : bool :=
    match r with
    | MkRelational a None => op_additive a
    | MkRelational _ (Some (OpEQ a | OpNE a | OpLT a | OpGT a | OpLE a | OpGE a)) => op_additive a
    | MkRelational _ (Some (OpIN _ | OpNIN _)) => true
    end.
  Definition op_last {A} (f : A -> bool) (l : list A) : bool := match rev l with a :: _ => f a | [] => false end.
  Definition wf_and (c : ConditionalAndExpression E G) : Prop :=
    match c with MkConditionalAnd l => l <> [] /\ Forall wf_relational l end.
  Definition op_and (c : ConditionalAndExpression E G) : bool :=
    match c with MkConditionalAnd l => op_last op_relational l end.
  Definition wf_constraint (c : Constraint E G) : Prop :=
    match c with
    | CoBracketted e => WE e
    | CoBuiltInCall b => wf_built_in b
    | CoFunctionCall (MkFunctionCall i a) => wf_function i a
    end.
  (** after HAVING the function has a prefix, see [named] *)
  Definition wf_first (c : Constraint E G) : Prop := match c with CoFunctionCall (MkFunctionCall i _) => named i | _ => True end.
  Definition wf_as (x : ExpressionAsVar E) : Prop := match x with MkExpressionAsVar e v => WE e /\ wf_var v end.
  Definition wf_order_condition (o : OrderCondition E G) : Prop :=
    match o with
    | OcOrder (MkOrderExpression _ e) => WE e
    | OcConstraint c => wf_constraint c
    | OcVar v => wf_var v
    end.
  (** departure: with AS the expression leaves the blank *)
  Definition wf_group_condition (g : GroupCondition E G) : Prop :=
    match g with
    | GcBuiltInCall b => wf_built_in b
    | GcFunctionCall (MkFunctionCall i a) => wf_function i a
    | GcExpressionAsVarOpt (MkExpressionAsVarOpt e None) => WE e
    | GcExpressionAsVarOpt (MkExpressionAsVarOpt e (Some v)) => WE e /\ op e = true /\ wf_var v
    | GcVar v => wf_var v
    end.
  Definition some_ {A} (P : A -> Prop) (o : option A) : Prop := match o with Some a => P a | None => True end.
  Definition wf_mods (m : SolutionModifier E G) : Prop :=
    match m with
    | MkSolutionModifier ob gb h lo =>
        some_ (fun '(MkOrderClause l) => l <> [] /\ Forall wf_order_condition l) ob /\
        some_ (fun '(MkGroupClause l) => l <> [] /\ Forall wf_group_condition l) gb /\
        some_ (fun '(MkHavingClause l) => l <> [] /\ Forall wf_constraint l /\ match l with c :: _ => wf_first c | [] => True end) h /\
        some_ wf_limit_offset lo
    end.
  Definition wf_select (s : SelectClause E) : Prop :=
    match s with
    | MkSelectClause _ SvAll => True
    | MkSelectClause _ (SvList l) => l <> [] /\
        Forall (fun v => match v with VoeVar v => wf_var v | VoeExpressionAsVar x => wf_as x end) l
    end.
  Definition wf_sub_select (s : SubSelect E G) : Prop :=
    match s with MkSubSelect s g m v => wf_select s /\ WG g /\ wf_mods m /\ some_ wf_block v end.
  Definition wf_pattern (p : GraphPatternNotTriples E G) : Prop :=
    match p with
    | GpGroupOrUnion (MkGroupOrUnion l) => l <> [] /\ Forall WG l
    | GpOptional g | GpMinus g => WG g
    | GpGraph (MkGraphGraphPattern v g) | GpService (MkServiceGraphPattern v _ g) => wf_voi v /\ WG g
    | GpFilter c => wf_constraint c
    | GpBind x => wf_as x
    | GpInlineData d => wf_block d
    end.
  Definition wf_sub (g : GroupGraphPatternSub E G) : Prop :=
    match g with
    | MkGroupGraphPatternSub t l => some_ wf_triples t /\
        Forall (fun '(MkGraphPatternAndTriples p t) => wf_pattern p /\ some_ wf_triples t) l
    end.
End CoreWf.
Definition op_expression (e : Expression) : bool := match e with MkExpression l => op_last op_and l end.
Definition expression_wf (WE : Expression -> Prop) (WG : GroupGraphPattern -> Prop) (e : Expression) : Prop :=
  match e with MkExpression l => l <> [] /\ Forall (wf_and WE WG op_expression) l end.
Definition ggp_wf (WE : Expression -> Prop) (WG : GroupGraphPattern -> Prop) (g : GroupGraphPattern) : Prop :=
  match g with
  | GgpSubSelect s => wf_sub_select WE WG op_expression s
  | GgpSub s => wf_sub WE WG op_expression s
  end.
(** the expressions and groups nested at most [n] deep that can be written *)
Fixpoint wfs (n : nat) : (Expression -> Prop) * (GroupGraphPattern -> Prop) :=
  match n with
  | O => (fun _ => False, fun _ => False)
  | S n => let '(WE, WG) := wfs n in (expression_wf WE WG, ggp_wf WE WG)
  end.
Definition wf_expression (n : nat) : Expression -> Prop := fst (wfs n).
Definition wf_ggp (n : nat) : GroupGraphPattern -> Prop := snd (wfs n).

Section Printable.
  Context (n : nat).
  Definition wfm := wf_mods (wf_expression n) (wf_ggp n) op_expression.
  Definition wf_query (q : SparqlQuery) : Prop :=
    match q with
    | SqSelect (MkSelectQuery s d g m) => wf_select (wf_expression n) s /\ Forall wf_don d /\ wf_ggp n g /\ wfm m
    | SqAsk (MkAskQuery d g m) => Forall wf_don d /\ wf_ggp n g /\ wfm m
    | SqDescribe (MkDescribeQuery d v g m) =>
        match v with VoiAll => True | VoiList l => l <> [] /\ Forall wf_voi l end /\
        (** FROM could be a prefix *)
        match d with DonDefault i :: _ => named i | _ => True end /\ Forall wf_don d /\ some_ (wf_ggp n) g /\ wfm m
    | SqConstruct (CqSubConstruct (MkSubConstruct (MkConstructTemplate t) d g m)) =>
        Forall wf_tss t /\ Forall wf_don d /\ wf_ggp n g /\ wfm m
    | SqConstruct (CqSubTriples (MkSubTriples d t m)) =>
        Forall wf_don d /\ some_ (fun t => t <> [] /\ Forall wf_tss t) t /\ wfm m
    end.
  Definition printable (q : SparqlQueryStatement) : Prop :=
    match q with
    | MkSparqlQueryStatement p q v => wf_prologue p /\ wf_query q /\
        some_ (fun d => wf_block d /\ keeps_blank (mods_of q) = true) v
    end.
End Printable.
