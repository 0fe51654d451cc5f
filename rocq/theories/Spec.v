(** Specification side: the concrete grammar, as relations between trees and texts.

    This file does not mention the parsers.  [R_x tree text] reads "[text] is a way of writing
    [tree]".  The grammar is the one the crate implements; where it departs from the W3C SPARQL 1.1
    grammar the comment says so (the departures are the subject of the [_refuted] theorems). *)
From Verif Require Export Ast SpecF64.

(** ** Languages *)
Definition seq (P Q : str -> Prop) : str -> Prop :=
  fun t => exists u v, t = u ++ v /\ P u /\ Q v.
Infix ";;" := seq (at level 61, right associativity).
Definition either (P Q : str -> Prop) : str -> Prop := fun t => P t \/ Q t.
Declare Scope lang_scope.
Delimit Scope lang_scope with lang.
Infix "||" := either : lang_scope.
Definition empty : str -> Prop := fun t => t = [].
Definition lit (s : string) : str -> Prop := fun t => t = s_ s.
(** a text one may omit *)
Definition may (P : str -> Prop) : str -> Prop := (empty || P)%lang.

Section Lists.
  Context {A : Type} (R : A -> str -> Prop).
  Definition opt_ (o : option A) : str -> Prop := match o with None => empty | Some a => R a end.
  Fixpoint star (l : list A) : str -> Prop :=
    match l with
    | [] => empty
    | a :: l' => R a ;; star l'
    end.
  Fixpoint sepby (S : str -> Prop) (l : list A) : str -> Prop :=
    match l with
    | [] => empty
    | [a] => R a
    | a :: l' => R a ;; S ;; sepby S l'
    end.
End Lists.
(** like [sepby] but at least one element *)
Definition sepby1 {A} (R : A -> str -> Prop) (S : str -> Prop) (l : list A) : str -> Prop :=
  fun t => l <> [] /\ sepby R S l t.
(** any number of copies, at least one *)
Inductive plus (P : str -> Prop) : str -> Prop :=
| plus_one t : P t -> plus P t
| plus_more u v : P u -> plus P v -> plus P (u ++ v).

(** ** Characters *)
Definition in_ranges (rs : list (N * N)) (c : char) : bool :=
  existsb (fun '(a, b) => (a <=? c) && (c <=? b)) rs.
Definition letters : list (N * N) := [(65, 90); (97, 122)].
Definition digits : list (N * N) := [(48, 57)].
(** W3C PN_CHARS_BASE *)
Definition w3c_bmp : list (N * N) :=
  [(0xC0, 0xD6); (0xD8, 0xF6); (0xF8, 0x2FF); (0x370, 0x37D); (0x37F, 0x1FFF); (0x200C, 0x200D);
   (0x2070, 0x218F); (0x2C00, 0x2FEF); (0x3001, 0xD7FF); (0xF900, 0xFDCF); (0xFDF0, 0xFFFD)].
Definition w3c_base : list (N * N) := letters ++ w3c_bmp ++ [(0x10000, 0xEFFFF)].
(** The crate's version: letters are recognised by the low byte of the character, and the
    supplementary planes are missing. *)
Definition base_char (c : char) : bool := in_ranges letters (c mod 256) || in_ranges w3c_bmp c.
Definition start_char (c : char) : bool := base_char c || (c =? 95).
Definition name_char (c : char) : bool := start_char c || (c =? 45) || in_ranges digits c.
Definition var_char (c : char) : bool := start_char c || in_ranges digits c.
(** digits recognised by the low byte *)
Definition low_digit (c : char) : bool := in_ranges digits (c mod 256).
Definition hex_digit (c : char) : bool := in_ranges [(48, 57); (65, 70); (97, 102)] c.
(** W3C IRIREF characters, and the crate's version (control characters by the low byte) *)
Definition w3c_iri_char (c : char) : bool :=
  negb (in_ranges [(0, 0x20)] c) && negb (existsb (N.eqb c) (s_ "<>""{}|^`\")).
Definition iri_char (c : char) : bool :=
  negb (in_ranges [(0, 0x20)] (c mod 256)) && negb (existsb (N.eqb c) (s_ "<>""{}|^`\")).

Definition all (f : char -> bool) (t : str) : Prop := Forall (fun c => f c = true) t.

(** ** Blank text *)
Inductive blank : str -> Prop :=
| blank_nil : blank []
| blank_space c t : In c [32; 9; 10; 13] -> blank t -> blank (c :: t)
| blank_comment body nl t :
    Forall (fun c => c <> 10 /\ c <> 13) body -> In nl [10; 13] -> blank t ->
    blank (35 :: body ++ nl :: t).
Definition blank1 (t : str) : Prop := blank t /\ t <> [].

(** ** Keywords, in any ASCII letter case *)
Definition lower (c : char) : char := if in_ranges [(65, 90)] c then c + 32 else c.
Definition kw (k : string) : str -> Prop := fun t => List.map lower t = s_ k.

(** ** Numbers *)
Fixpoint value (ds : str) : Z :=
  match ds with
  | [] => 0
  | d :: ds' => (Z.of_N (d - 48) * 10 ^ Z.of_nat (List.length ds') + value ds')%Z
  end.
Definition digits1 (t : str) : Prop := t <> [] /\ all (in_ranges digits) t.
Definition digits0 (t : str) : Prop := all (in_ranges digits) t.
Inductive signed : str -> Z -> str -> Prop :=
| signed_none ds : signed [] 1 ds
| signed_plus ds : signed [43] 1 ds
| signed_minus ds : signed [45] (-1) ds.
Definition i64 (z : Z) : Prop := (- 2 ^ 63 <= z < 2 ^ 63)%Z.
Definition u64 (z : Z) : Prop := (0 <= z < 2 ^ 64)%Z.
Definition R_i64 (z : Z) (t : str) : Prop :=
  exists sg k ds, signed sg k ds /\ t = sg ++ ds /\ digits1 ds /\ z = (k * value ds)%Z /\ i64 z.
Definition R_u64 (z : Z) (t : str) : Prop := digits1 t /\ z = value t /\ u64 z.
(** sign? digits+ ('.' digits* )? | sign? '.' digits+ ; the number is the fraction written, rounded to
    binary64, with the sign written *)
Definition R_decimal (v : f64) (t : str) : Prop :=
  exists sg k ip fp pt, signed sg k ip /\ t = sg ++ ip ++ pt ++ fp /\ digits0 ip /\ digits0 fp /\
    (pt = [46] \/ (pt = [] /\ fp = [])) /\ ip ++ fp <> [] /\
    (negative v = true <-> k = (-1)%Z) /\
    rounds (inject_Z (value (ip ++ fp)) / inject_Z (10 ^ Z.of_nat (List.length fp))) v.
Definition R_exponent (z : Z) (t : str) : Prop := ((lit "e" || lit "E")%lang ;; R_i64 z) t.
Definition R_numeric (n : NumericLiteral) : str -> Prop :=
  match n with
  | NInt z => R_i64 z
  | NDouble q e => R_decimal q ;; opt_ R_exponent e
  end.

(** ** Strings, language tags *)
(** body of a literal delimited by the quote [q] *)
Inductive body (q : char) : str -> Prop :=
| body_nil : body q []
| body_char c t : c <> q -> c <> 92 -> body q t -> body q (c :: t)
| body_esc c t : In c (s_ """tbnrf\'") -> body q t -> body q (92 :: c :: t).
(** departure: the empty literal is not accepted *)
Definition R_string (s : str) (t : str) : Prop :=
  exists q, (q = 39 \/ q = 34) /\ t = q :: s ++ [q] /\ body q s /\ s <> [].
Definition alnum : list (N * N) := letters ++ digits.
Inductive lang_subtags : str -> Prop :=
| subtags_nil : lang_subtags []
| subtags_cons u t : u <> [] -> all (in_ranges alnum) u -> lang_subtags t -> lang_subtags (45 :: u ++ t).
Definition lang_tag (s : str) : Prop :=
  exists u t, s = u ++ t /\ u <> [] /\ all (in_ranges letters) u /\ lang_subtags t.
Definition R_lang (s : str) : str -> Prop := fun t => t = 64 :: s /\ lang_tag s.

(** ** Names *)
Definition R_iri_ref (s : str) : str -> Prop := fun t => t = 60 :: s ++ [62] /\ all iri_char s.
(** what may follow the first character of a prefix or blank node label: dots, then a text of name
    characters and dots that neither starts nor ends with a dot (departure: the leading dots are
    accepted even if nothing follows) *)
Definition inner_ok (u : str) : Prop :=
  u = [] \/ exists a m, u = a :: m /\ name_char a = true /\ all (fun c => name_char c || (c =? 46)) m /\
                        last u 0 <> 46.
Definition name_tail (t : str) : Prop := exists d u, t = d ++ u /\ all (N.eqb 46) d /\ inner_ok u.
Definition prefix_name (p : str) : Prop :=
  exists c t, p = c :: t /\ base_char c = true /\ name_tail t.
Definition label_name (p : str) : Prop :=
  exists c t, p = c :: t /\ (start_char c = true \/ low_digit c = true) /\ name_tail t.
(** %hh or \c *)
Definition plx_text (t : str) : Prop :=
  (exists a b, t = [37; a; b] /\ hex_digit a = true /\ hex_digit b = true) \/
  (exists c, t = [92; c] /\ In c (s_ "_~.-!$&'()*+,;=/?#@%")).
(** units of a local name; departure: a local name has at least two units, one of the later ones not
    a dot, and may end with dots *)
Inductive local_units : str -> Prop :=
| units_nil : local_units []
| units_char c t : (name_char c || (c =? 58) || (c =? 46)) = true -> local_units t -> local_units (c :: t)
| units_plx u t : plx_text u -> local_units t -> local_units (u ++ t).
Definition local_start (u : str) : Prop :=
  plx_text u \/ exists c, u = [c] /\ (start_char c || (c =? 58) || low_digit c) = true.
Definition local_name (l : str) : Prop :=
  exists u t, l = u ++ t /\ local_start u /\ local_units t /\ ~ all (N.eqb 46) t.

Definition text (P : str -> Prop) (s : str) : str -> Prop := fun t => t = s /\ P s.
(** departure: blanks are accepted around the colon *)
Definition R_pname_ns (p : option str) : str -> Prop := opt_ (text prefix_name) p ;; blank ;; lit ":".
Definition R_prefixed_name (n : PrefixedName) : str -> Prop :=
  match n with
  | PnameLN p l => R_pname_ns p ;; blank ;; text local_name l
  | PnameNS p => R_pname_ns p
  end.
Definition R_iri (i : Iri) : str -> Prop :=
  match i with
  | IriIri s => R_iri_ref s
  | IriPrefixedName p => R_prefixed_name p
  end.
(** departure: blanks are accepted after the sigil *)
Definition var_name_ok (s : str) : Prop := s <> [] /\ all var_char s.
Definition R_var (v : Var) : str -> Prop :=
  match v with
  | QMark s => lit "?" ;; blank ;; text var_name_ok s
  | Dollar s => lit "$" ;; blank ;; text var_name_ok s
  end.
(** departure: blanks are accepted after [_:] *)
Definition R_blank_node (b : BlankNode) : str -> Prop :=
  match b with
  | Anon => lit "[" ;; blank ;; lit "]"
  | Label s => lit "_:" ;; blank ;; text label_name s
  end.

(** ** Terms *)
Definition R_descriptor (d : RdfLiteralDescriptor) : str -> Prop :=
  match d with
  | LangTag s => R_lang s
  | DescIri i => lit "^^" ;; R_iri i
  end.
Definition R_rdf_literal (l : RdfLiteral) : str -> Prop :=
  match l with MkRdfLiteral s d => R_string s ;; opt_ R_descriptor d end.
Definition R_boolean (b : bool) : str -> Prop := if b then kw "true" else kw "false".
Definition R_nil : str -> Prop := lit "(" ;; blank ;; lit ")".
Definition R_graph_term (g : GraphTerm) : str -> Prop :=
  match g with
  | GtIri i => R_iri i
  | GtRdfLiteral l => R_rdf_literal l
  | GtNumericLiteral n => R_numeric n
  | GtBooleanLiteral b => R_boolean b
  | GtBlankNode b => R_blank_node b
  | GtNil => R_nil
  end.
Definition R_var_or_term (v : VarOrTerm) : str -> Prop :=
  match v with VotVar v => R_var v | VotTerm g => R_graph_term g end.
Definition R_var_or_iri (v : VarOrIri) : str -> Prop :=
  match v with VoiVar v => R_var v | VoiIri i => R_iri i end.
Definition R_verb (v : Verb) : str -> Prop :=
  match v with VerbVarOrIri v => R_var_or_iri v | VerbA => kw "a" end.
Definition R_var_or_iris_or_all (v : VarOrIrisOrAll) : str -> Prop :=
  match v with VoiList l => sepby1 R_var_or_iri blank1 l | VoiAll => lit "*" end.
Definition R_iri_or_a (i : IriOrA) : str -> Prop :=
  match i with IoaIri i => R_iri i | IoaA => kw "a" end.
Definition R_iri_or_a_or_caret (i : IriOrAOrCaret) : str -> Prop :=
  match i with IocIriOrA i => R_iri_or_a i | IocCaret i => lit "^" ;; R_iri_or_a i end.

(** ** Prologue, dataset clauses, data blocks, LIMIT/OFFSET *)
Definition R_decl (d : BaseOrPrefixDecl) : str -> Prop :=
  match d with
  | DeclBase s => kw "base" ;; blank1 ;; R_iri_ref s
  | DeclPrefix (MkPrefixDecl p s) =>
      kw "prefix" ;; blank ;; R_pname_ns p ;; blank ;; R_iri_ref s
  end.
Definition R_prologue (p : Prologue) : str -> Prop :=
  match p with MkPrologue l => sepby R_decl blank1 l end.
Definition R_default_or_named (d : DefaultOrNamedIri) : str -> Prop :=
  match d with
  | DonDefault i => R_iri i
  | DonNamed i => kw "named" ;; blank1 ;; R_iri i
  end.
Definition R_dataset (d : DataSetClause) : str -> Prop := kw "from" ;; blank1 ;; R_default_or_named d.
Definition R_using (d : DefaultOrNamedIri) : str -> Prop := kw "using" ;; blank1 ;; R_default_or_named d.
Definition padded (P : str -> Prop) : str -> Prop := blank ;; P ;; blank.
Definition padded1 (P : str -> Prop) : str -> Prop := blank1 ;; P ;; blank1.
Definition R_value (v : DataBlockValue) : str -> Prop :=
  match v with
  | DbvIri i => R_iri i
  | DbvRdfLiteral l => R_rdf_literal l
  | DbvNumericLiteral n => R_numeric n
  | DbvBooleanLiteral b => R_boolean b
  | DbvUnDef => kw "undef"
  end.
Definition R_row (vs : list DataBlockValue) : str -> Prop :=
  lit "(" ;; blank ;; star (fun v => padded (R_value v)) vs ;; lit ")".
Definition R_datablock (d : DataBlock) : str -> Prop :=
  match d with
  | DbOneVar (MkInlineDataOneVar v vs) =>
      R_var v ;; padded (lit "{") ;; star (fun v => padded (R_value v)) vs ;; blank ;; lit "}"
  | DbFull (MkInlineDataFull vs rows) =>
      (lit "(" ;; blank ;; star (fun v => padded (R_var v)) vs ;; lit ")") ;;
      padded (lit "{") ;; star (fun r => padded (R_row r)) rows ;; blank ;; lit "}"
  end.
Definition R_values (d : DataBlock) : str -> Prop := kw "values" ;; blank1 ;; R_datablock d.
Definition R_limit (n : Z) : str -> Prop := kw "limit" ;; blank ;; R_u64 n.
Definition R_offset (n : Z) : str -> Prop := kw "offset" ;; blank ;; R_u64 n.
Definition R_limit_offset (l : LimitOffsetClause) : str -> Prop :=
  match l with
  | LimitOffset n o => R_limit n ;; blank ;; opt_ R_offset o
  | OffsetLimit n o => R_offset n ;; blank ;; opt_ R_limit o
  end.

(** ** Triples (templates) *)
Definition dots : str -> Prop := plus (padded (lit ".")).
Definition semis : str -> Prop := padded (plus (padded (lit ";"))).
Definition trailing_semis (t : str) : Prop := exists l : list unit, star (fun _ => blank ;; lit ";") l t.

Fixpoint R_graph_node (g : GraphNode) : str -> Prop :=
  match g with
  | GnVarOrTerm v => R_var_or_term v
  | GnTriplesNode n => R_triples_node n
  end
with R_triples_node (n : TriplesNode) : str -> Prop :=
  match n with
  | TnCollection c => R_collection c
  | TnBlankNodePropertyList p => lit "[" ;; blank ;; R_property_list p ;; blank ;; lit "]"
  end
with R_collection (c : Collection) : str -> Prop :=
  match c with
  | MkCollection l => lit "(" ;; (fun t => l <> [] /\ star (fun g => padded (R_graph_node g)) l t) ;; lit ")"
  end
with R_property_list (p : PropertyList) : str -> Prop :=
  match p with
  | MkPropertyList l => (fun t => l <> [] /\ sepby R_verb_list semis l t) ;; trailing_semis
  end
with R_verb_list (v : VerbList) : str -> Prop :=
  match v with
  | MkVerbList v o => R_verb v ;; blank ;; R_object_list o
  end
with R_object_list (o : ObjectList) : str -> Prop :=
  match o with
  | MkObjectList l => fun t => l <> [] /\ sepby R_graph_node (padded (lit ",")) l t
  end.
Definition R_tss (t : TriplesSameSubject) : str -> Prop :=
  match t with
  | TssTerm v p => R_var_or_term v ;; blank1 ;; R_property_list p
  | TssNode n p => R_triples_node n ;; blank ;; opt_ R_property_list p
  end.
Definition R_template (l : TriplesTemplate) : str -> Prop :=
  sepby1 R_tss dots l ;; may (blank ;; lit ".").
Definition R_construct_template (c : ConstructTemplate) : str -> Prop :=
  match c with MkConstructTemplate l => lit "{" ;; blank ;; sepby R_tss dots l ;; blank ;; lit "}" end.

(** ** Paths and the triples of a WHERE block *)
Definition bar : str -> Prop := padded (lit "|").
Definition R_mod (m : PathMod) : str -> Prop :=
  match m with PmQuestionMark => lit "?" | PmAsterisk => lit "*" | PmPlus => lit "+" end.
Definition R_negated (n : PathNegatedPropertySet) : str -> Prop :=
  match n with
  | MkPathNegatedPropertySet l =>
      lit "(" ;; blank ;; sepby1 (fun '(MkPathOneInPropertySet i) => R_iri_or_a_or_caret i) bar l ;;
      blank ;; lit ")"
  end.
(** departures: a modifier is preceded by blank text; sequences are written with [|], so an
    alternative has exactly one sequence; [/] does not exist *)
Fixpoint R_path (p : PathAlternative) : str -> Prop :=
  match p with MkPathAlternative l => fun t => l <> [] /\ sepby R_sequence bar l t end
with R_sequence (p : PathSequence) : str -> Prop :=
  match p with MkPathSequence l => fun t => l <> [] /\ sepby R_elt_or_inverse bar l t end
with R_elt_or_inverse (p : PathEltOrInverse) : str -> Prop :=
  match p with PeiPathElt p => R_elt p | PeiInverse p => lit "^" ;; R_elt p end
with R_elt (p : PathElt) : str -> Prop :=
  match p with MkPathElt p m => R_path_primary p ;; opt_ (fun m => blank1 ;; R_mod m) m end
with R_path_primary (p : PathPrimary) : str -> Prop :=
  match p with
  | PpIri i => R_iri i
  | PpA => lit "a"
  | PpNegated s => lit "!" ;; R_negated s
  | PpPath p => lit "(" ;; R_path p ;; lit ")"
  end.
Definition R_verb_path (v : VerbPathOrSimple) : str -> Prop :=
  match v with VpsPath p => R_path p | VpsSimple v => R_var v end.
Definition R_plpe (e : PropertyListPathEntry) : str -> Prop :=
  match e with MkPropertyListPathEntry v o => R_verb_path v ;; blank1 ;; R_object_list o end.
Definition semis_path : str -> Prop := plus (padded (lit ";")).
(** departure: objects are separated by [;], not [,] *)
Fixpoint R_graph_node_path (g : GraphNodePath) : str -> Prop :=
  match g with
  | GnpVarOrTerm v => R_var_or_term v
  | GnpTriplesNodePath n => R_triples_node_path n
  end
with R_triples_node_path (n : TriplesNodePath) : str -> Prop :=
  match n with
  | TnpCollectionPath l => lit "(" ;; (fun t => l <> [] /\ star R_graph_node_path l t) ;; lit ")"
  | TnpBlankNodePropertyListPath p => lit "[" ;; blank ;; R_property_list_path p ;; blank ;; lit "]"
  end
with R_property_list_path (p : PropertyListPath) : str -> Prop :=
  match p with
  | MkPropertyListPath v o es =>
      R_verb_path v ;; blank1 ;; R_object_list_path o ;; star (fun e => semis_path ;; R_plpe e) es
  end
with R_object_list_path (o : ObjectListPath) : str -> Prop :=
  match o with
  | MkObjectListPath l => fun t => l <> [] /\ sepby R_graph_node_path (padded (lit ";")) l t
  end.
Definition R_tssp (t : TriplesSameSubjectPath) : str -> Prop :=
  match t with
  | TsspTerm v p => R_var_or_term v ;; blank1 ;; R_property_list_path p
  | TsspNode n p => R_triples_node_path n ;; blank ;; opt_ R_property_list_path p
  end.
Definition R_triples_block (b : TriplesBlock) : str -> Prop :=
  match b with MkTriplesBlock l => sepby1 R_tssp dots l end.

(** ** Expressions and graph patterns *)
Definition comma_ : str -> Prop := padded (lit ",").
Definition paren (P : str -> Prop) : str -> Prop := lit "(" ;; P ;; lit ")".
Definition R_distinct (d : bool) : str -> Prop := if d then kw "distinct" ;; blank1 else empty.
Definition R_silent (d : bool) : str -> Prop := if d then kw "silent" ;; blank1 else empty.
Definition R_order (o : Order) : str -> Prop := match o with Asc => kw "asc" | Desc => kw "desc" end.
Definition R_select_modifier (m : SelectModifier) : str -> Prop :=
  match m with SmDistinct => kw "distinct" | SmReduced => kw "reduced" end.

(** [RE], [RG]: how expressions and group graph patterns are written *)
Section Core.
  Context {E G : Type} (RE : E -> str -> Prop) (RG : G -> str -> Prop).

  Definition R_arg_list (a : ArgList E) : str -> Prop :=
    match a with
    | AlNil => R_nil
    | AlExpression d es =>
        lit "(" ;; blank ;; R_distinct d ;; (fun t => es <> [] /\ sepby RE comma_ es t) ;; lit ")"
    end.
  Definition R_iri_or_fun (i : IriOrFunction E) : str -> Prop :=
    match i with MkIriOrFunction i a => R_iri i ;; opt_ (fun a => blank1 ;; R_arg_list a) a end.
  Definition R_function_call (f : FunctionCall E) : str -> Prop :=
    match f with MkFunctionCall i a => R_iri i ;; blank ;; R_arg_list a end.
  Definition R_expression_list (l : ExpressionList E) : str -> Prop :=
    match l with
    | ElNil => R_nil
    | ElList es => lit "(" ;; (fun t => es <> [] /\ sepby RE comma_ es t) ;; lit ")"
    end.
  Definition R_expr3 (r : RegexExpression E) : str -> Prop :=
    match r with
    | MkRegex a b c => lit "(" ;; RE a ;; comma_ ;; RE b ;; opt_ (fun c => comma_ ;; RE c) c ;; lit ")"
    end.
  Definition R_str_replace (r : StrReplaceExpression E) : str -> Prop :=
    match r with
    | MkStrReplace a b c d =>
        lit "(" ;; RE a ;; comma_ ;; RE b ;; comma_ ;; RE c ;; opt_ (fun d => comma_ ;; RE d) d ;; lit ")"
    end.
  Definition R_distinct_expression (d : DistinctExpression E) : str -> Prop :=
    match d with MkDistinctExpression d e => R_distinct d ;; RE e end.
  Definition R_count_target (c : CountTarget E) : str -> Prop :=
    match c with CtAll => lit "*" | CtExpr e => RE e end.
  Definition R_separator (s : str) : str -> Prop :=
    blank ;; lit ";" ;; padded (kw "separator") ;; lit "=" ;; blank ;; R_string s.
  Definition R_aggregate (a : Aggregate E) : str -> Prop :=
    match a with
    | AgCount (MkCount d t) => kw "count" ;; blank ;; lit "(" ;; R_distinct d ;; R_count_target t ;; lit ")"
    | AgSum d => kw "sum" ;; blank ;; lit "(" ;; R_distinct_expression d ;; lit ")"
    | AgMin d => kw "min" ;; blank ;; lit "(" ;; R_distinct_expression d ;; lit ")"
    | AgMax d => kw "max" ;; blank ;; lit "(" ;; R_distinct_expression d ;; lit ")"
    | AgAvg d => kw "avg" ;; blank ;; lit "(" ;; R_distinct_expression d ;; lit ")"
    | AgSample d => kw "sample" ;; blank ;; lit "(" ;; R_distinct_expression d ;; lit ")"
    | AgGroupConcat (MkGroupConcat d s) =>
        kw "group_concat" ;; blank ;; lit "(" ;; R_distinct_expression d ;; opt_ R_separator s ;; lit ")"
    end.
  Definition fun1 (k : string) (e : E) : str -> Prop := kw k ;; blank ;; lit "(" ;; RE e ;; lit ")".
  Definition fun2 (k : string) (a b : E) : str -> Prop :=
    kw k ;; blank ;; lit "(" ;; RE a ;; comma_ ;; RE b ;; lit ")".
  Definition fun0 (k : string) : str -> Prop := kw k ;; blank ;; lit "(" ;; R_nil ;; lit ")".
  Definition R_bracketted (e : E) : str -> Prop := lit "(" ;; blank ;; RE e ;; blank ;; lit ")".
  (** departures: ABS, CEIL, FLOOR, ROUND and URI all give [BiUri]; two-argument STRLEN gives
      [BiContains]; nullary functions take [()] as argument; CONCAT and STRLEN want a second part *)
  Definition R_built_in (b : BuiltInCall E G) : str -> Prop :=
    match b with
    | BiAggregate a => R_aggregate a
    | BiStr e => fun1 "str" e
    | BiLang e => fun1 "lang" e
    | BiLangMatches a b => fun2 "langmatches" a b
    | BiDatatype e => fun1 "datatype" e
    | BiBound v => kw "bound" ;; blank ;; lit "(" ;; R_var v ;; lit ")"
    | BiIri e => fun1 "iri" e
    | BiUri e => (fun1 "uri" e || (fun1 "abs" e || (fun1 "ceil" e || (fun1 "floor" e || fun1 "round" e))))%lang
    | BiBnode (Some e) => fun1 "bnode" e
    | BiBnode None => fun0 "bnode"
    | BiRand => fun0 "rand"
    | BiAbs _ | BiCeil _ | BiFloor _ | BiRound _ => fun _ => False
    | BiConcat l s => kw "concat" ;; blank1 ;; R_expression_list l ;; blank ;; kw "substr" ;; blank1 ;; R_expr3 s
    | BiStrLen e s => kw "strlen" ;; blank1 ;; R_bracketted e ;; blank ;; R_str_replace s
    | BiUCase e => fun1 "ucase" e
    | BiLCase e => fun1 "lcase" e
    | BiEncodeForUri e => fun1 "encode_for_uri" e
    | BiContains a b => fun2 "strlen" a b
    | BiStrStarts a b => fun2 "strstarts" a b
    | BiStrEnds a b => fun2 "strends" a b
    | BiStrBefore a b => fun2 "strbefore" a b
    | BiStrAfter a b => fun2 "strafter" a b
    | BiYear e => fun1 "year" e
    | BiMonth e => fun1 "month" e
    | BiDay e => fun1 "day" e
    | BiHours e => fun1 "hours" e
    | BiMinutes e => fun1 "minutes" e
    | BiSeconds e => fun1 "seconds" e
    | BiTimezone e => fun1 "timezone" e
    | BiTz e => fun1 "tz" e
    | BiNow => fun0 "now"
    | BiUUID => fun0 "uuid"
    | BiStrUUID => fun0 "struuid"
    | BiMD5 e => fun1 "md5" e
    | BiSHA1 e => fun1 "sha1" e
    | BiSHA256 e => fun1 "sha256" e
    | BiSHA384 e => fun1 "sha384" e
    | BiSHA512 e => fun1 "sha512" e
    | BiCoalesce l => kw "coalesce" ;; blank1 ;; R_expression_list l
    | BiIf a b c => kw "if" ;; blank ;; lit "(" ;; RE a ;; comma_ ;; RE b ;; comma_ ;; RE c ;; lit ")"
    | BiStrLang a b => fun2 "strlang" a b
    | BiStrDt a b => fun2 "strdt" a b
    | BiSameTerm a b => fun2 "sameterm" a b
    | BiIsIri e => fun1 "isiri" e
    | BiIsUri e => fun1 "isuri" e
    | BiIsBlank e => fun1 "isblank" e
    | BiIsLiteral e => fun1 "isliteral" e
    | BiIsNumeric e => fun1 "isnumeric" e
    | BiRegex r => kw "regex" ;; blank1 ;; R_expr3 r
    | BiExistsFunc g => kw "exists" ;; blank1 ;; RG g
    | BiNotExistsFunc g => kw "not" ;; blank1 ;; kw "exists" ;; blank1 ;; RG g
    end.
  Definition R_primary (p : PrimaryExpression E G) : str -> Prop :=
    match p with
    | PeBracketted e => R_bracketted e
    | PeBuiltInCall b => R_built_in b
    | PeIriOrFunction i => R_iri_or_fun i
    | PeRdfLiteral l => R_rdf_literal l
    | PeNumericLiteral n => R_numeric n
    | PeBooleanLiteral b => R_boolean b
    | PeVar v => R_var v
    end.
  Definition R_unary (u : UnaryExpression E G) : str -> Prop :=
    match u with
    | UnNot p => lit "!" ;; blank ;; R_primary p
    | UnAdd p => lit "+" ;; blank ;; R_primary p
    | UnSub p => lit "-" ;; blank ;; R_primary p
    | UnDefault p => R_primary p
    end.
  Definition R_mult (m : MultExpression E G) : str -> Prop :=
    match m with
    | MuMult u => lit "*" ;; blank ;; R_unary u
    | MuDiv u => lit "/" ;; blank ;; R_unary u
    end.
  Definition R_multiplicative (m : MultiplicativeExpression E G) : str -> Prop :=
    match m with MkMultiplicative u l => R_unary u ;; blank ;; sepby R_mult blank1 l end.
  Definition R_add (a : AddExpression E G) : str -> Prop :=
    match a with
    | AddAdd m => lit "+" ;; blank ;; R_multiplicative m
    | AddSub m => lit "-" ;; blank ;; R_multiplicative m
    | AddNumeric n l => R_numeric n ;; blank ;; sepby R_mult blank1 l
    end.
  Definition R_additive (a : AdditiveExpression E G) : str -> Prop :=
    match a with MkAdditive m l => R_multiplicative m ;; blank ;; sepby R_add blank1 l end.
  Definition R_op (o : OpExpression E G) : str -> Prop :=
    match o with
    | OpEQ a => lit "=" ;; blank ;; R_additive a
    | OpNE a => lit "!=" ;; blank ;; R_additive a
    | OpLT a => lit "<" ;; blank ;; R_additive a
    | OpGT a => lit ">" ;; blank ;; R_additive a
    | OpLE a => lit "<=" ;; blank ;; R_additive a
    | OpGE a => lit ">=" ;; blank ;; R_additive a
    | OpIN l => kw "in" ;; blank ;; R_expression_list l
    | OpNIN l => kw "not" ;; blank1 ;; kw "in" ;; blank1 ;; R_expression_list l
    end.
  Definition R_relational (r : RelationalExpression E G) : str -> Prop :=
    match r with MkRelational a o => R_additive a ;; opt_ (fun o => blank ;; R_op o) o end.
  Definition R_conditional_and (c : ConditionalAndExpression E G) : str -> Prop :=
    match c with
    | MkConditionalAnd l => fun t => l <> [] /\ sepby R_relational (padded (lit "&&")) l t
    end.

  Definition R_constraint (c : Constraint E G) : str -> Prop :=
    match c with
    | CoBracketted e => R_bracketted e
    | CoBuiltInCall b => R_built_in b
    | CoFunctionCall f => R_function_call f
    end.
  Definition R_expr_as_var (x : ExpressionAsVar E) : str -> Prop :=
    match x with
    | MkExpressionAsVar e v => lit "(" ;; blank ;; RE e ;; padded (kw "as") ;; R_var v ;; blank ;; lit ")"
    end.
  Definition R_expr_as_var_opt (x : ExpressionAsVarOpt E) : str -> Prop :=
    match x with
    | MkExpressionAsVarOpt e v =>
        lit "(" ;; blank ;; RE e ;; opt_ (fun v => padded1 (kw "as") ;; R_var v) v ;; blank ;; lit ")"
    end.
  Definition R_order_condition (o : OrderCondition E G) : str -> Prop :=
    match o with
    | OcOrder (MkOrderExpression o e) => R_order o ;; blank1 ;; R_bracketted e
    | OcConstraint c => R_constraint c
    | OcVar v => R_var v
    end.
  Definition R_group_condition (g : GroupCondition E G) : str -> Prop :=
    match g with
    | GcBuiltInCall b => R_built_in b
    | GcFunctionCall f => R_function_call f
    | GcExpressionAsVarOpt x => R_expr_as_var_opt x
    | GcVar v => R_var v
    end.
  Definition R_group_clause (g : GroupClause E G) : str -> Prop :=
    match g with
    | MkGroupClause l =>
        kw "group" ;; blank1 ;; kw "by" ;; blank1 ;;
        (fun t => l <> [] /\ sepby R_group_condition blank1 l t)
    end.
  Definition R_order_clause (g : OrderClause E G) : str -> Prop :=
    match g with
    | MkOrderClause l =>
        kw "order" ;; blank1 ;; kw "by" ;; blank1 ;;
        (fun t => l <> [] /\ sepby R_order_condition blank1 l t)
    end.
  Definition R_having_clause (g : HavingClause E G) : str -> Prop :=
    match g with
    | MkHavingClause l =>
        kw "having" ;; blank1 ;; (fun t => l <> [] /\ sepby R_constraint blank1 l t)
    end.
  Definition R_modifier (m : SolutionModifier E G) : str -> Prop :=
    match m with
    | MkSolutionModifier ob gb h lo =>
        opt_ R_group_clause gb ;; opt_ (fun h => blank ;; R_having_clause h) h ;;
        opt_ (fun o => blank ;; R_order_clause o) ob ;; opt_ (fun l => blank ;; R_limit_offset l) lo
    end.
  Definition R_where (g : G) : str -> Prop := may (kw "where" ;; blank1) ;; RG g.

  Definition R_select_var (v : VarOrExpressionAsVar E) : str -> Prop :=
    match v with VoeVar v => R_var v | VoeExpressionAsVar x => R_expr_as_var x end.
  (** departure: projected variables are not separated *)
  Definition R_select_vars (v : SelectVars E) : str -> Prop :=
    match v with
    | SvAll => lit "*"
    | SvList l => fun t => l <> [] /\ star R_select_var l t
    end.
  Definition R_select_clause (s : SelectClause E) : str -> Prop :=
    match s with
    | MkSelectClause m v =>
        kw "select" ;; opt_ (fun m => blank1 ;; R_select_modifier m) m ;; blank1 ;; R_select_vars v
    end.
  Definition R_sub_select (s : SubSelect E G) : str -> Prop :=
    match s with
    | MkSubSelect s w m v =>
        R_select_clause s ;; blank ;; R_where w ;; blank ;; R_modifier m ;; blank ;; opt_ R_values v
    end.

  Definition R_pattern (p : GraphPatternNotTriples E G) : str -> Prop :=
    match p with
    | GpGroupOrUnion (MkGroupOrUnion l) => fun t => l <> [] /\ sepby RG (padded1 (kw "union")) l t
    | GpOptional g => kw "optional" ;; blank1 ;; RG g
    | GpMinus g => kw "minus" ;; blank1 ;; RG g
    | GpGraph (MkGraphGraphPattern v g) => kw "graph" ;; blank1 ;; R_var_or_iri v ;; blank ;; RG g
    | GpService (MkServiceGraphPattern v s g) =>
        kw "service" ;; blank1 ;; R_silent s ;; R_var_or_iri v ;; blank ;; RG g
    | GpFilter c => kw "filter" ;; blank1 ;; R_constraint c
    | GpBind x => kw "bind" ;; blank1 ;; R_expr_as_var x
    | GpInlineData d => R_values d
    end.
  (** departure: the separator after a pattern is [?] instead of [.] *)
  Definition R_pattern_and_triples (p : GraphPatternAndTriples E G) : str -> Prop :=
    match p with
    | MkGraphPatternAndTriples p t =>
        R_pattern p ;; may (blank ;; lit "?") ;; opt_ (fun t => blank ;; R_triples_block t) t
    end.
  Definition R_group_sub (g : GroupGraphPatternSub E G) : str -> Prop :=
    match g with
    | MkGroupGraphPatternSub t l =>
        opt_ (fun t => R_triples_block t ;; blank) t ;; sepby R_pattern_and_triples blank1 l
    end.
End Core.

Section Knot.
  Context (RE : Expression -> str -> Prop) (RG : GroupGraphPattern -> str -> Prop).
  Definition expression_rule (e : Expression) : str -> Prop :=
    match e with
    | MkExpression l =>
        fun t => l <> [] /\ sepby (R_conditional_and RE RG) (padded (lit "||")) l t
    end.
  Definition ggp_rule (g : GroupGraphPattern) : str -> Prop :=
    match g with
    | GgpSubSelect s => lit "{" ;; blank ;; R_sub_select RE RG s ;; blank ;; lit "}"
    | GgpSub s => lit "{" ;; blank ;; R_group_sub RE RG s ;; blank ;; lit "}"
    end.
End Knot.

(** The least relations closed under the two rules.  ([RE], [RG] stand for the parts already known to
    be expressions and patterns; taking them equal to the relations themselves gives
    [expression_rule R_expression R_ggp e t -> R_expression e t], and [LMono.v] proves the converse.) *)
Inductive R_expression : Expression -> str -> Prop :=
| R_expression_intro (RE : Expression -> str -> Prop) (RG : GroupGraphPattern -> str -> Prop) e t :
    (forall e t, RE e t -> R_expression e t) -> (forall g t, RG g t -> R_ggp g t) ->
    expression_rule RE RG e t -> R_expression e t
with R_ggp : GroupGraphPattern -> str -> Prop :=
| R_ggp_intro (RE : Expression -> str -> Prop) (RG : GroupGraphPattern -> str -> Prop) g t :
    (forall e t, RE e t -> R_expression e t) -> (forall g t, RG g t -> R_ggp g t) ->
    ggp_rule RE RG g t -> R_ggp g t.

(** ** Queries *)
Definition R_datasets (l : list DataSetClause) : str -> Prop := sepby R_dataset blank1 l.
Definition R_mods : SolutionModifier Expression GroupGraphPattern -> str -> Prop :=
  R_modifier R_expression R_ggp.
Definition R_braced_template (o : option TriplesTemplate) : str -> Prop :=
  lit "{" ;; blank ;; opt_ R_template o ;; blank ;; lit "}".
Definition R_select_query (q : SelectQuery) : str -> Prop :=
  match q with
  | MkSelectQuery s d w m =>
      R_select_clause R_expression s ;; blank1 ;; R_datasets d ;; blank ;; R_where R_ggp w ;; blank ;;
      R_mods m
  end.
Definition R_ask_query (q : AskQuery) : str -> Prop :=
  match q with
  | MkAskQuery d w m =>
      kw "ask" ;; blank1 ;; R_datasets d ;; blank ;; R_where R_ggp w ;; blank ;; R_mods m
  end.
Definition R_describe_query (q : DescribeQuery) : str -> Prop :=
  match q with
  | MkDescribeQuery d v w m =>
      kw "describe" ;; blank1 ;; R_var_or_iris_or_all v ;; blank1 ;; R_datasets d ;; blank ;;
      opt_ (fun w => R_where R_ggp w ;; blank) w ;; R_mods m
  end.
Definition R_sub_construct (q : SubConstruct) : str -> Prop :=
  match q with
  | MkSubConstruct c d w m =>
      R_construct_template c ;; blank1 ;; R_datasets d ;; blank ;; R_where R_ggp w ;; blank ;; R_mods m
  end.
Definition R_sub_triples (q : SubTriples) : str -> Prop :=
  match q with
  | MkSubTriples d t m =>
      R_datasets d ;; blank ;; kw "where" ;; blank1 ;; R_braced_template t ;; blank ;; R_mods m
  end.
Definition R_construct_query (q : ConstructQuery) : str -> Prop :=
  match q with
  | CqSubConstruct q => kw "construct" ;; blank1 ;; R_sub_construct q
  | CqSubTriples q => kw "construct" ;; blank1 ;; R_sub_triples q
  end.
Definition R_query (q : SparqlQuery) : str -> Prop :=
  match q with
  | SqAsk q => R_ask_query q
  | SqSelect q => R_select_query q
  | SqDescribe q => R_describe_query q
  | SqConstruct q => R_construct_query q
  end.
Definition R_query_stmt (q : SparqlQueryStatement) : str -> Prop :=
  match q with
  | MkSparqlQueryStatement p q v =>
      R_prologue p ;; blank ;; R_query q ;; opt_ (fun v => blank1 ;; R_values v) v
  end.

(** ** Updates *)
Definition R_quads_not_triples (q : QuadsNotTriples) : str -> Prop :=
  match q with
  | MkQuadsNotTriples v t => kw "graph" ;; blank ;; R_var_or_iri v ;; blank ;; R_braced_template t
  end.
Definition R_quads_entry (q : QuadsEntry) : str -> Prop :=
  match q with
  | MkQuadsEntry q t => R_quads_not_triples q ;; may (lit ".") ;; opt_ R_template t
  end.
Definition R_quads (q : Quads) : str -> Prop :=
  match q with
  | MkQuads f es => opt_ (fun f => R_template f ;; blank) f ;; star R_quads_entry es
  end.
Definition R_quads_pattern (q : Quads) : str -> Prop :=
  lit "{" ;; blank ;; R_quads q ;; blank ;; lit "}".
Definition R_graph_or_default (g : GraphOrDefault) : str -> Prop :=
  match g with
  | GodDefault => kw "default"
  | GodGraph i => may (kw "graph" ;; blank1) ;; R_iri i
  end.
Definition R_graph_ref (i : Iri) : str -> Prop := kw "graph" ;; blank1 ;; R_iri i.
Definition R_graph_ref_all (g : GraphRefAll) : str -> Prop :=
  match g with
  | GraGraphRef i => R_graph_ref i
  | GraDefault => kw "default"
  | GraNamed => kw "named"
  | GraAll => kw "all"
  end.
Definition R_from_to (k : string) (s : bool) (f t : GraphOrDefault) : str -> Prop :=
  kw k ;; blank1 ;; R_silent s ;; R_graph_or_default f ;; padded (kw "to") ;; R_graph_or_default t.
(** departures: DELETE in a modify operation is written [OFFSET]; WITH is written [WHERE] (and no
    blank may follow it) *)
Definition R_insert_clause (q : Quads) : str -> Prop := kw "insert" ;; blank1 ;; R_quads_pattern q.
Definition R_delete_clause (q : Quads) : str -> Prop := kw "offset" ;; blank1 ;; R_quads_pattern q.
Definition R_delete_insert (d : DeleteInsert) : str -> Prop :=
  match d with
  | DiDeleteInsert d i => R_delete_clause d ;; opt_ (fun i => blank ;; R_insert_clause i) i
  | DiInsert i => R_insert_clause i
  end.
Definition R_modify (m : ModifyStatement) : str -> Prop :=
  match m with
  | MkModify i d u w =>
      opt_ (fun i => kw "where" ;; R_iri i ;; blank1) i ;; R_delete_insert d ;; blank ;;
      sepby R_using blank1 u ;; padded1 (kw "where") ;; R_ggp w
  end.
Definition R_update_stmt (u : UpdateStatement) : str -> Prop :=
  match u with
  | UsLoad (MkLoad i s g) =>
      kw "load" ;; blank1 ;; R_silent s ;; R_iri i ;;
      opt_ (fun g => padded (kw "into") ;; R_graph_ref g) g
  | UsClear (MkClear s g) => kw "clear" ;; blank1 ;; R_silent s ;; R_graph_ref_all g
  | UsDrop (MkDrop s g) => kw "drop" ;; blank1 ;; R_silent s ;; R_graph_ref_all g
  | UsCreate (MkCreate s g) => kw "create" ;; blank1 ;; R_silent s ;; R_graph_ref g
  | UsAdd (MkAdd s f t) => R_from_to "add" s f t
  | UsMove (MkMove s f t) => R_from_to "move" s f t
  | UsCopy (MkCopy s f t) => R_from_to "copy" s f t
  | UsInsertData q => kw "insert" ;; blank1 ;; kw "data" ;; blank1 ;; R_quads_pattern q
  | UsDeleteData q => kw "delete" ;; blank1 ;; kw "data" ;; blank1 ;; R_quads_pattern q
  | UsDeleteWhere q => kw "delete" ;; blank1 ;; kw "where" ;; blank1 ;; R_quads_pattern q
  | UsModify m => R_modify m
  end.
Fixpoint R_update (u : Update) : str -> Prop :=
  match u with
  | MkUpdate p None None => R_prologue p
  | MkUpdate p None (Some _) => fun _ => False
  | MkUpdate p (Some s) inner =>
      R_prologue p ;; blank ;; R_update_stmt s ;; opt_ (fun u => padded (lit ";") ;; R_update u) inner
  end.
