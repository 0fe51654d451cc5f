(** Specification side: safely laid out texts.

    [Spec.R_x tree text] says that a text is a way of writing a tree; it does not say that the
    parsers find that reading, because what they do at a place also depends on the text that
    follows.  [W_x tree text rest] reads "[text], followed by [rest], is a safe way of writing
    [tree]": the pieces are those of [R_x], in any keyword case and with any blank text where the
    grammar has blanks, and at the few places where the parsers look further the condition on what
    follows is written out.  The conditions speak about texts only; this file does not mention the
    parsers. *)
From Verif Require Export Spec2.
Open Scope N_scope.
Open Scope list_scope.

(** ** Combinators: a language of texts in front of a rest *)
Definition lang : Type := str -> str -> Prop.
Definition then_ (P Q : lang) : lang := fun t r => exists u v, t = u ++ v /\ P u (v ++ r) /\ Q v r.
Infix ">>" := then_ (at level 61, right associativity).
(** a token: what follows does not matter *)
Definition tok (P : str -> Prop) : lang := fun t _ => P t.
Definition sym (s : string) : lang := tok (lit s).
Definition word (k : string) : lang := tok (kw k).
(** nothing is written, and the rest satisfies [P] *)
Definition ahead (P : str -> Prop) : lang := fun t r => t = [] /\ P r.
(** all the blank text there is at a place *)
Definition gap : lang := fun t r => blank t /\ solid r.
Definition gap1 : lang := fun t r => blank1 t /\ solid r.
(** after all blank text [P] holds; there is blank text, and after it [P] holds *)
Definition nxt (P : str -> Prop) : str -> Prop := fun r => exists b r', r = b ++ r' /\ blank b /\ solid r' /\ P r'.
Definition nxt1 (P : str -> Prop) : str -> Prop := fun r => exists b r', r = b ++ r' /\ blank1 b /\ solid r' /\ P r'.

Section WLists.
  Context {A : Type} (W : A -> lang).
  (** an optional part; [none]: what the rest is like when it is left out *)
  Definition optW (none : str -> Prop) (o : option A) : lang := match o with Some a => W a | None => ahead none end.
  (** a repetition; [stop]: what the rest is like after the last element *)
  Fixpoint manyW (stop : str -> Prop) (l : list A) : lang :=
    match l with [] => ahead stop | a :: l' => W a >> manyW stop l' end.
  (** the elements after the first, each preceded by the separator [S] *)
  Fixpoint tailW (S : lang) (stop : str -> Prop) (l : list A) : lang :=
    match l with [] => ahead stop | a :: l' => S >> W a >> tailW S stop l' end.
  Definition sepW (S : lang) (none stop : str -> Prop) (l : list A) : lang :=
    match l with [] => ahead none | a :: l' => W a >> tailW S stop l' end.
  Definition sep1W (S : lang) (stop : str -> Prop) (l : list A) : lang :=
    match l with [] => fun _ _ => False | a :: l' => W a >> tailW S stop l' end.
End WLists.
(** a piece repeated at least once *)
Definition many1W (P : lang) (stop : str -> Prop) : lang :=
  fun t r => exists n : list unit, (P >> manyW (fun _ => P) stop n) t r.

(** ** Terms *)
(** no IRI starts here *)
Definition no_iri (i : str) : Prop := forall j t r, i = t ++ r -> ~ R_iri j t.
Definition W_iri (j : Iri) : lang := fun t r => iri_at j (t ++ r) r.
Definition W_var (v : Var) : lang := fun t r => R_var v t /\ stops var_char r.
Definition W_rdf_literal (l : RdfLiteral) : lang := fun t r =>
  match l with MkRdfLiteral s d => exists u x, t = u ++ x /\ R_string s u /\ desc_at d (x ++ r) r end.
Definition W_numeric (n : NumericLiteral) : lang := fun t r =>
  match n with
  | NInt z => R_i64 z t /\ int_follow r
  | NDouble q (Some z) => (R_decimal q ;; R_exponent z) t /\ stops (in_ranges digits) r
  | NDouble q None => R_decimal q t /\ longest dec_text t (t ++ r) /\ not_first 101 r /\ not_first 69 r /\
                      (forall z, ~ R_i64 z t)
  end.
(** a word that is not the prefix of a prefixed name *)
Definition plain_word (k : string) : lang := fun t r => kw k t /\ no_iri (t ++ r).
Definition W_boolean (b : bool) : lang := plain_word (if b then "true" else "false").
Definition W_blank_node (b : BlankNode) : lang := fun t r =>
  R_blank_node b t /\ match b with Anon => True | Label s => longest label_name s (s ++ r) end.
Definition W_nil : lang := tok R_nil.
Definition W_graph_term (g : GraphTerm) : lang :=
  match g with
  | GtIri i => W_iri i
  | GtRdfLiteral l => W_rdf_literal l
  | GtNumericLiteral n => W_numeric n
  | GtBooleanLiteral b => W_boolean b
  | GtBlankNode b => W_blank_node b
  | GtNil => W_nil
  end.
Definition W_var_or_term (v : VarOrTerm) : lang :=
  match v with VotVar v => W_var v | VotTerm g => W_graph_term g end.
Definition W_var_or_iri (v : VarOrIri) : lang :=
  match v with VoiVar v => W_var v | VoiIri i => W_iri i end.
Definition W_verb (v : Verb) : lang :=
  match v with VerbVarOrIri v => W_var_or_iri v | VerbA => plain_word "a" end.
Definition W_value (v : DataBlockValue) : lang :=
  match v with
  | DbvIri i => W_iri i
  | DbvRdfLiteral l => W_rdf_literal l
  | DbvNumericLiteral n => W_numeric n
  | DbvBooleanLiteral b => W_boolean b
  | DbvUnDef => plain_word "undef"
  end.

(** ** Prologue, dataset clauses, data blocks *)
Definition W_decl (d : BaseOrPrefixDecl) : lang :=
  match d with
  | DeclBase s => word "base" >> gap1 >> tok (R_iri_ref s)
  | DeclPrefix (MkPrefixDecl p s) => word "prefix" >> gap >> tok (R_pname_ns p) >> gap >> tok (R_iri_ref s)
  end.
(** neither BASE nor PREFIX starts here *)
Definition no_decl (r : str) : Prop := ~ begins "base" r /\ ~ begins "prefix" r.
Definition W_prologue (p : Prologue) : lang :=
  match p with MkPrologue l => sepW W_decl gap1 no_decl (nxt no_decl) l end.
Definition W_default_or_named (d : DefaultOrNamedIri) : lang :=
  match d with
  | DonNamed i => word "named" >> gap1 >> W_iri i
  | DonDefault i => fun t r => W_iri i t r /\ (forall w b v, t ++ r = w ++ b ++ v -> kw "named" w -> blank1 b -> no_iri v)
  end.
Definition W_dataset (d : DataSetClause) : lang := word "from" >> gap1 >> W_default_or_named d.
Definition W_datasets (l : list DataSetClause) : lang :=
  sepW W_dataset gap1 (fun r => ~ begins "from" r) (nxt1 (fun r => ~ begins "from" r)) l.
(** the text starts with [c] *)
Definition first (c : char) (r : str) : Prop := exists r', r = c :: r'.
Definition W_row (vs : list DataBlockValue) : lang :=
  sym "(" >> gap >> manyW (fun v => W_value v >> gap) (first 41) vs >> sym ")".
Definition W_datablock (d : DataBlock) : lang :=
  match d with
  | DbOneVar (MkInlineDataOneVar v vs) =>
      W_var v >> gap >> sym "{" >> gap >> manyW (fun v => W_value v >> gap) (first 125) vs >> sym "}"
  | DbFull (MkInlineDataFull vs rows) =>
      (sym "(" >> gap >> manyW (fun v => W_var v >> gap) (first 41) vs >> sym ")") >>
      gap >> sym "{" >> gap >> manyW (fun r => W_row r >> gap) (first 125) rows >> sym "}"
  end.
Definition W_values (d : DataBlock) : lang := word "values" >> gap1 >> W_datablock d.
Definition W_limit_offset (l : LimitOffsetClause) : lang := fun t r => R_limit_offset l t /\ lo_follow l r.

(** ** Templates *)
Definition dotsW : lang := many1W (gap >> sym "." >> gap) (nxt (not_first 46)).
Definition semisW : lang := many1W (gap >> sym ";" >> gap) (nxt (not_first 59)).
(** nodes inside lists are variables and terms (the parsers fail hard on nested collections and
    property lists, see C29) *)
Definition W_graph_node (g : GraphNode) : lang :=
  match g with GnVarOrTerm v => W_var_or_term v | GnTriplesNode _ => fun _ _ => False end.
Definition W_object_list (o : ObjectList) : lang :=
  match o with MkObjectList l => sep1W W_graph_node (gap >> sym "," >> gap) (nxt (not_first 44)) l end.
Definition W_verb_list (v : VerbList) : lang :=
  match v with MkVerbList v o => W_verb v >> gap >> W_object_list o end.
(** the end of the text, of a block or of a triple *)
Definition closes (r : str) : Prop := r = [] \/ first 46 r \/ first 93 r \/ first 125 r.
(** after a property list: no semicolon, or semicolons that are not followed by another verb *)
Definition props_end (r : str) : Prop :=
  nxt (not_first 59) r \/ exists s r', r = s ++ r' /\ semisW s r' /\ closes r'.
Definition W_property_list (p : PropertyList) : lang :=
  match p with
  | MkPropertyList l =>
      sep1W W_verb_list semisW props_end l >>
      (fun t r => exists n : list unit, manyW (fun _ => gap >> sym ";") (nxt (not_first 59)) n t r)
  end.
Definition W_triples_node (n : TriplesNode) : lang :=
  match n with
  | TnCollection (MkCollection l) =>
      sym "(" >> gap >> (fun t r => l <> [] /\ manyW (fun g => W_graph_node g >> gap) (first 41) l t r) >> sym ")"
  | TnBlankNodePropertyList p => sym "[" >> gap >> W_property_list p >> gap >> sym "]"
  end.
Definition W_tss (t : TriplesSameSubject) : lang :=
  match t with
  | TssTerm v p => W_var_or_term v >> gap1 >> W_property_list p
  | TssNode n p => W_triples_node n >> gap >> optW W_property_list closes p
  end.
Definition W_construct_template (c : ConstructTemplate) : lang :=
  match c with
  | MkConstructTemplate l =>
      sym "{" >> gap >> sepW W_tss dotsW (first 125) (nxt (not_first 46)) l >> gap >> sym "}"
  end.
(** a GRAPH block starts here; the keyword with the IRI after it may look like a prefixed name *)
Definition graph_block (r : str) : Prop :=
  begins "graph" r /\ (no_iri r \/ exists i t r', r = t ++ r' /\ W_iri i t r' /\ nxt (first 123) r').
(** no triple starts here: the block ends, or a GRAPH block starts *)
Definition no_triple (r : str) : Prop := first 125 r \/ graph_block r.
Definition template_end (r : str) : Prop :=
  nxt (not_first 46) r \/ exists s r', r = s ++ r' /\ dotsW s r' /\ no_triple r'.
Definition W_template (l : TriplesTemplate) : lang :=
  sep1W W_tss dotsW template_end l >>
  (fun t r => ahead (nxt (not_first 46)) t r \/ (gap >> sym ".") t r).
Definition W_braced_template (o : option TriplesTemplate) : lang :=
  sym "{" >> gap >> optW W_template (first 125) o >> gap >> sym "}".

(** ** Quads *)
Definition W_quads_not_triples (q : QuadsNotTriples) : lang :=
  match q with
  | MkQuadsNotTriples v t => word "graph" >> gap >> W_var_or_iri v >> gap >> W_braced_template t
  end.
(** after a GRAPH block: nothing more, or the next one *)
Definition entry_end (r : str) : Prop := nxt (first 125) r \/ graph_block r.
Definition W_quads_entry (q : QuadsEntry) : lang :=
  match q with
  | MkQuadsEntry q t =>
      W_quads_not_triples q >> (fun t r => ahead (not_first 46) t r \/ sym "." t r) >> optW W_template entry_end t
  end.
Definition W_quads (q : Quads) : lang :=
  match q with
  | MkQuads f es =>
      optW (fun f => W_template f >> gap) no_triple f >> manyW W_quads_entry (nxt (first 125)) es
  end.
Definition W_quads_pattern (q : Quads) : lang := sym "{" >> gap >> W_quads q >> gap >> sym "}".

(** ** Update operations *)
(** no keyword [k] followed by a blank starts here *)
Definition no_word1 (k : string) (r : str) : Prop := forall w b v, r = w ++ b ++ v -> kw k w -> ~ blank1 b.
Definition W_silent (s : bool) : lang := if s then word "silent" >> gap1 else ahead (no_word1 "silent").
Definition W_graph_ref (i : Iri) : lang := word "graph" >> gap1 >> W_iri i.
Definition W_graph_or_default (g : GraphOrDefault) : lang :=
  match g with
  | GodDefault => word "default"
  | GodGraph i => fun t r =>
      W_graph_ref i t r \/ (W_iri i t r /\ ~ begins "default" (t ++ r) /\ no_word1 "graph" (t ++ r))
  end.
Definition W_graph_ref_all (g : GraphRefAll) : lang :=
  match g with
  | GraDefault => word "default"
  | GraNamed => word "named"
  | GraAll => word "all"
  | GraGraphRef i => W_graph_ref i
  end.
Definition W_from_to (s : bool) (f t : GraphOrDefault) : lang :=
  W_silent s >> W_graph_or_default f >> gap >> word "to" >> gap >> W_graph_or_default t.
Definition W_silent_all (s : bool) (g : GraphRefAll) : lang := W_silent s >> W_graph_ref_all g.
Definition W_add (a : AddStatement) : lang := match a with MkAdd s f t => word "add" >> gap1 >> W_from_to s f t end.
Definition W_move (a : MoveStatement) : lang := match a with MkMove s f t => word "move" >> gap1 >> W_from_to s f t end.
Definition W_copy (a : CopyStatement) : lang := match a with MkCopy s f t => word "copy" >> gap1 >> W_from_to s f t end.
Definition W_create (a : CreateStatement) : lang :=
  match a with MkCreate s g => word "create" >> gap1 >> W_silent s >> W_graph_ref g end.
Definition W_drop (a : DropStatement) : lang := match a with MkDrop s g => word "drop" >> gap1 >> W_silent_all s g end.
Definition W_clear (a : ClearStatement) : lang := match a with MkClear s g => word "clear" >> gap1 >> W_silent_all s g end.
Definition W_load (a : LoadStatement) : lang :=
  match a with
  | MkLoad i s g => word "load" >> gap1 >> W_silent s >> W_iri i >>
      optW (fun g => gap >> word "into" >> gap >> W_graph_ref g) (nxt (fun r => ~ begins "into" r)) g
  end.
Definition W_insert_data (q : Quads) : lang := word "insert" >> gap1 >> word "data" >> gap1 >> W_quads_pattern q.
Definition W_delete_data (q : Quads) : lang := word "delete" >> gap1 >> word "data" >> gap1 >> W_quads_pattern q.
Definition W_delete_where (q : Quads) : lang := word "delete" >> gap1 >> word "where" >> gap1 >> W_quads_pattern q.
Definition W_insert_clause (q : Quads) : lang := word "insert" >> gap1 >> W_quads_pattern q.
(** departure: the keyword of a delete clause is OFFSET *)
Definition W_delete_clause (q : Quads) : lang := word "offset" >> gap1 >> W_quads_pattern q.
Definition W_delete_insert (d : DeleteInsert) : lang :=
  match d with
  | DiInsert q => W_insert_clause q
  | DiDeleteInsert d i => W_delete_clause d >> optW (fun q => gap >> W_insert_clause q) (nxt (fun r => ~ begins "insert" r)) i
  end.
Definition W_using (d : DefaultOrNamedIri) : lang := word "using" >> gap1 >> W_default_or_named d.
