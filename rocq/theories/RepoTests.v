(** The crate's own unit tests, replayed on the model by computation.  These are evidence that the
    model is faithful; they are not proofs of any property. *)
From Verif Require Import MUpdate.
Open Scope string_scope.
Open Scope N_scope.
Open Scope list_scope.

Local Notation "p '⊢' i '⇒' a" := (p (s_ i) = Ok [] a) (at level 70, only parsing).
Ltac t := vm_compute; reflexivity.

Definition ln (p : string) (l : string) : Iri := IriPrefixedName (PnameLN (Some (s_ p)) (s_ l)).
Definition dln (l : string) : Iri := IriPrefixedName (PnameLN None (s_ l)).
Definition ii (s : string) : Iri := IriIri (s_ s).
Definition alice := "http://example.org/foaf/aliceFoaf".
Definition gnil := GnVarOrTerm (VotTerm GtNil).
Definition gbool b := GnVarOrTerm (VotTerm (GtBooleanLiteral b)).
Definition gvar x := GnVarOrTerm (VotVar (QMark (s_ x))).
Definition nl : str := [10].

(** src/terminals.rs, mod tests *)
Example anon_1 : anon ⊢ "[]" ⇒ []. Proof. t. Qed.
Example anon_2 : anon ⊢ "[   ]" ⇒ s_ "   ". Proof. t. Qed.
Example anon_3 : anon (s_ "[a]") = Err (Failure (s_ "a]") KChar). Proof. t. Qed.
Example base_1 : List.map (fun c => pn_chars_base_one [c; 32]) [97; 0xC0; 0x3b1; 0xD8; 0xFDF0; 0xF900]
  = List.map (fun c => Ok [32] [c]) [97; 0xC0; 0x3b1; 0xD8; 0xFDF0; 0xF900]. Proof. t. Qed.
Example iri_1 : iri ⊢ "<http://education.data.gov.uk/def/school/>"
  ⇒ ii "http://education.data.gov.uk/def/school/". Proof. t. Qed.
Example str_1 : string_literal ⊢ """some string lit""" ⇒ s_ "some string lit". Proof. t. Qed.
Example str_2 : string_literal ⊢ "'some string lit'" ⇒ s_ "some string lit". Proof. t. Qed.
Example str_3 :
  string_literal ([39] ++ s_ "some " ++ [9] ++ s_ "string" ++ [10; 13; 34] ++ s_ "  lit" ++ [39])
  = Ok [] (s_ "some " ++ [9] ++ s_ "string" ++ [10; 13; 34] ++ s_ "  lit"). Proof. t. Qed.
Example lang_1 : language_tag ⊢ "@en" ⇒ s_ "en". Proof. t. Qed.
Example lang_2 : language_tag ⊢ "@some-lang-tag1" ⇒ s_ "some-lang-tag1". Proof. t. Qed.
Example lang_3 : language_tag ⊢ "@some-123lang-tag1" ⇒ s_ "some-123lang-tag1". Proof. t. Qed.
Example lang_4 : language_tag (s_ "@1lang") = Err (Error (s_ "1lang") KAlpha). Proof. t. Qed.
Example rdf_1 : rdf_literal ⊢ "'chat'" ⇒ MkRdfLiteral (s_ "chat") None. Proof. t. Qed.
Example rdf_2 : rdf_literal ⊢ "'chat'@fr" ⇒ MkRdfLiteral (s_ "chat") (Some (LangTag (s_ "fr"))).
Proof. t. Qed.
Example rdf_3 : rdf_literal ⊢ "'xyz'^^<http://example.org/ns/userDatatype>"
  ⇒ MkRdfLiteral (s_ "xyz") (Some (DescIri (ii "http://example.org/ns/userDatatype"))).
Proof. t. Qed.
Example rdf_4 : rdf_literal ⊢ """abc""^^appNS:1app.Data.Type"
  ⇒ MkRdfLiteral (s_ "abc") (Some (DescIri (ln "appNS" "1app.Data.Type"))). Proof. t. Qed.
Example rdf_5 : rdf_literal ⊢ """abc""^^appNS:1...app.Data.Type"
  ⇒ MkRdfLiteral (s_ "abc") (Some (DescIri (ln "appNS" "1...app.Data.Type"))). Proof. t. Qed.

(** src/expression/mod.rs, mod test *)
Example iri_2 : iri ⊢ "<http://example.org/book/book1>" ⇒ ii "http://example.org/book/book1". Proof. t. Qed.
Example iri_3 : iri ⊢ ":book1" ⇒ dln "book1". Proof. t. Qed.
Example iri_4 : iri ⊢ ":" ⇒ IriPrefixedName (PnameNS None). Proof. t. Qed.

(** src/literal.rs, mod tests *)
Example exp_1 : exponent ⊢ "e+25" ⇒ 25%Z. Proof. t. Qed.
Example exp_2 : exponent ⊢ "e25" ⇒ 25%Z. Proof. t. Qed.
Example exp_3 : exponent ⊢ "E-25" ⇒ (-25)%Z. Proof. t. Qed.
(** [f64]'s equality takes the two zeros as equal; the model keeps them apart *)
Example dec_1 : sparql_decimal ⊢ "-.0" ⇒ Finite true 0 (-1074). Proof. t. Qed.
Example dec_2 : sparql_decimal ⊢ ".02" ⇒ Finite false 5764607523034235 (-58). Proof. t. Qed.
Example dec_3 : sparql_decimal ⊢ "1." ⇒ Finite false 4503599627370496 (-52). Proof. t. Qed.
Example dbl_1 : sparql_double ⊢ "-.0" ⇒ (Finite true 0 (-1074), None). Proof. t. Qed.
Example dbl_2 : sparql_double ⊢ ".02e10" ⇒ (Finite false 5764607523034235 (-58), Some 10%Z). Proof. t. Qed.
Example dbl_3 : sparql_double ⊢ "1.E-20" ⇒ (Finite false 4503599627370496 (-52), Some (-20)%Z). Proof. t. Qed.
Example num_1 : numeric_literal ⊢ "+11" ⇒ NInt 11. Proof. t. Qed.
Example num_2 : numeric_literal ⊢ "-5" ⇒ NInt (-5). Proof. t. Qed.
Example num_3 : numeric_literal ⊢ "+11." ⇒ NDouble (Finite false 6192449487634432 (-49)) None. Proof. t. Qed.
Example num_4 : numeric_literal ⊢ "+.0e10" ⇒ NDouble (Finite false 0 (-1074)) (Some 10%Z). Proof. t. Qed.
Example sla_1 : string_literal_arg ⊢ """A""" ⇒ SLSimple (s_ "A"). Proof. t. Qed.

(** src/prologue.rs, mod tests *)
Example pro_1 : base_decl ⊢ "Base <http://xmlns.com/foaf/0.1/>" ⇒ s_ "http://xmlns.com/foaf/0.1/".
Proof. t. Qed.
Example pro_2 : prologue (s_ "PREFIX foaf:   <http://xmlns.com/foaf/0.1/>" ++ nl
    ++ s_ "            PREFIX :    <http://example.com/ns#>" ++ nl
    ++ s_ "            BASE <http://example.org/book/>")
  = Ok [] (MkPrologue [ DeclPrefix (MkPrefixDecl (Some (s_ "foaf")) (s_ "http://xmlns.com/foaf/0.1/"));
                        DeclPrefix (MkPrefixDecl None (s_ "http://example.com/ns#"));
                        DeclBase (s_ "http://example.org/book/") ]). Proof. t. Qed.
Example pro_3 : prefix_decl ⊢ "PREFIX foaf: <http://xmlns.com/foaf/0.1/>"
  ⇒ MkPrefixDecl (Some (s_ "foaf")) (s_ "http://xmlns.com/foaf/0.1/"). Proof. t. Qed.
Example pro_4 : prefix_decl ⊢ "prefix   :   <http://xmlns.com/foaf/0.1/>"
  ⇒ MkPrefixDecl None (s_ "http://xmlns.com/foaf/0.1/"). Proof. t. Qed.

(** src/data.rs, mod tests *)
Example dat_1 : datablock_value ⊢ "true" ⇒ DbvBooleanLiteral true. Proof. t. Qed.
Example dat_2 : datablock_value ⊢ "'chat'@fr"
  ⇒ DbvRdfLiteral (MkRdfLiteral (s_ "chat") (Some (LangTag (s_ "fr")))). Proof. t. Qed.
Definition dlit x := DbvRdfLiteral (MkRdfLiteral (s_ x) None).
Example dat_3 : datablock_value ⊢ """abc""" ⇒ dlit "abc". Proof. t. Qed.
Example dat_4 : inline_data_one_var ⊢ "?name { ""abc"" ""def"" }"
  ⇒ MkInlineDataOneVar (QMark (s_ "name")) [dlit "abc"; dlit "def"]. Proof. t. Qed.
Example dat_5 : inline_data_full ⊢ "() { }" ⇒ MkInlineDataFull [] []. Proof. t. Qed.
Example dat_6 : inline_data_full ⊢ "( ?name ?z) { }"
  ⇒ MkInlineDataFull [QMark (s_ "name"); QMark (s_ "z")] []. Proof. t. Qed.
Example dat_7 : inline_data_full ⊢ "(?name) {  (""abc"")  (""def"")}"
  ⇒ MkInlineDataFull [QMark (s_ "name")] [[dlit "abc"]; [dlit "def"]]. Proof. t. Qed.
Example dat_8 : values_clause (s_ "values (?x ?y) {" ++ nl ++ s_ "  (:uri1 1)" ++ nl
    ++ s_ "  (:uri2 UNDEF)" ++ nl ++ s_ "}")
  = Ok [] (Some (DbFull (MkInlineDataFull [QMark (s_ "x"); QMark (s_ "y")]
      [ [DbvIri (dln "uri1"); DbvNumericLiteral (NInt 1)]; [DbvIri (dln "uri2"); DbvUnDef] ]))).
Proof. t. Qed.
Example dat_9 : data_set_clause ⊢ "FROM    <http://example.org/foaf/aliceFoaf>" ⇒ DonDefault (ii alice).
Proof. t. Qed.
Example dat_10 : data_set_clause ⊢ "FROM NAMED <http://example.org/bob>"
  ⇒ DonNamed (ii "http://example.org/bob"). Proof. t. Qed.
Example dat_11 : data_set_clause ⊢ "FROM NAMED :uri1" ⇒ DonNamed (dln "uri1"). Proof. t. Qed.

(** src/clauses.rs, mod tests *)
Example cla_1 : limit_clause ⊢ "limit 5" ⇒ 5%Z. Proof. t. Qed.
Example cla_2 : offset_clause ⊢ "offset 5" ⇒ 5%Z. Proof. t. Qed.
Example cla_3 : offset_clause ⊢ "offset      100" ⇒ 100%Z. Proof. t. Qed.
Example cla_4 : limit_offset_clause ⊢ "limit 5     offset 10" ⇒ LimitOffset 5 (Some 10%Z). Proof. t. Qed.
Example cla_5 : limit_offset_clause ⊢ "offset 5 limit 10" ⇒ OffsetLimit 5 (Some 10%Z). Proof. t. Qed.
Example cla_6 : using_clause ⊢ "using named <http://example.org/foaf/aliceFoaf>" ⇒ DonNamed (ii alice).
Proof. t. Qed.
Example cla_7 : using_clause ⊢ "using named :uri1" ⇒ DonNamed (dln "uri1"). Proof. t. Qed.
Example cla_8 : using_clause ⊢ "using :uri1" ⇒ DonDefault (dln "uri1"). Proof. t. Qed.

(** src/graph.rs, mod tests *)
Example gra_1 : graph_ref_all ⊢ "default" ⇒ GraDefault. Proof. t. Qed.
Example gra_2 : graph_ref_all ⊢ "graph :uri1" ⇒ GraGraphRef (dln "uri1"). Proof. t. Qed.
Example gra_3 : graph_ref_all ⊢ "graph <http://example.org/foaf/aliceFoaf>" ⇒ GraGraphRef (ii alice).
Proof. t. Qed.
Example gra_4 : graph_term ⊢ "()" ⇒ GtNil. Proof. t. Qed.
Example gra_5 : graph_term ⊢ "true" ⇒ GtBooleanLiteral true. Proof. t. Qed.
Example gra_6 : graph_term ⊢ "<http://example.org/foaf/aliceFoaf>" ⇒ GtIri (ii alice). Proof. t. Qed.
Example gra_7 : graph_term ⊢ "-5" ⇒ GtNumericLiteral (NInt (-5)). Proof. t. Qed.
Example gra_8 : var_or_term ⊢ "()" ⇒ VotTerm GtNil. Proof. t. Qed.
Example gra_9 : var_or_term ⊢ "false" ⇒ VotTerm (GtBooleanLiteral false). Proof. t. Qed.
Example gra_10 : var_or_term ⊢ "?name" ⇒ VotVar (QMark (s_ "name")). Proof. t. Qed.

(** src/path.rs, mod tests *)
Example pat_1 : path_mod ⊢ "*" ⇒ PmAsterisk. Proof. t. Qed.
Example pat_2 : path_mod ⊢ "+" ⇒ PmPlus. Proof. t. Qed.
Example pat_3 : path_mod ⊢ "?" ⇒ PmQuestionMark. Proof. t. Qed.

(** src/var.rs, mod tests *)
Example var_1 : verb ⊢ "a" ⇒ VerbA. Proof. t. Qed.
Example var_2 : verb ⊢ "?name" ⇒ VerbVarOrIri (VoiVar (QMark (s_ "name"))). Proof. t. Qed.
Example var_3 : verb ⊢ "<http://example.org/foaf/aliceFoaf>" ⇒ VerbVarOrIri (VoiIri (ii alice)).
Proof. t. Qed.
Example var_4 : var_or_iri ⊢ "?name" ⇒ VoiVar (QMark (s_ "name")). Proof. t. Qed.
Example var_5 : var ⊢ "?name" ⇒ QMark (s_ "name"). Proof. t. Qed.
Example var_6 : var ⊢ "$name" ⇒ Dollar (s_ "name"). Proof. t. Qed.

(** src/node.rs, mod tests *)
Definition a_list (l : list GraphNode) : PropertyList := MkPropertyList [MkVerbList VerbA (MkObjectList l)].
Example nod_1 : blank_node ⊢ "[]" ⇒ Anon. Proof. t. Qed.
Example nod_2 : blank_node ⊢ "_:a.b.c" ⇒ Label (s_ "a.b.c"). Proof. t. Qed.
Example nod_3 : collection ⊢ "(()())" ⇒ MkCollection [gnil; gnil]. Proof. t. Qed.
Example nod_4 : object_list ⊢ "(),()" ⇒ MkObjectList [gnil; gnil]. Proof. t. Qed.
Example nod_5 : property_list ⊢ "" ⇒ None. Proof. t. Qed.
Example nod_6 : property_list_not_empty ⊢ "a (),()" ⇒ a_list [gnil; gnil]. Proof. t. Qed.
Example nod_7 : property_list_not_empty ⊢ "a (),();;;" ⇒ a_list [gnil; gnil]. Proof. t. Qed.
Example nod_8 : property_list_not_empty (s_ "a () , ()  " ++ nl ++ s_ "; ; ;")
  = Ok [] (a_list [gnil; gnil]). Proof. t. Qed.
Definition vl_a := MkVerbList VerbA (MkObjectList [gnil; gnil]).
Definition vl_z := MkVerbList (VerbVarOrIri (VoiVar (QMark (s_ "z")))) (MkObjectList [gbool true; gvar "name"]).
Definition vl_alice := MkVerbList (VerbVarOrIri (VoiIri (ii alice)))
  (MkObjectList [GnVarOrTerm (VotTerm (GtIri (ii alice)))]).
Example nod_9 : property_list_not_empty ⊢ "a (),(); ?z true , ?name" ⇒ MkPropertyList [vl_a; vl_z].
Proof. t. Qed.
Example nod_10 : property_list_not_empty (s_ "a (),(); ?z true , ?name ;" ++ nl
    ++ s_ "            <http://example.org/foaf/aliceFoaf>" ++ nl
    ++ s_ "            <http://example.org/foaf/aliceFoaf> ;; ;")
  = Ok [] (MkPropertyList [vl_a; vl_z; vl_alice]). Proof. t. Qed.
Example nod_11 : blank_node_property_list (s_ "[   a (),()" ++ [9] ++ s_ "]")
  = Ok [] (a_list [gnil; gnil]). Proof. t. Qed.

(** src/triple.rs, mod tests *)
Definition coll_true := TnCollection (MkCollection [gbool true; gnil]).
Example tri_1 : triples_same_subject ⊢ "() a true,()"
  ⇒ TssTerm (VotTerm GtNil) (a_list [gbool true; gnil]). Proof. t. Qed.
Example tri_2 : triples_same_subject ⊢ "(()())"
  ⇒ TssNode (TnCollection (MkCollection [gnil; gnil])) None. Proof. t. Qed.
Example tri_3 : triples_same_subject (s_ "[   a (),()" ++ [9] ++ s_ "] a false,()")
  = Ok [] (TssNode (TnBlankNodePropertyList (a_list [gnil; gnil])) (Some (a_list [gbool false; gnil]))).
Proof. t. Qed.
Example tri_4 : triples_node ⊢ "(true ())" ⇒ coll_true. Proof. t. Qed.
Example tri_5 : triples_node (s_ "[" ++ nl ++ s_ "a false,() " ++ nl ++ s_ "]")
  = Ok [] (TnBlankNodePropertyList (a_list [gbool false; gnil])). Proof. t. Qed.
Example tri_6 : triples_template ⊢ "(true())." ⇒ [TssNode coll_true None]. Proof. t. Qed.
Example tri_7 : triples_template ⊢ "(true()).(true())" ⇒ [TssNode coll_true None; TssNode coll_true None].
Proof. t. Qed.
Example tri_8 : triples_template (s_ "(true()).[   a (),()" ++ [9] ++ s_ "] a false,()")
  = Ok [] [ TssNode coll_true None;
            TssNode (TnBlankNodePropertyList (a_list [gnil; gnil])) (Some (a_list [gbool false; gnil])) ].
Proof. t. Qed.

(** src/quads.rs, mod tests *)
Example qua_1 : quads_not_triples ⊢ "graph ?name {}" ⇒ MkQuadsNotTriples (VoiVar (QMark (s_ "name"))) None.
Proof. t. Qed.
Example qua_2 : quads_not_triples ⊢ "graph ?name { (true ()) }"
  ⇒ MkQuadsNotTriples (VoiVar (QMark (s_ "name"))) (Some [TssNode coll_true None]). Proof. t. Qed.
Definition tss s p o := TssTerm (VotVar (QMark (s_ s)))
  (MkPropertyList [MkVerbList (VerbVarOrIri (VoiIri p)) (MkObjectList [gvar o])]).
Example qua_3 : quads_not_triples ⊢ "GRAPH ?g { ?x foaf:mbox ?mbox }"
  ⇒ MkQuadsNotTriples (VoiVar (QMark (s_ "g"))) (Some [tss "x" (ln "foaf" "mbox") "mbox"]). Proof. t. Qed.
Example qua_4 : quads_pattern (s_ "{" ++ nl ++ s_ "   ?g dc:publisher ?who ." ++ nl
    ++ s_ "   GRAPH ?g { ?x foaf:mbox ?mbox }" ++ nl ++ s_ "}")
  = Ok [] (MkQuads (Some [tss "g" (ln "dc" "publisher") "who"])
      [ MkQuadsEntry (MkQuadsNotTriples (VoiVar (QMark (s_ "g")))
                        (Some [tss "x" (ln "foaf" "mbox") "mbox"])) None ]). Proof. t. Qed.

(** src/operations.rs, mod tests *)
Example ope_1 : drop_stmt ⊢ "drop  graph :uri1" ⇒ MkDrop false (GraGraphRef (dln "uri1")). Proof. t. Qed.
Example ope_2 : drop_stmt ⊢ "drop silent graph <http://example.org/foaf/aliceFoaf>"
  ⇒ MkDrop true (GraGraphRef (ii alice)). Proof. t. Qed.
Example ope_3 : create_stmt ⊢ "create silent graph <http://example.org/foaf/aliceFoaf>"
  ⇒ MkCreate true (ii alice). Proof. t. Qed.
Example ope_4 : create_stmt ⊢ "create   graph   :uri1" ⇒ MkCreate false (dln "uri1"). Proof. t. Qed.
