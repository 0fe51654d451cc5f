(** Specification side, continued: what may follow a token, and longest matches.

    [Spec.R_x tree text] says that a text is a way of writing a tree.  An exact description of a
    parser also says where it stops; the notions needed for that are defined here, again without
    mentioning the parsers. *)
From Verif Require Export Spec.
Open Scope N_scope.
Open Scope list_scope.

(** [s] belongs to the language [L] and no longer prefix of [i] does *)
Definition longest (L : str -> Prop) (s i : str) : Prop :=
  L s /\ forall s' r', i = s' ++ r' -> L s' -> (List.length s' <= List.length s)%nat.
(** the next character, if any, is not in the class [f]; is not [c]; does not lower to [c] *)
Definition stops (f : char -> bool) (r : str) : Prop := match r with c :: _ => f c = false | [] => True end.
Definition not_first (c : char) (r : str) : Prop := match r with x :: _ => x <> c | [] => True end.
(** no line end *)
Definition no_nl (t : str) : Prop := Forall (fun c => c <> 10 /\ c <> 13) t.
(** no blank text at the start *)
Definition solid (r : str) : Prop :=
  match r with [] => True | c :: r' => ~ In c [32; 9; 10; 13] /\ (c = 35 -> no_nl r') end.
(** no local name after blank text *)
Definition no_local (r : str) : Prop := forall b l r', r = b ++ l ++ r' -> blank b -> ~ local_name l.
(** what may follow an integer *)
Definition int_follow (r : str) : Prop :=
  stops (in_ranges digits) r /\ not_first 46 r /\ not_first 101 r /\ not_first 69 r.
(** a decimal mantissa *)
Definition dec_text (t : str) : Prop := exists q, R_decimal q t.
(** reading the IRI [j] at the start of [i] leaves [r] *)
Definition iri_at (j : Iri) (i r : str) : Prop :=
  match j with
  | IriIri s => i = 60 :: s ++ 62 :: r /\ all iri_char s
  | IriPrefixedName (PnameLN p l) =>
      exists t b, i = t ++ b ++ l ++ r /\ R_pname_ns p t /\ blank b /\ longest local_name l (l ++ r)
  | IriPrefixedName (PnameNS p) => exists t, i = t ++ r /\ R_pname_ns p t /\ no_local r
  end.
(** no language tag and no datatype at the start *)
Definition no_descriptor (r : str) : Prop :=
  (forall s r', r = 64 :: s ++ r' -> ~ lang_tag s) /\
  (forall j t r', r = 94 :: 94 :: t ++ r' -> ~ R_iri j t).
Definition sigil (v : Var) : char := match v with QMark _ => 63 | Dollar _ => 36 end.
Definition vname (v : Var) : str := match v with QMark s => s | Dollar s => s end.
(** the text starts with the keyword *)
Definition begins (k : string) (i : str) : Prop := exists t r, i = t ++ r /\ kw k t.
(** what may follow a LIMIT/OFFSET clause: not a digit, and if the second half is missing (the blanks are
    then part of the clause) not that half *)
Definition lo_follow (l : LimitOffsetClause) (r : str) : Prop :=
  stops low_digit r /\
  match l with
  | LimitOffset _ None => solid r /\ ~ begins "offset" r
  | OffsetLimit _ None => solid r /\ ~ begins "limit" r
  | _ => True
  end.
(** what stands at the start of [x], after a string: nothing, a language tag, or a datatype *)
Definition desc_at (d : option RdfLiteralDescriptor) (x r : str) : Prop :=
  match d with
  | None => x = r /\ no_descriptor r
  | Some (LangTag g) => x = 64 :: g ++ r /\ longest lang_tag g (g ++ r)
  | Some (DescIri j) => exists y, x = 94 :: 94 :: y /\ iri_at j y r
  end.
(** the keyword of a query form *)
Definition form_word (q : SparqlQuery) : string :=
  match q with SqSelect _ => "select" | SqAsk _ => "ask" | SqDescribe _ => "describe" | SqConstruct _ => "construct" end.
(** DISTINCT and a blank come first *)
Definition says_distinct (i : str) : Prop := exists w b r, i = w ++ b ++ r /\ kw "distinct" w /\ blank1 b.
Definition aggregate_names : list string := ["count"; "sum"; "min"; "max"; "avg"; "sample"; "group_concat"]%string.
(** W3C VARNAME: first character and further characters *)
Definition w3c_start (c : char) : bool := in_ranges w3c_base c || (c =? 95).
Definition w3c_var_first (c : char) : bool := w3c_start c || in_ranges digits c.
Definition w3c_var_more (c : char) : bool :=
  w3c_var_first c || in_ranges [(0xB7, 0xB7); (0x300, 0x36F); (0x203F, 0x2040)] c.
(** the documented compatibility of two string arguments (SPARQL 1.1, 17.4.3.1.2) *)
Definition compatible_doc (a b : StringLiteral) : Prop :=
  let simple_or_typed x := match x with SLSimple _ | SLTyped _ => True | SLLanguage _ _ => False end in
  (simple_or_typed a /\ simple_or_typed b) \/
  (exists s t g, a = SLLanguage s g /\ b = SLLanguage t g) \/
  ((exists s g, a = SLLanguage s g) /\ simple_or_typed b).
