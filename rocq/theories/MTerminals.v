(** Model of src/terminals.rs and of the non-recursive parsers of src/literal.rs, src/var.rs,
    src/data.rs, src/expression/iri.rs. *)
From Verif Require Export Ast Nom.

(** ** src/terminals.rs *)

(** terminals.rs:83-88 [new_line] *)
Definition new_line : parser str :=
  recognize (pair (opt (preceded (chr (c_ "#")) (many0 (none_of [10; 13])))) (one_of [13; 10])).

(** terminals.rs:74-76 [sp]: blank is space, tab or [new_line] *)
Definition sp : parser str := recognize (many0 (alt [recognize (one_of [32; 9]); new_line])).
(** terminals.rs:79-81 [sp1] *)
Definition sp1 : parser str := recognize (many1 (alt [recognize (one_of [32; 9]); new_line])).

(** terminals.rs:44-49 [bracketted] *)
Definition bracketted {A} (pat : parser A) : parser A :=
  delimited (chr (c_ "(")) pat (chr (c_ ")")).
(** terminals.rs:63-71 [preceded_tag] *)
Definition preceded_tag {A} (t : str) (pat : parser A) : parser A :=
  preceded (terminated (tag_no_case t) sp) pat.
(** terminals.rs:33-41 [preceded_bracketted] *)
Definition preceded_bracketted {A} (t : str) (pat : parser A) : parser A :=
  preceded_tag t (bracketted pat).
(** terminals.rs:52-60 [preceded_tag1] *)
Definition preceded_tag1 {A} (t : str) (pat : parser A) : parser A :=
  preceded (terminated (tag_no_case t) sp1) pat.
(** terminals.rs:91-96 [sp_enc] *)
Definition sp_enc {A} (pat : parser A) : parser A := delimited sp pat sp.
(** terminals.rs:99-104 [sp_enc1] *)
Definition sp_enc1 {A} (pat : parser A) : parser A := delimited sp1 pat sp1.
(** terminals.rs:107-116 [sp_sep1] *)
Definition sp_sep1 {A B} (p : parser A) (q : parser B) : parser (A * B) := separated_pair p sp1 q.
(** terminals.rs:119-128 [sp_sep] *)
Definition sp_sep {A B} (p : parser A) (q : parser B) : parser (A * B) := separated_pair p sp q.

(** the escapable characters of terminals.rs:131, 139 and 144: double quote, t, b, n, r, f,
    backslash, single quote *)
Definition esc_chars : str := s_ """tbnrf\'".

(** terminals.rs:130-132 [string_content] *)
Definition string_content : parser str :=
  escaped (none_of (s_ "'""\")) (c_ "\") (one_of esc_chars).

(** terminals.rs:135-148 [string_literal] *)
Definition string_literal : parser str :=
  alt [ delimited (tag (s_ "'")) (escaped (none_of (s_ "'\")) (c_ "\") (one_of esc_chars)) (tag (s_ "'"));
        delimited (tag (s_ """")) (escaped (none_of (s_ """\")) (c_ "\") (one_of esc_chars)) (tag (s_ """")) ].

(** terminals.rs:170-175 [language_tag] *)
Definition language_tag : parser str :=
  preceded (chr (c_ "@"))
    (recognize (pair alpha1 (many0 (pair (tag (s_ "-")) alphanumeric1)))).

(** terminals.rs:178-180 [echar] *)
Definition echar : parser str :=
  escaped (none_of (s_ "\")) (c_ "\") (one_of (s_ """tbnrf'")).

(** terminals.rs:328-343 [is_unicode] *)
Definition is_unicode (c : char) : bool :=
  let r a b := (a <=? c) && (c <=? b) in
  r 0x00C0 0x00D6 || r 0x00D8 0x00F6 || r 0x00F8 0x02FF || r 0x0370 0x037D || r 0x037F 0x1FFF
  || r 0x200C 0x200D || r 0x2070 0x218F || r 0x2C00 0x2FEF || r 0x3001 0xD7FF
  || r 0xF900 0xFDCF || r 0xFDF0 0xFFFD.

(** terminals.rs:324-326 [is_sp] *)
Definition is_sp (c : char) : bool := contains [32; 9; 10; 13] c.
(** terminals.rs:346-351 [is_illegal_char_lit_1] *)
Definition is_illegal_char_lit_1 (c : char) : bool :=
  (c =? 0x27) || (c =? 0x5C) || (c =? 0x0A) || (c =? 0x0D).
(** terminals.rs:354-360 [is_illegal_char_lit_2] *)
Definition is_illegal_char_lit_2 (c : char) : bool :=
  if negb (is_illegal_char_lit_1 c) then c =? 0x22 else true.

(** terminals.rs:363-365 [is_pn_chars_base]: note the cast [i as u8] *)
Definition is_pn_chars_base (i : char) : bool := is_alphabetic (as_u8 i) || is_unicode i.
(** terminals.rs:368-370 [pn_chars_base_one] *)
Definition pn_chars_base_one : parser str := take_while_m_n 1 1 is_pn_chars_base.
(** terminals.rs:373-375 [pn_chars_base1] *)
Definition pn_chars_base1 : parser str := take_while1 is_pn_chars_base.
(** terminals.rs:378-380 [is_pn_chars_u] *)
Definition is_pn_chars_u (i : char) : bool := is_pn_chars_base i || (i =? c_ "_").
(** terminals.rs:383-385 [pn_chars_u_one] *)
Definition pn_chars_u_one : parser str := alt [pn_chars_base_one; tag (s_ "_")].
(** terminals.rs:388-390 [pn_chars_u1] *)
Definition pn_chars_u1 : parser str := take_while1 is_pn_chars_u.
(** terminals.rs:393-395 [is_pn_char] *)
Definition is_pn_char (i : char) : bool :=
  is_pn_chars_u i || (i =? c_ "-") || char_is_dec_digit i.
(** terminals.rs:398-400 [pn_chars_one] *)
Definition pn_chars_one : parser str := take_while_m_n 1 1 is_pn_char.
(** terminals.rs:403-405 [pn_chars1] *)
Definition pn_chars1 : parser str := take_while1 is_pn_char.

Definition is_dot (c : char) : bool := c =? c_ ".".

(** terminals.rs:267-273 [pn_chars_tail] *)
Definition pn_chars_tail : parser str :=
  recognize (pair (opt (take_while1 is_dot)) (separated_list (take_while1 is_dot) pn_chars1)).

(** terminals.rs:278-284 [is_hex_digit], [hex_primary] *)
Definition hex_primary : parser str := take_while_m_n 2 2 char_is_hex.

(** terminals.rs:286-291 [plx] *)
Definition plx : parser str :=
  recognize (alt [ pair (tag (s_ "%")) hex_primary;
                   pair (tag (s_ "\")) (recognize (one_of (s_ "_~.-!$&'()*+,;=/?#@%"))) ]).

(** terminals.rs:293-309 [pn_local] *)
Definition pn_local : parser str :=
  recognize (pair
    (alt [ pn_chars_u_one; tag (s_ ":"); take_while_m_n 1 1 (fun c => is_digit (as_u8 c)); plx ])
    (recognize (pair (opt (take_while1 is_dot))
       (separated_list (take_while1 is_dot)
          (many0 (alt [take_while1 (fun c => is_pn_char c || (c =? c_ ":")); plx])))))).

(** terminals.rs:311-313 [pn_prefix] *)
Definition pn_prefix : parser str := recognize (pair pn_chars_base_one pn_chars_tail).

(** terminals.rs:315-317 [pname_ns] *)
Definition pname_ns : parser (option str) :=
  terminated (opt pn_prefix) (preceded sp (chr (c_ ":"))).

(** terminals.rs:319-321 [pname_ln] *)
Definition pname_ln : parser (option str * str) := pair pname_ns (preceded sp pn_local).

(** terminals.rs:182-190 [prefixed_name] *)
Definition prefixed_name : parser PrefixedName :=
  alt [ map pname_ln (fun '(p, l) => PnameLN p l); map pname_ns PnameNS ].

(** terminals.rs:220-233 [iri_ref]: note the cast [c as u8] *)
Definition is_iri_char (c : char) : bool :=
  if contains (s_ "<>""{}|^\`") c then false else 0x20 <? as_u8 c.
Definition iri_ref : parser str := delimited (tag (s_ "<")) (take_while is_iri_char) (tag (s_ ">")).

(** terminals.rs:252-257 [iri] *)
Definition iri : parser Iri := alt [ map iri_ref IriIri; map prefixed_name IriPrefixedName ].

(** terminals.rs:235-243 [named_iri] *)
Definition named_iri : parser Iri :=
  preceded_tag1 (s_ "named") (alt [ map iri_ref IriIri; map prefixed_name IriPrefixedName ]).

(** terminals.rs:245-250 [default_or_named_iri] *)
Definition default_or_named_iri : parser DefaultOrNamedIri :=
  alt [ map named_iri DonNamed; map iri DonDefault ].

(** terminals.rs:192-194 [base_decl] *)
Definition base_decl : parser str := preceded (terminated (tag_no_case (s_ "base")) sp1) iri_ref.

(** terminals.rs:196-205 [prefix_decl] *)
Definition prefix_decl : parser PrefixDecl :=
  map (tuple3 (tag_no_case (s_ "prefix")) (sp_enc pname_ns) iri_ref)
    (fun '(_, (n, r)) => MkPrefixDecl n r).

(** terminals.rs:207-218 [prologue] *)
Definition prologue : parser Prologue :=
  map (separated_list sp1 (alt [ map base_decl DeclBase; map prefix_decl DeclPrefix ])) MkPrologue.

(** terminals.rs:150-167 [rdf_literal] *)
Definition rdf_literal : parser RdfLiteral :=
  map (pair string_literal
         (opt (alt [ map language_tag LangTag; map (preceded (tag (s_ "^^")) iri) DescIri ])))
    (fun '(l, d) => MkRdfLiteral l d).

(** terminals.rs:407-409 [anon] *)
Definition anon : parser str := preceded (chr (c_ "[")) (cut (terminated sp (chr (c_ "]")))).
(** terminals.rs:411-413 [nil] *)
Definition nil_ : parser str := preceded (chr (c_ "(")) (cut (terminated sp (chr (c_ ")")))).

(** ** src/literal.rs *)

(** literal.rs:37-61 [StringLiteral::compatible_arg] *)
Definition compatible_arg (a b : StringLiteral) : bool :=
  match a with
  | SLSimple _ => match b with SLLanguage _ _ => true | _ => false end
  | SLLanguage _ lang => match b with SLLanguage _ lang2 => str_eqb lang lang2 | _ => true end
  | SLTyped _ => match b with SLLanguage _ _ => false | _ => true end
  end.

(** literal.rs:74-97 [string_literal_arg] *)
Definition string_literal_arg : parser StringLiteral :=
  alt [ map (terminated string_literal (tag_no_case (s_ "^^xsd:string"))) SLSimple;
        map (pair string_literal (opt language_tag))
          (fun '(lit, lang) => match lang with
                               | Some lang => SLLanguage lit lang
                               | None => SLSimple lit
                               end) ].

(** literal.rs:100-102 [silent], 105-107 [distinct], 109-114 [boolean] *)
Definition silent : parser bool := map (tag_no_case (s_ "silent")) (fun _ => true).
Definition distinct : parser bool := map (tag_no_case (s_ "distinct")) (fun _ => true).
Definition boolean : parser bool :=
  alt [ map (tag_no_case (s_ "false")) (fun _ => false);
        map (tag_no_case (s_ "true")) (fun _ => true) ].

(** [Option::<bool>::unwrap_or_default] *)
Definition unwrap_or_default (o : option bool) : bool := match o with Some b => b | None => false end.
(** the recurring [map(opt(terminated(silent, sp1)), Option::unwrap_or_default)] *)
Definition opt_silent : parser bool := map (opt (terminated silent sp1)) unwrap_or_default.
Definition opt_distinct : parser bool := map (opt (terminated distinct sp1)) unwrap_or_default.

(** literal.rs:116-118 [sign] *)
Definition sign : parser Sign :=
  alt [ map (chr (c_ "+")) (fun _ => POS); map (chr (c_ "-")) (fun _ => NEG) ].

(** [str::parse::<i64>] (Rust std) on a text made of an optional sign and digits. *)
Definition i64_min : Z := (- 2 ^ 63)%Z.
Definition i64_max : Z := (2 ^ 63 - 1)%Z.
Definition u64_max : Z := (2 ^ 64 - 1)%Z.
Definition all_digits (ds : str) : bool := match ds with [] => false | _ => forallb is_digit ds end.
Definition parse_signed (x : str) : option Z :=
  match x with
  | c :: ds =>
      if c =? c_ "+" then if all_digits ds then Some (dval ds) else None
      else if c =? c_ "-" then if all_digits ds then Some (- dval ds)%Z else None
      else if all_digits x then Some (dval x) else None
  | [] => None
  end.
Definition parse_i64 (x : str) : option Z :=
  match parse_signed x with
  | Some z => if (i64_min <=? z)%Z && (z <=? i64_max)%Z then Some z else None
  | None => None
  end.
(** [str::parse::<u64>] (Rust std) on a text: optional ['+'], ASCII digits, in range. *)
Definition parse_u64 (x : str) : option Z :=
  match x with
  | c :: ds =>
      let ds' := if c =? c_ "+" then ds else x in
      if all_digits ds' then
        let z := dval ds' in if (z <=? u64_max)%Z then Some z else None
      else None
  | [] => None
  end.

(** [opt(alt((char('+'), char('-'))))] *)
Definition opt_sign : parser (option char) := opt (alt [chr (c_ "+"); chr (c_ "-")]).

(** literal.rs:120-128 [exponent] *)
Definition exponent : parser Z :=
  preceded (alt [chr (c_ "e"); chr (c_ "E")])
    (map_res (recognize (pair opt_sign (cut digit1))) parse_i64).

(** literal.rs:130-138 [recognize_spaqrql_float] *)
Definition recognize_sparql_float : parser str :=
  recognize (pair opt_sign
    (alt [ map (pair digit1 (opt (pair (chr (c_ ".")) (opt digit1)))) (fun _ => tt);
           map (pair (chr (c_ ".")) digit1) (fun _ => tt) ])).

(** the fraction p/q, not negative, rounded to the nearest [f64], ties to the even mantissa (the
    rounding of [str::parse::<f64>], Rust std): [l] is the exponent of the leading bit, [e] the
    exponent of the last bit kept *)
Definition round_f64 (neg : bool) (p q : Z) : f64 :=
  (if p =? 0 then Finite neg 0 (-1074) else
   let l := Z.log2 p - Z.log2 q in
   let l := if p * 2 ^ Z.max 0 (- l) <? q * 2 ^ Z.max 0 l then l - 1 else l in
   let e := Z.max (l - 52) (-1074) in
   let n := p * 2 ^ Z.max 0 (- e) in
   let d := q * 2 ^ Z.max 0 e in
   let m := n / d in
   let r := n mod d in
   let m := if (2 * r <? d) || ((2 * r =? d) && Z.even m) then m else m + 1 in
   let '(m, e) := if m =? 2 ^ 53 then (2 ^ 52, e + 1) else (m, e) in
   if 971 <? e then Infinite neg else Finite neg (Z.to_N m) e)%Z.

(** [str::parse::<f64>] (Rust std) on a text of the shape sign? digits? ('.' digits?)? with at
    least one digit *)
Definition parse_decimal (x : str) : option f64 :=
  let '(neg, u) := match x with
                   | c :: u => if c =? c_ "+" then (false, u)
                               else if c =? c_ "-" then (true, u) else (false, x)
                   | [] => (false, x)
                   end in
  let (ip, rest) := span is_digit u in
  let '(fp, ok) := match rest with
                   | [] => ([], true)
                   | c :: f => (f, (c =? c_ ".") && forallb is_digit f)
                   end in
  if ok && negb (Nat.eqb (List.length ip + List.length fp) 0) then
    Some (round_f64 neg (dval (ip ++ fp)) (10 ^ Z.of_nat (List.length fp)))
  else None.

(** literal.rs:140-148 [sparql_decimal] *)
Definition sparql_decimal : parser f64 := fun input =>
  match recognize_sparql_float input with
  | Err e => Err e
  | Ok i s => match parse_decimal s with
              | Some n => Ok i n
              | None => Err (Error i KFloat)
              end
  end.

(** literal.rs:150-152 [sparql_double] *)
Definition sparql_double : parser (f64 * option Z) := pair sparql_decimal (opt exponent).

(** literal.rs:154-171 [sparql_int] *)
Definition sparql_int : parser Z := fun i =>
  match recognize (pair opt_sign digit1) i with
  | Ok i o =>
      if match i with c :: _ => contains (s_ ".eE") c | [] => false end then Err (Error i KFloat)
      else match parse_i64 o with
           | Some v => Ok i v
           | None => Err (Error i KDigit)
           end
  | Err e => Err e
  end.

(** literal.rs:173-178 [numeric_literal] *)
Definition numeric_literal : parser NumericLiteral :=
  alt [ map sparql_int NInt; map sparql_double (fun '(m, e) => NDouble m e) ].

(** ** src/arithmetic.rs: [Sign] *)

(** arithmetic.rs:83-90 [AsRef<str> for Sign], also [Display] (104-108) *)
Definition sign_to_str (s : Sign) : str := match s with POS => s_ "+" | NEG => s_ "-" end.
(** arithmetic.rs:92-102 [FromStr for Sign] *)
Definition sign_from_str (x : str) : option Sign :=
  if str_eqb x (s_ "+") || str_eqb x [] then Some POS
  else if str_eqb x (s_ "-") then Some NEG else None.
(** arithmetic.rs:77-81 [Default for Sign] *)
Definition sign_default : Sign := POS.

(** ** src/var.rs *)

Definition is_var_char (c : char) : bool := is_pn_chars_u c || char_is_dec_digit c.
(** var.rs:104-109 [var_name] *)
Definition var_name : parser str :=
  recognize (pair (take_while_m_n 1 1 is_var_char) (take_while is_var_char)).

(** var.rs:73-84 [var] *)
Definition var : parser Var :=
  alt [ map (preceded (chr (c_ "?")) (preceded sp var_name)) QMark;
        map (preceded (chr (c_ "$")) (preceded sp var_name)) Dollar ].

(** var.rs:58-60 [var_or_iri] *)
Definition var_or_iri : parser VarOrIri := alt [ map var VoiVar; map iri VoiIri ].

(** var.rs:62-67 [verb] *)
Definition verb : parser Verb :=
  alt [ map var_or_iri VerbVarOrIri; map (tag_no_case (s_ "a")) (fun _ => VerbA) ].

(** var.rs:86-94 [var_or_iris_or_all] *)
Definition var_or_iris_or_all : parser VarOrIrisOrAll :=
  alt [ map (separated_nonempty_list sp var_or_iri) VoiList; map (chr (c_ "*")) (fun _ => VoiAll) ].

(** ** src/graph.rs: terms *)

(** graph.rs:262-276 [blank_node] *)
Definition blank_node : parser BlankNode :=
  alt [ map (sp_sep (tag (s_ "_:"))
               (recognize (pair (alt [pn_chars_u_one; take_while_m_n 1 1 (fun c => is_digit (as_u8 c))])
                             pn_chars_tail)))
          (fun '(_, label) => Label label);
        map anon (fun _ => Anon) ].

(** graph.rs:251-260 [graph_term] *)
Definition graph_term : parser GraphTerm :=
  alt [ map iri GtIri;
        map rdf_literal GtRdfLiteral;
        map numeric_literal GtNumericLiteral;
        map boolean GtBooleanLiteral;
        map blank_node GtBlankNode;
        map nil_ (fun _ => GtNil) ].

(** var.rs:69-71 [var_or_term] *)
Definition var_or_term : parser VarOrTerm := alt [ map var VotVar; map graph_term VotTerm ].

(** graph.rs:125-127 [graph_ref] *)
Definition graph_ref : parser Iri := map (sp_sep1 (tag_no_case (s_ "graph")) iri) snd.

(** graph.rs:129-137 [graph_or_default] *)
Definition graph_or_default : parser GraphOrDefault :=
  alt [ map (tag_no_case (s_ "default")) (fun _ => GodDefault);
        map (pair (opt (pair (tag_no_case (s_ "graph")) sp1)) iri) (fun '(_, i) => GodGraph i) ].

(** graph.rs:139-146 [graph_ref_all] *)
Definition graph_ref_all : parser GraphRefAll :=
  alt [ map (tag_no_case (s_ "default")) (fun _ => GraDefault);
        map (tag_no_case (s_ "named")) (fun _ => GraNamed);
        map (tag_no_case (s_ "all")) (fun _ => GraAll);
        map graph_ref GraGraphRef ].

(** ** src/expression/iri.rs *)

(** iri.rs:22-24 [iri_or_a] *)
Definition iri_or_a : parser IriOrA :=
  alt [ map iri IoaIri; map (tag_no_case (s_ "a")) (fun _ => IoaA) ].
(** iri.rs:26-31 [iri_or_a_or_caret] *)
Definition iri_or_a_or_caret : parser IriOrAOrCaret :=
  alt [ map iri_or_a IocIriOrA; map (preceded (chr (c_ "^")) iri_or_a) IocCaret ].

(** ** src/data.rs *)

(** data.rs:51-53 [data_set_clause] *)
Definition data_set_clause : parser DataSetClause := preceded_tag1 (s_ "from") default_or_named_iri.

(** data.rs:101-109 [datablock_value] *)
Definition datablock_value : parser DataBlockValue :=
  alt [ map iri DbvIri;
        map rdf_literal DbvRdfLiteral;
        map numeric_literal DbvNumericLiteral;
        map boolean DbvBooleanLiteral;
        map (tag_no_case (s_ "undef")) (fun _ => DbvUnDef) ].

(** data.rs:87-99 [inline_data_one_var] *)
Definition inline_data_one_var : parser InlineDataOneVar :=
  map (pair var
         (delimited (sp_enc (chr (c_ "{"))) (many0 (sp_enc datablock_value))
            (preceded sp (chr (c_ "}")))))
    (fun '(v, vs) => MkInlineDataOneVar v vs).

(** data.rs:67-85 [inline_data_full] *)
Definition inline_data_full : parser InlineDataFull :=
  map (pair (bracketted (preceded sp (many0 (sp_enc var))))
         (delimited (sp_enc (chr (c_ "{")))
            (many0 (sp_enc (bracketted (preceded sp (many0 (sp_enc datablock_value))))))
            (preceded sp (chr (c_ "}")))))
    (fun '(vs, rows) => MkInlineDataFull vs rows).

(** data.rs:55-60 [datablock] *)
Definition datablock : parser DataBlock :=
  alt [ map inline_data_one_var DbOneVar; map inline_data_full DbFull ].

(** data.rs:62-64 [inline_data] *)
Definition inline_data : parser DataBlock := preceded_tag1 (s_ "values") datablock.
(** clauses.rs:98-100 [values_clause] *)
Definition values_clause : parser (option DataBlock) := opt (preceded_tag1 (s_ "values") datablock).

(** ** src/clauses.rs: LIMIT / OFFSET, USING *)

(** clauses.rs:118-126 [int_clause] *)
Definition int_clause (pat : parser str) : parser Z :=
  map_res (preceded (terminated pat sp) (take_while1 (fun c => is_digit (as_u8 c)))) parse_u64.
(** clauses.rs:129-131 [limit_clause], 134-136 [offset_clause] *)
Definition limit_clause : parser Z := int_clause (tag_no_case (s_ "limit")).
Definition offset_clause : parser Z := int_clause (tag_no_case (s_ "offset")).
(** clauses.rs:138-149 [limit_offset_clause] *)
Definition limit_offset_clause : parser LimitOffsetClause :=
  alt [ map (separated_pair limit_clause sp (opt offset_clause)) (fun '(l, o) => LimitOffset l o);
        map (separated_pair offset_clause sp (opt limit_clause)) (fun '(o, l) => OffsetLimit o l) ].
(** clauses.rs:113-115 [using_clause] *)
Definition using_clause : parser DefaultOrNamedIri :=
  preceded_tag1 (s_ "using") default_or_named_iri.

(** ** src/path.rs: path modifiers *)

(** path.rs:98-109 [FromStr for PathMod] *)
Definition path_mod_from_str (x : str) : option PathMod :=
  if str_eqb x (s_ "?") then Some PmQuestionMark
  else if str_eqb x (s_ "*") then Some PmAsterisk
  else if str_eqb x (s_ "+") then Some PmPlus
  else None.

(** path.rs:276-284 [path_mod]: [&i[0..1]] panics when the first character is not one byte *)
Definition path_mod : parser PathMod := fun i =>
  match i with
  | [] => Err Incomplete
  | _ => match split_at 1 i with
         | None => Err Panic
         | Some (h, r) => match path_mod_from_str h with
                          | Some m => Ok r m
                          | None => Err (Error i KChar)
                          end
         end
  end.
(** path.rs:287-289 [is_path_mod] *)
Definition is_path_mod (c : char) : bool := contains (s_ "?*+") c.
