(** What parsing costs.  The parsers once more, counting the calls of the four recursive functions
    [expression], [group_graph_pattern], [path_alternative] and [graph_node_path] (and, for requests, of
    [update]): every function of MPath.v, MExpr.v, MQuery.v and MUpdate.v that reaches one of them,
    word for word, over combinators that add up the counts.  All other
    parsers count nothing.  The Rust functions make the same calls in the same order, so the count is
    a lower bound for the work of the program. *)
From Verif Require Import MQuery MUpdate.
Open Scope N_scope.
Open Scope list_scope.

(** A parser together with its count. *)
Definition cparser (A : Type) := str -> res A * N.
(** A parser that counts nothing. *)
Definition lift {A} (p : parser A) : cparser A := fun i => (p i, 0).
Coercion lift : parser >-> cparser.
(** Count one call. *)
Definition tick {A} (p : cparser A) : cparser A := fun i => let (x, n) := p i in (x, n + 1).

(** ** the combinators of Nom.v *)
Definition t_pair {A B} (p : cparser A) (q : cparser B) : cparser (A * B) := fun i =>
  match p i with
  | (Ok i1 a, n) => match q i1 with
                    | (Ok i2 b, m) => (Ok i2 (a, b), n + m)
                    | (Err e, m) => (Err e, n + m)
                    end
  | (Err e, n) => (Err e, n)
  end.
Definition t_map {A B} (p : cparser A) (f : A -> B) : cparser B := fun i =>
  match p i with
  | (Ok r a, n) => (Ok r (f a), n)
  | (Err e, n) => (Err e, n)
  end.
Definition t_preceded {A B} (p : cparser A) (q : cparser B) : cparser B := t_map (t_pair p q) snd.
Definition t_terminated {A B} (p : cparser A) (q : cparser B) : cparser A := t_map (t_pair p q) fst.
Definition t_delimited {A B C} (p : cparser A) (q : cparser B) (r : cparser C) : cparser B :=
  t_preceded p (t_terminated q r).
Definition t_separated_pair {A B C} (p : cparser A) (s : cparser B) (q : cparser C)
  : cparser (A * C) := t_pair p (t_preceded s q).
Definition t_tuple3 {A B C} (p : cparser A) (q : cparser B) (r : cparser C)
  : cparser (A * (B * C)) := t_pair p (t_pair q r).
Definition t_tuple4 {A B C D} (p : cparser A) (q : cparser B) (r : cparser C) (s : cparser D)
  : cparser (A * (B * (C * D))) := t_pair p (t_tuple3 q r s).
Definition t_tuple5 {A B C D E} (p : cparser A) (q : cparser B) (r : cparser C) (s : cparser D)
  (t : cparser E) : cparser (A * (B * (C * (D * E)))) := t_pair p (t_tuple4 q r s t).
Fixpoint t_alt {A} (ps : list (cparser A)) : cparser A := fun i =>
  match ps with
  | [] => (Err (Error i KAlt), 0)
  | [p] => p i
  | p :: ps' => match p i with
                | (Err (Error _ _), n) => let (x, m) := t_alt ps' i in (x, n + m)
                | r => r
                end
  end.
Definition t_opt {A} (p : cparser A) : cparser (option A) := fun i =>
  match p i with
  | (Ok r a, n) => (Ok r (Some a), n)
  | (Err (Error _ _), n) => (Ok i None, n)
  | (Err e, n) => (Err e, n)
  end.
Fixpoint t_many0_loop {A} (k : nat) (p : cparser A) (i : str) : res (list A) * N :=
  match k with
  | O => (Err OutOfFuel, 0)
  | S k => match p i with
           | (Err (Error _ _), n) => (Ok i [], n)
           | (Err e, n) => (Err e, n)
           | (Ok i1 a, n) =>
               if str_eqb i1 i then (Err (Error i KMany0), n)
               else match t_many0_loop k p i1 with
                    | (Ok r l, m) => (Ok r (a :: l), n + m)
                    | (Err e, m) => (Err e, n + m)
                    end
           end
  end.
Definition t_many0 {A} (p : cparser A) : cparser (list A) :=
  fun i => t_many0_loop (S (List.length i)) p i.
Fixpoint t_many1_loop {A} (k : nat) (p : cparser A) (i : str) : res (list A) * N :=
  match k with
  | O => (Err OutOfFuel, 0)
  | S k => match p i with
           | (Err (Error _ _), n) => (Ok i [], n)
           | (Err e, n) => (Err e, n)
           | (Ok i1 a, n) =>
               if str_eqb i1 i then (Err (Error i KMany1), n)
               else match t_many1_loop k p i1 with
                    | (Ok r l, m) => (Ok r (a :: l), n + m)
                    | (Err e, m) => (Err e, n + m)
                    end
           end
  end.
Definition t_many1 {A} (p : cparser A) : cparser (list A) := fun i =>
  match p i with
  | (Err e, n) => (Err e, n)
  | (Ok i1 a, n) => match t_many1_loop (S (List.length i1)) p i1 with
                    | (Ok r l, m) => (Ok r (a :: l), n + m)
                    | (Err e, m) => (Err e, n + m)
                    end
  end.
Fixpoint t_sep_loop {A B} (k : nat) (sep : cparser B) (p : cparser A) (i : str) : res (list A) * N :=
  match k with
  | O => (Err OutOfFuel, 0)
  | S k =>
      match sep i with
      | (Err (Error _ _), n) => (Ok i [], n)
      | (Err e, n) => (Err e, n)
      | (Ok i1 _, n) =>
          if str_eqb i1 i then (Err (Error i1 KSeparatedList), n)
          else match p i1 with
               | (Err (Error _ _), m) => (Ok i [], n + m)
               | (Err e, m) => (Err e, n + m)
               | (Ok i2 a, m) =>
                   if str_eqb i2 i then (Err (Error i2 KSeparatedList), n + m)
                   else match t_sep_loop k sep p i2 with
                        | (Ok r l, x) => (Ok r (a :: l), n + m + x)
                        | (Err e, x) => (Err e, n + m + x)
                        end
               end
      end
  end.
Definition t_separated_list {A B} (sep : cparser B) (p : cparser A) : cparser (list A) := fun i =>
  match p i with
  | (Err (Error _ _), n) => (Ok i [], n)
  | (Err e, n) => (Err e, n)
  | (Ok i1 a, n) =>
      if str_eqb i1 i then (Err (Error i1 KSeparatedList), n)
      else match t_sep_loop (S (List.length i1)) sep p i1 with
           | (Ok r l, m) => (Ok r (a :: l), n + m)
           | (Err e, m) => (Err e, n + m)
           end
  end.
Definition t_separated_nonempty_list {A B} (sep : cparser B) (p : cparser A) : cparser (list A) :=
  fun i =>
  match p i with
  | (Err e, n) => (Err e, n)
  | (Ok i1 a, n) =>
      if str_eqb i1 i then (Err (Error i1 KSeparatedList), n)
      else match t_sep_loop (S (List.length i1)) sep p i1 with
           | (Ok r l, m) => (Ok r (a :: l), n + m)
           | (Err e, m) => (Err e, n + m)
           end
  end.
(** Recursion; every call of the recursive function counts. *)
Fixpoint t_iter {A} (k : nat) (body : cparser A -> cparser A) : cparser A :=
  match k with
  | O => fun _ => (Err OutOfFuel, 0)
  | S k => fun i => tick (body (t_iter k body)) i
  end.
Definition t_fixp {A} (body : cparser A -> cparser A) : cparser A :=
  fun i => t_iter (S (List.length i)) body i.
(** ** the combinators of MTerminals.v *)
Definition t_bracketted {A} (p : cparser A) : cparser A :=
  t_delimited (chr (c_ "(")) p (chr (c_ ")")).
Definition t_preceded_tag {A} (t : str) (p : cparser A) : cparser A :=
  t_preceded (t_terminated (tag_no_case t) sp) p.
Definition t_preceded_bracketted {A} (t : str) (p : cparser A) : cparser A :=
  t_preceded_tag t (t_bracketted p).
Definition t_preceded_tag1 {A} (t : str) (p : cparser A) : cparser A :=
  t_preceded (t_terminated (tag_no_case t) sp1) p.
Definition t_sp_enc {A} (p : cparser A) : cparser A := t_delimited sp p sp.
Definition t_sp_enc1 {A} (p : cparser A) : cparser A := t_delimited sp1 p sp1.
Definition t_sp_sep1 {A B} (p : cparser A) (q : cparser B) : cparser (A * B) := t_separated_pair p sp1 q.
Definition t_sp_sep {A B} (p : cparser A) (q : cparser B) : cparser (A * B) := t_separated_pair p sp q.

(** ** MPath.v: property paths and triples *)

(** ** Paths: recursive through [path_alternative] *)

(** path.rs:229-242 [path_primary]; note the case-sensitive tag *)
Definition t_path_primary_of (pa : cparser PathAlternative) : cparser PathPrimary :=
  t_alt [ t_map iri PpIri;
        t_map (tag (s_ "a")) (fun _ => PpA);
        t_map (t_preceded (tag (s_ "!")) path_negated_property_set) PpNegated;
        t_map (t_delimited (tag (s_ "(")) pa (tag (s_ ")"))) PpPath ].

(** path.rs:251-259 [path_elt] *)
Definition t_path_elt_of (pa : cparser PathAlternative) : cparser PathElt :=
  t_map (t_pair (t_path_primary_of pa) (t_opt (t_preceded sp1 path_mod))) (fun '(p, m) => MkPathElt p m).

(** path.rs:244-249 [path_elt_or_inverse] *)
Definition t_path_elt_or_inverse_of (pa : cparser PathAlternative) : cparser PathEltOrInverse :=
  t_alt [ t_map (t_path_elt_of pa) PeiPathElt; t_map (t_preceded (tag (s_ "^")) (t_path_elt_of pa)) PeiInverse ].

(** path.rs:222-227 [path_sequence]; the separator is the same as in [path_alternative] *)
Definition t_path_sequence_of (pa : cparser PathAlternative) : cparser PathSequence :=
  t_map (t_separated_nonempty_list (t_delimited sp (tag (s_ "|")) sp) (t_path_elt_or_inverse_of pa))
    MkPathSequence.

(** path.rs:215-220 [path_alternative] *)
Definition t_path_alternative_body (pa : cparser PathAlternative) : cparser PathAlternative :=
  t_map (t_separated_nonempty_list (t_delimited sp (tag (s_ "|")) sp) (t_path_sequence_of pa))
    MkPathAlternative.
Definition t_path_alternative : cparser PathAlternative := t_fixp t_path_alternative_body.

Definition t_path_primary : cparser PathPrimary := t_path_primary_of t_path_alternative.
Definition t_path_elt : cparser PathElt := t_path_elt_of t_path_alternative.
Definition t_path_elt_or_inverse : cparser PathEltOrInverse := t_path_elt_or_inverse_of t_path_alternative.
Definition t_path_sequence : cparser PathSequence := t_path_sequence_of t_path_alternative.

(** path.rs:171-176 [verb_path_or_simple] *)
Definition t_verb_path_or_simple : cparser VerbPathOrSimple :=
  t_alt [ t_map t_path_alternative VpsPath; t_map var VpsSimple ].

(** path.rs:185-193 [property_list_path_entry] *)
Definition t_property_list_path_entry : cparser PropertyListPathEntry :=
  t_map (t_separated_pair t_verb_path_or_simple sp1 object_list)
    (fun '(v, l) => MkPropertyListPathEntry v l).

(** ** Nodes and property lists: recursive through [graph_node_path] *)

(** path.rs:178-183 [object_list_path]; the separator is [;] *)
Definition t_object_list_path_of (gnp : cparser GraphNodePath) : cparser ObjectListPath :=
  t_map (t_separated_nonempty_list (t_sp_enc (tag (s_ ";"))) gnp) MkObjectListPath.

(** path.rs:152-165 [property_list_path_not_empty] *)
Definition t_property_list_path_not_empty_of (gnp : cparser GraphNodePath) : cparser PropertyListPath :=
  t_map (t_tuple3 (t_terminated t_verb_path_or_simple sp1)
         (t_object_list_path_of gnp)
         (t_many0 (t_preceded (t_many1 (t_sp_enc (chr (c_ ";")))) t_property_list_path_entry)))
    (fun '(v, (o, es)) => MkPropertyListPath v o es).

(** path.rs:144-150 [blank_node_property_list_path] *)
Definition t_blank_node_property_list_path_of (gnp : cparser GraphNodePath) : cparser PropertyListPath :=
  t_delimited (t_terminated (tag (s_ "[")) sp) (t_property_list_path_not_empty_of gnp)
    (t_preceded sp (tag (s_ "]"))).

(** path.rs:195-206 [triples_node_path] *)
Definition t_triples_node_path_of (gnp : cparser GraphNodePath) : cparser TriplesNodePath :=
  t_alt [ t_map (t_blank_node_property_list_path_of gnp) TnpBlankNodePropertyListPath;
        t_map (t_delimited (tag (s_ "(")) (t_many1 gnp) (tag (s_ ")"))) TnpCollectionPath ].

(** path.rs:208-213 [graph_node_path] *)
Definition t_graph_node_path_body (gnp : cparser GraphNodePath) : cparser GraphNodePath :=
  t_alt [ t_map var_or_term GnpVarOrTerm; t_map (t_triples_node_path_of gnp) GnpTriplesNodePath ].
Definition t_graph_node_path : cparser GraphNodePath := t_fixp t_graph_node_path_body.

Definition t_object_list_path : cparser ObjectListPath := t_object_list_path_of t_graph_node_path.
Definition t_property_list_path_not_empty : cparser PropertyListPath :=
  t_property_list_path_not_empty_of t_graph_node_path.
Definition t_blank_node_property_list_path : cparser PropertyListPath :=
  t_blank_node_property_list_path_of t_graph_node_path.
Definition t_triples_node_path : cparser TriplesNodePath := t_triples_node_path_of t_graph_node_path.

(** path.rs:167-169 [property_list_path] *)
Definition t_property_list_path : cparser (option PropertyListPath) := t_opt t_property_list_path_not_empty.

(** path.rs:125-142 [triples_same_subject_path] *)
Definition t_triples_same_subject_path : cparser TriplesSameSubjectPath :=
  t_alt [ t_map (t_sp_sep1 var_or_term t_property_list_path_not_empty) (fun '(t, l) => TsspTerm t l);
        t_map (t_sp_sep t_triples_node_path t_property_list_path) (fun '(n, l) => TsspNode n l) ].

(** triple.rs:92-97 [triples_block] *)
Definition t_triples_block : cparser TriplesBlock :=
  t_map (t_separated_nonempty_list (t_many1 (t_sp_enc (chr (c_ ".")))) t_triples_same_subject_path)
    MkTriplesBlock.

(** ** MExpr.v: expressions and graph patterns *)

(** ** src/expression/mod.rs *)

(** the recurring [separated_pair(expression, sp_enc(char(',')), expression)] *)
Definition t_expr2_of {E} (e : cparser E) : cparser (E * E) := t_separated_pair e comma e.

(** expression/mod.rs:108-117 [bracketted3], 119-123 [bracketted_expr3] *)
Definition t_bracketted_expr3_of {E} (e : cparser E) : cparser (E * (E * option E)) :=
  t_bracketted (t_tuple3 e (t_preceded comma e) (t_opt (t_preceded comma e))).

(** expression/mod.rs:125-137 [expression_as_var_opt] *)
Definition t_expression_as_var_opt_of {E} (e : cparser E) : cparser (ExpressionAsVarOpt E) :=
  t_delimited (chr (c_ "("))
    (t_sp_enc (t_map (t_pair e (t_opt (t_preceded (t_sp_enc1 (tag_no_case (s_ "as"))) var)))
               (fun '(x, v) => MkExpressionAsVarOpt x v)))
    (chr (c_ ")")).

(** expression/mod.rs:139-151 [expression_as_var] *)
Definition t_expression_as_var_of {E} (e : cparser E) : cparser (ExpressionAsVar E) :=
  t_delimited (chr (c_ "("))
    (t_sp_enc (t_map (t_separated_pair e (t_sp_enc (tag_no_case (s_ "as"))) var)
               (fun '(x, v) => MkExpressionAsVar x v)))
    (chr (c_ ")")).

(** expression/mod.rs:167-179 [expression_list] *)
Definition t_expression_list_of {E} (e : cparser E) : cparser (ExpressionList E) :=
  t_alt [ t_map nil_ (fun _ => ElNil);
        t_map (t_delimited (chr (c_ "(")) (t_separated_nonempty_list comma e) (chr (c_ ")"))) ElList ].

(** expression/mod.rs:181-192 [distinct_expression] *)
Definition t_distinct_expression_of {E} (e : cparser E) : cparser (DistinctExpression E) :=
  t_map (t_pair opt_distinct e) (fun '(d, x) => MkDistinctExpression d x).

(** expression/mod.rs:194-196 [bracketted_expression] *)
Definition t_bracketted_expression_of {E} (e : cparser E) : cparser E := t_bracketted (t_sp_enc e).

(** expression/mod.rs:198-200 [bind] *)
Definition t_bind_of {E} (e : cparser E) : cparser (ExpressionAsVar E) :=
  t_preceded_tag1 (s_ "bind") (t_expression_as_var_of e).

(** ** src/call.rs: arguments *)

(** call.rs:296-314 [arg_list] *)
Definition t_arg_list_of {E} (e : cparser E) : cparser (ArgList E) :=
  t_alt [ t_map nil_ (fun _ => AlNil);
        t_map (t_delimited (t_terminated (chr (c_ "(")) sp)
               (t_pair opt_distinct (t_separated_nonempty_list comma e))
               (chr (c_ ")")))
          (fun '(d, es) => AlExpression d es) ].

(** call.rs:90-94 [function_call] *)
Definition t_function_call_of {E} (e : cparser E) : cparser (FunctionCall E) :=
  t_map (t_separated_pair iri sp (t_arg_list_of e)) (fun '(i, a) => MkFunctionCall i a).

(** terminals.rs:259-264 [iri_or_fun] *)
Definition t_iri_or_fun_of {E} (e : cparser E) : cparser (IriOrFunction E) :=
  t_map (t_pair iri (t_opt (t_preceded sp1 (t_arg_list_of e)))) (fun '(i, a) => MkIriOrFunction i a).

(** ** src/expression/functions.rs *)

(** functions.rs:35-44 [regex_expression] *)
Definition t_regex_expression_of {E} (e : cparser E) : cparser (RegexExpression E) :=
  t_map (t_preceded_tag1 (s_ "regex") (t_bracketted_expr3_of e)) (fun '(a, (b, c)) => MkRegex a b c).

(** functions.rs:46-55 [substring_expression] *)
Definition t_substring_expression_of {E} (e : cparser E) : cparser (RegexExpression E) :=
  t_map (t_preceded_tag1 (s_ "substr") (t_bracketted_expr3_of e)) (fun '(a, (b, c)) => MkRegex a b c).

(** functions.rs:57-72 [str_replace_expression] *)
Definition t_str_replace_expression_of {E} (e : cparser E) : cparser (StrReplaceExpression E) :=
  t_map (t_bracketted (t_tuple4 e (t_preceded comma e) (t_preceded comma e) (t_opt (t_preceded comma e))))
    (fun '(a, (b, (c, d))) => MkStrReplace a b c d).

(** ** src/aggregate.rs *)

(** aggregate.rs:85-90 [count_target] *)
Definition t_count_target_of {E} (e : cparser E) : cparser (CountTarget E) :=
  t_alt [ t_map (chr (c_ "*")) (fun _ => CtAll); t_map e CtExpr ].

(** aggregate.rs:92-103 [count] *)
Definition t_count_of {E} (e : cparser E) : cparser (Count E) :=
  t_map (t_preceded_tag (s_ "count") (t_bracketted (t_pair opt_distinct (t_count_target_of e))))
    (fun '(d, t) => MkCount d t).

(** aggregate.rs:105-129 [group_concat] *)
Definition t_group_concat_of {E} (e : cparser E) : cparser (GroupConcat E) :=
  t_map (t_preceded_tag (s_ "group_concat")
         (t_bracketted
            (t_pair (t_distinct_expression_of e)
               (t_opt (t_preceded sp
                       (t_preceded
                          (t_tuple3 (chr (c_ ";")) (t_sp_enc (tag_no_case (s_ "separator")))
                             (t_terminated (chr (c_ "=")) sp))
                          string_literal))))))
    (fun '(x, s) => MkGroupConcat x s).

(** aggregate.rs:58-83 [aggregate] *)
Definition t_aggregate_of {E} (e : cparser E) : cparser (Aggregate E) :=
  t_alt [ t_map (t_count_of e) AgCount;
        t_map (t_preceded_bracketted (s_ "sum") (t_distinct_expression_of e)) AgSum;
        t_map (t_preceded_bracketted (s_ "min") (t_distinct_expression_of e)) AgMin;
        t_map (t_preceded_bracketted (s_ "max") (t_distinct_expression_of e)) AgMax;
        t_map (t_preceded_bracketted (s_ "avg") (t_distinct_expression_of e)) AgAvg;
        t_map (t_preceded_bracketted (s_ "sample") (t_distinct_expression_of e)) AgSample;
        t_map (t_group_concat_of e) AgGroupConcat ].

(** ** src/call.rs: built-in calls *)

(** [map(preceded_bracketted(name, expression), ctor)] *)
Definition t_call1 {E G} (e : cparser E) (name : str) (k : E -> BuiltInCall E G)
  : cparser (BuiltInCall E G) := t_map (t_preceded_bracketted name e) k.
(** [map(preceded_bracketted(name, separated_pair(expression, sp_enc(char(',')), expression)),
    ctor)] *)
Definition t_call2 {E G} (e : cparser E) (name : str) (k : E -> E -> BuiltInCall E G)
  : cparser (BuiltInCall E G) := t_map (t_preceded_bracketted name (t_expr2_of e)) (fun '(a, b) => k a b).
(** [map(preceded_bracketted(name, nil), |_| ctor)] *)
Definition t_call0 {E G} (name : str) (k : BuiltInCall E G) : cparser (BuiltInCall E G) :=
  t_map (t_preceded_bracketted name nil_) (fun _ => k).

(** call.rs:96-162 [built_in_call_1] *)
Definition t_built_in_call_1_of {E G} (e : cparser E) : cparser (BuiltInCall E G) :=
  t_alt [ t_map (t_aggregate_of e) BiAggregate;
        t_call1 e (s_ "str") BiStr;
        t_call1 e (s_ "lang") BiLang;
        t_call2 e (s_ "langmatches") BiLangMatches;
        t_call1 e (s_ "datatype") BiDatatype;
        t_map (t_preceded_bracketted (s_ "bound") var) BiBound;
        t_call1 e (s_ "iri") BiIri;
        t_call1 e (s_ "uri") BiUri;
        t_map (t_preceded_bracketted (s_ "bnode") (t_alt [ t_map e Some; t_map nil_ (fun _ => None) ])) BiBnode;
        t_call0 (s_ "rand") BiRand;
        t_call1 e (s_ "abs") BiUri;
        t_call1 e (s_ "ceil") BiUri;
        t_call1 e (s_ "floor") BiUri;
        t_call1 e (s_ "round") BiUri;
        t_map (t_preceded_tag1 (s_ "concat")
               (t_separated_pair (t_expression_list_of e) sp (t_substring_expression_of e)))
          (fun '(l, s) => BiConcat l s);
        t_map (t_preceded_tag1 (s_ "strlen")
               (t_separated_pair (t_bracketted_expression_of e) sp (t_str_replace_expression_of e)))
          (fun '(x, s) => BiStrLen x s);
        t_call1 e (s_ "ucase") BiUCase;
        t_call1 e (s_ "lcase") BiLCase;
        t_call1 e (s_ "encode_for_uri") BiEncodeForUri;
        t_call2 e (s_ "strlen") BiContains;
        t_call2 e (s_ "strstarts") BiStrStarts ].

(** call.rs:164-210 [built_in_call_2] *)
Definition t_built_in_call_2_of {E G} (e : cparser E) : cparser (BuiltInCall E G) :=
  t_alt [ t_call2 e (s_ "strends") BiStrEnds;
        t_call2 e (s_ "strbefore") BiStrBefore;
        t_call2 e (s_ "strafter") BiStrAfter;
        t_call1 e (s_ "year") BiYear;
        t_call1 e (s_ "month") BiMonth;
        t_call1 e (s_ "day") BiDay;
        t_call1 e (s_ "hours") BiHours;
        t_call1 e (s_ "minutes") BiMinutes;
        t_call1 e (s_ "seconds") BiSeconds;
        t_call1 e (s_ "timezone") BiTimezone;
        t_call1 e (s_ "tz") BiTz;
        t_call0 (s_ "now") BiNow;
        t_call0 (s_ "uuid") BiUUID;
        t_call0 (s_ "struuid") BiStrUUID ].

(** call.rs:212-294 [built_in_call] *)
Definition t_built_in_call_of {E G} (e : cparser E) (g : cparser G) : cparser (BuiltInCall E G) :=
  t_alt [ t_built_in_call_1_of e;
        t_built_in_call_2_of e;
        t_call1 e (s_ "md5") BiMD5;
        t_call1 e (s_ "sha1") BiSHA1;
        t_call1 e (s_ "sha256") BiSHA256;
        t_call1 e (s_ "sha384") BiSHA384;
        t_call1 e (s_ "sha512") BiSHA512;
        t_map (t_preceded_tag1 (s_ "coalesce") (t_expression_list_of e)) BiCoalesce;
        t_map (t_preceded_bracketted (s_ "if") (t_tuple3 e (t_preceded comma e) (t_preceded comma e)))
          (fun '(a, (b, c)) => BiIf a b c);
        t_call2 e (s_ "strlang") BiStrLang;
        t_call2 e (s_ "strdt") BiStrDt;
        t_call2 e (s_ "sameterm") BiSameTerm;
        t_call1 e (s_ "isiri") BiIsIri;
        t_call1 e (s_ "isuri") BiIsUri;
        t_call1 e (s_ "isblank") BiIsBlank;
        t_call1 e (s_ "isliteral") BiIsLiteral;
        t_call1 e (s_ "isnumeric") BiIsNumeric;
        t_map (t_regex_expression_of e) BiRegex;
        t_map (t_preceded_tag1 (s_ "exists") g) BiExistsFunc;
        t_map (t_tuple3 (tag_no_case (s_ "not")) (t_sp_enc1 (tag_no_case (s_ "exists"))) g)
          (fun '(_, (_, x)) => BiNotExistsFunc x) ].

(** expression/mod.rs:153-165 [primary_expression] *)
Definition t_primary_expression_of {E G} (e : cparser E) (g : cparser G)
  : cparser (PrimaryExpression E G) :=
  t_alt [ t_map (t_bracketted_expression_of e) PeBracketted;
        t_map (t_built_in_call_of e g) PeBuiltInCall;
        t_map (t_iri_or_fun_of e) PeIriOrFunction;
        t_map rdf_literal PeRdfLiteral;
        t_map numeric_literal PeNumericLiteral;
        t_map boolean PeBooleanLiteral;
        t_map var PeVar ].

(** ** src/arithmetic.rs *)

(** arithmetic.rs:110-117 [unary_expression] *)
Definition t_unary_expression_of {E G} (e : cparser E) (g : cparser G) : cparser (UnaryExpression E G) :=
  t_alt [ t_map (t_preceded_tag (s_ "!") (t_primary_expression_of e g)) UnNot;
        t_map (t_preceded_tag (s_ "+") (t_primary_expression_of e g)) UnAdd;
        t_map (t_preceded_tag (s_ "-") (t_primary_expression_of e g)) UnSub;
        t_map (t_primary_expression_of e g) UnDefault ].

(** arithmetic.rs:162-167 [mult_expression] *)
Definition t_mult_expression_of {E G} (e : cparser E) (g : cparser G) : cparser (MultExpression E G) :=
  t_alt [ t_map (t_preceded_tag (s_ "*") (t_unary_expression_of e g)) MuMult;
        t_map (t_preceded_tag (s_ "/") (t_unary_expression_of e g)) MuDiv ].

(** arithmetic.rs:152-160 [multiplicative_expression] *)
Definition t_multiplicative_expression_of {E G} (e : cparser E) (g : cparser G)
  : cparser (MultiplicativeExpression E G) :=
  t_map (t_pair (t_unary_expression_of e g) (t_preceded sp (t_separated_list sp (t_mult_expression_of e g))))
    (fun '(l, r) => MkMultiplicative l r).

(** arithmetic.rs:129-150 [add_expression] *)
Definition t_add_expression_of {E G} (e : cparser E) (g : cparser G) : cparser (AddExpression E G) :=
  t_alt [ t_map (t_preceded_tag (s_ "+") (t_multiplicative_expression_of e g)) AddAdd;
        t_map (t_preceded_tag (s_ "-") (t_multiplicative_expression_of e g)) AddSub;
        t_map (t_pair numeric_literal (t_preceded sp (t_separated_list sp (t_mult_expression_of e g))))
          (fun '(n, l) => AddNumeric n l) ].

(** arithmetic.rs:119-127 [additive_expression] *)
Definition t_additive_expression_of {E G} (e : cparser E) (g : cparser G)
  : cparser (AdditiveExpression E G) :=
  t_map (t_pair (t_multiplicative_expression_of e g)
         (t_preceded sp (t_separated_list sp (t_add_expression_of e g))))
    (fun '(l, r) => MkAdditive l r).

(** arithmetic.rs:169-186 [op_expression]; the two keywords of NOT IN are streaming tags
    (arithmetic.rs:8) *)
Definition t_op_expression_of {E G} (e : cparser E) (g : cparser G) : cparser (OpExpression E G) :=
  t_alt [ t_map (t_preceded_tag (s_ "=") (t_additive_expression_of e g)) OpEQ;
        t_map (t_preceded_tag (s_ "!=") (t_additive_expression_of e g)) OpNE;
        t_map (t_preceded_tag (s_ "<") (t_additive_expression_of e g)) OpLT;
        t_map (t_preceded_tag (s_ ">") (t_additive_expression_of e g)) OpGT;
        t_map (t_preceded_tag (s_ "<=") (t_additive_expression_of e g)) OpLE;
        t_map (t_preceded_tag (s_ ">=") (t_additive_expression_of e g)) OpGE;
        t_map (t_preceded_tag (s_ "in") (t_expression_list_of e)) OpIN;
        t_map (t_preceded (t_terminated (tag_no_case_streaming (s_ "not"))
                         (t_sp_enc1 (tag_no_case_streaming (s_ "in"))))
               (t_expression_list_of e)) OpNIN ].

(** arithmetic.rs:188-193 [relational_expression] *)
Definition t_relational_expression_of {E G} (e : cparser E) (g : cparser G)
  : cparser (RelationalExpression E G) :=
  t_map (t_pair (t_additive_expression_of e g) (t_opt (t_preceded sp (t_op_expression_of e g))))
    (fun '(l, r) => MkRelational l r).

(** arithmetic.rs:195-200 [conditional_and_expression] *)
Definition t_conditional_and_expression_of {E G} (e : cparser E) (g : cparser G)
  : cparser (ConditionalAndExpression E G) :=
  t_map (t_separated_nonempty_list (t_sp_enc (tag (s_ "&&"))) (t_relational_expression_of e g))
    MkConditionalAnd.

(** expression/mod.rs:202-207 [expression] *)
Definition t_expression_body (e : cparser Expression) (g : cparser GroupGraphPattern)
  : cparser Expression :=
  t_map (t_separated_nonempty_list (t_sp_enc (tag (s_ "||"))) (t_conditional_and_expression_of e g))
    MkExpression.

(** ** src/expression/functions.rs: constraints *)

(** functions.rs:74-80 [constraint] *)
Definition t_constraint_of {E G} (e : cparser E) (g : cparser G) : cparser (Constraint E G) :=
  t_alt [ t_map (t_bracketted_expression_of e) CoBracketted;
        t_map (t_built_in_call_of e g) CoBuiltInCall;
        t_map (t_function_call_of e) CoFunctionCall ].

(** functions.rs:82-84 [filter] *)
Definition t_filter_of {E G} (e : cparser E) (g : cparser G) : cparser (Constraint E G) :=
  t_preceded_tag1 (s_ "filter") (t_constraint_of e g).

(** ** src/order.rs, src/group.rs *)

(** order.rs:38-43 [order_expression] *)
Definition t_order_expression_of {E} (e : cparser E) : cparser (OrderExpression E) :=
  t_map (t_separated_pair order sp1 (t_bracketted_expression_of e))
    (fun '(o, x) => MkOrderExpression o x).

(** order.rs:45-55 [order_condition] *)
Definition t_order_condition_of {E G} (e : cparser E) (g : cparser G) : cparser (OrderCondition E G) :=
  t_alt [ t_map (t_order_expression_of e) OcOrder;
        t_map (t_constraint_of e g) OcConstraint;
        t_map var OcVar ].

(** group.rs:43-50 [group_condition] *)
Definition t_group_condition_of {E G} (e : cparser E) (g : cparser G) : cparser (GroupCondition E G) :=
  t_alt [ t_map (t_built_in_call_of e g) GcBuiltInCall;
        t_map (t_function_call_of e) GcFunctionCall;
        t_map (t_expression_as_var_opt_of e) GcExpressionAsVarOpt;
        t_map var GcVar ].

(** group.rs:33-41 [group_clause] *)
Definition t_group_clause_of {E G} (e : cparser E) (g : cparser G) : cparser (GroupClause E G) :=
  t_map (t_preceded (kw_by (s_ "group")) (t_separated_nonempty_list sp (t_group_condition_of e g)))
    MkGroupClause.

(** ** src/clauses.rs *)

(** clauses.rs:71-79 [order_clause] *)
Definition t_order_clause_of {E G} (e : cparser E) (g : cparser G) : cparser (OrderClause E G) :=
  t_map (t_preceded (kw_by (s_ "order")) (t_separated_nonempty_list sp (t_order_condition_of e g)))
    MkOrderClause.

(** clauses.rs:81-89 [having_clause] *)
Definition t_having_clause_of {E G} (e : cparser E) (g : cparser G) : cparser (HavingClause E G) :=
  t_map (t_preceded (t_terminated (tag_no_case (s_ "having")) sp1)
         (t_separated_nonempty_list sp (t_constraint_of e g)))
    MkHavingClause.

(** clauses.rs:54-69 [solution_modifier] *)
Definition t_solution_modifier_of {E G} (e : cparser E) (g : cparser G)
  : cparser (SolutionModifier E G) :=
  t_map (t_tuple4 (t_opt (t_group_clause_of e g))
         (t_opt (t_preceded sp (t_having_clause_of e g)))
         (t_opt (t_preceded sp (t_order_clause_of e g)))
         (t_opt (t_preceded sp limit_offset_clause)))
    (fun '(gb, (h, (ob, lo))) => MkSolutionModifier ob gb h lo).

(** clauses.rs:91-96 [where_clause] *)
Definition t_where_clause_of {G} (g : cparser G) : cparser G :=
  t_preceded (t_opt (t_terminated (tag_no_case (s_ "where")) sp1)) g.

(** ** src/query/select.rs: SELECT clause and sub-select *)

(** var.rs:96-101 [var_or_expression_as_var] *)
Definition t_var_or_expression_as_var_of {E} (e : cparser E) : cparser (VarOrExpressionAsVar E) :=
  t_alt [ t_map var VoeVar; t_map (t_expression_as_var_of e) VoeExpressionAsVar ].

(** query/select.rs:98-106 [select_vars] *)
Definition t_select_vars_of {E} (e : cparser E) : cparser (SelectVars E) :=
  t_alt [ t_map (chr (c_ "*")) (fun _ => SvAll);
        t_map (t_many1 (t_var_or_expression_as_var_of e)) SvList ].

(** query/select.rs:87-96 [select_clause] *)
Definition t_select_clause_of {E} (e : cparser E) : cparser (SelectClause E) :=
  t_map (t_tuple3 (tag_no_case (s_ "select")) (t_opt (t_preceded sp1 select_modifier))
         (t_preceded sp1 (t_select_vars_of e)))
    (fun '(_, (m, v)) => MkSelectClause m v).

(** query/select.rs:70-85 [sub_select] *)
Definition t_sub_select_of {E G} (e : cparser E) (g : cparser G) : cparser (SubSelect E G) :=
  t_map (t_tuple4 (t_select_clause_of e) (t_sp_enc (t_where_clause_of g)) (t_solution_modifier_of e g)
         (t_preceded sp values_clause))
    (fun '(s, (w, (m, v))) => MkSubSelect s w m v).

(** ** src/graph.rs: graph patterns *)

(** graph.rs:167-172 [group_or_union_graph_pattern] *)
Definition t_group_or_union_of {G} (g : cparser G) : cparser (GroupOrUnionGraphPattern G) :=
  t_map (t_separated_nonempty_list (t_sp_enc1 (tag_no_case (s_ "union"))) g) MkGroupOrUnion.

(** graph.rs:173-175 [optional_group_graph_pattern] *)
Definition t_optional_of {G} (g : cparser G) : cparser G := t_preceded_tag1 (s_ "optional") g.
(** graph.rs:176-178 [minus_graph_pattern] *)
Definition t_minus_of {G} (g : cparser G) : cparser G := t_preceded_tag1 (s_ "minus") g.

(** graph.rs:180-192 [graph_graph_pattern] *)
Definition t_graph_graph_pattern_of {G} (g : cparser G) : cparser (GraphGraphPattern G) :=
  t_map (t_tuple3 (t_terminated (tag_no_case (s_ "graph")) sp1) (t_terminated var_or_iri sp) g)
    (fun '(_, (v, x)) => MkGraphGraphPattern v x).

(** graph.rs:221-235 [service_graph_pattern] *)
Definition t_service_graph_pattern_of {G} (g : cparser G) : cparser (ServiceGraphPattern G) :=
  t_map (t_tuple4 (t_terminated (tag_no_case (s_ "service")) sp1) opt_silent (t_terminated var_or_iri sp) g)
    (fun '(_, (s, (v, x))) => MkServiceGraphPattern v s x).

(** graph.rs:148-165 [graph_pattern_not_triples] *)
Definition t_graph_pattern_not_triples_of {E G} (e : cparser E) (g : cparser G)
  : cparser (GraphPatternNotTriples E G) :=
  t_alt [ t_map (t_group_or_union_of g) GpGroupOrUnion;
        t_map (t_optional_of g) GpOptional;
        t_map (t_minus_of g) GpMinus;
        t_map (t_graph_graph_pattern_of g) GpGraph;
        t_map (t_service_graph_pattern_of g) GpService;
        t_map (t_filter_of e g) GpFilter;
        t_map (t_bind_of e) GpBind;
        t_map inline_data GpInlineData ].

(** graph.rs:207-219 [group_graph_pattern_and_triples] *)
Definition t_ggp_and_triples_of {E G} (e : cparser E) (g : cparser G)
  : cparser (GraphPatternAndTriples E G) :=
  t_map (t_separated_pair (t_graph_pattern_not_triples_of e g) (t_opt (t_preceded sp (chr (c_ "?"))))
         (t_opt (t_preceded sp t_triples_block)))
    (fun '(p, t) => MkGraphPatternAndTriples p t).

(** graph.rs:194-205 [group_graph_pattern_sub] *)
Definition t_ggp_sub_of {E G} (e : cparser E) (g : cparser G) : cparser (GroupGraphPatternSub E G) :=
  t_map (t_pair (t_opt (t_terminated t_triples_block sp)) (t_separated_list sp (t_ggp_and_triples_of e g)))
    (fun '(t, l) => MkGroupGraphPatternSub t l).

(** graph.rs:237-249 [group_graph_pattern] *)
Definition t_ggp_body (e : cparser Expression) (g : cparser GroupGraphPattern)
  : cparser GroupGraphPattern :=
  t_delimited (chr (c_ "{"))
    (t_sp_enc (t_alt [ t_map (t_sub_select_of e g) GgpSubSelect; t_map (t_ggp_sub_of e g) GgpSub ]))
    (chr (c_ "}")).

(** ** Tying the knot *)

Definition t_ggp_of (e : cparser Expression) : cparser GroupGraphPattern := t_fixp (t_ggp_body e).
(** expression/mod.rs:202 [expression] *)
Definition t_expression : cparser Expression := t_fixp (fun e => t_expression_body e (t_ggp_of e)).
(** graph.rs:237 [group_graph_pattern] *)
Definition t_group_graph_pattern : cparser GroupGraphPattern := t_ggp_of t_expression.

Definition t_built_in_call := t_built_in_call_of t_expression t_group_graph_pattern.
Definition t_primary_expression := t_primary_expression_of t_expression t_group_graph_pattern.
Definition t_relational_expression := t_relational_expression_of t_expression t_group_graph_pattern.
Definition t_aggregate := t_aggregate_of t_expression.
Definition t_arg_list := t_arg_list_of t_expression.
Definition t_expression_list := t_expression_list_of t_expression.
Definition t_function_call := t_function_call_of t_expression.
Definition t_iri_or_fun := t_iri_or_fun_of t_expression.
Definition t_constraint := t_constraint_of t_expression t_group_graph_pattern.
Definition t_filter := t_filter_of t_expression t_group_graph_pattern.
Definition t_bind := t_bind_of t_expression.
Definition t_expression_as_var := t_expression_as_var_of t_expression.
Definition t_graph_pattern_not_triples := t_graph_pattern_not_triples_of t_expression t_group_graph_pattern.
Definition t_group_graph_pattern_sub := t_ggp_sub_of t_expression t_group_graph_pattern.
Definition t_select_clause := t_select_clause_of t_expression.
Definition t_sub_select := t_sub_select_of t_expression t_group_graph_pattern.
Definition t_solution_modifier := t_solution_modifier_of t_expression t_group_graph_pattern.
Definition t_where_clause := t_where_clause_of t_group_graph_pattern.
Definition t_order_condition := t_order_condition_of t_expression t_group_graph_pattern.
Definition t_order_clause := t_order_clause_of t_expression t_group_graph_pattern.
Definition t_group_clause := t_group_clause_of t_expression t_group_graph_pattern.
Definition t_having_clause := t_having_clause_of t_expression t_group_graph_pattern.

(** ** MQuery.v: queries *)

(** query/select.rs:53-68 [select_query] *)
Definition t_select_query : cparser SelectQuery :=
  t_map (t_tuple4 (t_terminated t_select_clause sp1) (t_separated_list sp data_set_clause)
         (t_sp_enc t_where_clause) t_solution_modifier)
    (fun '(s, (d, (w, m))) => MkSelectQuery s d w m).

(** query/ask.rs:18-32 [ask_query] *)
Definition t_ask_query : cparser AskQuery :=
  t_map (t_tuple4 (t_terminated (tag_no_case (s_ "ask")) sp1)
         (t_terminated (t_separated_list sp data_set_clause) sp)
         (t_terminated t_where_clause sp) t_solution_modifier)
    (fun '(_, (d, (w, m))) => MkAskQuery d w m).

(** query/describe.rs:24-40 [describe_query] *)
Definition t_describe_query : cparser DescribeQuery :=
  t_map (t_tuple5 (tag_no_case (s_ "describe")) (t_sp_enc1 var_or_iris_or_all)
         (t_terminated (t_separated_list sp data_set_clause) sp)
         (t_opt (t_terminated t_where_clause sp)) t_solution_modifier)
    (fun '(_, (v, (d, (w, m)))) => MkDescribeQuery d v w m).

(** query/construct.rs:46-60 [sub_triples] *)
Definition t_sub_triples : cparser SubTriples :=
  t_map (t_tuple4 (t_terminated (t_separated_list sp data_set_clause) sp)
         (t_terminated (tag_no_case (s_ "where")) sp1)
         (t_delimited (chr (c_ "{")) (t_sp_enc (t_opt triples_template)) (chr (c_ "}")))
         (t_preceded sp t_solution_modifier))
    (fun '(d, (_, (t, m))) => MkSubTriples d t m).

(** query/construct.rs:62-77 [sub_construct] *)
Definition t_sub_construct : cparser SubConstruct :=
  t_map (t_tuple4 (t_terminated construct_template sp1)
         (t_terminated (t_separated_list sp data_set_clause) sp)
         (t_terminated t_where_clause sp) t_solution_modifier)
    (fun '(t, (d, (w, m))) => MkSubConstruct t d w m).

(** query/construct.rs:79-87 [construct_query] *)
Definition t_construct_query : cparser ConstructQuery :=
  t_preceded_tag1 (s_ "construct")
    (t_alt [ t_map t_sub_construct CqSubConstruct; t_map t_sub_triples CqSubTriples ]).

(** parser.rs:28-35 [sparql_query] *)
Definition t_sparql_query : cparser SparqlQuery :=
  t_alt [ t_map t_select_query SqSelect;
        t_map t_construct_query SqConstruct;
        t_map t_describe_query SqDescribe;
        t_map t_ask_query SqAsk ].

(** parser.rs:13-26 [sparql_query_stmt] *)
Definition t_sparql_query_stmt : cparser SparqlQueryStatement :=
  t_map (t_tuple3 (t_terminated prologue sp) t_sparql_query
         (t_opt (t_preceded sp1 (t_preceded_tag1 (s_ "values") datablock))))
    (fun '(p, (q, v)) => MkSparqlQueryStatement p q v).

(** ** MUpdate.v: requests *)

(** operations.rs:95-111 [modify_stmt] *)
Definition t_modify_stmt : cparser ModifyStatement :=
  t_map (t_tuple5 (opt (delimited (tag_no_case (s_ "where")) iri sp1))
         (terminated delete_insert sp)
         (separated_list sp using_clause)
         (sp_enc1 (tag_no_case (s_ "where")))
         t_group_graph_pattern)
    (fun '(i, (d, (u, (_, w)))) => MkModify i d u w).
(** update.rs:68-82 [update_stmt] *)
Definition t_update_stmt : cparser UpdateStatement :=
  t_alt [ t_map load_stmt UsLoad;
        t_map clear_stmt UsClear;
        t_map drop_stmt UsDrop;
        t_map create_stmt UsCreate;
        t_map copy_stmt UsCopy;
        t_map insert_data UsInsertData;
        t_map delete_data UsDeleteData;
        t_map delete_where_data UsDeleteWhere;
        t_map t_modify_stmt UsModify ].
(** update.rs:41-66 [update] *)
Definition t_update_body (u : cparser Update) : cparser Update :=
  t_map (t_pair prologue
         (t_opt (t_pair (t_preceded sp t_update_stmt) (t_opt (t_preceded (sp_enc (chr (c_ ";"))) u)))))
    (fun '(p, o) => match o with
                    | Some (s, inner) => MkUpdate p (Some s) inner
                    | None => MkUpdate p None None
                    end).
Definition t_update : cparser Update := t_fixp t_update_body.

(** ** texts that cost much *)
(** [strlen (strlen (1,1),1)] *)
Fixpoint calls_text (k : nat) : str :=
  match k with O => s_ "1" | S k => s_ "strlen (" ++ calls_text k ++ s_ ",1)" end.
(** [ASK { FILTER (strlen (strlen (1,1),1)) }] *)
Definition calls_query (k : nat) : str := s_ "ASK { FILTER (" ++ calls_text k ++ s_ ") }".
(** [(<a>|(<a>|] *)
Fixpoint open_path (k : nat) : str :=
  match k with O => [] | S k => s_ "(<a>|" ++ open_path k end.
