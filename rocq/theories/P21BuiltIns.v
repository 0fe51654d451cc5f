(** C21: built-in calls. *)
From Verif Require Import LCall LEx2.
Open Scope list_scope.
Open Scope N_scope.

(** A call of each function of one or two expressions in the SPARQL table ([SpecCalls.v]) yields the
    node of that function, for the names marked [true]; see below for the others. *)
Theorem C21_unary_partial : forall k C, In (k, C, true) unary_calls -> forall e t r,
  callW k (W_expression e) t r -> built_in_call (t ++ r) = Ok r (C e).
Proof. exact unary_read. Qed.
Print Assumptions C21_unary_partial.
Theorem C21_binary_partial : forall k C, In (k, C, true) binary_calls -> forall a b t r,
  callW k (W_expression a >> commaW >> W_expression b) t r -> built_in_call (t ++ r) = Ok r (C a b).
Proof. exact binary_read. Qed.
Print Assumptions C21_binary_partial.
(** All built-in calls, including aggregates, BOUND, IF, REGEX and EXISTS, in the layouts of [W_built_in].
    Missing: the departures listed there. *)
Theorem C21_call_partial : forall b t r, W_built_in W_expression W_ggp b t r -> built_in_call (t ++ r) = Ok r b.
Proof. exact (rd_built_in W_expression W_ggp rd_expression rd_ggp). Qed.
Print Assumptions C21_call_partial.
(** What is returned is what is written, for every input. *)
Theorem C21_only : forall i r b, built_in_call i = Ok r b -> exists t, i = t ++ r /\ R_built_in R_expression R_ggp b t.
Proof. exact sd_built_in_call. Qed.
Print Assumptions C21_only.

(** The full statement is false.  ABS, CEIL, FLOOR and ROUND yield the node of URI, and their own nodes
    are never returned. *)
Theorem C21_rounding_refuted : forall k C, In (k, C, false) unary_calls -> forall e i r b,
  (callW k (W_expression e) i r -> built_in_call (i ++ r) = Ok r (BiUri e)) /\ (built_in_call i = Ok r b -> b <> C e).
Proof. exact unary_wrong. Qed.
Print Assumptions C21_rounding_refuted.
(** CONTAINS(a, b) is never read as a call ... *)
Theorem C21_contains_refuted : forall k C, In (k, C, false) (@binary_calls Expression GroupGraphPattern) -> forall a b t r,
  callW k (W_expression a >> commaW >> W_expression b) t r -> exists p e, built_in_call (t ++ r) = Err (Error p e).
Proof. exact binary_wrong. Qed.
Print Assumptions C21_contains_refuted.
(** ... nor are CONTAINS, SUBSTR and REPLACE with any arguments. *)
Theorem C21_unknown_refuted : forall k w x, In k ["contains"; "substr"; "replace"]%string -> kw k w -> starts delims x ->
  exists p e, built_in_call (w ++ x) = Err (Error p e).
Proof. exact unknown_unread. Qed.
Print Assumptions C21_unknown_refuted.
(** STRLEN(e) is never read, and STRLEN(a, b) yields the node of CONTAINS. *)
Theorem C21_strlen_refuted : forall e t r, (word "strlen" >> sym "(" >> W_expression e >> sym ")") t r ->
  exists p k, built_in_call (t ++ r) = Err (Error p k).
Proof. exact strlen_unread. Qed.
Print Assumptions C21_strlen_refuted.
(** RAND(), NOW(), UUID(), STRUUID() and BNODE() are never read (RAND(()) is). *)
Theorem C21_nullary_refuted : forall k, In k ["rand"; "now"; "uuid"; "struuid"; "bnode"]%string -> forall t r,
  (word k >> gap >> sym "(" >> sym ")") t r -> exists p e, built_in_call (t ++ r) = Err (Error p e).
Proof. exact nullary_unread. Qed.
Print Assumptions C21_nullary_refuted.
(** REGEX, COALESCE and CONCAT directly followed by a bracket are never read. *)
Theorem C21_blank_refuted : forall k, In k ["regex"; "coalesce"; "concat"]%string -> forall t r,
  (word k >> sym "(") t r -> exists p e, built_in_call (t ++ r) = Err (Error p e).
Proof. exact blank_needed. Qed.
Print Assumptions C21_blank_refuted.

Example C21_unary : callW "isiri" (W_expression (var_ "x")) (s_ "isIRI #c
 (?x )") (s_ " && ?y").
Proof. go. Qed.
Example C21_binary : callW "strstarts" (W_expression (var_ "x") >> commaW >> W_expression (prim_ (PeBuiltInCall (BiStr (var_ "y")))))
  (s_ "STRstarts(?x , str(?y))") (s_ ")").
Proof. go. Qed.
Example C21_calls :
  (let r := s_ ">1" in let b := BiAggregate (AgCount (MkCount true (CtExpr (var_ "x")))) in
   W_built_in W_expression W_ggp b (s_ "COUNT(distinct  ?x)") r /\ built_in_call (s_ "COUNT(distinct  ?x)" ++ r) = Ok r b) /\
  (let t := s_ "group_concat (?x ; SEPARATOR='-')" in let r := s_ ")" in
   let b := BiAggregate (AgGroupConcat (MkGroupConcat (MkDistinctExpression false (var_ "x")) (Some (s_ "-")))) in
   W_built_in W_expression W_ggp b t r /\ built_in_call (t ++ r) = Ok r b) /\
  (let t := s_ "IF(bound(?x), ?x, 'no')" in let r := s_ ")" in
   let b := BiIf (prim_ (PeBuiltInCall (BiBound (QMark (s_ "x"))))) (var_ "x") (prim_ (PeRdfLiteral (MkRdfLiteral (s_ "no") None))) in
   W_built_in W_expression W_ggp b t r /\ built_in_call (t ++ r) = Ok r b) /\
  (let t := s_ "NOT EXISTS { ?x ?p ?y }" in let r := s_ " }" in
   exists b, W_built_in W_expression W_ggp b t r /\ built_in_call (t ++ r) = Ok r b).
Proof.
  cbv zeta. split; [|split; [|split]].
  - split; [go|vm_compute; reflexivity].
  - split; [go|vm_compute; reflexivity].
  - split; [go|vm_compute; reflexivity].
  - eexists. split; [|vm_compute; reflexivity]. go.
Qed.
Example C21_rounding : callW "abs" (W_expression (var_ "x")) (s_ "Abs(?x)") (s_ ")").
Proof. go. Qed.
Example C21_contains : callW "contains" (W_expression (var_ "x") >> commaW >> W_expression (var_ "y")) (s_ "contains(?x,?y)") (s_ ")").
Proof. go. Qed.
Example C21_strlen : (word "strlen" >> sym "(" >> W_expression (var_ "x") >> sym ")") (s_ "strLen(?x)") (s_ ")") /\
  built_in_call (s_ "strlen(?x, ?y))") = Ok (s_ ")") (BiContains (var_ "x") (var_ "y")).
Proof. split; [go|vm_compute; reflexivity]. Qed.
Example C21_nullary : (word "rand" >> gap >> sym "(" >> sym ")") (s_ "RAND()") (s_ ")") /\ built_in_call (s_ "RAND(()))") = Ok (s_ ")") BiRand.
Proof. split; [go|vm_compute; reflexivity]. Qed.
