(** C22: operators. *)
From Verif Require Import LCall LGen4 LEx2 LEx.
Open Scope list_scope.
Open Scope N_scope.

(** [W_expression]: an expression is a list of conjunctions joined by [||], a conjunction a list of
    comparisons joined by [&&], a comparison an additive expression with an optional operator and a second
    one, and so on down to primary expressions (variables, literals, IRIs, calls, bracketed expressions of
    any depth); the text is read as the tree in which every operator written is the operator of its node.
    Missing from the full statement: blanks are required after factors and terms, and a term without a
    factor is not read (below); IN lists are empty; the sign of a number is an operator. *)
Theorem C22_expression_partial : forall e t r, W_expression e t r -> expression (t ++ r) = Ok r e.
Proof. exact rd_expression. Qed.
Print Assumptions C22_expression_partial.
(** What is returned is what is written, for every input. *)
Theorem C22_only : forall i r e, expression i = Ok r e -> exists t, i = t ++ r /\ R_expression e t.
Proof. exact sd_expression. Qed.
Print Assumptions C22_only.
(** The full statement is false: in whatever is returned, every operand of [+] and [-] after the first is
    itself a product, so the tree of [a + b] is never returned ... *)
Theorem C22_sum_refuted : forall i r m l a, additive_expression i = Ok r (MkAdditive m l) -> In a l -> factors a <> [].
Proof. exact terms_factors. Qed.
Print Assumptions C22_sum_refuted.
(** ... and a product or a sum is only read where a blank follows. *)
Theorem C22_blank_refuted : forall i r,
  (forall u l, multiplicative_expression i = Ok r (MkMultiplicative u l) -> l <> [] -> ~ solid r) /\
  (forall m l, additive_expression i = Ok r (MkAdditive m l) -> l <> [] -> ~ solid r).
Proof. intros i r. split; [exact (factors_blank i r)|exact (operators_blank i r)]. Qed.
Print Assumptions C22_blank_refuted.
(** A query with a product directly before the closing bracket is not read. *)
Theorem C22_query_refuted : forall t b0 w b1 b2 u tu b m tm y r q, W_ask_open t (123 :: b0 ++ w ++ b1 ++ 40 :: b2 ++ tu ++ b ++ tm ++ y) ->
  blank b0 -> kw "filter" w -> blank1 b1 -> blank b2 -> W_unary W_expression W_ggp u tu (b ++ tm ++ y) -> solid (tu ++ b ++ tm ++ y) -> blank b ->
  W_mult W_expression W_ggp m tm y -> solid (tm ++ y) -> solid y ->
  sparql_query_stmt (t ++ 123 :: b0 ++ w ++ b1 ++ 40 :: b2 ++ tu ++ b ++ tm ++ y) <> Ok r q.
Proof. exact ask_product. Qed.
Print Assumptions C22_query_refuted.

(** numbers next to each other are taken for a sum *)
Example C22_juxtaposed : exists e, expression (s_ "1 2*3 )") = Ok (s_ " )") e /\
  e = MkExpression [MkConditionalAnd [MkRelational (MkAdditive (MkMultiplicative (UnDefault (PeNumericLiteral (NInt 1))) [])
    [AddNumeric (NInt 2) [MuMult (UnDefault (PeNumericLiteral (NInt 3)))]]) None]].
Proof. eexists. split; vm_compute; reflexivity. Qed.
Example C22_query : (exists q, sparql_query_stmt (s_ "ASK {FILTER (?a*?b ) }") = Ok [] q) /\
  (exists p k, sparql_query_stmt (s_ "ASK {FILTER (?a*?b) }") = Err (Error p k)) /\
  W_ask_open (s_ "ASK ") (s_ "{FILTER (?a*?b) }") /\ W_unary W_expression W_ggp (un_ "a") (s_ "?a") (s_ "*?b) }") /\
  W_mult W_expression W_ggp (MuMult (un_ "b")) (s_ "*?b") (s_ ") }").
Proof.
  split; [eexists; vm_compute; reflexivity|]. split; [do 2 eexists; vm_compute; reflexivity|]. split; [exists (MkPrologue []); texts; lay|].
  unfold un_. split; texts; lay.
Qed.
Example C22_precedence :
  let t := s_ "?a<=?b && !?c || ?d *?e + ?f /-?g  != ?h" in let r := s_ ")" in
  let e := MkExpression
    [ MkConditionalAnd [ MkRelational (add1_ (un_ "a")) (Some (OpLE (add1_ (un_ "b"))));
                         MkRelational (add1_ (UnNot (PeVar (QMark (s_ "c"))))) None ];
      MkConditionalAnd [ MkRelational (MkAdditive (MkMultiplicative (un_ "d") [MuMult (un_ "e")])
                                         [AddAdd (MkMultiplicative (un_ "f") [MuDiv (UnSub (PeVar (QMark (s_ "g"))))])])
                           (Some (OpNE (add1_ (un_ "h")))) ] ] in
  W_expression e t r /\ expression (t ++ r) = Ok r e.
Proof. unfold add1_, un_. texts. split; [lay|vm_compute; reflexivity]. Qed.
Example C22_brackets :
  let t := s_ "(?a||?b)&& ( ?c > 1 )" in let r := s_ ")" in
  exists x y, let e := MkExpression [MkConditionalAnd [MkRelational (add1_ (UnDefault (PeBracketted x))) None;
                                                       MkRelational (add1_ (UnDefault (PeBracketted y))) None]] in
  W_expression e t r /\ expression (t ++ r) = Ok r e.
Proof. unfold add1_. do 2 eexists. cbv zeta. split; [|vm_compute; reflexivity]. texts. lay. Qed.
Example C22_terms : exists m l, additive_expression (s_ "?a + ?b*?c )") = Ok (s_ " )") (MkAdditive m l) /\ l <> [].
Proof. do 2 eexists. split; [vm_compute; reflexivity|discriminate]. Qed.
