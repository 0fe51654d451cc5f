(** C84: brackets may be added around an expression. *)
From Verif Require Import LMods LC8 LBrackets LEx2 LEx.
Open Scope list_scope.
Open Scope N_scope.

(** An expression read up to a closing bracket is read in any number of further brackets, with any blanks after the opening ones
    ([opening], [closed_by]), before a comma or a bracket; the tree has a bracketed operand for each of them and the same expression inside ([in_brackets]). *)
Theorem C84_nested : forall bs t c r e, c = 44 \/ c = 41 -> Forall blank bs -> solid (t ++ closed_by bs ++ c :: r) ->
  expression (t ++ closed_by bs ++ c :: r) = Ok (closed_by bs ++ c :: r) e ->
  expression (opening bs ++ t ++ closed_by bs ++ c :: r) = Ok (c :: r) (in_brackets (List.length bs) e).
Proof. exact brackets_read. Qed.
Print Assumptions C84_nested.
(** So FILTER takes an expression in any number of brackets, whatever follows. *)
Theorem C84_filter : forall bs w b0 b t r e, kw "filter" w -> blank1 b0 -> blank b -> Forall blank bs -> solid (t ++ closed_by bs ++ 41 :: r) ->
  expression (t ++ closed_by bs ++ 41 :: r) = Ok (closed_by bs ++ 41 :: r) e ->
  graph_pattern_not_triples (w ++ b0 ++ 40 :: b ++ opening bs ++ t ++ closed_by bs ++ 41 :: r) = Ok r (GpFilter (CoBracketted (in_brackets (List.length bs) e))).
Proof. exact filter_brackets. Qed.
Print Assumptions C84_filter.
(** The other way round: an expression that starts with a bracket has, inside it, an expression that is read by itself up to the closing bracket,
    and the tree starts with just that operand. *)
Theorem C84_inside : forall b i r e, blank b -> solid i -> expression (40 :: b ++ i) = Ok r e ->
  exists b' k e0 ms os o rs cs, blank b' /\ expression i = Ok (b' ++ 41 :: k) e0 /\
    e = MkExpression (MkConditionalAnd (MkRelational (MkAdditive (MkMultiplicative (UnDefault (PeBracketted e0)) ms) os) o :: rs) :: cs).
Proof. exact bracket_less. Qed.
Print Assumptions C84_inside.

Example C84_read : exists e, expression (s_ "?a = 1)), ?b") = Ok (s_ ")), ?b") e /\ expression (s_ "( (?a = 1)), ?b") = Ok (s_ ", ?b") (in_brackets 2 e) /\ in_brackets 2 e <> e /\
  graph_pattern_not_triples (s_ "FILTER ( ((?a = 1))) ?b") = Ok (s_ " ?b") (GpFilter (CoBracketted (in_brackets 2 e))).
Proof. eexists. split; [vm_compute; reflexivity|]. split; [vm_compute; reflexivity|]. split; [intros H; discriminate H|vm_compute; reflexivity]. Qed.
Example C84_hypotheses : let bs := [s_ " "; []] in Forall blank bs /\ opening bs = s_ "( (" /\ closed_by bs = s_ "))" /\ solid (s_ "?a = 1" ++ closed_by bs ++ s_ ", ?b").
Proof. cbv zeta. split; [constructor; [now repeat constructor|constructor; [constructor|constructor]]|]. split; [reflexivity|]. split; [reflexivity|now apply char_solid]. Qed.
Example C84_inside_used : exists e, expression (s_ "( ?a = 1 ) = ?b , 2") = Ok (s_ ", 2") e /\ blank (s_ " ") /\ solid (s_ "?a = 1 ) = ?b , 2").
Proof. eexists. split; [vm_compute; reflexivity|]. split; [now repeat constructor|now apply char_solid]. Qed.
