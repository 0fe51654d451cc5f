(** C54: argument and expression lists have members. *)
From Verif Require Import LMods LMore3 LEx2.
Open Scope list_scope.
Open Scope N_scope.

(** The empty lists are read. *)
Theorem C54_empty_partial : forall t r, W_nil t r -> arg_list (t ++ r) = Ok r AlNil /\ expression_list (t ++ r) = Ok r ElNil.
Proof. intros t r H. split; [now apply (rd_arg_list AlNil)|now apply (rd_expression_list ElNil)]. Qed.
Print Assumptions C54_empty_partial.

(** The full statement is false: no list with members is ever returned, ... *)
Theorem C54_members_refuted :
  (forall i r a, arg_list i = Ok r a -> a = AlNil) /\
  (forall i r a, expression_list i = Ok r a -> a = ElNil) /\
  (forall i r l, built_in_call i = Ok r (BiCoalesce l) -> l = ElNil) /\
  (forall i r l s, built_in_call i = Ok r (BiConcat l s) -> l = ElNil).
Proof. exact (conj (@arg_list_nil _ _) (conj (@expression_list_nil _ _) (conj coalesce_nil concat_members))). Qed.
Print Assumptions C54_members_refuted.
(** ... an opening parenthesis that is not closed at once ([other 41]) is a hard failure, ... *)
Theorem C54_hard_refuted : forall x, other 41 x ->
  (exists p k, arg_list (40 :: x) = Err (Failure p k)) /\ (exists p k, expression_list (40 :: x) = Err (Failure p k)).
Proof. exact args_hardly. Qed.
Print Assumptions C54_hard_refuted.
(** ... so no group with [FILTER (e IN (...))] or [FILTER (e NOT IN (...))] is read, whatever the sum [e], the members
    and the text after them, ... *)
Theorem C54_in_refuted : forall b0 w b1 b2 a t b3 i r g, blank b0 -> kw "filter" w -> blank1 b1 -> blank b2 ->
  W_additive W_expression W_ggp a t (b3 ++ i) -> solid (t ++ b3 ++ i) -> blank b3 -> in_members i \/ not_in_members i ->
  group_graph_pattern (123 :: b0 ++ w ++ b1 ++ 40 :: b2 ++ t ++ b3 ++ i) <> Ok r g.
Proof. exact group_in. Qed.
Print Assumptions C54_in_refuted.
(** ... and none with [FILTER f(...)], whatever the function and its arguments. *)
Theorem C54_call_refuted : forall b0 w b1 j t b x r g, blank b0 -> kw "filter" w -> blank1 b1 -> W_iri_expr j t (b ++ 40 :: x) ->
  solid (t ++ b ++ 40 :: x) -> not_first 58 (t ++ b ++ 40 :: x) ->
  blank b -> other 41 x -> group_graph_pattern (123 :: b0 ++ w ++ b1 ++ t ++ b ++ 40 :: x) <> Ok r g.
Proof. exact group_call. Qed.
Print Assumptions C54_call_refuted.

Example C54_sample :
  (exists e, group_graph_pattern (s_ "{ FILTER (?x IN (1, 2) ) }") = Err e) /\ (exists g, group_graph_pattern (s_ "{ FILTER (?x IN ()) }") = Ok [] g) /\
  (exists e, group_graph_pattern (s_ "{ FILTER <f>(?x) }") = Err e) /\ (exists g, group_graph_pattern (s_ "{ FILTER <f>() }") = Ok [] g) /\
  (exists p k, expression (s_ "COALESCE (?x)") = Err (Failure p k)).
Proof. repeat split; repeat eexists; vm_compute; reflexivity. Qed.
Example C54_empty : W_nil (s_ "( )") (s_ " }").
Proof. exists (s_ "("), (s_ " )"). split; [reflexivity|]. split; [reflexivity|]. exists (s_ " "), (s_ ")"). split; [reflexivity|]. split; [|reflexivity]. now apply blank_by. Qed.
Example C54_in_hypotheses : other 41 (s_ "1, 2) ) }") /\ in_members (s_ "IN (1, 2) ) }") /\ not_in_members (s_ "NOT IN (1, 2) ) }") /\
  exists a, W_additive W_expression W_ggp a (s_ "?x ") (s_ "IN (1, 2) ) }").
Proof.
  assert (O : other 41 (s_ "1, 2) ) }")) by (exists [], (s_ "1, 2) ) }"); split; [reflexivity|split; [constructor|texts; split; side]]).
  split; [exact O|]. split; [|split].
  - exists (s_ "IN"), (s_ " "), (s_ "1, 2) ) }"). split; [reflexivity|]. split; [now apply blank_by|]. split; [exact O|reflexivity].
  - exists (s_ "NOT"), (s_ " "), (s_ "IN"), (s_ " "), (s_ "1, 2) ) }"). split; [reflexivity|]. split; [now apply blank1_by|]. split; [reflexivity|].
    split; [now apply blank1_by|]. split; [exact O|reflexivity].
  - let a := eval vm_compute in (additive_expression_of expression group_graph_pattern (s_ "?x IN (1, 2) ) }")) in match a with Ok _ ?x => exists x end. texts. lay.
Qed.
Example C54_call_hypotheses : W_iri_expr (IriIri (s_ "f")) (s_ "<f>") (s_ "(?x) }").
Proof. texts. lay. Qed.
