(** C72: templates in CONSTRUCT and in the other places, and the dot that ends them. *)
From Verif Require Import LMods LC8 LTmpl LEx2 LEx.
Open Scope list_scope.
Open Scope N_scope.

(** [construct_template] reads the braces after CONSTRUCT, [braced_template] those after CONSTRUCT WHERE and GRAPH. What the
    first reads the second reads too, up to the same place and with the same triples. *)
Theorem C72_construct_elsewhere : forall i r l, construct_template i = Ok r (MkConstructTemplate l) ->
  exists o, braced_template i = Ok r o /\ match o with Some l' => l' | None => [] end = l.
Proof. exact construct_as_braced. Qed.
Print Assumptions C72_construct_elsewhere.
(** What the second reads the first reads too, unless the last triple is followed by a dot. *)
Theorem C72_elsewhere_construct : forall i r o, braced_template i = Ok r o ->
  construct_template i = Ok r (MkConstructTemplate match o with Some l' => l' | None => [] end) \/
  (exists u b, i = u ++ 46 :: b ++ 125 :: r /\ blank b) /\ o <> None /\ forall r' c, construct_template i <> Ok r' c.
Proof. exact braced_as_construct. Qed.
Print Assumptions C72_elsewhere_construct.
(** The dot at the end is read after CONSTRUCT WHERE and GRAPH. *)
Theorem C72_dot : forall b0 l t b b' x, blank b0 ->
  sep1W W_tss dotsW (fun r => r = b ++ 46 :: b' ++ 125 :: x) l t (b ++ 46 :: b' ++ 125 :: x) ->
  solid (t ++ b ++ 46 :: b' ++ 125 :: x) -> blank b -> blank b' ->
  braced_template (123 :: b0 ++ t ++ b ++ 46 :: b' ++ 125 :: x) = Ok x (Some l).
Proof. exact dotted_braced. Qed.
Print Assumptions C72_dot.
(** Refuted for CONSTRUCT: no query is read whose template ends with a dot, whatever the triples and whatever follows. *)
Theorem C72_construct_dot_refuted : forall b0 l t b b' x, blank b0 ->
  sep1W W_tss dotsW (fun r => r = b ++ 46 :: b' ++ 125 :: x) l t (b ++ 46 :: b' ++ 125 :: x) ->
  solid (t ++ b ++ 46 :: b' ++ 125 :: x) -> blank b -> blank b' -> forall w b1 r q, kw "construct" w -> blank1 b1 ->
  sparql_query_stmt (w ++ b1 ++ 123 :: b0 ++ t ++ b ++ 46 :: b' ++ 125 :: x) <> Ok r q.
Proof. exact dotted_query. Qed.
Print Assumptions C72_construct_dot_refuted.

Example C72_sample :
  (exists q, sparql_query_stmt (s_ "CONSTRUCT { ?s ?p ?o } WHERE {}") = Ok [] q) /\ (exists e, sparql_query_stmt (s_ "CONSTRUCT { ?s ?p ?o . } WHERE {}") = Err e) /\
  (exists q, sparql_query_stmt (s_ "CONSTRUCT WHERE { ?s ?p ?o . }") = Ok [] q) /\ (exists q, sparql_query_stmt (s_ "CONSTRUCT WHERE { ?s ?p ?o }") = Ok [] q).
Proof. repeat split; eexists; vm_compute; reflexivity. Qed.
Example C72_hypotheses : exists l, sep1W W_tss dotsW (fun r => r = s_ " " ++ 46 :: s_ " " ++ 125 :: s_ " WHERE {}") l (s_ "?s ?p ?o") (s_ " . } WHERE {}") /\
  solid (s_ "?s ?p ?o . } WHERE {}").
Proof.
  exists [TssTerm (VotVar (QMark (s_ "s"))) (MkPropertyList [MkVerbList (VerbVarOrIri (VoiVar (QMark (s_ "p")))) (MkObjectList [GnVarOrTerm (VotVar (QMark (s_ "o")))])])].
  split; [|now apply char_solid]. exists (s_ "?s ?p ?o"), []. split; [reflexivity|]. split; [texts; lay|]. split; reflexivity.
Qed.
Example C72_agree : exists l, construct_template (s_ "{ ?s ?p ?o } WHERE {}") = Ok (s_ " WHERE {}") (MkConstructTemplate l) /\
  braced_template (s_ "{ ?s ?p ?o } WHERE {}") = Ok (s_ " WHERE {}") (Some l).
Proof. eexists. split; vm_compute; reflexivity. Qed.
