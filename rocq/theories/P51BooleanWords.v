(** C51: the words [true] and [false] as terms. *)
From Verif Require Import LMore2.
Open Scope list_scope.
Open Scope N_scope.

(** Followed by a blank, and then not by a colon, the word is the literal, in any letter case. *)
Theorem C51_literal_partial : forall (v : bool) w b x, kw (if v then "true" else "false") w -> blank1 b -> solid x -> not_first 58 x ->
  var_or_term (w ++ b ++ x) = Ok (b ++ x) (VotTerm (GtBooleanLiteral v)).
Proof. exact bool_word. Qed.
Print Assumptions C51_literal_partial.
(** Refuted before a name with the empty prefix: the literal and the name after it are read as one
    prefixed name, whose prefix is the word. *)
Theorem C51_literal_refuted : forall k w b x, In k ["true"; "false"]%string -> kw k w -> blank b ->
  exists r n, var_or_term (w ++ b ++ 58 :: x) = Ok r (VotTerm (GtIri (IriPrefixedName n))) /\ prefix_of n = Some w.
Proof. exact bool_colon. Qed.
Print Assumptions C51_literal_refuted.

Example C51_sample :
  var_or_term (s_ "TRUE ?x") = Ok (s_ " ?x") (VotTerm (GtBooleanLiteral true)) /\
  var_or_term (s_ "false :pq 1") = Ok (s_ " 1") (VotTerm (GtIri (IriPrefixedName (PnameLN (Some (s_ "false")) (s_ "pq"))))).
Proof. split; vm_compute; reflexivity. Qed.
Example C51_hypotheses : kw "true" (s_ "TRUE") /\ blank1 (s_ " ") /\ solid (s_ "?x") /\ not_first 58 (s_ "?x").
Proof. repeat split; try discriminate; try (apply blank_space; [now left|constructor]); cbn; intuition discriminate. Qed.
