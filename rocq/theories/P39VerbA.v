(** C39: the verb [a]. *)
From Verif Require Import LFlags4.
Open Scope list_scope.
Open Scope N_scope.

(** The letter [a], followed by a blank and something that is not a colon, is the verb in templates
    and the primary in paths. *)
Theorem C39_verb : forall b x, blank1 b -> solid x -> not_first 58 x -> verb (97 :: b ++ x) = Ok (b ++ x) VerbA.
Proof. intros b x. apply verb_a. now left. Qed.
Print Assumptions C39_verb.
Theorem C39_path : forall b x, blank1 b -> solid x -> not_first 58 x -> path_primary (97 :: b ++ x) = Ok (b ++ x) PpA.
Proof. exact path_a. Qed.
Print Assumptions C39_path.
(** In paths only the lower case letter is this verb, as SPARQL says; *)
Theorem C39_path_only : forall i r, path_primary i = Ok r PpA -> i = 97 :: r.
Proof. exact path_a_inv. Qed.
Print Assumptions C39_path_only.
(** in templates the upper case letter is accepted as well. *)
Theorem C39_upper_case_refuted : forall b x, blank1 b -> solid x -> not_first 58 x -> verb (65 :: b ++ x) = Ok (b ++ x) VerbA.
Proof. intros b x. apply verb_a. now right. Qed.
Print Assumptions C39_upper_case_refuted.
(** Before a name with the empty prefix it is refuted: in [?s a :C] the letter and the colon are read as one
    prefixed name with the prefix [a]. *)
Theorem C39_empty_prefix_refuted : forall b x, blank b ->
  exists r n, verb (97 :: b ++ 58 :: x) = Ok r (VerbVarOrIri (VoiIri (IriPrefixedName n))) /\
    match n with PnameLN p _ => p | PnameNS p => p end = Some [97].
Proof. exact a_colon. Qed.
Print Assumptions C39_empty_prefix_refuted.

Example C39_sample :
  verb (s_ "a ex:C") = Ok (s_ " ex:C") VerbA /\ path_primary (s_ "a ex:C") = Ok (s_ " ex:C") PpA /\
  verb (s_ "A ex:C") = Ok (s_ " ex:C") VerbA /\ (exists e, path_primary (s_ "A ex:C") = Err e) /\
  verb (s_ "a :Cat") = Ok [] (VerbVarOrIri (VoiIri (IriPrefixedName (PnameLN (Some (s_ "a")) (s_ "Cat"))))) /\
  (exists e, triples_same_subject (s_ "?s a :Cat") = Err e) /\
  (exists t, triples_same_subject (s_ "?s a ex:Cat") = Ok [] t).
Proof. repeat split; try (eexists); vm_compute; reflexivity. Qed.
