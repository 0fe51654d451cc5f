(** C46: graph names that start like a keyword. *)
From Verif Require Import LFlags4 LEx2.
Open Scope list_scope.

(** Names that do not start with the word [default] are read as names. *)
Theorem C46_name_partial : forall i t r, W_iri i t r -> ~ begins "default" (t ++ r) -> no_word1 "graph" (t ++ r) ->
  graph_or_default (t ++ r) = Ok r (GodGraph i).
Proof. exact graph_iri. Qed.
Print Assumptions C46_name_partial.
(** Refuted for the others: whatever follows the seven letters, [default:g] and [defaults:g] as well, DEFAULT is
    returned and the rest of the name is left over. *)
Theorem C46_name_refuted : forall d x, kw "default" d ->
  graph_or_default (d ++ x) = Ok x GodDefault /\ graph_ref_all (d ++ x) = Ok x GraDefault.
Proof. exact default_only. Qed.
Print Assumptions C46_name_refuted.

Example C46_sample :
  graph_or_default (s_ "defaults:gg") = Ok (s_ "s:gg") GodDefault /\
  graph_or_default (s_ "graphs:gg") = Ok [] (GodGraph (IriPrefixedName (PnameLN (Some (s_ "graphs")) (s_ "gg")))) /\
  update_stmt (s_ "CLEAR defaults:gg") = Ok (s_ "s:gg") (UsClear (MkClear false GraDefault)).
Proof. repeat split; vm_compute; reflexivity. Qed.
Example C46_hypotheses : W_iri (IriPrefixedName (PnameLN (Some (s_ "graphs")) (s_ "gg"))) (s_ "graphs:gg") [] /\
  ~ begins "default" (s_ "graphs:gg") /\ no_word1 "graph" (s_ "graphs:gg").
Proof.
  split; [texts; lay|]. split; [eapply no_begins_by; vm_compute; reflexivity|].
  intros w b v E W B. destruct w as [|c1 [|c2 [|c3 [|c4 [|c5 [|c6 w]]]]]]; try discriminate W. injection E as <- <- <- <- <- E.
  destruct B as [B N]. inversion B as [|c t I B' Eb|? ? ? ? ? ? Eb]; subst; [contradiction|cbn [app] in E; injection E as <- _; cbn in I; intuition discriminate|discriminate E].
Qed.
