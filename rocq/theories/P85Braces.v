(** C85: braces may be added around a group. *)
From Verif Require Import LMods LC8 LBlock4 LBraces LEx2 LEx.
Open Scope list_scope.
Open Scope N_scope.

(** A block ([block], SpecBlock.v) in any number of further braces ([braced]: a blank has to stand before the closing ones, see C56) is accepted exactly if the block is;
    all of the text is taken, and the tree has a group of one group for each pair and the tree of the block inside ([in_braces]). *)
Theorem C85_nested : forall bs t x r g, block t -> Forall (fun p => blank (fst p) /\ blank1 (snd p)) bs ->
  (group_graph_pattern (braced bs t ++ x) = Ok r g <-> r = x /\ exists g0, group_graph_pattern t = Ok [] g0 /\ g = in_braces (List.length bs) g0).
Proof. exact braces_iff. Qed.
Print Assumptions C85_nested.

Example C85_read : exists g, group_graph_pattern (s_ "{?s ?p 1}") = Ok [] g /\ group_graph_pattern (s_ "{ {{?s ?p 1} } } .") = Ok (s_ " .") (in_braces 2 g) /\
  braced [(s_ " ", s_ " "); ([], s_ " ")] (s_ "{?s ?p 1}") = s_ "{ {{?s ?p 1} } }" /\
  (exists e, group_graph_pattern (s_ "{?s ?p 1 2}") = Err e) /\ (exists e, group_graph_pattern (s_ "{ {?s ?p 1 2} }") = Err e).
Proof. eexists. repeat split; repeat eexists; vm_compute; reflexivity. Qed.
Example C85_hypotheses : block (s_ "{?s ?p 1}") /\ Forall (fun p => blank (fst p) /\ blank1 (snd p)) [(s_ " ", s_ " "); ([], s_ " ")].
Proof.
  split.
  - eexists. split; [reflexivity|]. repeat (apply ends_char; [cbn; intros X; decompose [or] X; try discriminate; contradiction|]). apply ends_close, ends_nil.
  - assert (B : blank (s_ " ")) by now repeat constructor. repeat constructor; cbn; auto; discriminate.
Qed.
