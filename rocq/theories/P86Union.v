(** C86: groups joined with UNION. *)
From Verif Require Import LMods LC8 LBlock4 LUnion LEx2 LEx.
Open Scope list_scope.
Open Scope N_scope.

(** Blocks joined with UNION ([chain]: a blank, the word in any case, a blank and a block, [member_ok]) are read as one pattern whose members are the trees of the blocks by themselves, in their order.
    The pattern ends in front of the first UNION whose block is not read by itself, and with the chain if all are. *)
Theorem C86_chain : forall t us x r p, block t -> Forall member_ok us -> nxt (fun x => ~ begins "union" x) x ->
  (graph_pattern_not_triples (t ++ chain us ++ x) = Ok r p <->
   exists g l u1 u2, group_graph_pattern t = Ok [] g /\ us = u1 ++ u2 /\ Forall2 member_reads u1 l /\ match u2 with [] => True | u :: _ => refused (union_block u) end /\
     r = chain u2 ++ x /\ p = GpGroupOrUnion (MkGroupOrUnion (g :: l))).
Proof. exact union_iff. Qed.
Print Assumptions C86_chain.

Example C86_read : exists g1 g2 g3, group_graph_pattern (s_ "{?s ?p 1}") = Ok [] g1 /\ group_graph_pattern (s_ "{?s ?p 2}") = Ok [] g2 /\ group_graph_pattern (s_ "{}") = Ok [] g3 /\
  graph_pattern_not_triples (s_ "{?s ?p 1} UNION {?s ?p 2} union  {} .") = Ok (s_ " .") (GpGroupOrUnion (MkGroupOrUnion [g1; g2; g3])) /\
  refused (s_ "{1 2}") /\ graph_pattern_not_triples (s_ "{?s ?p 1} UNION {1 2} union  {} .") = Ok (s_ " UNION {1 2} union  {} .") (GpGroupOrUnion (MkGroupOrUnion [g1])).
Proof. repeat eexists; vm_compute; reflexivity. Qed.
Example C86_hypotheses : let us := [Member (s_ " ") (s_ "UNION") (s_ " ") (s_ "{?s ?p 2}"); Member (s_ " ") (s_ "union") (s_ "  ") (s_ "{}")] in
  s_ "{?s ?p 1}" ++ chain us ++ s_ " ." = s_ "{?s ?p 1} UNION {?s ?p 2} union  {} ." /\ Forall member_ok us /\ block (s_ "{?s ?p 1}") /\ nxt (fun x => ~ begins "union" x) (s_ " .").
Proof.
  assert (B : forall c, block (s_ "{?s ?p " ++ [c + 48; 125]) \/ 9 < c).
  { intros c. destruct (N.le_gt_cases c 9) as [L|L]; [left|now right]. eexists. split; [reflexivity|].
    assert (NI : ~ In (c + 48) (s_ "{}""'#<\")) by (cbn; intros X; decompose [or] X; try contradiction; Lia.lia).
    repeat (apply ends_char; [first [exact NI | cbn; intros X; decompose [or] X; try discriminate; contradiction]|]). apply ends_close, ends_nil. }
  cbv zeta. split; [reflexivity|]. split; [|split].
  - constructor; [|constructor; [|constructor]]; (split; [split; [now repeat constructor|discriminate]|]; split; [reflexivity|]; split; [split; [now repeat constructor|discriminate]|]).
    + destruct (B 2) as [X|X]; [exact X|discriminate X].
    + eexists. split; [reflexivity|]. apply ends_close, ends_nil.
  - destruct (B 1) as [X|X]; [exact X|discriminate X].
  - exists (s_ " "), (s_ "."). split; [reflexivity|]. split; [now repeat constructor|]. split; [now apply char_solid|]. eapply no_begins_by; [reflexivity|vm_compute; reflexivity].
Qed.
