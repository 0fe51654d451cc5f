(** C88: a group of groups is read group by group. *)
From Verif Require Import LMods LC8 LBlock4 LUnion LItems LEx2 LEx.
Open Scope list_scope.
Open Scope N_scope.

(** A group made of blocks, each of them plain, the first of a chain joined with UNION, or behind OPTIONAL, MINUS, GRAPH, SERVICE, FILTER EXISTS or FILTER NOT EXISTS ([item_ok], with a blank after it, see C56), is accepted exactly if every block, those of the chains included, is accepted by itself,
    whatever follows.  The tree has one pattern for each of them ([item_reads]), in their order, and no triples. *)
Theorem C88_group : forall b0 l x r G, blank b0 -> Forall item_ok l ->
  (group_graph_pattern (123 :: b0 ++ items_text l ++ 125 :: x) = Ok r G <->
   r = x /\ exists ps, Forall2 item_reads l ps /\ G = GgpSub (MkGroupGraphPatternSub None ps)).
Proof. exact items_iff. Qed.
Print Assumptions C88_group.

Example C88_read : exists g1 g2, group_graph_pattern (s_ "{?s ?p 1}") = Ok [] g1 /\ group_graph_pattern (s_ "{}") = Ok [] g2 /\
  group_graph_pattern (s_ "{ {?s ?p 1} OPTIONAL {} minus {?s ?p 1}  Graph ?g {} } .") = Ok (s_ " .") (GgpSub (MkGroupGraphPatternSub None
    [MkGraphPatternAndTriples (GpGroupOrUnion (MkGroupOrUnion [g1])) None; MkGraphPatternAndTriples (GpOptional g2) None; MkGraphPatternAndTriples (GpMinus g1) None;
     MkGraphPatternAndTriples (GpGraph (MkGraphGraphPattern (VoiVar (QMark (s_ "g"))) g2)) None])) /\
  (exists e, group_graph_pattern (s_ "{1 2}") = Err e) /\ (exists e, group_graph_pattern (s_ "{ {?s ?p 1} OPTIONAL {1 2} minus {?s ?p 1}  } .") = Err e).
Proof. repeat eexists; vm_compute; reflexivity. Qed.
Example C88_hypotheses : let l := [Item (Plain []) (s_ "{?s ?p 1}") (s_ " "); Item (Optional (s_ "OPTIONAL") (s_ " ")) (s_ "{}") (s_ " "); Item (Minus (s_ "minus") (s_ " ")) (s_ "{?s ?p 1}") (s_ "  ");
    Item (Graph (s_ "Graph") (s_ " ") (VoiVar (QMark (s_ "g"))) (s_ "?g") (s_ " ")) (s_ "{}") (s_ " ")] in
  123 :: s_ " " ++ items_text l ++ 125 :: s_ " ." = s_ "{ {?s ?p 1} OPTIONAL {} minus {?s ?p 1}  Graph ?g {} } ." /\ Forall item_ok l.
Proof.
  assert (B : block (s_ "{?s ?p 1}")).
  { eexists. split; [reflexivity|]. repeat (apply ends_char; [cbn; intros X; decompose [or] X; try discriminate; contradiction|]). apply ends_close, ends_nil. }
  assert (B' : block (s_ "{}")) by (eexists; split; [reflexivity|]; apply ends_close, ends_nil).
  assert (S : blank1 (s_ " ")) by (split; [now repeat constructor|discriminate]).
  assert (V : W_var_or_iri (VoiVar (QMark (s_ "g"))) (s_ "?g") (s_ " {")) by (texts; lay). destruct V as [V _].
  cbv zeta. split; [reflexivity|]. constructor; [|constructor; [|constructor; [|constructor; [|constructor]]]]; (split; [cbn [item_intro]; try first [exact (Forall_nil _) | split; [reflexivity|exact S]]|split; [assumption|]]); try first [exact S | split; [now repeat constructor|discriminate]].
  split; [reflexivity|]. split; [exact S|]. split; [apply S|]. intros y. split; [now apply char_solid|]. split; [discriminate|]. split; [exact V|reflexivity].
Qed.
Example C88_service : intro_ok (Service (s_ "SERVICE") (s_ " ") true (s_ "Silent ") (VoiVar (QMark (s_ "g"))) (s_ "?g") (s_ " ")).
Proof.
  assert (S : blank1 (s_ " ")) by (split; [now repeat constructor|discriminate]).
  assert (V : W_var_or_iri (VoiVar (QMark (s_ "g"))) (s_ "?g") (s_ " {")) by (texts; lay). destruct V as [V _].
  split; [reflexivity|]. split; [exact S|]. split; [apply S|]. intros y. split; [now apply char_solid|]. split; [discriminate|]. split; [|split; [exact V|reflexivity]].
  exists (s_ "Silent"), (s_ " "). split; [reflexivity|]. split; [reflexivity|]. split; [exact S|now apply char_solid].
Qed.
Example C88_filter : exists g, group_graph_pattern (s_ "{?s ?p 1}") = Ok [] g /\
  group_graph_pattern (s_ "{FILTER EXISTS {?s ?p 1} filter not  exists {?s ?p 1} }") = Ok [] (GgpSub (MkGroupGraphPatternSub None
    [MkGraphPatternAndTriples (GpFilter (CoBuiltInCall (BiExistsFunc g))) None; MkGraphPatternAndTriples (GpFilter (CoBuiltInCall (BiNotExistsFunc g))) None])) /\
  intro_ok (FilterExists (s_ "FILTER") (s_ " ") (s_ "EXISTS") (s_ " ")) /\ intro_ok (FilterNotExists (s_ "filter") (s_ " ") (s_ "not") (s_ "  ") (s_ "exists") (s_ " ")).
Proof.
  eexists. split; [vm_compute; reflexivity|]. split; [vm_compute; reflexivity|].
  assert (S : blank1 (s_ " ")) by (split; [now repeat constructor|discriminate]). assert (S2 : blank1 (s_ "  ")) by (split; [now repeat constructor|discriminate]).
  split; [split; [reflexivity|]; split; [exact S|]; split; [reflexivity|exact S]|].
  split; [reflexivity|]. split; [exact S|]. split; [reflexivity|]. split; [exact S2|]. split; [reflexivity|exact S].
Qed.
Example C88_union : exists g1 g2, group_graph_pattern (s_ "{?s ?p 1}") = Ok [] g1 /\ group_graph_pattern (s_ "{}") = Ok [] g2 /\
  group_graph_pattern (s_ "{{} {?s ?p 1} UNION {} MINUS {} }") = Ok [] (GgpSub (MkGroupGraphPatternSub None
    [MkGraphPatternAndTriples (GpGroupOrUnion (MkGroupOrUnion [g2])) None; MkGraphPatternAndTriples (GpGroupOrUnion (MkGroupOrUnion [g1; g2])) None; MkGraphPatternAndTriples (GpMinus g2) None])) /\
  intro_ok (Plain [Member (s_ " ") (s_ "UNION") (s_ " ") (s_ "{}")]) /\
  (exists e, group_graph_pattern (s_ "{1 2}") = Err e) /\ (exists e, group_graph_pattern (s_ "{{} {?s ?p 1} UNION {1 2} MINUS {} }") = Err e).
Proof.
  do 2 eexists. split; [vm_compute; reflexivity|]. split; [vm_compute; reflexivity|]. split; [vm_compute; reflexivity|].
  assert (S : blank1 (s_ " ")) by (split; [now repeat constructor|discriminate]).
  split; [|split; eexists; vm_compute; reflexivity]. constructor; [|constructor]. split; [exact S|]. split; [reflexivity|]. split; [exact S|]. eexists. split; [reflexivity|]. apply ends_close, ends_nil.
Qed.
