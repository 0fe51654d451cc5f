(** C33: quad patterns. *)
From Verif Require Import LGen3 LEx2 LEx.
Open Scope list_scope.
Open Scope N_scope.

(** [W_quads_pattern]: braces around default-graph triples (as in C30, with an optional final dot) and
    GRAPH blocks, each with an optional dot and further default-graph triples after it.  Triples are
    those of C30 (nested collections and property lists are rejected by the parsers, C29).  Between two
    GRAPH blocks there is no blank text: the parser does not skip any there (see below). *)
Theorem C33_quads_partial : forall q t r, W_quads_pattern q t r -> quads_pattern (t ++ r) = Ok r q.
Proof. exact rd_quads_pattern. Qed.
Print Assumptions C33_quads_partial.
(** What is returned is what is written, for every input. *)
Theorem C33_only : forall i r q, quads_pattern i = Ok r q -> exists t, i = t ++ r /\ R_quads_pattern q t.
Proof. exact sd_quads_pattern. Qed.
Print Assumptions C33_only.
(** The full statement is false: after a GRAPH block and a blank nothing but the closing brace is accepted (and names
    with the empty prefix), so that two GRAPH blocks with a blank between them are always rejected.
    [W_quads_then f es q]: a brace, triples, GRAPH blocks, the last of them [q]. *)
Theorem C33_blank_between_refuted : forall f es q t b x, W_quads_then f es q t (b ++ x) -> blank1 b -> solid x -> not_first 58 x -> not_first 125 x ->
  exists p k, quads_pattern (t ++ b ++ x) = Err (Error p k).
Proof. exact nothing_after_graph. Qed.
Print Assumptions C33_blank_between_refuted.
Example C33_blank_between : let t := s_ "{GRAPH <g>{}" in let x := s_ "GRAPH <h>{}}" in
  W_quads_then None [] (MkQuadsNotTriples (VoiIri (IriIri (s_ "g"))) None) t (s_ " " ++ x) /\
  (exists r q, quads_pattern (t ++ x) = Ok r q) /\ (exists p k, quads_pattern (t ++ s_ " " ++ x) = Err (Error p k)).
Proof. cbv zeta. split; [texts; lay|]. split; do 2 eexists; vm_compute; reflexivity. Qed.

Example C33_example :
  let t := s_ "{?s a ?o.GRAPH <g>{ }graph ?h{?s ?p 1} }" in let r := s_ ";" in
  let q := MkQuads (Some [TssTerm (VotVar (QMark (s_ "s"))) (MkPropertyList
              [MkVerbList VerbA (MkObjectList [GnVarOrTerm (VotVar (QMark (s_ "o")))])])])
            [ MkQuadsEntry (MkQuadsNotTriples (VoiIri (IriIri (s_ "g"))) None) None;
              MkQuadsEntry (MkQuadsNotTriples (VoiVar (QMark (s_ "h"))) (Some [TssTerm (VotVar (QMark (s_ "s"))) (MkPropertyList
                [MkVerbList (VerbVarOrIri (VoiVar (QMark (s_ "p")))) (MkObjectList [GnVarOrTerm (VotTerm (GtNumericLiteral (NInt 1)))])])])) None ] in
  W_quads_pattern q t r /\ quads_pattern (t ++ r) = Ok r q.
Proof.
  texts. split; [|vm_compute; reflexivity].
  at_ 1%nat. at_ 0%nat. at_ 37%nat.
  - at_ 8%nat.
    + cbn [optW]. at_ 8%nat; [|leaf]. at_ 7%nat.
      * at_ 7%nat.
        { at_ 2%nat. at_ 1%nat. at_ 4%nat.
          - at_ 4%nat; [|fin; left; apply (nxt_at 0); [vr|vr|leaf]]. at_ 1%nat. at_ 1%nat. at_ 2%nat. fin. apply (nxt_at 0); [vr|vr|leaf].
          - exists []. fin. apply (nxt_at 0); [vr|vr|leaf]. }
        fin. right. eexists [46], _. split; [vm_compute; reflexivity|]. split; [|right; split].
        -- exists []. at_ 1%nat; [at_ 0%nat; at_ 1%nat; leaf|]. fin. apply (nxt_at 0); [vr|vr|leaf].
        -- apply (begins_by _ _ 5). vr.
        -- left. leaf.
      * right. at_ 0%nat. leaf.
    + at_ 12%nat.
      * at_ 12%nat; [|at_ 0%nat; [left; fin; leaf|fin; right; split; [apply (begins_by _ _ 5); vr|left; leaf]]].
        at_ 5%nat. at_ 1%nat. at_ 3%nat. at_ 0%nat. at_ 1%nat. at_ 1%nat. at_ 0%nat; [fin; leaf|]. at_ 0%nat. leaf.
      * at_ 17%nat; [|fin; apply (nxt_at 1); [vr|vr|leaf]].
        at_ 17%nat; [|at_ 0%nat; [left; fin; leaf|fin; left; apply (nxt_at 1); [vr|vr|leaf]]].
        at_ 5%nat. at_ 1%nat. at_ 2%nat. at_ 0%nat. at_ 1%nat. at_ 0%nat. at_ 7%nat; [|at_ 0%nat; leaf].
        cbn [optW]. at_ 7%nat; [|left; fin; apply (nxt_at 0); [vr|vr|leaf]].
        at_ 7%nat; [|fin; left; apply (nxt_at 0); [vr|vr|leaf]]. at_ 2%nat. at_ 1%nat. at_ 4%nat.
        -- at_ 4%nat; [|fin; left; apply (nxt_at 0); [vr|vr|leaf]]. at_ 2%nat. at_ 1%nat. at_ 1%nat. fin. apply (nxt_at 0); [vr|vr|leaf].
        -- exists []. fin. apply (nxt_at 0); [vr|vr|leaf].
  - at_ 1%nat. leaf.
Qed.
