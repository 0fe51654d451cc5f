(** C30: triples templates keep their grouping. *)
From Verif Require Import LC2 LEx.
Open Scope list_scope.
Open Scope N_scope.

(** [W_construct_template] / [W_template]: triples separated by dots; each a subject (a variable or
    term, a collection or a blank node property list) with verbs separated by semicolons and objects
    separated by commas; any blank text.  Objects and the members of collections and property lists
    are variables and terms: others are rejected by the parsers, see C29. *)
Theorem C30_construct_template_partial : forall c t r, W_construct_template c t r -> construct_template (t ++ r) = Ok r c.
Proof. exact rd_construct_template. Qed.
Print Assumptions C30_construct_template_partial.
Theorem C30_template_partial : forall l t r, W_template l t r -> triples_template (t ++ r) = Ok r l.
Proof. exact rd_template. Qed.
Print Assumptions C30_template_partial.
(** one subject with its verbs and objects *)
Theorem C30_subject_partial : forall s t r, W_tss s t r -> triples_same_subject (t ++ r) = Ok r s.
Proof. exact rd_tss. Qed.
Print Assumptions C30_subject_partial.
(** What is returned is what is written, for every input (nested members included). *)
Theorem C30_only : forall i r l, triples_template i = Ok r l -> exists t, i = t ++ r /\ R_template l t.
Proof. exact sd_triples_template. Qed.
Print Assumptions C30_only.
Theorem C30_only_construct : forall i r c, construct_template i = Ok r c -> exists t, i = t ++ r /\ R_construct_template c t.
Proof. exact sd_construct_template. Qed.
Print Assumptions C30_only_construct.

Local Notation iv x := (GnVarOrTerm (VotVar (QMark (s_ x)))) (only parsing).
Example C30_layout :
  let t := s_ "{?s a ?o, ?p ; ?q 1 . (?x) <u> ?z; }" in let r := s_ " x" in
  let c := MkConstructTemplate
    [ TssTerm (VotVar (QMark (s_ "s"))) (MkPropertyList
        [ MkVerbList VerbA (MkObjectList [iv "o"; iv "p"]);
          MkVerbList (VerbVarOrIri (VoiVar (QMark (s_ "q")))) (MkObjectList [GnVarOrTerm (VotTerm (GtNumericLiteral (NInt 1)))]) ]);
      TssNode (TnCollection (MkCollection [iv "x"])) (Some (MkPropertyList
        [ MkVerbList (VerbVarOrIri (VoiIri (IriIri (s_ "u")))) (MkObjectList [iv "z"]) ])) ] in
  W_construct_template c t r /\ construct_template (t ++ r) = Ok r c.
Proof.
  texts. split; [|vm_compute; reflexivity].
  at_ 1%nat. at_ 0%nat. at_ 33%nat.
  - at_ 18%nat.
    { at_ 2%nat. at_ 1%nat. at_ 15%nat.
      - at_ 8%nat. { at_ 1%nat. at_ 1%nat. at_ 2%nat. at_ 2%nat. { at_ 0%nat. at_ 1%nat. leaf. } at_ 2%nat. fin. apply (nxt_at 1); [vr|vr|leaf]. }
        at_ 3%nat. { exists []. at_ 3%nat. { at_ 1%nat. at_ 1%nat. leaf. } fin. apply (nxt_at 0); [vr|vr|leaf]. }
        at_ 4%nat. { at_ 2%nat. at_ 1%nat. at_ 1%nat. fin. apply (nxt_at 1); [vr|vr|leaf]. }
        fin. left. apply (nxt_at 1); [vr|vr|leaf].
      - exists []. fin. apply (nxt_at 1); [vr|vr|leaf]. }
    at_ 3%nat. { exists []. at_ 3%nat. { at_ 1%nat. at_ 1%nat. leaf. } fin. apply (nxt_at 0); [vr|vr|leaf]. }
    at_ 12%nat.
    { at_ 4%nat. { at_ 1%nat. at_ 0%nat. at_ 2%nat; [|leaf]. split; [discriminate|]. at_ 2%nat. { at_ 2%nat. leaf. } fin. leaf. }
      at_ 1%nat. cbn [optW]. at_ 6%nat.
      - at_ 6%nat. { at_ 3%nat. at_ 1%nat. at_ 2%nat. fin. apply (nxt_at 0); [vr|vr|leaf]. }
        fin. right. exists (s_ "; "), (s_ "} x"). split; [reflexivity|]. split; [|right; right; right; leaf].
        exists []. at_ 2%nat. { at_ 0%nat. at_ 1%nat. leaf. } fin. apply (nxt_at 0); [vr|vr|leaf].
      - exists [tt]. at_ 1%nat. { at_ 0%nat. leaf. } fin. apply (nxt_at 1); [vr|vr|leaf]. }
    fin. apply (nxt_at 1); [vr|vr|leaf].
  - at_ 1%nat. leaf.
Qed.
