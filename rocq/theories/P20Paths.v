(** C20: property paths. *)
From Verif Require Import LGen4 LEx2 LEx.
Open Scope list_scope.
Open Scope N_scope.

(** [W_path]: elements (IRIs, a, negated sets, bracketed paths of any depth, each with an optional
    modifier and inverse) joined by [|] with any blank text; brackets are kept as written.
    Missing from the full statement: the elements joined by [|] come back as one sequence instead of
    as alternatives, and [/] is not read (see below). *)
Theorem C20_path_partial : forall p t r, W_path p t r -> path_alternative (t ++ r) = Ok r p.
Proof. exact rd_path. Qed.
Print Assumptions C20_path_partial.
(** What is returned is what is written, for every input. *)
Theorem C20_only : forall i r p, path_alternative i = Ok r p -> exists t, i = t ++ r /\ R_path p t.
Proof. exact sd_path_alternative. Qed.
Print Assumptions C20_only.
(** The full statement is false: no text at all is read as two or more alternatives, ... *)
Theorem C20_alternatives_refuted : forall i r p, path_alternative i = Ok r p ->
  exists l, p = MkPathAlternative [MkPathSequence l].
Proof. exact path_one. Qed.
Print Assumptions C20_alternatives_refuted.
(** ... and a slash after an element ends the path, whatever comes after it. *)
Theorem C20_slash_refuted : forall e t r, W_elt_or_inverse W_path e t (47 :: r) ->
  path_alternative (t ++ 47 :: r) = Ok (47 :: r) (MkPathAlternative [MkPathSequence [e]]).
Proof. exact slash_unread. Qed.
Print Assumptions C20_slash_refuted.
(** A query with such a path is not read. *)
Theorem C20_query_refuted : forall t b v tv b1 e te x r q, W_ask_open t (123 :: b ++ tv ++ b1 ++ te ++ 47 :: x) -> blank b ->
  W_var v tv (b1 ++ te ++ 47 :: x) -> blank1 b1 -> solid (te ++ 47 :: x) -> W_elt_or_inverse W_path e te (47 :: x) ->
  sparql_query_stmt (t ++ 123 :: b ++ tv ++ b1 ++ te ++ 47 :: x) <> Ok r q.
Proof. exact ask_slash. Qed.
Print Assumptions C20_query_refuted.

Example C20_query : (exists q, sparql_query_stmt (s_ "ASK {?s <a>|<b> 1}") = Ok [] q) /\
  (exists p k, sparql_query_stmt (s_ "ASK {?s <a>/<b> 1}") = Err (Error p k)) /\
  W_ask_open (s_ "ASK ") (s_ "{?s <a>/<b> 1}") /\ W_elt_or_inverse W_path (PeiPathElt (MkPathElt (PpIri (IriIri (s_ "a"))) None)) (s_ "<a>") (s_ "/<b> 1}").
Proof.
  split; [eexists; vm_compute; reflexivity|]. split; [do 2 eexists; vm_compute; reflexivity|]. split; [exists (MkPrologue []); texts; lay|texts; lay].
Qed.
Example C20_layout :
  let t := s_ "^<p> | (!( a|^<q>) * |a)" in let r := s_ " 1" in
  let p := MkPathAlternative [MkPathSequence
    [ PeiInverse (MkPathElt (PpIri (IriIri (s_ "p"))) None);
      PeiPathElt (MkPathElt (PpPath (MkPathAlternative [MkPathSequence
        [ PeiPathElt (MkPathElt (PpNegated (MkPathNegatedPropertySet
            [MkPathOneInPropertySet (IocIriOrA IoaA); MkPathOneInPropertySet (IocCaret (IoaIri (IriIri (s_ "q"))))]))
            (Some PmAsterisk));
          PeiPathElt (MkPathElt PpA None) ]])) None) ]] in
  W_path p t r /\ path_alternative (t ++ r) = Ok r p.
Proof.
  texts. split; [|vm_compute; reflexivity].
  apply (W_path_intro W_path); [auto|]. cbn [path_layout sep1W tailW W_elt_or_inverse W_elt W_path_primary optW].
  at_ 4%nat. { at_ 1%nat. at_ 3%nat. fin. right. apply (nxt1_at 1); [vr|vr|]. do 2 eexists. split; [reflexivity|]. split; [vr|]. cbn; intuition discriminate. }
  at_ 3%nat. { at_ 1%nat. at_ 1%nat. leaf. }
  at_ 17%nat; [|fin; apply (nxt_at 1); [vr|vr|leaf]].
  at_ 17%nat; [|fin; right; apply (nxt1_at 1); [vr|vr|]; do 2 eexists; split; [reflexivity|]; split; [vr|]; cbn; intuition discriminate].
  at_ 1%nat. at_ 15%nat; [|leaf].
  apply (W_path_intro W_path); [auto|]. cbn [path_layout sep1W tailW W_elt_or_inverse W_elt W_path_primary optW].
  at_ 12%nat.
  { at_ 10%nat; [|at_ 1%nat; vr]. at_ 1%nat. at_ 1%nat. at_ 1%nat. at_ 6%nat; [|at_ 0%nat; leaf].
    cbn [sep1W tailW W_iri_or_a_or_caret W_iri_or_a]. at_ 1%nat. at_ 1%nat; [at_ 0%nat; at_ 1%nat; leaf|].
    at_ 4%nat; [at_ 1%nat; leaf|]. fin. apply (nxt_at 0); [vr|vr|leaf]. }
  at_ 2%nat. { at_ 1%nat. at_ 1%nat. leaf. }
  at_ 1%nat. { at_ 1%nat; [split; [vr|leaf]|]. fin. left. leaf. }
  fin. apply (nxt_at 0); [vr|vr|leaf].
Qed.
Example C20_slash : W_elt_or_inverse W_path (PeiPathElt (MkPathElt (PpIri (IriIri (s_ "p"))) None)) (s_ "<p>") (s_ "/<q>").
Proof. texts. cbn [W_elt_or_inverse W_elt W_path_primary optW]. at_ 3%nat. fin. left. leaf. Qed.
