(** C10: IRI references. *)
From Verif Require Import LGen2.
Open Scope list_scope.

(** Exactly what is accepted.  [iri_char] (Spec.v) differs from the W3C class [w3c_iri_char] in judging
    control characters by the low byte of the code point. *)
Theorem C10_accepted_iff : forall i r s, iri_ref i = Ok r s <-> i = 60%N :: s ++ 62%N :: r /\ all iri_char s.
Proof. exact iri_ref_iff. Qed.
Print Assumptions C10_accepted_iff.
(** One half of C10: only permitted characters are accepted. *)
Theorem C10_only_permitted : forall i r s, iri_ref i = Ok r s ->
  i = 60%N :: s ++ 62%N :: r /\ all w3c_iri_char s.
Proof.
  intros i r s H. apply iri_ref_iff in H. destruct H as [-> H]. split; [reflexivity|].
  revert H. apply Forall_impl. exact iri_char_w3c.
Qed.
Print Assumptions C10_only_permitted.
(** The other half, for characters whose code point has a low byte above 0x20 (all of ASCII and
    Latin-1).  Full statement: without that hypothesis (refuted below). *)
Theorem C10_permitted_accepted_partial : forall r s, all w3c_iri_char s ->
  Forall (fun c => 32 < c mod 256)%N s -> iri_ref (60%N :: s ++ 62%N :: r) = Ok r s.
Proof.
  intros r s H L. apply iri_ref_iff. split; [reflexivity|]. apply Forall_forall. intros c Hc.
  apply iri_char_latin; [eapply Forall_forall in H; eauto|eapply Forall_forall in L; eauto].
Qed.
Print Assumptions C10_permitted_accepted_partial.
(** An IRI with any other character is always rejected, though permitted. *)
Theorem C10_refuted : forall s c r, all w3c_iri_char s -> In c s -> (c mod 256 <= 32)%N -> forall r' s', iri_ref (60%N :: s ++ 62%N :: r) <> Ok r' s'.
Proof. exact permitted_rejected. Qed.
Print Assumptions C10_refuted.
(** CYRILLIC CAPITAL LETTER ER (U+0420) is such a character. *)
Example C10_cyrillic : all w3c_iri_char (s_ "http://" ++ [0x420%N]) /\ forall r' s', iri_ref (60%N :: (s_ "http://" ++ [0x420%N]) ++ [62%N]) <> Ok r' s'.
Proof. split; [repeat constructor|]. intros r' s'. vm_compute. discriminate. Qed.

Example C10_reads : iri_ref (s_ "<http://a/b#c%20>.") = Ok (s_ ".") (s_ "http://a/b#c%20").
Proof. vm_compute. reflexivity. Qed.
Example C10_hypotheses : all w3c_iri_char (s_ "http://a/b#c%20") /\
  Forall (fun c => 32 < c mod 256)%N (s_ "http://a/b#c%20").
Proof. split; repeat constructor. Qed.
