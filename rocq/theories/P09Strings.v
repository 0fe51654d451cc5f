(** C09: string literals. *)
From Verif Require Import LGen2.
Open Scope list_scope.

(** [body q s]: characters other than the quote [q] and the backslash, and the escapes (backslash
    and one of t b n r f, a quote of either kind, or a backslash).  A literal is accepted iff it has such a body that is not empty; the body is returned
    verbatim.  Full statement of C09: the same without [s <> []] (refuted below). *)
Theorem C09_accepted_iff_partial : forall i r s, string_literal i = Ok r s <->
  exists q, (q = 39%N \/ q = 34%N) /\ i = q :: s ++ q :: r /\ body q s /\ s <> [].
Proof. exact string_literal_iff. Qed.
Print Assumptions C09_accepted_iff_partial.

(** The empty literal is never accepted. *)
Theorem C09_empty_refuted : forall q r, q = 39%N \/ q = 34%N ->
  forall r' s, string_literal (q :: q :: r) <> Ok r' s.
Proof. exact empty_string. Qed.
Print Assumptions C09_empty_refuted.
(** A line end inside a literal, which SPARQL forbids, is always accepted. *)
Theorem C09_line_end_refuted : forall q s r, q = 39%N \/ q = 34%N -> body q s -> In 10%N s \/ In 13%N s -> string_literal (q :: s ++ q :: r) = Ok r s.
Proof. exact line_end_read. Qed.
Print Assumptions C09_line_end_refuted.
Example C09_empty : body 34 [] /\ exists p k, string_literal (s_ """"" .") = Err (Error p k).
Proof. split; [constructor|]. do 2 eexists. vm_compute. reflexivity. Qed.
Example C09_line_end : string_literal [34; 65; 10; 66; 34]%N = Ok [] [65; 10; 66]%N.
Proof. vm_compute. reflexivity. Qed.

Example C09_reads : string_literal (s_ "'a\'b""\\' .") = Ok (s_ " .") (s_ "a\'b""\\").
Proof. vm_compute. reflexivity. Qed.
Example C09_hypotheses : body 39 (s_ "a\'b""\\").
Proof.
  apply body_char; [discriminate..|]. apply body_esc; [cbn; auto 10|]. apply body_char; [discriminate..|].
  apply body_char; [discriminate..|]. apply body_esc; [cbn; auto 10|]. constructor.
Qed.
