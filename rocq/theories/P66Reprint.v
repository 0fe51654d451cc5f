(** C66: what is returned can be written out and read again. *)
From Verif Require Import LMods LPrintEx LPrintEx2 SpecDepth LTame3 LTameEx LEx2 LEx.
Open Scope list_scope.
Open Scope N_scope.

(** Whatever text [i] a query statement was read from, writing it out ([print], Print.v) and reading the result
    gives the same statement, and at most a blank is left; [openings i]: how many opening brackets and braces are in the text.
    [docile q] (SpecTame.v) excludes the trees [print] does not write; it says nothing about the spelling
    of names, the size of numbers and which lists are empty.  Missing from the full statement: those trees, which are
    the ones with prefixed names without a local part, a last argument that ends in an IN list, a name with an empty prefix right after HAVING or
    right after the FROM of DESCRIBE, U+212A in expressions, and collections and property lists that are subjects without properties. *)
Theorem C66_query_partial : forall i r q w x n, sparql_query_stmt i = Ok r q -> docile q -> casing w -> blank1 x -> (2 * openings i + 2 <= n)%nat ->
  exists b, blank b /\ sparql_query_stmt (print w x n q) = Ok b q.
Proof. intros i r q w x n H D Hw Hx L. exact (print_read w Hw (MkBlanks x Hx) n q (returned_printable_at n i r q H D L)). Qed.
Print Assumptions C66_query_partial.
Theorem C66_update_partial : forall i r u, update i = Ok r u -> docile_update u ->
  exists n, forall w x, casing w -> blank1 x -> exists b, blank b /\ update (print_update w x n u) = Ok b u.
Proof. intros i r u H D. destruct (te_update i r u H D) as [n K]. exists n. intros w x Hw Hx. exact (print_update_read w Hw (MkBlanks x Hx) n u K). Qed.
Print Assumptions C66_update_partial.
(** Two texts are read as the same query if and only if they are written out alike. *)
Theorem C66_same_partial : forall n i r q i' r' q' w x, sparql_query_stmt i = Ok r q -> sparql_query_stmt i' = Ok r' q' -> docile q -> docile q' ->
  casing w -> blank1 x -> (2 * openings i + 2 <= n)%nat -> (2 * openings i' + 2 <= n)%nat -> (print w x n q = print w x n q' <-> q = q').
Proof. exact reprint_same. Qed.
Print Assumptions C66_same_partial.
(** What the parser returns satisfies all of [printable], the description of the trees [print] writes. *)
Theorem C66_printable_partial : forall n i r q, sparql_query_stmt i = Ok r q -> docile q -> (2 * openings i + 2 <= n)%nat -> printable n q.
Proof. exact returned_printable_at. Qed.
Print Assumptions C66_printable_partial.

Example C66_sample : exists r, sparql_query_stmt sample_text = Ok r sample /\ docile sample /\ (openings sample_text = 7)%nat /\ print cap_words (s_ " ") 3 sample <> sample_text.
Proof. eexists. split; [vm_compute; reflexivity|]. split; [exact sample_docile|]. split; [reflexivity|discriminate]. Qed.
Example C66_updates : exists r, update updates_text = Ok r updates_sample /\ docile_update updates_sample.
Proof. eexists. split; [vm_compute; reflexivity|exact updates_docile]. Qed.
