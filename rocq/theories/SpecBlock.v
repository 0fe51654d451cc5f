(** Specification side: the closing brace of a block, found without parsing.

    [ends d i]: the [d]-th closing brace of [i] that has no opening brace in [i] is the last character of [i].
    Braces in strings, comments and IRIs do not count.  A [<] is read both ways, as the start of an IRI and as an operator,
    and the brace has to be the same.  The file does not mention the parsers. *)
From Verif Require Export Spec.
Open Scope N_scope.
Open Scope list_scope.

(** what may stand between two quotes [q]; a backslash takes the next character along *)
Inductive inside (q : char) : str -> Prop :=
| inside_nil : inside q []
| inside_char c u : c <> q -> c <> 92 -> inside q u -> inside q (c :: u)
| inside_escape c u : inside q u -> inside q (92 :: c :: u).

Inductive ends : nat -> str -> Prop :=
| ends_nil : ends 0 []
| ends_open d i : ends (S (S d)) i -> ends (S d) (123 :: i)
| ends_close d i : ends d i -> ends (S d) (125 :: i)
| ends_string q u d i : q = 34 \/ q = 39 -> inside q u -> ends (S d) i -> ends (S d) (q :: u ++ q :: i)
| ends_comment u c d i : ~ In 10 u -> ~ In 13 u -> c = 10 \/ c = 13 -> ends (S d) i -> ends (S d) (35 :: u ++ c :: i)
| ends_angle d i : ends (S d) i -> (forall u i', all iri_char u -> i = u ++ 62 :: i' -> ends (S d) i') -> ends (S d) (60 :: i)
| ends_escape c d i : In c (s_ "_~.-!$&'()*+,;=/?#@%") -> ends (S d) i -> ends (S d) (92 :: c :: i)
| ends_char c d i : ~ In c (s_ "{}""'#<\") -> ends (S d) i -> ends (S d) (c :: i).

(** A text from an opening brace to the brace that closes it. *)
Definition block (t : str) : Prop := exists i, t = 123 :: i /\ ends 1 i.
