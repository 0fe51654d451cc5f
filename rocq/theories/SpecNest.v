(** Specification side: texts whose brackets match.

    Brackets in strings, comments and IRIs do not count, nor do brackets behind a backslash.  A [<] may start an IRI or stand
    for itself.  The file does not mention the parsers. *)
From Verif Require Export SpecBlock.
Open Scope N_scope.
Open Scope list_scope.

Inductive nested : str -> Prop :=
| nested_nil : nested []
| nested_brackets o c u v : In (o, c) [(40, 41); (91, 93); (123, 125)] -> nested u -> nested v -> nested (o :: u ++ c :: v)
| nested_string q u v : q = 34 \/ q = 39 -> inside q u -> nested v -> nested (q :: u ++ q :: v)
| nested_comment u c v : ~ In 10 u -> ~ In 13 u -> c = 10 \/ c = 13 -> nested v -> nested (35 :: u ++ c :: v)
| nested_iri u v : all iri_char u -> nested v -> nested (60 :: u ++ 62 :: v)
| nested_escape c v : In c (s_ "_~.-!$&'()*+,;=/?#@%") -> nested v -> nested (92 :: c :: v)
| nested_char c v : ~ In c (s_ "()[]{}""'#\") -> nested v -> nested (c :: v).

(** how often a character occurs in a text *)
Definition occurs (c : char) (t : str) : nat := List.length (List.filter (N.eqb c) t).

(** texts without strings, comments, IRIs and backslashes *)
Definition bare (t : str) : Prop := forall c, In c t -> ~ In c (s_ """'#\<").

(** Reads a text from the left and keeps the brackets still to be closed on a stack. *)
Fixpoint matching (st : list char) (t : str) : bool :=
  match t with
  | [] => match st with [] => true | _ => false end
  | c :: t =>
      if c =? 40 then matching (41 :: st) t else if c =? 91 then matching (93 :: st) t else if c =? 123 then matching (125 :: st) t
      else if (c =? 41) || (c =? 93) || (c =? 125) then match st with d :: st => (c =? d) && matching st t | [] => false end
      else matching st t
  end.
