(** Specification side: what can stand in the names, literals and numbers of a tree.

    This file does not mention the parsers. *)
From Verif Require Export SpecLeaves.
Open Scope N_scope.
Open Scope list_scope.

(** ASCII letters, digits and the underscore *)
Definition word_char (c : char) : Prop := (65 <= c <= 90) \/ (97 <= c <= 122) \/ (48 <= c <= 57) \/ c = 95.
(** the ASCII characters of [s] are those and the ones in [more] *)
Definition ascii_of (more : str) (s : str) : Prop := forall c, In c s -> c < 128 -> word_char c \/ In c more.
Definition safe_number (n : NumericLiteral) : Prop :=
  match n with
  | NInt z => i64 z
  | NDouble v x => match v with Finite _ m e => binary64 m e | Infinite _ => True end /\ match x with Some z => i64 z | None => True end
  end.
(** no blank, bracket, brace, quote, angle bracket, semicolon or [#] outside of string literals and (but for some of them)
    after a backslash in local names; no character that ends an IRI reference; no quote that ends a string *)
Definition safe (x : leaf) : Prop :=
  match x with
  | Name KIri s => forall c, In c s -> 32 < c /\ ~ In c (s_ "<>""{}|^`\")
  | Name KPrefix s | Name KLabel s => s <> [] /\ ascii_of (s_ "-.") s
  | Name KVar s => s <> [] /\ ascii_of [] s
  | Name KLocal s => s <> [] /\ ascii_of (s_ "-.:%\~!$&'()*+,;=/?#@") s
  | Name KString s => s <> [] /\ exists q, (q = 34 \/ q = 39) /\ body q s
  | Name KLang s => s <> [] /\ forall c, In c s -> c < 128 /\ (word_char c \/ c = 45) /\ c <> 95
  | Number n => safe_number n
  | Count_ z => u64 z
  | Truth _ => True
  end.
