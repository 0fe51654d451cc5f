(** C61: the names, literals and numbers of a tree are well-formed, whatever the text. *)
From Verif Require Import LSafe.
Open Scope N_scope.
Open Scope list_scope.

(** [safe x] (SpecSafe.v): what the piece [x] of a tree may contain.  IRIs hold no blank, control character, quote,
    bracket or backslash; names hold no ASCII characters but letters, digits and a few marks; strings hold no quote of
    one of the two kinds but after a backslash; language tags hold letters, digits and hyphens; integers are in the
    range of i64, fractions are numbers of binary64, LIMIT and OFFSET are in the range of u64.  [n]: how deep expressions
    and groups are nested. *)
Theorem C61_query : forall n i r q, sparql_query_stmt i = Ok r q -> Forall safe (leaves_query_stmt n q).
Proof. exact query_safe. Qed.
Print Assumptions C61_query.
Theorem C61_update : forall n i r u, update i = Ok r u -> Forall safe (leaves_update n u).
Proof. exact update_safe. Qed.
Print Assumptions C61_update.
Theorem C61_pattern : forall n i r g, group_graph_pattern i = Ok r g -> Forall safe (leaves_ggp n g).
Proof. exact pattern_safe. Qed.
Print Assumptions C61_pattern.
Theorem C61_expression : forall n i r e, expression i = Ok r e -> Forall safe (leaves_expression n e).
Proof. exact expression_safe. Qed.
Print Assumptions C61_expression.
(** So a name or literal taken from any tree can be put into a new text: in its own delimiters it is read as itself,
    whatever follows. *)
Theorem C61_iri_again : forall s r, of_some_tree (Name KIri s) -> iri_ref (60 :: s ++ 62 :: r) = Ok r s.
Proof. exact reread_iri. Qed.
Print Assumptions C61_iri_again.
Theorem C61_string_again : forall s r, of_some_tree (Name KString s) ->
  exists q, (q = 39 \/ q = 34) /\ string_literal (q :: s ++ q :: r) = Ok r s.
Proof. exact reread_string. Qed.
Print Assumptions C61_string_again.
Theorem C61_var_again : forall s r, of_some_tree (Name KVar s) -> stops var_char r -> var (63 :: s ++ r) = Ok r (QMark s).
Proof. exact reread_var. Qed.
Print Assumptions C61_var_again.

(** A text with all kinds of pieces. *)
Example C61_sample : exists q, sparql_query_stmt
  (s_ "PREFIX ex: <http://a/b> SELECT ?v WHERE { ?v ex:c\(d 'a\'b'@en-us . _:l ?p 1.5 . ?v ?p -7 } LIMIT 18446744073709551615 ") = Ok [] q /\
  leaves_query_stmt 1 q = [Name KPrefix (s_ "ex"); Name KIri (s_ "http://a/b"); Name KVar (s_ "v"); Name KVar (s_ "v");
    Name KPrefix (s_ "ex"); Name KLocal (s_ "c\(d"); Name KString (s_ "a\'b"); Name KLang (s_ "en-us"); Name KLabel (s_ "l"); Name KVar (s_ "p");
    Number (NDouble (Finite false 6755399441055744 (-52)) None); Name KVar (s_ "v"); Name KVar (s_ "p"); Number (NInt (-7)); Count_ 18446744073709551615].
Proof. eexists. split; [vm_compute; reflexivity|vm_compute; reflexivity]. Qed.
(** Pieces that are not safe. *)
Example C61_unsafe : ~ safe (Name KIri (s_ "a> <b")) /\ ~ safe (Name KVar (s_ "a b")) /\ ~ safe (Name KString (s_ "'""")) /\
  ~ safe (Name KPrefix (s_ "a:b")) /\ ~ safe (Count_ (2 ^ 64)) /\ ~ safe (Number (NInt (2 ^ 63))).
Proof.
  split; [|split; [|split; [|split; [|split]]]].
  - intros H. destruct (H 62) as [_ X]; [right; now left|]. apply X. right. now left.
  - intros [_ H]. destruct (H 32) as [X|X]; [right; now left|reflexivity| |destruct X]. unfold word_char in X. lia.
  - intros [_ (q & Q & H)]. inversion H as [|c t A B C E|]; subst. inversion C as [|c t A' B' C' E|]; subst. destruct Q as [Q|Q]; [now apply A'|now apply A].
  - intros [_ H]. destruct (H 58) as [X|X]; [right; now left|reflexivity| |].
    + unfold word_char in X. lia.
    + destruct X as [X|[X|[]]]; discriminate X.
  - intros [_ H]. lia.
  - intros [_ H]. lia.
Qed.
