(** C64: where a hard failure points. *)
From Verif Require Import MUpdate LFail2.
Open Scope N_scope.
Open Scope list_scope.

(** [spot i pos k] (SpecFail.v): in front of [pos] stands an opening parenthesis or bracket, perhaps with blanks, and
    [pos] does not start with the closing one; or the letter of an exponent and perhaps a sign, and [pos] does not start
    with a digit. *)
Theorem C64_query : forall i pos k, sparql_query_stmt i = Err (Failure pos k) -> spot i pos k.
Proof. exact (hf_at sparql_query_stmt hf_sparql_query_stmt). Qed.
Print Assumptions C64_query.
Theorem C64_update : forall i pos k, update i = Err (Failure pos k) -> spot i pos k.
Proof. exact (hf_at update hf_update). Qed.
Print Assumptions C64_update.
Theorem C64_pattern : forall i pos k, group_graph_pattern i = Err (Failure pos k) -> spot i pos k.
Proof. exact (hf_at group_graph_pattern hf_group_graph_pattern). Qed.
Print Assumptions C64_pattern.
Theorem C64_expression : forall i pos k, expression i = Err (Failure pos k) -> spot i pos k.
Proof. exact (hf_at expression hf_expression). Qed.
Print Assumptions C64_expression.
Theorem C64_path : forall i pos k, path_alternative i = Err (Failure pos k) -> spot i pos k.
Proof. exact (hf_at path_alternative hf_path_alternative). Qed.
Print Assumptions C64_path.
(** The three places are reached. *)
Example C64_parenthesis : update (s_ "INSERT DATA { <a> <b> ( 1 ) }") = Err (Failure (s_ "1 ) }") KChar).
Proof. vm_compute. reflexivity. Qed.
Example C64_bracket : sparql_query_stmt (s_ "SELECT ?a WHERE { ?a ?b [ <p> 1 ] }") = Err (Failure (s_ "<p> 1 ] }") KChar).
Proof. vm_compute. reflexivity. Qed.
Example C64_exponent : expression (s_ "1.5e+x }") = Err (Failure (s_ "x }") KDigit).
Proof. vm_compute. reflexivity. Qed.
Example C64_places : spot (s_ "1.5e+x }") (s_ "x }") KDigit /\ ~ spot (s_ "1.5e+x }") (s_ "+x }") KDigit /\
  ~ spot (s_ "a ( ) b") (s_ ") b") KChar /\ spot (s_ "( 1 )") (s_ "1 )") KChar.
Proof. exact places. Qed.

(** Nothing else in a text makes the failure hard: without an opening parenthesis or bracket and without a letter of
    an exponent behind a digit or a dot, an unreadable text is a recoverable error (or not an error at all). *)
Theorem C64_query_soft : forall i, ~ In 40 i -> ~ In 91 i -> ~ number_letter i -> forall pos k, sparql_query_stmt i <> Err (Failure pos k).
Proof. exact (quiet_soft sparql_query_stmt hf_sparql_query_stmt). Qed.
Print Assumptions C64_query_soft.
Theorem C64_update_soft : forall i, ~ In 40 i -> ~ In 91 i -> ~ number_letter i -> forall pos k, update i <> Err (Failure pos k).
Proof. exact (quiet_soft update hf_update). Qed.
Print Assumptions C64_update_soft.
(** A text of the kind that is not read, and the answer. *)
Example C64_soft_sample : let i := s_ "SELECT ?a { ?a ?b 5e1 } LIMIT x" in
  let j := s_ "SELECT ?a { ?a ?b, 1 }" in
  number_letter i /\ ~ In 40 j /\ ~ In 91 j /\ ~ number_letter j /\ exists pos k, sparql_query_stmt j = Err (Error pos k).
Proof. exact soft_sample. Qed.
