(** C58: the layout of a text does not matter. *)
From Verif Require Import LBlank5 LMods LPrintEx2 LEx2.
Open Scope list_scope.
Open Scope N_scope.

(** Two texts that differ in runs of blanks only: [squeeze] puts one space for every run of spaces, tabs and line ends, except
    that the end of a line with a [#] on it stays (SpecBlank.v).  They get the same verdict and the trees are equal but for the
    blanks inside string literals ([tree_spaced]: the names and literals differ in runs of blanks only, numbers and booleans
    are equal, and if all of them are equal the trees are equal). *)
Theorem C58_queries : forall i j, squeeze i = squeeze j ->
  match sparql_query_stmt i, sparql_query_stmt j with
  | Ok r q, Ok r' q' => flat r = flat r' /\ tree_spaced leaves_query_stmt q q'
  | Err (Error _ _), Err (Error _ _) | Err (Failure _ _), Err (Failure _ _) | Err Incomplete, Err Incomplete | Err Panic, Err Panic => True
  | _, _ => False
  end.
Proof. intros i j. apply answer_spaced; [|apply bs_query_stmt]. intros k H. pose proof (good_elim _ _ _ _ gd_sparql_query_stmt k) as O. rewrite H in O. exact O. Qed.
Print Assumptions C58_queries.
Theorem C58_updates : forall i j, squeeze i = squeeze j ->
  match update i, update j with
  | Ok r u, Ok r' u' => flat r = flat r' /\ tree_spaced leaves_update u u'
  | Err (Error _ _), Err (Error _ _) | Err (Failure _ _), Err (Failure _ _) | Err Incomplete, Err Incomplete | Err Panic, Err Panic => True
  | _, _ => False
  end.
Proof. intros i j. apply answer_spaced; [|apply bs_update]. intros k H. pose proof (good_elim _ _ _ _ gd_update k) as O. rewrite H in O. exact O. Qed.
Print Assumptions C58_updates.
(** In a text without string literals nothing of the tree depends on the blanks. *)
Theorem C58_same_query : forall i j r q, squeeze i = squeeze j -> ~ In 34 i -> ~ In 39 i ->
  sparql_query_stmt i = Ok r q -> exists r', sparql_query_stmt j = Ok r' q /\ flat r = flat r'.
Proof. intros i j r q. apply (answer_same leaves_query_stmt); [|apply bs_query_stmt]. intros k H. pose proof (good_elim _ _ _ _ gd_sparql_query_stmt k) as O. rewrite H in O. exact O. Qed.
Print Assumptions C58_same_query.
Theorem C58_same_update : forall i j r u, squeeze i = squeeze j -> ~ In 34 i -> ~ In 39 i ->
  update i = Ok r u -> exists r', update j = Ok r' u /\ flat r = flat r'.
Proof. intros i j r u. apply (answer_same leaves_update); [|apply bs_update]. intros k H. pose proof (good_elim _ _ _ _ gd_update k) as O. rewrite H in O. exact O. Qed.
Print Assumptions C58_same_update.

(** So a text without string literals can be squeezed before it is read. *)
Theorem C58_normal_form : forall i r q, ~ In 34 i -> ~ In 39 i -> sparql_query_stmt i = Ok r q ->
  exists r', sparql_query_stmt (squeeze i) = Ok r' q /\ flat r = flat r'.
Proof. intros i r q N1 N2. apply C58_same_query; [symmetry; apply squeeze_twice|assumption..]. Qed.
Print Assumptions C58_normal_form.

(** [print w x n q] writes the query [q] with the text [x] for every blank.  All such texts are read as the same
    query, whether the blanks are spaces, tabs, line ends or comments. *)
Theorem C58_comments : forall w x x' n q, casing w -> blank1 x -> blank1 x' -> printable n q ->
  exists b b' s, blank b /\ blank b' /\ sparql_query_stmt (print w x n q) = Ok b s /\ sparql_query_stmt (print w x' n q) = Ok b' s.
Proof.
  intros w x x' n q Hw Hx Hx' H.
  destruct (print_read w Hw (MkBlanks x Hx) n q H) as (b & B & X), (print_read w Hw (MkBlanks x' Hx') n q H) as (b' & B' & Y).
  exists b, b', q. auto.
Qed.
Print Assumptions C58_comments.
(** The same for update requests. *)
Theorem C58_update_comments : forall w x x' n u, casing w -> blank1 x -> blank1 x' -> printable_update n u ->
  exists b b' s, blank b /\ blank b' /\ update (print_update w x n u) = Ok b s /\ update (print_update w x' n u) = Ok b' s.
Proof.
  intros w x x' n u Hw Hx Hx' H.
  destruct (print_update_read w Hw (MkBlanks x Hx) n u H) as (b & B & X), (print_update_read w Hw (MkBlanks x' Hx') n u H) as (b' & B' & Y).
  exists b, b', u. auto.
Qed.
Print Assumptions C58_update_comments.

Example C58_sample : blank1 remark /\ printable 3 sample /\ print cap_words remark 3 sample <> print cap_words (s_ " ") 3 sample /\
  sparql_query_stmt (print cap_words remark 3 sample) = Ok [] sample.
Proof.
  split; [split; [apply (blank_comment (s_ "x") 10 [9]); [repeat constructor; discriminate|now left|apply blank_space; [right; now left|constructor]]|discriminate]|].
  split; [exact sample_printable|]. split; [discriminate|vm_compute; reflexivity].
Qed.
Example C58_request : printable_update 3 updates_sample /\ update (print_update cap_words remark 3 updates_sample) = Ok [] updates_sample.
Proof. split; [exact updates_printable|vm_compute; reflexivity]. Qed.

(** the hypotheses, with a [#] inside an IRI, a comment and blanks inside a literal *)
Example C58_squeezed :
  let i := s_ "ask {?s <a#b>  'x  y' ;" ++ [10] ++ s_ "a  ex:cc # now" ++ [10; 9] ++ s_ "}" in
  let j := s_ "ask {?s" ++ [9] ++ s_ "<a#b> 'x y' ;" ++ [10] ++ s_ "a" ++ [13; 10] ++ s_ "ex:cc  # now" ++ [10; 9] ++ s_ "}" in
  squeeze i = squeeze j /\ exists r r' q q', sparql_query_stmt i = Ok r q /\ sparql_query_stmt j = Ok r' q' /\ q <> q'.
Proof. split; [vm_compute; reflexivity|]. eexists _, _, _, _. split; [vm_compute; reflexivity|split; [vm_compute; reflexivity|discriminate]]. Qed.
Example C58_same : let i := s_ "select ?a  where {?a ?b ?c}" in let j := s_ "select" ++ [10] ++ s_ "?a" ++ [9; 32] ++ s_ "where {?a ?b  ?c}" in
  squeeze i = squeeze j /\ ~ In 34 i /\ ~ In 39 i /\ i <> j /\ exists r q, sparql_query_stmt i = Ok r q.
Proof.
  split; [vm_compute; reflexivity|]. split; [cbn; intuition discriminate|]. split; [cbn; intuition discriminate|]. split; [discriminate|]. eexists _, _. vm_compute. reflexivity.
Qed.
(** a line end that ends a comment cannot be exchanged for a space *)
Example C58_comment : exists r q e, sparql_query_stmt (s_ "ask { #" ++ [10] ++ s_ "}") = Ok r q /\ sparql_query_stmt (s_ "ask { # }") = Err e.
Proof. eexists _, _, _. split; vm_compute; reflexivity. Qed.
