(** C15: keywords are case-insensitive. *)
From Verif Require Import LCase LPrintEx LRecase5 LGood2 LEx2.
Open Scope list_scope.
Open Scope N_scope.

(** [kw k t]: [t] is the keyword [k] with some letters in upper case (Spec.v).  Every keyword of the grammar,
    in every letter case, is recognised, ... *)
Theorem C15_recognised : forall k t r, low_ascii (s_ k) = true -> kw k t -> tag_no_case (s_ k) (t ++ r) = Ok r t.
Proof. intros k t r K H. now apply tnc_ok. Qed.
Print Assumptions C15_recognised.
(** ... and nothing else is (U+212A KELVIN SIGN next to a [k] aside, see C04). *)
Theorem C15_only : forall k i r t, low_ascii (s_ k) = true -> no_kelvin (s_ k) i ->
  tag_no_case (s_ k) i = Ok r t -> i = t ++ r /\ kw k t.
Proof. intros k i r t K N. apply tnc_iff; assumption. Qed.
Print Assumptions C15_only.
(** What a keyword introduces does not depend on the case of the keyword, whatever follows. *)
Theorem C15_introduces : forall A k (p : parser A) t t' x, low_ascii (s_ k) = true -> kw k t -> kw k t' ->
  preceded_tag (s_ k) p (t ++ x) = preceded_tag (s_ k) p (t' ++ x) /\
  preceded_tag1 (s_ k) p (t ++ x) = preceded_tag1 (s_ k) p (t' ++ x).
Proof. intros A k p t t' x K H H'. split; [now apply tag_case|now apply tag1_case]. Qed.
Print Assumptions C15_introduces.
(** Whole texts.  [recased None i j]: [j] is [i] with the case of any of the letters changed, but for a letter after a
    backslash and the letter [a] standing alone (SpecCase.v).  The two texts get the same verdict; the same part of them is
    read; and the two trees are equal but for the case of letters in names and literals ([tree_alike]: the names and literals
    are pairwise alike, numbers and booleans equal, and if all of them are equal the trees are equal). *)
Theorem C15_queries : forall i j, recased None i j ->
  match sparql_query_stmt i, sparql_query_stmt j with
  | Ok r q, Ok r' q' => Forall2 alike r r' /\ tree_alike leaves_query_stmt q q'
  | Err (Error _ _), Err (Error _ _) | Err (Failure _ _), Err (Failure _ _) | Err Incomplete, Err Incomplete | Err Panic, Err Panic => True
  | _, _ => False
  end.
Proof. intros i j. apply cs_answer; [|apply cs_query_stmt]. intros k H. pose proof (good_elim _ _ _ _ gd_sparql_query_stmt k) as O. rewrite H in O. exact O. Qed.
Print Assumptions C15_queries.
Theorem C15_updates : forall i j, recased None i j ->
  match update i, update j with
  | Ok r u, Ok r' u' => Forall2 alike r r' /\ tree_alike leaves_update u u'
  | Err (Error _ _), Err (Error _ _) | Err (Failure _ _), Err (Failure _ _) | Err Incomplete, Err Incomplete | Err Panic, Err Panic => True
  | _, _ => False
  end.
Proof. intros i j. apply cs_answer; [|apply cs_update]. intros k H. pose proof (good_elim _ _ _ _ gd_update k) as O. rewrite H in O. exact O. Qed.
Print Assumptions C15_updates.
(** If moreover no name or literal of the tree changes -- the letters changed are letters of keywords -- the tree is the same. *)
Theorem C15_same_tree : forall i j r q, recased None i j -> sparql_query_stmt i = Ok r q ->
  (forall r' q' n, sparql_query_stmt j = Ok r' q' -> leaves_query_stmt n q' = leaves_query_stmt n q) ->
  exists r', sparql_query_stmt j = Ok r' q /\ Forall2 alike r r'.
Proof.
  intros i j r q R E K. pose proof (C15_queries i j R) as X. rewrite E in X. destruct (sparql_query_stmt j) as [r' q'|e]; [|contradiction].
  destruct X as (Y & _ & T). exists r'. split; [|exact Y]. f_equal. symmetry. apply T. intros n. symmetry. now apply (K r').
Qed.
Print Assumptions C15_same_tree.
(** Canonical texts: [print w x n q] is the text of [q] with the keywords written as [w] says and the text [x] for every blank. *)
Theorem C15_canonical : forall w w' x n q, casing w -> casing w' -> blank1 x -> printable n q ->
  exists b b', blank b /\ blank b' /\ sparql_query_stmt (print w x n q) = Ok b q /\ sparql_query_stmt (print w' x n q) = Ok b' q.
Proof.
  intros w w' x n q Hw Hw' Hx H. destruct (print_read w Hw (MkBlanks x Hx) n q H) as (b & B & X), (print_read w' Hw' (MkBlanks x Hx) n q H) as (b' & B' & Y).
  exists b, b'. auto.
Qed.
Print Assumptions C15_canonical.

Example C15_sample : casing low_words /\ casing cap_words /\ printable 3 sample /\ print low_words (s_ " ") 3 sample <> print cap_words (s_ " ") 3 sample.
Proof. split; [exact low_casing|split; [exact cap_casing|split; [exact sample_printable|discriminate]]]. Qed.
Example C15_casings : kw "optional" (s_ "oPtIoNaL") /\ kw "encode_for_uri" (s_ "ENCODE_FOR_uri") /\ ~ kw "ask" (s_ "AS").
Proof. repeat split. discriminate. Qed.
Example C15_query : sparql_query_stmt (s_ "sElEcT dIsTiNcT ?a wHeRe { oPtIoNaL {?a ?b ?c} }  LiMiT 3") =
                    sparql_query_stmt (s_ "select distinct ?a where { optional {?a ?b ?c} }  limit 3").
Proof. vm_compute. reflexivity. Qed.

(** the hypothesis of [C15_queries], on texts that differ in keywords, in a prefix and in a variable *)
Example C15_recased : recased None (s_ "select ?ab where { ?ab a ex:ty filter (true && bound(?ab)) } limit 3")
                                   (s_ "SeLECT ?Ab Where { ?aB a eX:Ty FILTER (TRUE && bOUND(?ab)) } LImiT 3").
Proof.
  apply recased_b_ok. vm_compute. reflexivity.
Qed.
Example C15_recased_trees : exists r r' q q', sparql_query_stmt (s_ "select ?ab where { ?ab a ex:ty filter (true && bound(?ab)) } limit 3") = Ok r q /\
  sparql_query_stmt (s_ "SeLECT ?Ab Where { ?aB a eX:Ty FILTER (TRUE && bOUND(?ab)) } LImiT 3") = Ok r' q' /\ q <> q'.
Proof. eexists _, _, _, _. split; [vm_compute; reflexivity|split; [vm_compute; reflexivity|discriminate]]. Qed.
(** the letters left out: the verb [a], and a letter after a backslash *)
Example C15_verb_a : exists r q e, sparql_query_stmt (s_ "ask { ?s a ex:cc }") = Ok r q /\ sparql_query_stmt (s_ "ask { ?s A ex:cc }") = Err e.
Proof. eexists _, _, _. split; vm_compute; reflexivity. Qed.
Example C15_escape : exists r q e, sparql_query_stmt (s_ "ask { ?s ?p 'a\tb' }") = Ok r q /\ sparql_query_stmt (s_ "ask { ?s ?p 'a\Tb' }") = Err e.
Proof. eexists _, _, _. split; vm_compute; reflexivity. Qed.
