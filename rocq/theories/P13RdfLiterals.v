(** C13: RDF literals. *)
From Verif Require Import LProp1.
Open Scope list_scope.

(** [desc_at d x r]: the text [x] after the closing quote starts with the descriptor [d] (the longest
    language tag, or [^^] and an IRI) and [r] remains; without descriptor, none can be read there. *)
Theorem C13_read_iff : forall i r s d, rdf_literal i = Ok r (MkRdfLiteral s d) <->
  exists q x, (q = 39%N \/ q = 34%N) /\ i = q :: s ++ q :: x /\ body q s /\ s <> [] /\ desc_at d x r.
Proof. exact rdf_literal_iff. Qed.
Print Assumptions C13_read_iff.
(** The IRI of a datatype is any IRI the parser of IRIs reads there. *)
Theorem C13_datatype_iri : forall i r j, iri i = Ok r j <-> iri_at j i r.
Proof. exact iri_iff. Qed.
Print Assumptions C13_datatype_iri.
(** In particular: *)
Theorem C13_language_tag : forall q s g r, q = 39%N \/ q = 34%N -> body q s -> s <> [] ->
  longest lang_tag g (g ++ r) ->
  rdf_literal (q :: s ++ q :: 64%N :: g ++ r) = Ok r (MkRdfLiteral s (Some (LangTag g))).
Proof. intros q s g r Hq Hb N Hg. apply rdf_literal_iff. exists q, (64%N :: g ++ r). repeat split; auto; apply Hg. Qed.
Print Assumptions C13_language_tag.
Theorem C13_datatype : forall q s d r, q = 39%N \/ q = 34%N -> body q s -> s <> [] -> all iri_char d ->
  rdf_literal (q :: s ++ q :: 94%N :: 94%N :: 60%N :: d ++ 62%N :: r) =
    Ok r (MkRdfLiteral s (Some (DescIri (IriIri d)))).
Proof.
  intros q s d r Hq Hb N Hd. apply rdf_literal_iff. exists q, (94%N :: 94%N :: 60%N :: d ++ 62%N :: r). repeat split; auto.
  exists (60%N :: d ++ 62%N :: r). repeat split. assumption.
Qed.
Print Assumptions C13_datatype.
Theorem C13_plain : forall q s r, q = 39%N \/ q = 34%N -> body q s -> s <> [] -> not_first 64 r -> not_first 94 r ->
  rdf_literal (q :: s ++ q :: r) = Ok r (MkRdfLiteral s None).
Proof.
  intros q s r Hq Hb N N1 N2. apply rdf_literal_iff. exists q, r. split; [assumption|]. split; [reflexivity|]. repeat (split; [assumption|]). split; [reflexivity|]. split; intros; subst r; intros _; [now apply N1|now apply N2].
Qed.
Print Assumptions C13_plain.

Example C13_reads : rdf_literal (s_ "'x'@en-GB-1- .") = Ok (s_ "- .") (MkRdfLiteral (s_ "x") (Some (LangTag (s_ "en-GB-1")))).
Proof. vm_compute. reflexivity. Qed.
Example C13_reads_datatype : rdf_literal (s_ """5""^^<http://int> .") =
  Ok (s_ " .") (MkRdfLiteral (s_ "5") (Some (DescIri (IriIri (s_ "http://int"))))).
Proof. vm_compute. reflexivity. Qed.
Example C13_hypotheses : longest lang_tag (s_ "en-GB") (s_ "en-GB" ++ s_ " .").
Proof.
  assert (H : language_tag (s_ "@en-GB .") = Ok (s_ " .") (s_ "en-GB")) by (vm_compute; reflexivity).
  apply language_tag_iff in H. destruct H as (j & [= <-] & _ & H). exact H.
Qed.
