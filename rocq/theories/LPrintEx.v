(** For the examples about printed queries. *)
From Verif Require Export LPrint6.
From Verif Require Import LEx2.
Notation length := List.length (only parsing).
Open Scope N_scope.
Open Scope list_scope.

(** keywords in lower case, and in upper case *)
Definition low_words : string -> str := s_.
Definition upper (c : char) : char := if (97 <=? c) && (c <=? 122) then c - 32 else c.
Definition cap_words (k : string) : str := List.map upper (s_ k).
Lemma low_casing : casing low_words. Proof. intros k H. exact H. Qed.
Lemma cap_casing : casing cap_words.
Proof.
  intros k H. unfold kw, cap_words. rewrite map_map. rewrite <- H at 2. apply map_ext_in. intros c Hc. clear. unfold upper.
  destruct ((97 <=? c) && (c <=? 122)) eqn:E; [|reflexivity]. apply andb_true_iff in E. rewrite !N.leb_le in E.
  unfold lower, in_ranges, existsb.
  replace ((65 <=? c - 32) && (c - 32 <=? 90)) with true by (symmetry; apply andb_true_iff; rewrite !N.leb_le; lia).
  replace ((65 <=? c) && (c <=? 90)) with false by (symmetry; apply andb_false_iff; rewrite !N.leb_gt; lia).
  cbn. lia.
Qed.
Lemma all_by f t : forallb f t = true -> all f t.
Proof. intros H. apply Forall_forall. rewrite forallb_forall in H. exact H. Qed.
Lemma prefix_by p r x : pname_ns (p ++ 58 :: r) = Ok r (Some x) -> x = p -> prefix_name p.
Proof.
  intros H ->. apply pname_ns_iff in H. destruct H as (u & E & u1 & u2 & -> & H1 & _). destruct H1 as [-> H1]. exact H1.
Qed.
Ltac prn := repeat first
  [ exact I
  | match goal with
    | |- _ /\ _ => split
    | |- _ -> _ => intros ?; try discriminate
    | |- ?a <> ?b => discriminate
    | |- Forall _ [] => constructor
    | |- Forall _ (_ :: _) => constructor
    | |- all _ _ => apply all_by; vm_compute; reflexivity
    | |- prefix_name _ => eapply (prefix_by _ []); [vm_compute; reflexivity|reflexivity]
    | |- plain_start _ => eexists _, _; split; [vm_compute; reflexivity|split; [reflexivity|vm_compute; intuition discriminate]]
    | |- body _ ?s \/ body _ _ => first [left; apply (plain_body 34); [discriminate|reflexivity] | right; apply (plain_body 39); [discriminate|reflexivity]]
    | |- body _ _ => constructor
    | |- binary64 _ _ => split; [reflexivity|split; [split; discriminate|left; discriminate]]
    | |- lang_tag ?t => exists t, []; split; [symmetry; apply app_nil_r|]
    | |- lang_subtags [] => constructor
    | |- wf_path _ => apply (wf_path_intro wf_path); [trivial|]
    | |- local_name (?c :: ?t) => exists [c], t; split; [reflexivity|split; [right; exists c; split; reflexivity|]]
    | |- local_units _ => constructor
    | |- ~ all _ _ => let H := fresh in intros H; inversion H; subst; vm_compute in *; discriminate
    | |- i64 _ => vm_compute; split; [discriminate|reflexivity]
    | |- u64 _ => vm_compute; split; [discriminate|reflexivity]
    | |- no_kelvin_sign _ => vm_compute; intuition discriminate
    | |- not_first _ _ => vm_compute; discriminate
    | |- _ = _ => reflexivity
    end
  | progress cbn -[pr_props_path pr_props pr_num pr_iri N.leb i64 u64 binary64]
  | progress hnf ].
(** a query with most kinds of clauses *)
Definition sample_text : str := s_ "PREFIX ab: <http://x> SELECT DISTINCT ?a(COUNT(?a ) AS ?n) FROM NAMED <http://g> WHERE { ?a <p>|^ab:cd -.1e-3 OPTIONAL { ?a ?b 'say ""x""'@en } ? ?d ?e ?f FILTER ( ! ?a = 3 * 4 && ?x < 7 ) } GROUP BY ?a ORDER BY DESC (?a ) LIMIT 5 OFFSET 3 VALUES ?x { 1 UNDEF true }".
Definition sample : SparqlQueryStatement :=
  Eval vm_compute in match sparql_query_stmt sample_text with Ok _ q => q | Err _ => MkSparqlQueryStatement (MkPrologue []) (SqAsk (MkAskQuery [] (GgpSub (MkGroupGraphPatternSub None [])) (MkSolutionModifier None None None None))) None end.
Lemma sample_printable : printable 3 sample.
Proof.
  unfold sample, printable. prn.
Qed.
(** names with an empty prefix after keywords, and a variable after the modifier of a path *)
Definition names_text : str := s_ "SELECT * FROM :gg WHERE { ?s <p> * ?o GRAPH :gg { ?s :pp 1 } SERVICE :ss { } FILTER :ff () VALUES ?x { :aa :bb 1 :cc UNDEF } }".
Definition names_sample : SparqlQueryStatement :=
  Eval vm_compute in match sparql_query_stmt names_text with Ok _ q => q | Err _ => sample end.
Lemma names_printable : printable 3 names_sample.
Proof. unfold names_sample, printable. prn. Qed.
(** a comment and a tab *)
Definition remark : str := s_ "#x" ++ [10; 9].
