(** C57: names, literals and numbers of the tree are those of the text, in its order. *)
From Verif Require Import LLeaves2.
Open Scope list_scope.

(** [leaves_query_stmt n q] (SpecLeaves.v) lists the names, IRIs, literals, labels (with their kind), numbers and booleans of [q], in
    expressions and groups nested up to [n] deep; [spread l t]: they stand in [t] in this order, without overlap.
    A tree never contains a piece that was not written, twice a piece that was written once, or two pieces exchanged. *)
Theorem C57_query : forall n i r q, sparql_query_stmt i = Ok r q -> exists t, i = t ++ r /\ spread (leaves_query_stmt n q) t.
Proof. exact query_leaves. Qed.
Print Assumptions C57_query.
Theorem C57_update : forall n i r u, update i = Ok r u -> exists t, i = t ++ r /\ spread (leaves_update n u) t.
Proof. exact update_leaves. Qed.
Print Assumptions C57_update.
Theorem C57_pattern : forall n i r g, group_graph_pattern i = Ok r g -> exists t, i = t ++ r /\ spread (leaves_ggp n g) t.
Proof. exact pattern_leaves. Qed.
Print Assumptions C57_pattern.
Theorem C57_expression : forall n i r e, expression i = Ok r e -> exists t, i = t ++ r /\ spread (leaves_expression n e) t.
Proof. exact expression_leaves. Qed.
Print Assumptions C57_expression.
(** So every name of the tree is a piece of the text, ... *)
Theorem C57_occurs :
  (forall n i r q k s, sparql_query_stmt i = Ok r q -> In (Name k s) (leaves_query_stmt n q) -> exists u v, i = u ++ s ++ v) /\
  (forall n i r q k s, update i = Ok r q -> In (Name k s) (leaves_update n q) -> exists u v, i = u ++ s ++ v).
Proof.
  split; intros n i r q k s H; [exact (read_occurs i r _ (query_leaves n i r q H) k s)|exact (read_occurs i r _ (update_leaves n i r q H) k s)].
Qed.
Print Assumptions C57_occurs.
(** ... and all the names together are no longer than the text. *)
Theorem C57_length :
  (forall n i r q, sparql_query_stmt i = Ok r q -> (total (names (leaves_query_stmt n q)) + List.length r <= List.length i)%nat) /\
  (forall n i r q, update i = Ok r q -> (total (names (leaves_update n q)) + List.length r <= List.length i)%nat).
Proof. split; intros n i r q H; [exact (read_length i r _ (query_leaves n i r q H))|exact (read_length i r _ (update_leaves n i r q H))]. Qed.
Print Assumptions C57_length.

Example C57_sample : exists q, sparql_query_stmt (s_ "SELECT ?a FROM <g> WHERE {?a ?b 5 FILTER (?c < true && str(""x""@en ) ) } LIMIT 7") = Ok [] q /\
  leaves_query_stmt 3 q = [Name KVar (s_ "a"); Name KIri (s_ "g"); Name KVar (s_ "a"); Name KVar (s_ "b"); Number (NInt 5); Name KVar (s_ "c"); Truth true;
    Name KString (s_ "x"); Name KLang (s_ "en"); Count_ 7].
Proof. eexists. split; [vm_compute; reflexivity|vm_compute; reflexivity]. Qed.
Example C57_update_sample : exists u, update (s_ "LOAD <a> INTO GRAPH <b>; INSERT DATA { <s> <p> ab:cd }") = Ok [] u /\
  leaves_update 0 u = [Name KIri (s_ "a"); Name KIri (s_ "b"); Name KIri (s_ "s"); Name KIri (s_ "p"); Name KPrefix (s_ "ab"); Name KLocal (s_ "cd")].
Proof. eexists. split; [vm_compute; reflexivity|vm_compute; reflexivity]. Qed.
Example C57_order : spread [Name KVar [97%N]; Name KVar [98%N]] (s_ "?a ?b") /\ ~ spread [Name KVar [98%N]; Name KVar [97%N]] (s_ "?a ?b") /\
  ~ spread [Name KVar [97%N]; Name KVar [97%N]] (s_ "?a ?b").
Proof.
  change (s_ "?a ?b") with [63; 97; 32; 63; 98]%N. split; [|split].
  - apply (spread_cons _ _ [63]%N [97]%N [32; 63; 98]%N); [split; [reflexivity|split; [discriminate|now repeat constructor]]|].
    apply (spread_cons _ _ [32; 63]%N [98]%N []); [split; [reflexivity|split; [discriminate|now repeat constructor]]|constructor].
  - intros H. inversion H as [|x l u s v Hs H2 E1 E]; subst. inversion H2 as [|x' l' u' s' v' Hs' H3 E1 E']; subst. destruct Hs as [-> _], Hs' as [-> _].
    destruct u as [|?[|?[|?[|?[|??]]]]], u' as [|?[|?[|?[|?[|??]]]]]; first [discriminate E|apply (f_equal (@List.length N)) in E; cbn in E; rewrite ?app_length in E; cbn in E; rewrite ?app_length in E; cbn in E; lia].
  - intros H. inversion H as [|x l u s v Hs H2 E1 E]; subst. inversion H2 as [|x' l' u' s' v' Hs' H3 E1 E']; subst. destruct Hs as [-> _], Hs' as [-> _].
    destruct u as [|?[|?[|?[|?[|??]]]]], u' as [|?[|?[|?[|?[|??]]]]]; first [discriminate E|apply (f_equal (@List.length N)) in E; cbn in E; rewrite ?app_length in E; cbn in E; rewrite ?app_length in E; cbn in E; lia].
Qed.
