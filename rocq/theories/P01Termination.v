(** C01: parsing any text terminates.

    The model bounds recursion and loops by fuel; running out of fuel would be the answer
    [Err OutOfFuel].  It is never given, each recursive parser satisfies the recursive equation of
    its Rust source (which mentions no fuel), and more fuel never changes an answer. *)
From Verif Require Import LGood2.

Lemma no_out_of_fuel {A} b c d (p : parser A) i : good b c d p -> p i <> Err OutOfFuel.
Proof. intros G H. pose proof (good_elim _ _ _ _ G i) as O. rewrite H in O. exact O. Qed.

Theorem C01_query_stmt_terminates : forall i, sparql_query_stmt i <> Err OutOfFuel.
Proof. intros i. exact (no_out_of_fuel _ _ _ _ i gd_sparql_query_stmt). Qed.
Print Assumptions C01_query_stmt_terminates.

Theorem C01_query_terminates : forall i, sparql_query i <> Err OutOfFuel.
Proof. intros i. exact (no_out_of_fuel _ _ _ _ i gd_sparql_query). Qed.
Print Assumptions C01_query_terminates.

Theorem C01_query_forms_terminate : forall i,
  select_query i <> Err OutOfFuel /\ ask_query i <> Err OutOfFuel /\
  describe_query i <> Err OutOfFuel /\ construct_query i <> Err OutOfFuel.
Proof.
  intros i. repeat split.
  - exact (no_out_of_fuel _ _ _ _ i gd_select_query).
  - exact (no_out_of_fuel _ _ _ _ i gd_ask_query).
  - exact (no_out_of_fuel _ _ _ _ i gd_describe_query).
  - exact (no_out_of_fuel _ _ _ _ i gd_construct_query).
Qed.
Print Assumptions C01_query_forms_terminate.

Theorem C01_update_terminates : forall i, update i <> Err OutOfFuel.
Proof. intros i. exact (no_out_of_fuel _ _ _ _ i gd_update). Qed.
Print Assumptions C01_update_terminates.

(** The recursive equations of the Rust functions hold. *)
Theorem C01_recursive_equations : forall i,
  expression i = expression_body expression group_graph_pattern i /\
  group_graph_pattern i = ggp_body expression group_graph_pattern i /\
  graph_node i = graph_node_body graph_node i /\
  graph_node_path i = graph_node_path_body graph_node_path i /\
  path_alternative i = path_alternative_body path_alternative i /\
  update i = update_body update i.
Proof.
  intros i. exact (conj (expression_eq i) (conj (group_graph_pattern_eq i)
    (conj (graph_node_eq i) (conj (graph_node_path_eq i)
    (conj (path_alternative_eq i) (update_eq i)))))).
Qed.
Print Assumptions C01_recursive_equations.

(** Recursion is never deeper than the text is long: any depth above the length of the text gives
    the answer of the parser. *)
Theorem C01_depth_bounded_by_length : forall i k, (List.length i < k)%nat ->
  iter k (fun e => expression_body e (ggp_of e)) i = expression i /\
  iter k (ggp_body expression) i = group_graph_pattern i /\
  iter k graph_node_body i = graph_node i /\
  iter k graph_node_path_body i = graph_node_path i /\
  iter k path_alternative_body i = path_alternative i /\
  iter k update_body i = update i.
Proof.
  intros i k Hk. repeat split; symmetry.
  - refine (proj1 (fixp_sim_iter true IAny true _ _ _ k (le_n _) i Hk)).
    intros. now apply sm_expression_knot.
  - refine (proj1 (fixp_sim_iter true IOpen true _ _ _ k (le_n _) i Hk)).
    intros. apply sm_ggp_body; [apply gd_expression | assumption].
  - refine (proj1 (fixp_sim_iter true INever false _ _ _ k (le_n _) i Hk)).
    intros. now apply sm_graph_node_body.
  - refine (proj1 (fixp_sim_iter true IAny true _ _ _ k (le_n _) i Hk)).
    intros. now apply sm_graph_node_path_body.
  - refine (proj1 (fixp_sim_iter true IAny true _ _ _ k (le_n _) i Hk)).
    intros. now apply sm_path_alternative_body.
  - refine (proj1 (fixp_sim_iter false IOpen true _ _ _ k (le_n _) i Hk)).
    intros. now apply sm_update_body.
Qed.
Print Assumptions C01_depth_bounded_by_length.

(** Nesting of the kind the theorems are about: too little depth does run out. *)
Example C01_depth_matters :
  iter 2 (ggp_body expression) (s_ "{{{} } }") = Err OutOfFuel /\
  iter 4 (ggp_body expression) (s_ "{{{} } }") = group_graph_pattern (s_ "{{{} } }") /\
  exists x, group_graph_pattern (s_ "{{{} } }") = Ok [] x.
Proof. split; [|split]; [vm_compute; reflexivity .. | eexists; vm_compute; reflexivity]. Qed.
