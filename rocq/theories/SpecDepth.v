(** How deep the parsers recurse.  The Rust functions call each other; a call that is still waiting
    for another one occupies the stack.  Here the recursive parsers get a limit on the number of
    calls of themselves that may be waiting, and give up with [OutOfFuel] when it is exceeded. *)
From Verif Require Import MQuery MUpdate.
Notation length := List.length (only parsing).
Open Scope N_scope.
Open Scope list_scope.

(** The number of opening brackets, of the three kinds, anywhere in a text. *)
Fixpoint openings (i : str) : nat :=
  match i with
  | [] => 0
  | c :: i => if (c =? 40) || (c =? 91) || (c =? 123) then S (openings i) else openings i
  end.

(** [expression] and [group_graph_pattern] with at most [n] nested calls of the two. *)
Fixpoint nested (n : nat) : parser Expression * parser GroupGraphPattern :=
  match n with
  | O => (fun _ => Err OutOfFuel, fun _ => Err OutOfFuel)
  | S n => let p := nested n in (expression_body (fst p) (snd p), ggp_body (fst p) (snd p))
  end.
Definition expression_within (n : nat) : parser Expression := fst (nested n).
Definition group_graph_pattern_within (n : nat) : parser GroupGraphPattern := snd (nested n).

(** [path_alternative], [graph_node], [graph_node_path] and [update] with at most [n] nested calls
    of themselves. *)
Definition path_alternative_within (n : nat) : parser PathAlternative := iter n path_alternative_body.
Definition graph_node_within (n : nat) : parser GraphNode := iter n graph_node_body.
Definition graph_node_path_within (n : nat) : parser GraphNodePath := iter n graph_node_path_body.
Definition update_within (n : nat) : parser Update := iter n update_body.

(** The queries of MQuery.v over given parsers for expressions and group graph patterns. *)
Section Query.
  Variables (e : parser Expression) (g : parser GroupGraphPattern).
  Definition select_query_of : parser SelectQuery :=
    Nom.map (tuple4 (terminated (select_clause_of e) sp1) (separated_list sp data_set_clause)
               (sp_enc (where_clause_of g)) (solution_modifier_of e g))
      (fun '(s, (d, (w, m))) => MkSelectQuery s d w m).
  Definition ask_query_of : parser AskQuery :=
    Nom.map (tuple4 (terminated (tag_no_case (s_ "ask")) sp1)
               (terminated (separated_list sp data_set_clause) sp)
               (terminated (where_clause_of g) sp) (solution_modifier_of e g))
      (fun '(_, (d, (w, m))) => MkAskQuery d w m).
  Definition describe_query_of : parser DescribeQuery :=
    Nom.map (tuple5 (tag_no_case (s_ "describe")) (sp_enc1 var_or_iris_or_all)
               (terminated (separated_list sp data_set_clause) sp)
               (opt (terminated (where_clause_of g) sp)) (solution_modifier_of e g))
      (fun '(_, (v, (d, (w, m)))) => MkDescribeQuery d v w m).
  Definition sub_triples_of : parser SubTriples :=
    Nom.map (tuple4 (terminated (separated_list sp data_set_clause) sp)
               (terminated (tag_no_case (s_ "where")) sp1)
               (delimited (chr (c_ "{")) (sp_enc (opt triples_template)) (chr (c_ "}")))
               (preceded sp (solution_modifier_of e g)))
      (fun '(d, (_, (t, m))) => MkSubTriples d t m).
  Definition sub_construct_of : parser SubConstruct :=
    Nom.map (tuple4 (terminated construct_template sp1)
               (terminated (separated_list sp data_set_clause) sp)
               (terminated (where_clause_of g) sp) (solution_modifier_of e g))
      (fun '(t, (d, (w, m))) => MkSubConstruct t d w m).
  Definition construct_query_of : parser ConstructQuery :=
    preceded_tag1 (s_ "construct")
      (alt [ Nom.map sub_construct_of CqSubConstruct; Nom.map sub_triples_of CqSubTriples ]).
  Definition sparql_query_of : parser SparqlQuery :=
    alt [ Nom.map select_query_of SqSelect;
          Nom.map construct_query_of SqConstruct;
          Nom.map describe_query_of SqDescribe;
          Nom.map ask_query_of SqAsk ].
  Definition sparql_query_stmt_of : parser SparqlQueryStatement :=
    Nom.map (tuple3 (terminated prologue sp) sparql_query_of
               (opt (preceded sp1 (preceded_tag1 (s_ "values") datablock))))
      (fun '(p, (q, v)) => MkSparqlQueryStatement p q v).
End Query.
(** They are the queries of MQuery.v, the parsers being the model's. *)
Lemma sparql_query_stmt_of_model :
  sparql_query_stmt = sparql_query_stmt_of expression group_graph_pattern.
Proof. reflexivity. Qed.

(** [sparql_query_stmt] with at most [n] nested calls of [expression] and [group_graph_pattern]. *)
Definition sparql_query_stmt_within (n : nat) : parser SparqlQueryStatement :=
  sparql_query_stmt_of (expression_within n) (group_graph_pattern_within n).

(** The number of semicolons in a text. *)
Fixpoint semicolons (i : str) : nat :=
  match i with
  | [] => 0
  | c :: i => if c =? 59 then S (semicolons i) else semicolons i
  end.

(** [n] pairs of braces around a pair: [{{{} } }] *)
Definition braces (n : nat) : str := repeat 123 (S n) ++ 125 :: List.concat (repeat [32; 125] n).
(** [ASK {{{} } }] *)
Definition ask_braces (n : nat) : str := s_ "ASK " ++ braces n.
(** [n] times [CLEAR ALL;] *)
Fixpoint clears (n : nat) : str :=
  match n with O => [] | S n => s_ "CLEAR ALL;" ++ clears n end.
