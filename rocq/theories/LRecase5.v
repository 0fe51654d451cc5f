(** Changing the case of letters: queries and updates. *)
From Verif Require Export LRecase4 MUpdate.
Notation length := List.length (only parsing).
Open Scope N_scope.
Open Scope list_scope.

Lemma cs_q_select_clause a : cs a false (tree_alike (fun n => leaves_select_clause (leaves_expression n))) select_clause.
Proof. apply cs_select_clause, cs_expression. Qed.
Lemma cs_q_where a : cs a false tgg where_clause.
Proof. apply cs_where, cs_ggp. Qed.
Lemma cs_q_mods a : cs a false (tree_alike leaves_mods) solution_modifier.
Proof. exact (cs_modifier leaves_expression leaves_ggp expression group_graph_pattern (cs_expression false) (cs_ggp false) a). Qed.
Global Hint Resolve cs_q_select_clause cs_q_where cs_q_mods : cs.
Lemma cs_datasets a : cs a false (tla leaves_datasets) (separated_list sp data_set_clause).
Proof. eapply (cs_txt _ _ _ (Forall2 (tla leaves_don))); [|go]. intros x y H. exact (ta_list (fun _ => leaves_don) x y H). Qed.
Lemma cs_select_query a : cs a false (tree_alike leaves_select_query) select_query.
Proof.
  unfold select_query, tuple4. eapply cs_map; [eapply cs_pair; [go|eapply cs_pair; [apply cs_datasets|go]]|]. vl.
Qed.
Lemma cs_ask_query a : cs a false (tree_alike leaves_ask_query) ask_query.
Proof.
  unfold ask_query, tuple4. eapply cs_map; [eapply cs_pair; [go|eapply cs_pair; [eapply cs_terminated; [apply cs_datasets|apply cs_sp]|go]]|]. vl.
Qed.
Lemma cs_describe_query a : cs a false (tree_alike leaves_describe_query) describe_query.
Proof.
  unfold describe_query, tuple5. eapply cs_map; [eapply cs_pair; [go|eapply cs_pair; [go|eapply cs_pair; [eapply cs_terminated; [apply cs_datasets|apply cs_sp]|go]]]|].
  intros x y H. prep.
  apply (ta_4 (fun v d w m => MkDescribeQuery d v w m) (fun n => leaves_targets) (fun n => leaves_datasets) (fun n => of_opt (leaves_ggp n)) leaves_mods); auto.
Qed.
Definition leaves_sub_triples (n : nat) (q : SubTriples) : list leaf :=
  match q with MkSubTriples d t m => leaves_datasets d ++ of_opt leaves_template t ++ leaves_mods n m end.
Definition leaves_sub_construct (n : nat) (q : SubConstruct) : list leaf :=
  match q with MkSubConstruct t d w m => leaves_cons_template t ++ leaves_datasets d ++ leaves_ggp n w ++ leaves_mods n m end.
Lemma cs_sub_triples a : cs a false (tree_alike leaves_sub_triples) sub_triples.
Proof.
  unfold sub_triples, tuple4. eapply cs_map; [eapply cs_pair; [eapply cs_terminated; [apply cs_datasets|apply cs_sp]|go]|]. vl.
Qed.
Lemma cs_sub_construct a : cs a false (tree_alike leaves_sub_construct) sub_construct.
Proof.
  unfold sub_construct, tuple4. eapply cs_map; [eapply cs_pair; [go|eapply cs_pair; [eapply cs_terminated; [apply cs_datasets|apply cs_sp]|go]]|]. vl.
Qed.
Lemma cs_construct_query a : cs a false (tree_alike leaves_construct_query) construct_query.
Proof.
  unfold construct_query, preceded_tag1. eapply cs_preceded; [go|]. apply cs_alt; [|apply cs_alt; [|apply cs_alt_nil]].
  - eapply cs_map; [apply cs_sub_construct|]. intros x y. apply (ta_1 CqSubConstruct). now intros n [[t] d w m].
  - eapply cs_map; [apply cs_sub_triples|]. intros x y. apply (ta_1 CqSubTriples). now intros n [d t m].
Qed.
Global Hint Resolve cs_select_query cs_ask_query cs_describe_query cs_construct_query : cs.
Lemma cs_query a : cs a false (tree_alike leaves_query) sparql_query.
Proof. unfold sparql_query. go. Qed.
Global Hint Resolve cs_query : cs.
Lemma cs_query_stmt a : cs a false (tree_alike leaves_query_stmt) sparql_query_stmt.
Proof. unfold sparql_query_stmt. go. Qed.

(** ** Updates *)
Lemma cs_braced_template a : cs a true (mayb (tla leaves_template)) braced_template.
Proof. unfold braced_template. go. Qed.
Global Hint Resolve cs_braced_template : cs.
Definition leaves_qnt (q : QuadsNotTriples) : list leaf := match q with MkQuadsNotTriples v t => leaves_voi v ++ of_opt leaves_template t end.
Lemma cs_qnt a : cs a true (tla leaves_qnt) quads_not_triples.
Proof. unfold quads_not_triples. go. Qed.
Global Hint Resolve cs_qnt : cs.
Lemma cs_quads_entry a : cs a false (tla leaves_quads_entry) quads_entry.
Proof.
  unfold quads_entry. eapply cs_map; [go|]. intros x y H. prep. match goal with A : tree_alike _ _ _, B : tree_alike _ _ _ |- _ => refine (ta_2 MkQuadsEntry _ _ _ _ _ _ _ _ A B) end.
  intros n [v t] t'. cbn. now rewrite app_assoc.
Qed.
Global Hint Resolve cs_quads_entry : cs.
Lemma cs_quads a : cs a false (tla leaves_quads) quads.
Proof. unfold quads. go. Qed.
Global Hint Resolve cs_quads : cs.
Lemma cs_quads_pattern a : cs a true (tla leaves_quads) quads_pattern.
Proof. unfold quads_pattern. go. Qed.
Global Hint Resolve cs_quads_pattern : cs.
Lemma cs_quad_data a : cs a true (tla leaves_quads) quad_data.
Proof. apply cs_quads_pattern. Qed.
Global Hint Resolve cs_quad_data : cs.
Lemma cs_insert_clause a : cs a true (tla leaves_quads) insert_clause.
Proof. unfold insert_clause. go. Qed.
Lemma cs_delete_clause a : cs a true (tla leaves_quads) delete_clause.
Proof. unfold delete_clause. go. Qed.
Global Hint Resolve cs_insert_clause cs_delete_clause : cs.
Lemma cs_silent_from_to a : cs a false (both eq (both (tla leaves_god) (tla leaves_god))) silent_from_to.
Proof. unfold silent_from_to. go. Qed.
Lemma cs_sgra a : cs a false (both eq (tla leaves_gra)) silent_graph_ref_all.
Proof. unfold silent_graph_ref_all. go. Qed.
Global Hint Resolve cs_silent_from_to cs_sgra : cs.
Lemma cs_stmt {A} a V w (p : parser A) : cs true false V p -> cs a false V (stmt w p).
Proof. intros H. unfold stmt. eapply cs_map; [eapply cs_pair; [go|exact H]|]. now intros [x x'] [y y'] [_ X]. Qed.
Definition leaves_load (l : LoadStatement) : list leaf := match l with MkLoad i s g => leaves_iri i ++ of_opt leaves_iri g end.
Definition leaves_clear (l : ClearStatement) : list leaf := match l with MkClear s g => leaves_gra g end.
Definition leaves_drop (l : DropStatement) : list leaf := match l with MkDrop s g => leaves_gra g end.
Definition leaves_create (l : CreateStatement) : list leaf := match l with MkCreate s g => leaves_iri g end.
Definition leaves_copy (l : CopyStatement) : list leaf := match l with MkCopy s f t => leaves_god f ++ leaves_god t end.
Definition leaves_modify (n : nat) (l : ModifyStatement) : list leaf :=
  match l with MkModify i d u w => of_opt leaves_iri i ++ leaves_delete_insert d ++ flat_map leaves_don u ++ leaves_ggp n w end.
Lemma cs_load a : cs a false (tla leaves_load) load_stmt.
Proof.
  unfold load_stmt. eapply cs_map; [go|]. intros (w & s & i & r) (w' & s' & i' & r') (_ & A & B & C). cbn [fst snd] in *. subst s'. apply ta_may in C.
  now apply (ta_2 (fun i r => MkLoad i s r) (fun _ => leaves_iri) (fun _ => of_opt leaves_iri)).
Qed.
Lemma cs_clear a : cs a false (tla leaves_clear) clear_stmt.
Proof. unfold clear_stmt. eapply cs_map; [apply cs_stmt; go|]. vl. Qed.
Lemma cs_drop a : cs a false (tla leaves_drop) drop_stmt.
Proof. unfold drop_stmt. eapply cs_map; [apply cs_stmt; go|]. vl. Qed.
Lemma cs_create a : cs a false (tla leaves_create) create_stmt.
Proof. unfold create_stmt. go. Qed.
Lemma cs_copy a : cs a false (tla leaves_copy) copy_stmt.
Proof. unfold copy_stmt. eapply cs_map; [apply cs_stmt; go|]. vl. Qed.
Lemma cs_insert_data a : cs a true (tla leaves_quads) insert_data.
Proof. unfold insert_data. go. Qed.
Lemma cs_delete_data a : cs a true (tla leaves_quads) delete_data.
Proof. unfold delete_data. go. Qed.
Lemma cs_delete_where_data a : cs a true (tla leaves_quads) delete_where_data.
Proof. unfold delete_where_data. go. Qed.
Lemma cs_delete_insert a : cs a false (tla leaves_delete_insert) delete_insert.
Proof. unfold delete_insert. go. Qed.
Global Hint Resolve cs_load cs_clear cs_drop cs_create cs_copy cs_insert_data cs_delete_data cs_delete_where_data cs_delete_insert : cs.
Lemma cs_modify a : cs a false (tree_alike leaves_modify) modify_stmt.
Proof. unfold modify_stmt. go. Qed.
Global Hint Resolve cs_modify : cs.
Lemma cs_update_stmt a : cs a false (tree_alike leaves_update_stmt) update_stmt.
Proof.
  unfold update_stmt.
  apply cs_alt; [eapply cs_map; [apply cs_load|]; intros x y; apply (ta_1 UsLoad); now intros n [i s g]|].
  apply cs_alt; [eapply cs_map; [apply cs_clear|]; intros x y; apply (ta_1 UsClear); now intros n [s g]|].
  apply cs_alt; [eapply cs_map; [apply cs_drop|]; intros x y; apply (ta_1 UsDrop); now intros n [s g]|].
  apply cs_alt; [eapply cs_map; [apply cs_create|]; intros x y; apply (ta_1 UsCreate); now intros n [s g]|].
  apply cs_alt; [eapply cs_map; [apply cs_copy|]; intros x y; apply (ta_1 UsCopy); now intros n [s g t]|].
  do 3 (apply cs_alt; [go|]).
  apply cs_alt; [eapply cs_map; [apply cs_modify|]; intros x y; apply (ta_1 UsModify); now intros n [i d u w]|apply cs_alt_nil].
Qed.
Global Hint Resolve cs_update_stmt : cs.
Lemma cs_update_body a u : cs false false (tree_alike leaves_update) u -> cs a false (tree_alike leaves_update) (update_body u).
Proof.
  intros H. assert (H' : forall a, cs a false (tree_alike leaves_update) u) by (intros; now apply cs_pre). unfold update_body.
  eapply cs_map; [eapply cs_pair; [go|eapply cs_opt'; eapply cs_pair; [go|eapply cs_opt'; eapply cs_preceded; [go|apply H']]]|].
  intros [p o] [p' o'] [A B]. cbn [fst snd] in *. destruct o as [[s i]|], o' as [[s' i']|]; try contradiction.
  - destruct B as [B C]. cbn [fst snd] in *. apply ta_may in C.
    now apply (ta_3 (fun p s i => MkUpdate p (Some s) i) (fun _ => leaves_prologue) leaves_update_stmt (fun n => of_opt (leaves_update n))).
  - apply (ta_1 (fun p => MkUpdate p None None) (fun _ => leaves_prologue)); auto. intros n x. apply app_nil_r.
Qed.
Lemma cs_update a : cs a false (tree_alike leaves_update) update.
Proof. apply cs_pre, cs_fixp. intros p. apply cs_update_body. Qed.

(** ** The answers *)
(** two outcomes of the same kind *)
Lemma cs_answer {A} L (p : parser A) i j : (forall i, p i <> Err OutOfFuel) -> cs false false (tree_alike L) p -> recased None i j ->
  match p i, p j with
  | Ok r a, Ok r' a' => Forall2 alike r r' /\ tree_alike L a a'
  | Err (Error _ _), Err (Error _ _) | Err (Failure _ _), Err (Failure _ _) | Err Incomplete, Err Incomplete | Err Panic, Err Panic => True
  | _, _ => False
  end.
Proof.
  intros F C R. destruct (C i j (recased_same _ _ _ R) ltac:(discriminate)) as [X|[X|X]]; [now apply F in X|now apply F in X|].
  pose proof (F i) as F1. pose proof (F j) as F2.
  destruct (p i) as [r a|e], (p j) as [r' a'|e']; try contradiction.
  - destruct X as (S & _ & V & _). split; [|exact V].
    replace r with (r ++ []) in S by apply app_nil_r. replace r' with (r' ++ []) in S by apply app_nil_r.
    eapply same_app; [|exact S]. apply same_length in S. now rewrite !app_nil_r in S.
  - destruct e, e'; try discriminate X; try exact I; congruence.
Qed.
(** the relation on texts is symmetric *)
Lemma recased_sym i : forall p p' j, recased p i j -> ends_word p = ends_word p' -> (p = Some 92 <-> p' = Some 92) -> recased p' j i.
Proof.
  induction i as [|c i IH]; intros p p' [|d j]; cbn; auto. intros (A & B & R) W Q. split; [now apply alike_sym|]. split.
  - intros N. destruct (B (fun E => N (eq_sym E))) as [X Y]. split; [intros E; now apply X, Q|]. intros LA. rewrite <- W.
    rewrite <- (same_starts i j (recased_same _ _ _ R)). apply Y.
    destruct A as [->|[[[A1 A2] ->]|[[A1 A2] ->]]]; [exact LA|right|left]; destruct LA as [LA|LA]; lia.
  - apply (IH (Some c)); [exact R| |].
    + cbn. now apply alike_word.
    + split; intros E; injection E as E; f_equal; [subst c|subst d].
      * symmetry. now apply alike_fixed.
      * symmetry. apply alike_fixed; [now apply alike_sym|reflexivity].
Qed.
(** a decision procedure for examples *)
Definition alike_b (c d : N) : bool :=
  (c =? d) || ((65 <=? c) && (c <=? 90) && (d =? c + 32)) || ((65 <=? d) && (d <=? 90) && (c =? d + 32)).
Lemma alike_b_ok c d : alike_b c d = true -> alike c d.
Proof.
  unfold alike_b, alike, capital. rewrite !orb_true_iff, !andb_true_iff, !N.leb_le, !N.eqb_eq. intros [[->|[[A B] C]]|[[A B] C]]; auto.
Qed.
Fixpoint recased_b (prev : option N) (i j : str) : bool :=
  match i, j with
  | [], [] => true
  | c :: i', d :: j' =>
      alike_b c d &&
      ((c =? d) || (negb (match prev with Some p => p =? 92 | None => false end) && (negb ((c =? 97) || (c =? 65)) || ends_word prev || starts_word i'))) &&
      recased_b (Some c) i' j'
  | _, _ => false
  end.
Lemma recased_b_ok i : forall p j, recased_b p i j = true -> recased p i j.
Proof.
  induction i as [|c i IH]; intros p [|d j]; cbn; try discriminate; auto. rewrite !andb_true_iff. intros ((A & B) & C).
  split; [now apply alike_b_ok|]. split; [|now apply IH]. intros N. apply orb_true_iff in B as [B|B]; [now apply N.eqb_eq in B|].
  apply andb_true_iff in B as [B D]. split.
  - intros ->. discriminate B.
  - intros LA. apply orb_true_iff in D as [D|D]; [|now right]. apply orb_true_iff in D as [D|D]; [|now left].
    destruct LA as [->| ->]; discriminate D.
Qed.
