(** Changing blanks: queries and updates. *)
From Verif Require Export LBlank4 LRecase5.
Notation length := List.length (only parsing).
Open Scope N_scope.
Open Scope list_scope.

Lemma bs_q_select_clause m : bs2 m false (tsp m (fun n => leaves_select_clause (leaves_expression n))) select_clause select_clause.
Proof. apply bs_select_clause, bs_expression. Qed.
Lemma bs_q_where m : bs2 m false (xgg m) where_clause where_clause.
Proof. apply bs_where, bs_ggp. Qed.
Lemma bs_q_mods m : bs2 m false (tsp m leaves_mods) solution_modifier solution_modifier.
Proof. exact (bs_modifier leaves_expression leaves_ggp m expression expression group_graph_pattern group_graph_pattern (bs_expression m) (bs_ggp m)). Qed.
Global Hint Resolve bs_q_select_clause bs_q_where bs_q_mods : bs.
Lemma bs_datasets m : bs2 m false (tls m leaves_datasets) (separated_list sp data_set_clause) (separated_list sp data_set_clause).
Proof. eapply (bs_txt _ _ (Forall2 (tls m leaves_don))); [|gb]. intros x y H. exact (tb_list m (fun _ => leaves_don) x y H). Qed.
Lemma bs_select_query m : bs2 m false (tsp m leaves_select_query) select_query select_query.
Proof.
  unfold select_query, tuple4. eapply bs_map; [eapply bs_pair; [gb|eapply bs_pair; [apply bs_datasets|gb]]|]. vb.
Qed.
Lemma bs_ask_query m : bs2 m false (tsp m leaves_ask_query) ask_query ask_query.
Proof.
  unfold ask_query, tuple4. eapply bs_map; [eapply bs_pair; [gb|eapply bs_pair; [eapply bs_terminated; [apply bs_datasets|apply bs_sp]|gb]]|]. vb.
Qed.
Lemma bs_describe_query m : bs2 m false (tsp m leaves_describe_query) describe_query describe_query.
Proof.
  unfold describe_query, tuple5. eapply bs_map; [eapply bs_pair; [gb|eapply bs_pair; [gb|eapply bs_pair; [eapply bs_terminated; [apply bs_datasets|apply bs_sp]|gb]]]|].
  intros x y H. prepb.
  apply (tb_4 m (fun v d w k => MkDescribeQuery d v w k) (fun n => leaves_targets) (fun n => leaves_datasets) (fun n => of_opt (leaves_ggp n)) leaves_mods); auto.
Qed.
Lemma bs_sub_triples m : bs2 m false (tsp m leaves_sub_triples) sub_triples sub_triples.
Proof.
  unfold sub_triples, tuple4. eapply bs_map; [eapply bs_pair; [eapply bs_terminated; [apply bs_datasets|apply bs_sp]|gb]|]. vb.
Qed.
Lemma bs_sub_construct m : bs2 m false (tsp m leaves_sub_construct) sub_construct sub_construct.
Proof.
  unfold sub_construct, tuple4. eapply bs_map; [eapply bs_pair; [gb|eapply bs_pair; [eapply bs_terminated; [apply bs_datasets|apply bs_sp]|gb]]|]. vb.
Qed.
Lemma bs_construct_query m : bs2 m false (tsp m leaves_construct_query) construct_query construct_query.
Proof.
  unfold construct_query, preceded_tag1. eapply bs_preceded; [gb|]. apply bs_alt; [reflexivity| |apply bs_alt; [reflexivity| |apply bs_alt_nil]].
  - eapply bs_map; [apply bs_sub_construct|]. intros x y. apply (tb_1 m CqSubConstruct). now intros n [[t] d w k].
  - eapply bs_map; [apply bs_sub_triples|]. intros x y. apply (tb_1 m CqSubTriples). now intros n [d t k].
Qed.
Global Hint Resolve bs_select_query bs_ask_query bs_describe_query bs_construct_query : bs.
Lemma bs_query m : bs2 m false (tsp m leaves_query) sparql_query sparql_query.
Proof. unfold sparql_query. gb. Qed.
Global Hint Resolve bs_query : bs.
Lemma bs_query_stmt m : bs2 m false (tsp m leaves_query_stmt) sparql_query_stmt sparql_query_stmt.
Proof. unfold sparql_query_stmt. gb. Qed.

(** ** Updates *)
Lemma bs_braced_template m : bs2 m false (mayb (tls m leaves_template)) braced_template braced_template.
Proof. unfold braced_template. gb. Qed.
Global Hint Resolve bs_braced_template : bs.
Lemma bs_qnt m : bs2 m false (tls m leaves_qnt) quads_not_triples quads_not_triples.
Proof. unfold quads_not_triples. gb. Qed.
Global Hint Resolve bs_qnt : bs.
Lemma bs_quads_entry m : bs2 m false (tls m leaves_quads_entry) quads_entry quads_entry.
Proof.
  unfold quads_entry. eapply bs_map; [gb|]. intros x y H. prepb. match goal with A : tsp m _ _ _, B : tsp m _ _ _ |- _ => refine (tb_2 m MkQuadsEntry _ _ _ _ _ _ _ _ A B) end.
  intros n [v t] t'. cbn. now rewrite app_assoc.
Qed.
Global Hint Resolve bs_quads_entry : bs.
Lemma bs_quads m : bs2 m false (tls m leaves_quads) quads quads.
Proof. unfold quads. gb. Qed.
Global Hint Resolve bs_quads : bs.
Lemma bs_quads_pattern m : bs2 m false (tls m leaves_quads) quads_pattern quads_pattern.
Proof. unfold quads_pattern. gb. Qed.
Global Hint Resolve bs_quads_pattern : bs.
Lemma bs_quad_data m : bs2 m false (tls m leaves_quads) quad_data quad_data.
Proof. apply bs_quads_pattern. Qed.
Global Hint Resolve bs_quad_data : bs.
Lemma bs_insert_clause m : bs2 m false (tls m leaves_quads) insert_clause insert_clause.
Proof. unfold insert_clause. gb. Qed.
Lemma bs_delete_clause m : bs2 m false (tls m leaves_quads) delete_clause delete_clause.
Proof. unfold delete_clause. gb. Qed.
Global Hint Resolve bs_insert_clause bs_delete_clause : bs.
Lemma bs_silent_from_to m : bs2 m false (both eq (both (tls m leaves_god) (tls m leaves_god))) silent_from_to silent_from_to.
Proof. unfold silent_from_to. gb. Qed.
Lemma bs_sgra m : bs2 m false (both eq (tls m leaves_gra)) silent_graph_ref_all silent_graph_ref_all.
Proof. unfold silent_graph_ref_all. gb. Qed.
Global Hint Resolve bs_silent_from_to bs_sgra : bs.
Lemma bs_stmt {A} m V w (p : parser A) : keyw w = true -> bs2 m false V p p -> bs2 m false V (stmt w p) (stmt w p).
Proof. intros K H. unfold stmt. eapply bs_map; [eapply bs_pair; [gb|exact H]|]. now intros [x x'] [y y'] [_ X]. Qed.
Lemma bs_load m : bs2 m false (tls m leaves_load) load_stmt load_stmt.
Proof.
  unfold load_stmt. eapply bs_map; [gb|]. intros (w & s & i & r) (w' & s' & i' & r') (_ & A & B & C). cbn [fst snd] in *. subst s'. apply tb_may in C.
  now apply (tb_2 m (fun i r => MkLoad i s r) (fun _ => leaves_iri) (fun _ => of_opt leaves_iri)).
Qed.
Lemma bs_clear m : bs2 m false (tls m leaves_clear) clear_stmt clear_stmt.
Proof. unfold clear_stmt. eapply bs_map; [apply bs_stmt; [reflexivity|gb]|]. vb. Qed.
Lemma bs_drop m : bs2 m false (tls m leaves_drop) drop_stmt drop_stmt.
Proof. unfold drop_stmt. eapply bs_map; [apply bs_stmt; [reflexivity|gb]|]. vb. Qed.
Lemma bs_create m : bs2 m false (tls m leaves_create) create_stmt create_stmt.
Proof. unfold create_stmt. gb. Qed.
Lemma bs_copy m : bs2 m false (tls m leaves_copy) copy_stmt copy_stmt.
Proof. unfold copy_stmt. eapply bs_map; [apply bs_stmt; [reflexivity|gb]|]. vb. Qed.
Lemma bs_insert_data m : bs2 m false (tls m leaves_quads) insert_data insert_data.
Proof. unfold insert_data. gb. Qed.
Lemma bs_delete_data m : bs2 m false (tls m leaves_quads) delete_data delete_data.
Proof. unfold delete_data. gb. Qed.
Lemma bs_delete_where_data m : bs2 m false (tls m leaves_quads) delete_where_data delete_where_data.
Proof. unfold delete_where_data. gb. Qed.
Lemma bs_delete_insert m : bs2 m false (tls m leaves_delete_insert) delete_insert delete_insert.
Proof. unfold delete_insert. gb. Qed.
Global Hint Resolve bs_load bs_clear bs_drop bs_create bs_copy bs_insert_data bs_delete_data bs_delete_where_data bs_delete_insert : bs.
Lemma bs_modify m : bs2 m false (tsp m leaves_modify) modify_stmt modify_stmt.
Proof. unfold modify_stmt. gb. Qed.
Global Hint Resolve bs_modify : bs.
Lemma bs_update_stmt m : bs2 m false (tsp m leaves_update_stmt) update_stmt update_stmt.
Proof.
  unfold update_stmt.
  apply bs_alt; [reflexivity| eapply bs_map; [apply bs_load|]; intros x y; apply (tb_1 m UsLoad); now intros n [i s g]|].
  apply bs_alt; [reflexivity| eapply bs_map; [apply bs_clear|]; intros x y; apply (tb_1 m UsClear); now intros n [s g]|].
  apply bs_alt; [reflexivity| eapply bs_map; [apply bs_drop|]; intros x y; apply (tb_1 m UsDrop); now intros n [s g]|].
  apply bs_alt; [reflexivity| eapply bs_map; [apply bs_create|]; intros x y; apply (tb_1 m UsCreate); now intros n [s g]|].
  apply bs_alt; [reflexivity| eapply bs_map; [apply bs_copy|]; intros x y; apply (tb_1 m UsCopy); now intros n [s g t]|].
  do 3 (apply bs_alt; [reflexivity| gb|]).
  apply bs_alt; [reflexivity| eapply bs_map; [apply bs_modify|]; intros x y; apply (tb_1 m UsModify); now intros n [i d u w]|apply bs_alt_nil].
Qed.
Global Hint Resolve bs_update_stmt : bs.
Lemma bs_update_body m u u' : bs2 m false (tsp m leaves_update) u u' -> bs2 m false (tsp m leaves_update) (update_body u) (update_body u').
Proof.
  intros H'. unfold update_body.
  eapply bs_map; [eapply bs_pair; [gb|eapply bs_opt; eapply bs_pair; [gb|eapply bs_opt; eapply bs_preceded; [gb|apply H']]]|].
  intros [p o] [p' o'] [A B]. cbn [fst snd] in *. destruct o as [[s i]|], o' as [[s' i']|]; try contradiction.
  - destruct B as [B C]. cbn [fst snd] in *. apply tb_may in C.
    now apply (tb_3 m (fun p s i => MkUpdate p (Some s) i) (fun _ => leaves_prologue) leaves_update_stmt (fun n => of_opt (leaves_update n))).
  - apply (tb_1 m (fun p => MkUpdate p None None) (fun _ => leaves_prologue)); auto. intros n x. apply app_nil_r.
Qed.
Lemma bs_update m : bs2 m false (tsp m leaves_update) update update.
Proof. apply bs_fixp. intros p q. apply bs_update_body. Qed.


(** ** The answers *)
Lemma bs_answer {A} m L (p : parser A) i j : (forall i, p i <> Err OutOfFuel) -> bs m false (tsp m L) p -> squeeze i = squeeze j -> (m = true -> ~ In 34 i /\ ~ In 39 i) ->
  match p i, p j with
  | Ok r a, Ok r' a' => flat r = flat r' /\ tsp m L a a'
  | Err (Error _ _), Err (Error _ _) | Err (Failure _ _), Err (Failure _ _) | Err Incomplete, Err Incomplete | Err Panic, Err Panic => True
  | _, _ => False
  end.
Proof.
  intros F C E Q. destruct (C false i j (conj E Q)) as [X|[X|X]]; [now apply F in X|now apply F in X|].
  pose proof (F i) as F1. pose proof (F j) as F2.
  destruct (p i) as [r a|e], (p j) as [r' a'|e']; try contradiction.
  - destruct X as (V & u & u' & _ & _ & _ & _ & S). split; [apply (sqz_flat _ r r' (proj1 S))|exact V].
  - destruct e, e'; try discriminate X; try exact I; congruence.
Qed.
Lemma tsp_spaced {A} m (L : nat -> A -> list leaf) a a' : tsp m L a a' -> tree_spaced L a a'.
Proof.
  intros [F Q]. split; [|exact Q]. intros n. specialize (F n). induction F as [|x y l l' H F IH]; constructor; auto. destruct x, y; cbn in *; auto; try discriminate. split; apply H.
Qed.
Lemma tsp_same {A} (L : nat -> A -> list leaf) a a' : tsp true L a a' -> a = a'.
Proof.
  intros [F Q]. apply Q. intros n. specialize (F n). induction F as [|x y l l' H F IH]; [reflexivity|]. f_equal; [|exact IH]. destruct x, y; cbn in H; try discriminate; auto. destruct H as (-> & _ & H). f_equal. now apply H.
Qed.
Lemma answer_spaced {A} L (p : parser A) i j : (forall i, p i <> Err OutOfFuel) -> bs false false (tsp false L) p -> squeeze i = squeeze j ->
  match p i, p j with
  | Ok r a, Ok r' a' => flat r = flat r' /\ tree_spaced L a a'
  | Err (Error _ _), Err (Error _ _) | Err (Failure _ _), Err (Failure _ _) | Err Incomplete, Err Incomplete | Err Panic, Err Panic => True
  | _, _ => False
  end.
Proof.
  intros F C E. pose proof (bs_answer false L p i j F C E ltac:(discriminate)) as H. destruct (p i), (p j); auto. split; [apply H|]. eapply tsp_spaced, H.
Qed.
Lemma answer_same {A} L (p : parser A) i j r a : (forall i, p i <> Err OutOfFuel) -> bs true false (tsp true L) p -> squeeze i = squeeze j -> ~ In 34 i -> ~ In 39 i ->
  p i = Ok r a -> exists r', p j = Ok r' a /\ flat r = flat r'.
Proof.
  intros F C E A1 A2 P. pose proof (bs_answer true L p i j F C E ltac:(auto)) as H. rewrite P in H. destruct (p j) as [r' a'|e]; [|contradiction].
  exists r'. destruct H as [X Y]. rewrite (tsp_same L a a' Y). auto.
Qed.
(** squeezing twice is squeezing once *)
Lemma squeeze_twice i : squeeze (squeeze i) = squeeze i.
Proof.
  unfold squeeze. assert (X : forall i h a, squeeze_from h a (squeeze_from h a i) = squeeze_from h a i).
  { clear. induction i as [|c r IH]; intros h a; [reflexivity|]. cbn [squeeze_from]. destruct (gap h c) eqn:G.
    - destruct a; cbn [app]; [apply IH|]. cbn [squeeze_from]. change (gap h 32) with true. cbn [app]. now rewrite IH.
    - cbn [squeeze_from]. rewrite G. now rewrite IH. }
  apply X.
Qed.
