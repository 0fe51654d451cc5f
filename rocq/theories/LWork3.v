(** The number of calls: the recursive functions and whole queries. *)
From Verif Require Import LGood2 MQuery LDepth LDepth2.
From Verif Require Export LWork2.
Notation length := List.length (only parsing).
Open Scope N_scope.
Open Scope list_scope.

Lemma bound_unit n B : bound 1 0 n B = B.
Proof. unfold bound. rewrite N.pow_0_r. lia. Qed.
Lemma cb_norm {A} m n B B' c k (p : cparser A) : cb m n B false c k p -> bound c k n B <= B' -> cb m n B' false 1 0 p.
Proof. intros H L i Hi Hn. destruct (H i Hi Hn) as [E O]. split; [|exact O]. rewrite bound_unit. etransitivity; [exact E|exact L]. Qed.
Lemma cb_none {A} n B b c k (p : cparser A) : cb 0 n B b c k p.
Proof. intros i Hi. lia. Qed.
Lemma cb_stop {A} m n B b c k : cb m n B b c k (fun _ => (Err OutOfFuel, 0) : res A * N).
Proof. intros i _ _. split; [apply N.le_0_l|discriminate]. Qed.
Lemma cb_fixp {A} m n B (body : cparser A -> cparser A) : (forall f, cb m n B false 1 0 (t_iter f body)) -> cb m n B false 1 0 (t_fixp body).
Proof. intros H i Hi Hn. unfold t_fixp. now apply H. Qed.
Definition power (c k : N) (n j : nat) : N := (c * (N.of_nat n + 2) ^ k) ^ N.of_nat j.
Lemma factor_pos c k n : 1 <= c -> 1 <= c * (N.of_nat n + 2) ^ k.
Proof. intros H. assert (1 <= (N.of_nat n + 2) ^ k) by (rewrite <- (N.pow_1_l k); apply N.pow_le_mono_l; lia). nia. Qed.
Lemma power_pos c k n j : 1 <= c -> 1 <= power c k n j.
Proof. intros H. unfold power. rewrite <- (N.pow_1_l (N.of_nat j)). apply N.pow_le_mono_l. now apply factor_pos. Qed.
Lemma power_S c k n j : power c k n (S j) = bound c k n (power c k n j).
Proof. unfold power, bound. now rewrite Nat2N.inj_succ, N.pow_succ_r'. Qed.
Lemma bound_bound c1 c2 k1 k2 n B : bound c1 k1 n (bound c2 k2 n B) = bound (c1 * c2) (k1 + k2) n B.
Proof. unfold bound. rewrite N.pow_add_r. lia. Qed.
Lemma power_le c c' k k' n j : c <= c' -> k <= k' -> power c k n j <= power c' k' n j.
Proof. intros C K. unfold power. apply N.pow_le_mono_l. apply N.mul_le_mono; [exact C|now apply pow_le]. Qed.
Lemma cb_iter {A} n c k (body : cparser A -> cparser A) :
  (forall m B p, 1 <= B -> cb (pred m) n B false 1 0 p -> cb m n B false c k (body p)) ->
  forall m f, cb m n (power (c + 1) k n m) false 1 0 (t_iter f body).
Proof.
  intros H. induction m as [|m IH]; intros f; [apply cb_none|]. destruct f as [|f]; [apply cb_stop|]. cbn [t_iter].
  rewrite power_S. eapply cb_norm; [|reflexivity]. apply cb_tick; [apply power_pos; lia|]. apply H; [apply power_pos; lia|]. apply IH.
Qed.
Lemma cb_path_alternative m n : cb m n (power 3 2 n m) false 1 0 t_path_alternative.
Proof. apply cb_fixp. apply (cb_iter n 2 2). intros. now apply cb_path_alternative_body. Qed.
Lemma cb_up {A} m n B B' (p : cparser A) : cb m n B false 1 0 p -> B <= B' -> cb m n B' false 1 0 p.
Proof. intros H L. eapply cb_more; [exact H|reflexivity|reflexivity|exact L]. Qed.
Lemma cb_graph_node_path m n : cb m n (power 5 2 n m) false 1 0 t_graph_node_path.
Proof.
  apply cb_fixp. intros f. revert f. induction m as [|m IH]; intros f; [apply cb_none|]. destruct f as [|f]; [apply cb_stop|]. cbn [t_iter].
  rewrite power_S. eapply cb_norm; [|reflexivity]. apply (cb_tick _ _ _ _ 4); [apply power_pos; lia|].
  apply cb_graph_node_path_body; [|apply IH]. eapply cb_up; [apply cb_path_alternative|apply power_le; lia].
Qed.
Lemma cb_block m n : cb m n (bound 10 3 n (power 5 2 n m)) false 1 0 t_triples_block.
Proof.
  eapply cb_norm; [|reflexivity]. apply cb_triples_block; [|apply cb_graph_node_path].
  eapply cb_up; [apply cb_path_alternative|apply power_le; lia].
Qed.

(** the factors of one level of brackets: 23411 * 316 and 5 + 2 *)
Definition level (n j : nat) : N := power 7397876 7 n j.
Lemma level_S n j : level n (S j) = bound 23411 5 n (bound 316 2 n (level n j)).
Proof. unfold level. now rewrite power_S, bound_bound. Qed.
Lemma level_pos n j : 1 <= level n j. Proof. now apply power_pos. Qed.
Lemma block_level n m : cb m n (level n m) false 1 0 t_triples_block.
Proof.
  destruct m as [|m]; [apply cb_none|]. eapply cb_up; [apply cb_block|]. rewrite power_S, bound_bound. unfold level. rewrite power_S.
  apply bound_mono; [lia|lia|apply power_le; lia].
Qed.
Definition expr_body (e : cparser Expression) : cparser Expression := t_expression_body e (t_ggp_of e).
Lemma cb_ggp_of n M (e : cparser Expression) : (forall j, (j <= M)%nat -> cb j n (level n j) false 1 0 e) ->
  forall j, (j <= M)%nat -> cb (S j) n (bound 316 2 n (level n j)) false 1 0 (t_ggp_of e).
Proof.
  intros He j Hj. apply cb_fixp. induction j as [|j IH]; (intros [|f]; [apply cb_stop|]); cbn [t_iter];
    (eapply cb_norm; [|reflexivity]); (apply (cb_tick _ _ _ _ 315); [apply level_pos|]); apply cb_ggp_body; cbn [pred].
  - now apply He.
  - apply cb_none.
  - apply block_level.
  - now apply He.
  - eapply cb_up; [apply IH; lia|]. rewrite level_S. unfold bound at 2. rewrite <- (N.mul_1_l (bound 316 2 n (level n j))) at 1.
    apply N.mul_le_mono_r, factor_pos. lia.
  - apply block_level.
Qed.
Lemma cb_expr_iter n : forall m j f, (j <= m)%nat -> cb j n (level n j) false 1 0 (t_iter f expr_body).
Proof.
  induction m as [|m IH]; intros [|j] f Hj; try apply cb_none; [lia|]. destruct f as [|f]; [apply cb_stop|]. cbn [t_iter].
  rewrite level_S. eapply cb_norm; [|reflexivity]. apply (cb_tick _ _ _ _ 23410).
  { rewrite <- (bound_unit n 1). apply bound_mono; [lia|lia|apply level_pos]. }
  apply cb_expression_body; cbn [pred].
  - eapply cb_up; [apply IH; lia|]. rewrite <- (bound_unit n (level n j)) at 1. apply bound_mono; lia.
  - apply (cb_ggp_of n m); [|lia]. intros k Hk. now apply IH.
Qed.
Lemma cb_expression n m : cb m n (level n m) false 1 0 t_expression.
Proof. apply cb_fixp. intros f. now apply (cb_expr_iter n m). Qed.
Lemma cb_group n m : cb m n (level n m) false 1 0 t_group_graph_pattern.
Proof.
  destruct m as [|m]; [apply cb_none|]. eapply cb_up; [apply (cb_ggp_of n m); [intros; apply cb_expression|lia]|].
  rewrite level_S, <- (N.mul_1_l (bound 316 2 n (level n m))) at 1. unfold bound at 2. apply N.mul_le_mono_r, factor_pos. lia.
Qed.
Lemma query_calls i : snd (t_sparql_query_stmt i) <=
  1150 * (N.of_nat (length i) + 2) ^ 2 * (7397876 * (N.of_nat (length i) + 2) ^ 7) ^ (N.of_nat (openings i) + 1).
Proof.
  destruct (cb_sparql_query_stmt (S (openings i)) (length i) _ (cb_expression _ _) (cb_group _ _) i) as [H _]; [lia|lia|].
  unfold bound, level, power in H. rewrite Nat2N.inj_succ, <- N.add_1_r in H. exact H.
Qed.
Lemma polynomial_calls b i : (openings i <= b)%nat -> snd (t_sparql_query_stmt i) <=
  1150 * 7397876 ^ (N.of_nat b + 1) * (N.of_nat (length i) + 2) ^ (7 * N.of_nat b + 9).
Proof.
  intros H. etransitivity; [apply query_calls|]. etransitivity.
  { apply N.mul_le_mono_l. apply (N.pow_le_mono_r _ (N.of_nat (openings i) + 1) (N.of_nat b + 1)); [|lia].
    apply N.neq_0_lt_0. pose proof (factor_pos 7397876 7 (length i)). lia. }
  rewrite N.pow_mul_l, <- N.pow_mul_r. replace (7 * N.of_nat b + 9) with (2 + 7 * (N.of_nat b + 1)) by lia.
  rewrite (N.pow_add_r (N.of_nat (length i) + 2) 2).
  generalize ((N.of_nat (length i) + 2) ^ 2) ((N.of_nat (length i) + 2) ^ (7 * (N.of_nat b + 1))) (7397876 ^ (N.of_nat b + 1)). intros x y z. nia.
Qed.

(** ** requests *)
Lemma cb_modify_stmt m n B : cb m n B false 1 0 t_group_graph_pattern -> cb m n B false 1 0 t_modify_stmt.
Proof. cbp t_modify_stmt. Qed.
Lemma cb_update_stmt m n B : cb m n B false 1 0 t_group_graph_pattern -> cb m n B false 1 0 t_update_stmt.
Proof. intros H. pose proof (cb_modify_stmt m n B H). unfold t_update_stmt. eapply cb_exact; [cbt|reflexivity|reflexivity]. Qed.
(** What a sequence costs. *)
Lemma pair_cost {A C} (p : cparser A) (q : cparser C) i a b : snd (p i) <= a -> (forall r x, fst (p i) = Ok r x -> snd (q r) <= b) -> snd (t_pair p q i) <= a + b.
Proof.
  intros Hp Hq. unfold t_pair. destruct (p i) as [[r x|e] y]; cbn [fst snd] in *; [|lia]. specialize (Hq r x eq_refl).
  destruct (q r) as [[r' z|e] w]; cbn [snd] in *; lia.
Qed.
Lemma map_cost {A C} (p : cparser A) (f : A -> C) i : snd (t_map p f i) = snd (p i).
Proof. unfold t_map. destruct (p i) as [[r x|e] y]; reflexivity. Qed.
Lemma opt_cost {A} (p : cparser A) i : snd (t_opt p i) = snd (p i).
Proof. unfold t_opt. destruct (p i) as [[r x|[]] y]; reflexivity. Qed.
Lemma semi_shorter i r a : sp_enc (chr (c_ ";")) i = Ok r a -> suffix r i /\ (length r < length i)%nat.
Proof.
  intros H. assert (G : good true INever false (sp_enc (chr (c_ ";")))) by (intros n; eapply sim_weaken; [sg | reflexivity ..]).
  pose proof (good_elim _ _ _ _ G i) as O. rewrite H in O. destruct O as [O L]. split; [exact O|now apply L].
Qed.
Lemma update_cost m n B : cb m n B false 1 0 t_update_stmt -> forall f i, (openings i < m)%nat -> (length i <= n)%nat ->
  snd (t_iter f t_update_body i) <= (N.of_nat (length i) + 1) * (B + 1).
Proof.
  intros H. assert (HP : cb m n B false 0 0 (lift prologue)) by (eapply cb_ag; ag_leaf).
  assert (HS : cb m n B false 1 0 (t_preceded sp t_update_stmt)).
  { eapply cb_exact; [eapply cb_preceded; [eapply cb_ag; ag_leaf|exact H]|reflexivity|reflexivity]. }
  induction f as [|f IH]; intros i Hi Hn; [apply N.le_0_l|]. cbn [t_iter]. unfold tick.
  enough (Q : snd (t_update_body (t_iter f t_update_body) i) <= 0 + (B + N.of_nat (length i) * (B + 1))).
  { destruct (t_update_body (t_iter f t_update_body) i) as [x y]. cbn [snd] in *. lia. }
  unfold t_update_body at 1. rewrite map_cost. apply pair_cost; [reflexivity|]. intros i1 p1 R1.
  destruct (proj2 (HP i Hi Hn) _ _ R1) as [S1 _]. pose proof (suffix_length _ _ S1) as L1. pose proof (openings_suffix _ _ S1) as M1.
  rewrite opt_cost. apply pair_cost.
  { destruct (HS i1 ltac:(lia) ltac:(lia)) as [E _]. now rewrite bound_unit in E. }
  intros i2 p2 R2. destruct (proj2 (HS i1 ltac:(lia) ltac:(lia)) _ _ R2) as [S2 _]. pose proof (suffix_length _ _ S2) as L2. pose proof (openings_suffix _ _ S2) as M2.
  rewrite opt_cost. unfold t_preceded. rewrite map_cost, <- (N.add_0_l (_ * _)). apply pair_cost; [reflexivity|]. intros i3 p3 R3.
  apply semi_shorter in R3. destruct R3 as [S3 L3]. pose proof (openings_suffix _ _ S3) as M3.
  etransitivity; [apply IH; lia|]. apply N.mul_le_mono_r. lia.
Qed.
Lemma request_calls i : snd (t_update i) <=
  (N.of_nat (length i) + 1) * ((7397876 * (N.of_nat (length i) + 2) ^ 7) ^ (N.of_nat (openings i) + 1) + 1).
Proof.
  unfold t_update, t_fixp. pose proof (update_cost (S (openings i)) (length i) _ (cb_update_stmt _ _ _ (cb_group _ _)) (S (length i)) i) as H.
  unfold level, power in H. rewrite Nat2N.inj_succ, <- N.add_1_r in H. apply H; lia.
Qed.
