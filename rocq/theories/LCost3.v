(** Nested calls of STRLEN in the condition of a request: lower bounds for [update]. *)
From Verif Require Import LMods LC8 LDepth2.
From Verif Require Export LCost2.
From Verif Require Import MUpdate Nom.
Notation length := List.length (only parsing).
Open Scope N_scope.
Open Scope list_scope.

Definition insert_head : str := s_ "INSERT { } USING <g> WHERE ".
Definition insert_of (x : GroupGraphPattern) : Update :=
  MkUpdate (MkPrologue []) (Some (UsModify (MkModify None (DiInsert (MkQuads None [])) [DonDefault (IriIri (s_ "g"))] x))) None.

Lemma insert_no_prologue b : prologue (insert_head ++ 123 :: b) = Ok (insert_head ++ 123 :: b) (MkPrologue []).
Proof. reflexivity. Qed.
Lemma insert_sp b : sp (insert_head ++ 123 :: b) = Ok (insert_head ++ 123 :: b) [].
Proof. apply sp_solid. split; [cbn; intuition discriminate | discriminate]. Qed.
Lemma insert_template b : terminated delete_insert sp (insert_head ++ 123 :: b) = Ok (s_ "USING <g> WHERE " ++ 123 :: b) (DiInsert (MkQuads None [])).
Proof. reflexivity. Qed.
Lemma insert_where b : sp_enc1 (tag_no_case (s_ "where")) (s_ " WHERE " ++ 123 :: b) = Ok (123 :: b) (s_ "WHERE").
Proof.
  eapply (delimited_ok _ _ _ _ (s_ "WHERE " ++ 123 :: b) (32 :: 123 :: b)); [reflexivity|reflexivity|].
  apply (sp1_ok [32] (123 :: b)); [split; [exact blank_one|discriminate]|apply solid_open].
Qed.
Lemma insert_using b : separated_list sp using_clause (s_ "USING <g> WHERE " ++ 123 :: b) = Ok (s_ " WHERE " ++ 123 :: b) [DonDefault (IriIri (s_ "g"))].
Proof. reflexivity. Qed.
Lemma insert_first b : fails load_stmt (insert_head ++ 123 :: b) /\ fails clear_stmt (insert_head ++ 123 :: b) /\ fails drop_stmt (insert_head ++ 123 :: b) /\
  fails create_stmt (insert_head ++ 123 :: b) /\ fails copy_stmt (insert_head ++ 123 :: b) /\ fails insert_data (insert_head ++ 123 :: b) /\
  fails delete_data (insert_head ++ 123 :: b) /\ fails delete_where_data (insert_head ++ 123 :: b).
Proof. repeat split; eexists _, _; reflexivity. Qed.

Lemma insert_accepts b x : group_graph_pattern (123 :: b) = Ok [] x -> update (insert_head ++ 123 :: b) = Ok [] (insert_of x).
Proof.
  intros R. rewrite update_eq. unfold update_body.
  set (s := UsModify (MkModify None (DiInsert (MkQuads None [])) [DonDefault (IriIri (s_ "g"))] x)).
  apply (map_ok _ _ _ _ (MkPrologue [], Some (s, None))); [|reflexivity].
  eapply pair_ok; [apply insert_no_prologue|]. apply opt_some. apply (pair_ok _ _ _ [] _ s); [|apply opt_none; eexists _, _; reflexivity].
  eapply preceded_ok; [apply insert_sp|]. unfold update_stmt. destruct (insert_first b) as (F1 & F2 & F3 & F4 & F5 & F6 & F7 & F8).
  do 8 (apply alt_next; [apply map_fails; assumption|]). apply alt_first. eapply map_ok; [|reflexivity].
  unfold modify_stmt. apply (map_ok _ _ _ _ (None, (DiInsert (MkQuads None []), ([DonDefault (IriIri (s_ "g"))], (s_ "WHERE", x))))); [|reflexivity].
  eapply pair_ok; [apply opt_none; eexists _, _; reflexivity|]. eapply pair_ok; [apply insert_template|].
  eapply pair_ok; [apply insert_using|]. eapply pair_ok; [apply insert_where|exact R].
Qed.
Lemma insert_cost b n : n <= snd (t_group_graph_pattern (123 :: b)) -> n <= snd (t_update (insert_head ++ 123 :: b)).
Proof.
  intros C. unfold t_update, t_fixp. set (m := length _). set (u := t_iter m t_update_body).
  change (t_iter (S m) t_update_body) with (tick (t_update_body u)).
  apply N.le_trans with (n + 1); [lia|]. apply tick_cost. unfold t_update_body. apply co_map.
  eapply co_pair2; [apply insert_no_prologue|]. apply co_opt, co_pair1, co_map. eapply co_pair2; [apply insert_sp|].
  unfold t_update_stmt. destruct (insert_first b) as (F1 & F2 & F3 & F4 & F5 & F6 & F7 & F8).
  do 8 (apply co_alt_next; [eexists _, _; reflexivity|]). apply co_alt_first, co_map. unfold t_modify_stmt. apply co_map.
  eapply co_pair2; [reflexivity|]. eapply co_pair2; [apply insert_template|].
  eapply co_pair2; [apply insert_using|]. eapply co_pair2; [apply insert_where|exact C].
Qed.
Lemma request_accepted k : let i := s_ "INSERT { } USING <g> WHERE { FILTER (" ++ calls_text k ++ s_ ") }" in
  length i = (11 * k + 41)%nat /\ update i = Ok [] (insert_of (filter_tree k)) /\ 2 ^ N.of_nat k <= snd (t_update i).
Proof.
  cbv zeta. split; [|split].
  - rewrite !app_length, calls_length. change (length (s_ "INSERT { } USING <g> WHERE { FILTER (")) with 37%nat. change (length (s_ ") }")) with 3%nat. lia.
  - exact (insert_accepts (32 :: filter_text k) _ (filter_read k)).
  - exact (insert_cost (32 :: filter_text k) _ (filter_cost k)).
Qed.
Lemma requests_beyond c d : exists i u, update i = Ok [] u /\ c * N.of_nat (length i) ^ d < snd (t_update i).
Proof.
  destruct (beats (c * 2 ^ d) d) as (k & B & K). destruct (request_accepted k) as (L & E & C). eexists _, _. split; [exact E|].
  eapply N.le_lt_trans; [|eapply N.lt_le_trans; [exact B|exact C]]. rewrite <- N.mul_assoc, <- N.pow_mul_l.
  apply N.mul_le_mono_l, N.pow_le_mono_l. rewrite L. lia.
Qed.
