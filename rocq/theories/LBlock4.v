(** Blocks that are read can be put into groups, expressions and queries. *)
From Verif Require Import LMods LC8 LGen4.
From Verif Require Export LBlock3.
From Verif Require Import Nom.
Notation length := List.length (only parsing).
Open Scope N_scope.
Open Scope list_scope.

Lemma block_iff t x r g : block t -> (group_graph_pattern (t ++ x) = Ok r g <-> r = x /\ group_graph_pattern t = Ok [] g).
Proof.
  intros B. destruct (block_local t x B) as [E R]. rewrite E. split.
  - destruct (group_graph_pattern t) as [r' a|[]]; cbn [shifted]; try discriminate. intros X. injection X as <- <-. now rewrite (R r' a eq_refl).
  - intros [-> ->]. reflexivity.
Qed.
Lemma block_error t x p k : block t -> group_graph_pattern t = Err (Error p k) -> group_graph_pattern (t ++ x) = Err (Error (p ++ x) k).
Proof. intros B H. rewrite (proj1 (block_local t x B)), H. reflexivity. Qed.
Lemma block_failure t x p k : block t -> group_graph_pattern t = Err (Failure p k) -> group_graph_pattern (t ++ x) = Err (Failure (p ++ x) k).
Proof. intros B H. rewrite (proj1 (block_local t x B)), H. reflexivity. Qed.
Lemma rd_block g : rd group_graph_pattern g (fun t _ => block t /\ group_graph_pattern t = Ok [] g).
Proof. intros t r [B H]. apply block_iff; auto. Qed.
Lemma blocks_in_group g t r : ggp_layout W_expression (fun g t _ => block t /\ group_graph_pattern t = Ok [] g) g t r -> group_graph_pattern (t ++ r) = Ok r g.
Proof. apply (rd_ggp_layout W_expression _ rd_expression rd_block). Qed.
Lemma blocks_in_expression e t r : expression_layout W_expression (fun g t _ => block t /\ group_graph_pattern t = Ok [] g) e t r -> expression (t ++ r) = Ok r e.
Proof. apply (rd_expression_layout W_expression _ rd_expression rd_block). Qed.

(** ** ASK *)
Lemma block_first t : block t -> exists y, t = 123 :: y.
Proof. intros (i & -> & _). eauto. Qed.
Lemma modifier_nil : solution_modifier [] = Ok [] (MkSolutionModifier None None None None).
Proof. vm_compute. reflexivity. Qed.
Lemma ask_block t0 t : W_ask_open t0 t -> block t ->
  ((exists r q, sparql_query_stmt (t0 ++ t) = Ok r q) <-> exists g, group_graph_pattern t = Ok [] g).
Proof.
  intros O B. destruct (block_first t B) as [y ->]. apply open_inv in O. destruct O as (p & u0 & b0 & w & b & -> & P & B0 & W & Bb). rewrite <- !app_assoc. split.
  - intros (r & q & E).
    destruct (ask_inv p u0 b0 w b y r q P B0 W Bb E) as (k & g & X). pose proof (proj2 (block_local _ [] B) _ _ X) as ->. eauto.
  - intros [g H]. assert (BG : begins "ask" (w ++ b ++ 123 :: y)) by now exists w, (b ++ 123 :: y).
    assert (F : forall k, differ (s_ "ask") (s_ k) = true -> low_ascii (s_ k) = true -> word_like k = true -> fails (tag_no_case (s_ k)) (w ++ b ++ 123 :: y)).
    { intros k D L _. apply (nf_kw k "ask"); auto. }
    assert (A : ask_query (w ++ b ++ 123 :: y) = Ok [] (MkAskQuery [] g (MkSolutionModifier None None None None))).
    { apply (map_ok _ _ _ _ (w, ([], (g, MkSolutionModifier None None None None)))); [|reflexivity].
      eapply pair_ok; [eapply terminated_ok; [now apply (tnc_ok (s_ "ask") w)|apply sp1_ok; [exact Bb|now apply char_solid]]|].
      eapply pair_ok; [apply no_datasets|]. eapply pair_ok; [|exact modifier_nil].
      eapply (terminated_ok _ _ _ []); [|reflexivity]. eapply preceded_ok; [apply opt_none; apply terminated_fails1; eexists _, _; reflexivity|]. exact H. }
    eexists [], _. apply (map_ok _ _ _ _ (p, (SqAsk (MkAskQuery [] g (MkSolutionModifier None None None None)), None))); [|reflexivity].
    eapply pair_ok; [eapply terminated_ok; [exact (rd_prologue p u0 _ P)|apply (sp_ok b0 _ B0), (begins_solid "ask" _ eq_refl BG)]|].
    eapply (pair_ok _ _ _ []); [|reflexivity]. unfold sparql_query.
    apply alt_next; [apply map_fails, map_fails, pair_fails1, terminated_fails1, map_fails, pair_fails1; now apply (F "select"%string)|].
    apply alt_next; [apply map_fails, tag1_fails; now apply (F "construct"%string)|].
    apply alt_next; [apply map_fails, map_fails, pair_fails1; now apply (F "describe"%string)|].
    apply alt_first. eapply map_ok; [exact A|reflexivity].
Qed.

(** ** Finding the end of a block by computation, for the examples *)
Fixpoint skip_string (q : char) (i : str) : option str :=
  match i with
  | [] => None
  | c :: j => if c =? q then Some j else if c =? 92 then match j with [] => None | _ :: k => skip_string q k end else skip_string q j
  end.
Fixpoint skip_line (i : str) : option str :=
  match i with [] => None | c :: j => if (c =? 10) || (c =? 13) then Some j else skip_line j end.
Fixpoint skip_iri (i : str) : option str :=
  match i with [] => None | c :: j => if c =? 62 then Some j else if iri_char c then skip_iri j else None end.
Fixpoint ends_b (n d : nat) (i : str) : bool :=
  match n, d, i with
  | S n, O, [] => true
  | S n, S d', c :: j =>
      if c =? 123 then ends_b n (S d) j
      else if c =? 125 then ends_b n d' j
      else if (c =? 34) || (c =? 39) then match skip_string c j with Some k => ends_b n d k | None => false end
      else if c =? 35 then match skip_line j with Some k => ends_b n d k | None => false end
      else if c =? 60 then ends_b n d j && match skip_iri j with Some k => ends_b n d k | None => true end
      else if c =? 92 then match j with y :: k => existsb (N.eqb y) (s_ "_~.-!$&'()*+,;=/?#@%") && ends_b n d k | [] => false end
      else ends_b n d j
  | _, _, _ => false
  end.
Lemma skip_string_ok q n : q <> 92 -> forall i k, (length i < n)%nat -> skip_string q i = Some k -> exists u, i = u ++ q :: k /\ inside q u.
Proof.
  intros Q. induction n as [|n IH]; intros i k L H; [lia|]. destruct i as [|c j]; cbn [skip_string] in H; [discriminate|]. cbn [length] in L.
  destruct (c =? q) eqn:E; [apply N.eqb_eq in E; injection H as <-; subst; exists []; split; [reflexivity|constructor]|]. apply N.eqb_neq in E.
  destruct (c =? 92) eqn:E'.
  - apply N.eqb_eq in E'. subst c. destruct j as [|y j]; [discriminate|]. cbn [length] in L. destruct (IH j k ltac:(lia) H) as (u & -> & I). exists (92 :: y :: u). split; [reflexivity|now constructor].
  - apply N.eqb_neq in E'. destruct (IH j k ltac:(lia) H) as (u & -> & I). exists (c :: u). split; [reflexivity|now constructor].
Qed.
Lemma skip_line_ok i k : skip_line i = Some k -> exists u c, i = u ++ c :: k /\ ~ In 10 u /\ ~ In 13 u /\ (c = 10 \/ c = 13).
Proof.
  induction i as [|c j IH]; cbn [skip_line]; [discriminate|]. destruct (c =? 10) eqn:E; cbn [orb].
  - intros H. injection H as <-. apply N.eqb_eq in E. exists [], c. cbn. tauto.
  - destruct (c =? 13) eqn:E'.
    + intros H. injection H as <-. apply N.eqb_eq in E'. exists [], c. cbn. tauto.
    + intros H. apply N.eqb_neq in E, E'. destruct (IH H) as (u & y & -> & A & B & C). exists (c :: u), y. cbn. repeat split; auto; intros [X|X]; auto.
Qed.
Lemma skip_iri_ok u k : all iri_char u -> skip_iri (u ++ 62 :: k) = Some k.
Proof.
  induction u as [|c u IH]; intros F; cbn [app skip_iri]; [reflexivity|]. pose proof (Forall_inv F) as X. cbv beta in X. rewrite X.
  destruct (c =? 62) eqn:E; [|exact (IH (Forall_inv_tail F))]. apply N.eqb_eq in E. subst. discriminate X.
Qed.
Lemma ends_b_ok n : forall d i, ends_b n d i = true -> ends d i.
Proof.
  induction n as [|n IH]; intros d i H; [discriminate|]. cbn [ends_b] in H. destruct d as [|d], i as [|c j]; try discriminate; [constructor|].
  destruct (c =? 123) eqn:E1; [apply N.eqb_eq in E1; subst; constructor; now apply IH|].
  destruct (c =? 125) eqn:E2; [apply N.eqb_eq in E2; subst; constructor; now apply IH|].
  destruct ((c =? 34) || (c =? 39)) eqn:E3.
  { destruct (skip_string c j) as [k|] eqn:S; [|discriminate]. assert (Q : c = 34 \/ c = 39) by (apply orb_true_iff in E3; rewrite !N.eqb_eq in E3; exact E3).
    apply (skip_string_ok c (Datatypes.S (length j))) in S; [|destruct Q; subst; discriminate|lia]. destruct S as (u & -> & I). constructor; auto. }
  destruct (c =? 35) eqn:E4.
  { destruct (skip_line j) as [k|] eqn:S; [|discriminate]. apply skip_line_ok in S. destruct S as (u & y & -> & A & B & C). apply N.eqb_eq in E4. subst. now constructor; auto. }
  destruct (c =? 60) eqn:E5.
  { apply andb_true_iff in H. destruct H as [H1 H2]. apply N.eqb_eq in E5. subst. constructor; [now apply IH|]. intros u i' F ->. rewrite (skip_iri_ok u i' F) in H2. now apply IH. }
  destruct (c =? 92) eqn:E6.
  { destruct j as [|y k]; [discriminate|]. apply andb_true_iff in H. destruct H as [H1 H2]. apply N.eqb_eq in E6. subst. constructor; [|now apply IH].
    apply existsb_exists in H1. destruct H1 as (z & I & X). apply N.eqb_eq in X. now subst. }
  apply orb_false_iff in E3. destruct E3 as [E3 E3']. apply N.eqb_neq in E1, E2, E3, E3', E4, E5, E6. constructor; [|now apply IH]. cbn. intuition congruence.
Qed.
Definition block_b (t : str) : bool := match t with c :: i => (c =? 123) && ends_b (S (S (length t))) 1 i | [] => false end.
Lemma block_b_ok t : block_b t = true -> block t.
Proof.
  destruct t as [|c i]; [discriminate|]. unfold block_b. intros H. apply andb_true_iff in H. destruct H as [E H]. apply N.eqb_eq in E. subst. exists i. split; [reflexivity|]. exact (ends_b_ok _ _ _ H).
Qed.

Definition block_sample : str := s_ "{ ?s <http://e/a> ""}"" # not the end }" ++ [10] ++ s_ " OPTIONAL { ?s ?p ?x FILTER (?x < 3 && ?x > 1 ) } }".
Definition block_wrong : str := s_ "{ ?s ?p '}' OPTIONAL ?x }".
Lemma block_sample_ok : block block_sample. Proof. apply block_b_ok. vm_compute. reflexivity. Qed.
Lemma block_wrong_ok : block block_wrong. Proof. apply block_b_ok. vm_compute. reflexivity. Qed.
