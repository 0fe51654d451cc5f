(** INSERT with its USING clauses and its WHERE group: both blocks are read alone. *)
From Verif Require Import LMods LC8 LGen4 LLit.
From Verif Require Import LDecl LAlike LWhere LBlock4 LBlock6.
From Verif Require Export LData.
From Verif Require Import Nom.
Notation length := List.length (only parsing).
Open Scope N_scope.
Open Scope list_scope.

(** the text between the two blocks: the USING clauses, at least one, and the word WHERE *)
Definition W_using_where (us : list DefaultOrNamedIri) : lang :=
  gap >> sepW W_using gap1 (fun r => ~ begins "using" r) (nxt1 (fun r => ~ begins "using" r)) us >> gap1 >> Layout.word "where" >> gap1.

Lemma using_where_some us m y : W_using_where us m y -> us <> [].
Proof.
  intros (b & m1 & -> & [_ S] & u & m2 & -> & Hu & Hk) ->. cbn [sepW] in Hu. destruct Hu as [-> _]. cbn [app] in *. destruct Hk as (k & e & -> & [[B N] S'] & _).
  rewrite <- app_assoc in S. pose proof (sp_ok _ _ B S') as E. rewrite (sp_nil _ S) in E. injection E as E _. apply (f_equal (@List.length char)) in E. rewrite app_length in E.
  destruct k; [congruence|cbn [List.length] in E; lia].
Qed.
Lemma delete_insert_at w b t y r d : kw "insert" w -> blank1 b -> block t ->
  (delete_insert (w ++ b ++ t ++ y) = Ok r d <-> r = y /\ exists q, quads_pattern t = Ok [] q /\ d = DiInsert q).
Proof.
  intros K B BL. assert (S : solid (t ++ y)) by (destruct BL as (z & -> & _); now apply char_solid). unfold delete_insert.
  rewrite alt_drop; [|fl K|discriminate]. change (alt [map insert_clause DiInsert]) with (map insert_clause DiInsert). rewrite (proj1 (map_lone insert_clause DiInsert _)). unfold insert_clause. rewrite (tag1_at "insert") by auto. split.
  - intros (q & H & ->). apply (quads_iff _ _ _ _ BL) in H. destruct H as [-> H]. eauto.
  - intros (-> & q & H & ->). exists q. split; [now apply quads_iff|reflexivity].
Qed.
Lemma modify_at w b t m v us x r s : kw "insert" w -> blank1 b -> block t -> block v -> W_using_where us m (v ++ x) ->
  (modify_stmt (w ++ b ++ t ++ m ++ v ++ x) = Ok r s <->
   r = x /\ exists q g, quads_pattern t = Ok [] q /\ group_graph_pattern v = Ok [] g /\ s = MkModify None (DiInsert q) us g).
Proof.
  intros K B BT BV (b1 & m1 & -> & [Hb S1] & u & m2 & -> & Hu & Hk). destruct (rdx_sp_enc1 _ _ (rdx_kw "where" eq_refl) _ _ Hk) as [z E]. rewrite <- !app_assoc in *.
  set (i := w ++ _). assert (O : opt (delimited (tag_no_case (s_ "where")) iri sp1) i = Ok i None) by (apply opt_none; unfold i; fl K).
  assert (U : separated_list sp using_clause (u ++ m2 ++ v ++ x) = Ok (m2 ++ v ++ x) us).
  { assert (X : rd (separated_list sp using_clause) us (sepW W_using gap1 (fun r => ~ begins "using" r) (nxt1 (fun r => ~ begins "using" r)) us)).
    { apply rd_sep; [exact rd_using|mv|mv|apply gap1_sp|apply gap1_ne| |exact no_using_fails]. intros y. apply sp_back, no_using_fails. }
    exact (X _ _ Hu). }
  unfold modify_stmt. rewrite (proj1 (map_lone _ _ _)). unfold tuple5, tuple4, tuple3. split.
  - intros ([i0 [d [u0 [z0 g]]]] & H & ->). apply pair_inv in H. destruct H as (j & H1 & H). rewrite O in H1. injection H1 as <- <-.
    apply pair_inv in H. destruct H as (j & H1 & H). apply terminated_inv in H1. destruct H1 as (j1 & y & H1 & H2).
    apply (delete_insert_at w b t _ _ _ K B BT) in H1. destruct H1 as (-> & q & Q & ->). rewrite (sp_ok _ _ Hb S1) in H2. injection H2 as <- _.
    apply pair_inv in H. destruct H as (j & H1 & H). rewrite U in H1. injection H1 as <- <-. apply pair_inv in H. destruct H as (j & H1 & H). rewrite E in H1. injection H1 as <- <-.
    apply (block_iff _ _ _ _ BV) in H. destruct H as [-> G]. eauto 6.
  - intros (-> & q & g & Q & G & ->). exists (None, (DiInsert q, (us, (z, g)))). split; [|reflexivity].
    eapply pair_ok; [exact O|]. eapply pair_ok; [|eapply pair_ok; [exact U|eapply pair_ok; [exact E|now apply block_iff]]].
    eapply terminated_ok; [apply delete_insert_at; eauto|now apply sp_ok].
Qed.
Theorem insert_where_iff w b t m v us x r s : kw "insert" w -> blank1 b -> block t -> block v -> W_using_where us m (v ++ x) ->
  (update_stmt (w ++ b ++ t ++ m ++ v ++ x) = Ok r s <->
   r = x /\ exists q g, quads_pattern t = Ok [] q /\ group_graph_pattern v = Ok [] g /\ s = UsModify (MkModify None (DiInsert q) us g)).
Proof.
  intros K B BT BV M. assert (S : forall y, solid (t ++ y)) by (intros y; destruct BT as (z & -> & _); now apply char_solid). unfold update_stmt.
  do 5 (rewrite alt_drop; [|fl K|discriminate]).
  rewrite alt_drop; [|apply map_fails; unfold fails, insert_data; rewrite (tag1_at "insert") by auto|discriminate].
  2:{ apply tag1_fails, (kw_fails "data"); [reflexivity..|]. intros X. destruct BT as (z & -> & _).
      pose proof (begins_stops (fun c => c =? 123) "data" _ eq_refl eq_refl X) as N. discriminate N. }
  do 2 (rewrite alt_drop; [|fl K|discriminate]).
  change (alt [map modify_stmt UsModify]) with (map modify_stmt UsModify). rewrite (proj1 (map_lone modify_stmt UsModify _)). split.
  - intros (c & H & ->). apply (modify_at w b t m v us x _ _ K B BT BV M) in H. destruct H as (-> & q & g & Q & G & ->). eauto 6.
  - intros (-> & q & g & Q & G & ->). eexists. split; [|reflexivity]. apply modify_at with (us := us); eauto 6.
Qed.
(** as a request of its own *)
Theorem insert_where_whole w b t m v us x : kw "insert" w -> blank1 b -> block t -> block v -> W_using_where us m (v ++ x) -> nxt (not_first 59) x ->
  ((exists u, update (w ++ b ++ t ++ m ++ v ++ x) = Ok x u) <->
   (exists q, quads_pattern t = Ok [] q) /\ exists g, group_graph_pattern v = Ok [] g).
Proof.
  intros K B BT BV M X. pose proof (insert_where_iff w b t m v us x) as I. set (i := w ++ b ++ t ++ m ++ v ++ x) in *.
  assert (BG : begins "insert" i) by (exists w, (b ++ t ++ m ++ v ++ x); auto).
  assert (S : solid i) by (revert BG; apply begins_solid; reflexivity).
  assert (N : no_decl i) by (split; intros Y; revert BG Y; apply begins_differ; reflexivity).
  assert (L : i <> x).
  { intros E. apply (f_equal (@List.length char)) in E. unfold i in E. rewrite !app_length in E. destruct B as [_ NB]. destruct b; [congruence|cbn [List.length] in E; lia]. }
  rewrite update_eq. unfold update_body. unfold map at 1. unfold pair at 1. rewrite (no_prologue i N). unfold opt at 1. unfold pair at 1. rewrite (preceded_at sp update_stmt i i [] (sp_nil i S)).
  change (c_ ";") with 59. split.
  - intros (u & H). destruct (update_stmt i) as [r1 s|e] eqn:E.
    + destruct (proj1 (I _ _ K B BT BV M) eq_refl) as (_ & q & g & Q & G & _). eauto.
    + exfalso. destruct e; try discriminate H. injection H as H _. now apply L.
  - intros [(q & Q) (g & G)]. rewrite (proj2 (I x (UsModify (MkModify None (DiInsert q) us g)) K B BT BV M)) by eauto 6.
    rewrite (opt_none _ _ (no_semi x X)). eauto.
Qed.
