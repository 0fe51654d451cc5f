(** Chains of groups joined with UNION. *)
From Verif Require Import LMods LC8 LDepth2 LFlags3 LBlock4 LAlike LWhere LLit.
From Verif Require Export LForms LPlace SpecBlock.
From Verif Require Import Nom.
Notation length := List.length (only parsing).
Open Scope N_scope.
Open Scope list_scope.
Notation gg := group_graph_pattern (only parsing).

(** a further member of a chain: a blank, the keyword, a blank and a block *)
Record member := Member { union_before : str; union_word : str; union_after : str; union_block : str }.
Definition member_ok (u : member) : Prop := blank1 (union_before u) /\ kw "union" (union_word u) /\ blank1 (union_after u) /\ block (union_block u).
Fixpoint chain (us : list member) : str :=
  match us with
  | [] => []
  | u :: us => union_before u ++ union_word u ++ union_after u ++ union_block u ++ chain us
  end.

Notation union := (sp_enc1 (tag_no_case (s_ "union"))) (only parsing).
Lemma block_solid t x : block t -> solid (t ++ x).
Proof. intros (i & -> & _). apply solid_open. Qed.
Lemma union_step b w b' j : blank1 b -> kw "union" w -> blank1 b' -> solid j -> (exists y, union (b ++ w ++ b' ++ j) = Ok j y) /\ j <> b ++ w ++ b' ++ j.
Proof.
  intros B K B' S. split.
  - destruct (word_at "union" w b' j eq_refl K B' S) as [[y1 y2] E]. apply pair_inv in E. destruct E as (i & E1 & E2).
    exists y1. eapply delimited_ok; [apply (sp1_ok b _ B), (kw_solid' "union"); [reflexivity|exact K]|exact E1|exact E2].
  - intros X. apply (f_equal (@List.length _)) in X. rewrite !app_length in X. destruct B as [_ B]. destruct b; [congruence|]. cbn in X. lia.
Qed.
Lemma no_union x : nxt (fun x => ~ begins "union" x) x -> fails union x.
Proof.
  intros (b & y & -> & B & S & N). destruct b as [|c b]; [now apply delimited_fails1, sp1_fails|]. eapply delimited_fails2; [apply sp1_ok; [split; [exact B|discriminate]|exact S]|].
  now apply (kw_fails "union").
Qed.
(** the block is rejected, but not by a hard failure *)
Definition refused (t : str) : Prop := exists p k, gg t = Err (Error p k).
Lemma refused_iff t x : block t -> (fails gg (t ++ x) <-> refused t).
Proof.
  intros B. unfold fails, refused. rewrite (proj1 (block_local t x B)). destruct (gg t) as [r g|[]]; cbn [shifted]; split; intros (p9 & k9 & H); try discriminate H; eauto.
Qed.

Definition member_reads (u : member) (g : GroupGraphPattern) : Prop := gg (union_block u) = Ok [] g.
Lemma members us : forall x r l, Forall member_ok us -> fails union x ->
  (sep_ok union gg (chain us ++ x) r l <-> exists u1 u2, us = u1 ++ u2 /\ r = chain u2 ++ x /\ Forall2 member_reads u1 l /\ match u2 with [] => True | u :: _ => refused (union_block u) end).
Proof.
  induction us as [|u us IH]; intros x r l F X.
  - cbn [chain app]. split.
    + intros H. inversion H; subst.
      * exists [], []. repeat split. constructor.
      * exists [], []. split; [reflexivity|]. split; [reflexivity|]. split; [constructor|exact I].
      * exfalso. eapply fails_not_ok; eauto.
    + intros (u1 & u2 & E & -> & R & _). symmetry in E. apply app_eq_nil in E. destruct E as [-> ->]. inversion R; subst. cbn [chain app]. now apply sep_stop.
  - inversion F as [|u' us' (B & K & B' & BL) F']; subst.
    assert (E : chain (u :: us) ++ x = union_before u ++ union_word u ++ union_after u ++ union_block u ++ chain us ++ x) by (cbn [chain]; now rewrite <- !app_assoc). rewrite E.
    destruct (union_step (union_before u) (union_word u) (union_after u) (union_block u ++ chain us ++ x) B K B' (block_solid _ _ BL)) as [[y U] N]. split.
    + intros H. inversion H as [i Q|i i1 b Q _ P|i i1 i2 r' b a l' Q _ P M]; subst.
      * exfalso. eapply fails_not_ok; eauto.
      * rewrite U in Q. injection Q as <- <-. exists [], (u :: us). rewrite E. repeat split; [constructor|]. revert P. now apply refused_iff.
      * rewrite U in Q. injection Q as <- <-. apply (block_iff _ _ _ _ BL) in P. destruct P as [-> P]. apply IH in M; auto. destruct M as (u1 & u2 & -> & -> & R & L).
        exists (u :: u1), u2. repeat split; auto.
    + intros (u1 & u2 & E1 & -> & R & L). destruct u1 as [|v u1]; cbn [app] in E1.
      * subst u2. inversion R; subst. rewrite E. eapply sep_back; [exact U|exact N|]. now apply refused_iff.
      * injection E1 as <- E1. inversion R as [|v' g u1' l' G R']; subst. eapply sep_step; [exact U|exact N|apply block_iff; eauto|]. apply IH; auto. exists u1, u2. auto.
Qed.
Theorem union_iff t us x r p : block t -> Forall member_ok us -> nxt (fun x => ~ begins "union" x) x ->
  (graph_pattern_not_triples (t ++ chain us ++ x) = Ok r p <->
   exists g l u1 u2, gg t = Ok [] g /\ us = u1 ++ u2 /\ Forall2 member_reads u1 l /\ match u2 with [] => True | u :: _ => refused (union_block u) end /\
     r = chain u2 ++ x /\ p = GpGroupOrUnion (MkGroupOrUnion (g :: l))).
Proof.
  intros BL F X. apply no_union in X.
  assert (SS : shrinks union) by (apply (gd_shrinks true IAny true); mv). assert (SG : shrinks gg) by (eapply gd_shrinks, gd_group_graph_pattern).
  assert (W : forall r l, group_or_union_of gg (t ++ chain us ++ x) = Ok r l <-> exists g l' u1 u2, gg t = Ok [] g /\ us = u1 ++ u2 /\ Forall2 member_reads u1 l' /\ match u2 with [] => True | u :: _ => refused (union_block u) end /\
     r = chain u2 ++ x /\ l = MkGroupOrUnion (g :: l')).
  { intros r0 l0. split.
    - intros H. apply map_inv in H. destruct H as (l & H & <-). apply (sepne_iff _ _ _ _ _ SS SG) in H. destruct H as (i1 & g & l' & G & _ & M & ->). apply (block_iff _ _ _ _ BL) in G. destruct G as [-> G].
      apply members in M; auto. destruct M as (u1 & u2 & -> & -> & R & L). exists g, l', u1, u2. repeat split; auto.
    - intros (g & l' & u1 & u2 & G & -> & R & L & -> & ->). eapply map_ok; [|reflexivity]. apply sepne_iff; auto. exists (chain (u1 ++ u2) ++ x), g, l'.
      assert (G' : gg (t ++ chain (u1 ++ u2) ++ x) = Ok (chain (u1 ++ u2) ++ x) g) by (apply block_iff; auto).
      repeat split; [exact G'|exact (gd_moves _ _ _ _ _ _ gd_group_graph_pattern G')|]. apply members; auto. exists u1, u2. auto. }
  split.
  - intros H. destruct BL as (i & -> & BL). cbn [app] in *. apply alt_split in H. destruct H as [H|[_ H]].
    + apply map_inv in H. destruct H as (l & H & <-). apply W in H. destruct H as (g & l' & u1 & u2 & H). decompose [and] H. exists g, l', u1, u2. subst. repeat split; auto.
    + exfalso. revert H. apply fails_not_ok.
      repeat (apply alt_fails_cons; [apply map_fails; first [apply tag1_fails | apply map_fails, pair_fails1, terminated_fails1 | apply pair_fails1, terminated_fails1]; eexists _, _; reflexivity|]). apply alt_fails_nil.
  - intros (g & l & u1 & u2 & G & E & R & L & -> & ->). apply alt_first. eapply map_ok; [|reflexivity]. apply W. exists g, l, u1, u2. auto 7.
Qed.
