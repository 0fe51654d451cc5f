(** FILTER EXISTS and FILTER NOT EXISTS in front of a group. *)
From Verif Require Import LMods LC8 LDepth2 LFlags LFlags3 LFlags4 LBlock4 LAlike LWhere LLit LPrint1 LPrint2 LFirst LSize.
From Verif Require Export LForms LPlace.
From Verif Require Import Nom.
Notation length := List.length (only parsing).
Open Scope N_scope.
Open Scope list_scope.
Notation gg := group_graph_pattern (only parsing).

Ltac other K H := exfalso; eapply fails_not_ok; [|exact H]; fl K.
Lemma exists_only w b j r c : kw "exists" w -> blank1 b -> solid j -> built_in_call (w ++ b ++ j) = Ok r c -> exists g, c = BiExistsFunc g.
Proof.
  intros K B S H. unfold built_in_call, built_in_call_of in H. apply alt_inv in H. destruct H as (p & Hp & H). cbn [In] in Hp.
  repeat (destruct Hp as [<-|Hp]; [first [solve [other K H] | apply map_inv in H; destruct H as (g & _ & <-); now exists g]|]). destruct Hp.
Qed.
Lemma not_exists_only w b j r c : kw "not" w -> blank1 b -> solid j -> built_in_call (w ++ b ++ j) = Ok r c -> exists g, c = BiNotExistsFunc g.
Proof.
  intros K B S H. unfold built_in_call, built_in_call_of in H. apply alt_inv in H. destruct H as (p & Hp & H). cbn [In] in Hp.
  repeat (destruct Hp as [<-|Hp]; [first [solve [other K H] | apply map_inv in H; destruct H as ((y & z & g) & _ & <-); now exists g]|]). destruct Hp.
Qed.
Lemma word_constraint k w b j r c : letter_word k = true -> kw k w -> blank1 b -> solid j -> not_first 58 j ->
  (constraint (w ++ b ++ j) = Ok r c <-> exists f, built_in_call (w ++ b ++ j) = Ok r f /\ c = CoBuiltInCall f).
Proof.
  intros LW K B S C. assert (WL : word_like k = true) by (now apply andb_true_iff in LW).
  assert (NF : fails (function_call_of expression) (w ++ b ++ j)).
  { apply map_fails. apply pair_fails1. apply iri_fails_word; [now apply (letter_kw_prefix k)|apply brk_name; now apply blank1_brk|apply B|exact S|exact C]. }
  split.
  - intros H. apply alt_inv in H. destruct H as (p & [<-|[<-|[<-|[]]]] & H); apply map_inv in H; destruct H as (z & H & X); subst c; [|eauto|].
    + exfalso. eapply fails_not_ok; [|exact H]. apply delimited_fails1, chr_fails. exact (word_not 40 k w (b ++ j) WL K eq_refl).
    + exfalso. eapply fails_not_ok; [exact NF|exact H].
  - intros (f & H & ->). now apply call_constraint.
Qed.
Lemma filter_exists_at w b w' b' j r c : kw "filter" w -> blank1 b -> kw "exists" w' -> blank1 b' -> solid j -> not_first 58 j ->
  (graph_pattern_not_triples (w ++ b ++ w' ++ b' ++ j) = Ok r c <-> exists g, gg j = Ok r g /\ c = GpFilter (CoBuiltInCall (BiExistsFunc g))).
Proof.
  intros K B K' B' S C. assert (S' : solid (w' ++ b' ++ j)) by now apply (kw_solid' "exists").
  split.
  - intros H. assert (P : pattern_word c = Some "filter"%string) by (eapply pattern_decides; [|exists w, (b ++ w' ++ b' ++ j); split; [reflexivity|exact K]|exact H]; cbn; auto 9).
    destruct c; try discriminate P. apply filter_at in H; auto. apply (word_constraint "exists") in H; auto. destruct H as (f & H & ->).
    destruct (exists_only _ _ _ _ _ K' B' S H) as [g ->]. apply exists_at in H; auto. eauto.
  - intros (g & H & ->). apply filter_at; auto. apply (word_constraint "exists"); auto. eexists. split; [|reflexivity]. now apply exists_at.
Qed.
Lemma filter_not_exists_at w b v u w' b' j r c : kw "filter" w -> blank1 b -> kw "not" v -> blank1 u -> kw "exists" w' -> blank1 b' -> solid j ->
  (graph_pattern_not_triples (w ++ b ++ v ++ u ++ w' ++ b' ++ j) = Ok r c <-> exists g, gg j = Ok r g /\ c = GpFilter (CoBuiltInCall (BiNotExistsFunc g))).
Proof.
  intros K B KN U K' B' S. assert (S' : solid (w' ++ b' ++ j)) by now apply (kw_solid' "exists"). assert (S2 : solid (v ++ u ++ w' ++ b' ++ j)) by now apply (kw_solid' "not").
  assert (C' : not_first 58 (w' ++ b' ++ j)) by now apply (word_not 58 "exists").
  split.
  - intros H. assert (P : pattern_word c = Some "filter"%string) by (eapply pattern_decides; [|exists w, (b ++ v ++ u ++ w' ++ b' ++ j); split; [reflexivity|exact K]|exact H]; cbn; auto 9).
    destruct c; try discriminate P. apply filter_at in H; auto. apply (word_constraint "not") in H; auto. destruct H as (f & H & ->).
    destruct (not_exists_only _ _ _ _ _ KN U S' H) as [g ->]. apply not_exists_at in H; auto. eauto.
  - intros (g & H & ->). apply filter_at; auto. apply (word_constraint "not"); auto. eexists. split; [|reflexivity]. now apply not_exists_at.
Qed.
