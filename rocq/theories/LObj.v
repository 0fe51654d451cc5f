(** Groups of one triple whose object is a variable. *)
From Verif Require Import Layout.
From Verif Require Export LMore2.
From Verif Require Import LPrint2 Nom.
Notation length := List.length (only parsing).
Open Scope N_scope.
Open Scope list_scope.

Definition one_triple (v : Var) (p : VerbPathOrSimple) (o : Var) : GroupGraphPattern :=
  GgpSub (MkGroupGraphPatternSub (Some (MkTriplesBlock [TsspTerm (VotVar v)
    (MkPropertyListPath p (MkObjectListPath [GnpVarOrTerm (VotVar o)]) [])])) []).
Definition pred (i : Iri) (m : option PathMod) : VerbPathOrSimple :=
  VpsPath (MkPathAlternative [MkPathSequence [PeiPathElt (MkPathElt (PpIri i) m)]]).
Lemma var_solid v t r : R_var v t -> solid (t ++ r).
Proof. intros V. apply R_var_text in V. destruct V as (b & -> & _). destruct v; now apply char_solid. Qed.
Lemma triple_read b v tv b1 p tp b2 o to b3 r : blank b -> W_var v tv (b1 ++ tp ++ b2 ++ to ++ b3 ++ 125 :: r) -> blank1 b1 ->
  solid (tp ++ b2 ++ to ++ b3 ++ 125 :: r) -> W_verb_path p tp (b2 ++ to ++ b3 ++ 125 :: r) -> blank1 b2 -> W_var o to (b3 ++ 125 :: r) -> blank b3 ->
  group_graph_pattern (123 :: b ++ tv ++ b1 ++ tp ++ b2 ++ to ++ b3 ++ 125 :: r) = Ok r (one_triple v p o).
Proof.
  intros B V B1 S P B2 O B3.
  replace (123 :: b ++ tv ++ b1 ++ tp ++ b2 ++ to ++ b3 ++ 125 :: r) with ((123 :: b ++ (tv ++ b1 ++ tp ++ b2 ++ to ++ b3) ++ [125]) ++ r)
    by (cbn [app]; rewrite <- !app_assoc; reflexivity).
  apply (rd_ggp (one_triple v p o)). apply (W_ggp_intro (fun _ _ _ => False) (fun _ _ _ => False)); [intros ? ? ? []..|].
  assert (Sb : solid (125 :: r)) by now apply char_solid.
  assert (X : forall c, 125 <> c -> nxt (not_first c) (b3 ++ 125 :: r)).
  { intros c Hc. exists b3, (125 :: r). split; [reflexivity|]. split; [exact B3|]. split; [exact Sb|exact Hc]. }
  pose proof (proj1 V) as RV.
  cbn [ggp_layout one_triple]. apply then_cons; [reflexivity|].
  apply then_app; [split; [exact B|]; rewrite <- !app_assoc; now apply (var_solid v)|].
  apply then_app; [|apply then_none; [split; [constructor|exact Sb]|reflexivity]]. cbn [app]. split.
  - cbn [W_group_sub optW sepW]. apply then_last; [|split; [reflexivity|now exists r]].
    replace (tv ++ b1 ++ tp ++ b2 ++ to ++ b3) with ((tv ++ b1 ++ tp ++ b2 ++ to) ++ b3) by now rewrite <- !app_assoc.
    apply then_app; [|split; assumption]. cbn [W_triples_block sep1W tailW]. apply then_last; [|split; [reflexivity|now apply X]].
    cbn [W_tssp]. apply then_app; [rewrite <- !app_assoc; exact V|]. apply then_app; [split; [exact B1|]; rewrite <- !app_assoc; exact S|].
    cbn [W_property_list_path manyW]. apply then_app; [rewrite <- !app_assoc; exact P|].
    apply then_app; [split; [exact B2|]; now apply (var_solid o), (proj1 O)|].
    apply then_last; [|split; [reflexivity|now apply X]]. cbn [W_object_list_path sep1W tailW]. apply then_last; [exact O|].
    split; [reflexivity|]. left. now apply X.
  - apply nw_begins. rewrite <- !app_assoc. apply R_var_text in RV. destruct RV as (x & -> & _). apply LPrint5.nb_char; [reflexivity|destruct v; cbn; lia].
Qed.
Lemma pred_layout i t r m tm : W_iri i t (tm ++ r) -> optW (fun m => gap1 >> tok (R_mod m)) no_mod m tm r -> nxt (not_first 124) r ->
  W_verb_path (pred i m) (t ++ tm) r.
Proof.
  intros H M N. apply (W_path_intro (fun _ _ _ => False)); [intros ? ? ? []|]. cbn [path_layout sep1W tailW].
  apply then_last; [|now split]. cbn [W_elt_or_inverse W_elt]. now apply then_app.
Qed.
Lemma object_dollar b v tv b1 i t b2 o to b3 r : blank b -> W_var v tv (b1 ++ t ++ b2 ++ to ++ b3 ++ 125 :: r) -> blank1 b1 ->
  solid (t ++ b2 ++ to ++ b3 ++ 125 :: r) -> W_iri i t (b2 ++ to ++ b3 ++ 125 :: r) -> blank1 b2 -> W_var (Dollar o) to (b3 ++ 125 :: r) -> blank b3 ->
  group_graph_pattern (123 :: b ++ tv ++ b1 ++ t ++ b2 ++ to ++ b3 ++ 125 :: r) = Ok r (one_triple v (pred i None) (Dollar o)).
Proof.
  intros B V B1 S I B2 O B3. pose proof (proj1 O) as RO. apply R_var_text in RO. destruct RO as (x & Ex & _). cbn [sigil] in Ex.
  apply triple_read; try assumption. rewrite <- (app_nil_r t). subst to. apply pred_layout; [exact I| |].
  - split; [reflexivity|]. right. eexists b2, _. split; [reflexivity|]. split; [exact B2|]. split; [now apply char_solid|].
    eexists 36, _. split; [reflexivity|]. split; [lia|]. cbn. intuition discriminate.
  - eexists b2, _. split; [reflexivity|]. split; [apply B2|]. split; [now apply char_solid|discriminate].
Qed.
Lemma object_after_var b v tv b1 p t b2 o to b3 r : blank b -> W_var v tv (b1 ++ t ++ b2 ++ to ++ b3 ++ 125 :: r) -> blank1 b1 ->
  W_var p t (b2 ++ to ++ b3 ++ 125 :: r) -> blank1 b2 -> W_var o to (b3 ++ 125 :: r) -> blank b3 ->
  group_graph_pattern (123 :: b ++ tv ++ b1 ++ t ++ b2 ++ to ++ b3 ++ 125 :: r) = Ok r (one_triple v (VpsSimple p) o).
Proof. intros B V B1 P B2 O B3. apply triple_read; try assumption. now apply (var_solid p), (proj1 P). Qed.
Lemma object_after_mod b v tv b1 i t b2 m tm b3 o to b4 r : blank b -> W_var v tv (b1 ++ t ++ b2 ++ tm ++ b3 ++ to ++ b4 ++ 125 :: r) -> blank1 b1 ->
  solid (t ++ b2 ++ tm ++ b3 ++ to ++ b4 ++ 125 :: r) -> W_iri i t (b2 ++ tm ++ b3 ++ to ++ b4 ++ 125 :: r) -> blank1 b2 -> R_mod m tm -> blank1 b3 ->
  W_var o to (b4 ++ 125 :: r) -> blank b4 ->
  group_graph_pattern (123 :: b ++ tv ++ b1 ++ t ++ b2 ++ tm ++ b3 ++ to ++ b4 ++ 125 :: r) = Ok r (one_triple v (pred i (Some m)) o).
Proof.
  intros B V B1 S I B2 M B3 O B4. pose proof (proj1 O) as RO. pose proof (var_solid o to (b4 ++ 125 :: r) RO) as SO.
  replace (t ++ b2 ++ tm ++ b3 ++ to ++ b4 ++ 125 :: r) with ((t ++ b2 ++ tm) ++ b3 ++ to ++ b4 ++ 125 :: r) in * by now rewrite <- !app_assoc.
  apply triple_read; try assumption. apply pred_layout; [now rewrite <- app_assoc| |].
  - cbn [optW]. apply then_app; [|exact M]. split; [exact B2|]. destruct m; unfold R_mod, lit in M; subst tm; now apply char_solid.
  - eexists b3, _. split; [reflexivity|]. split; [apply B3|]. split; [exact SO|]. apply R_var_text in RO. destruct RO as (x & -> & _). destruct o; discriminate.
Qed.
