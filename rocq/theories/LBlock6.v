(** Braces of quads and of construct templates are read alone too. *)
From Verif Require Import LMods LC8 LGen4.
From Verif Require Export LBlock5.
From Verif Require Import LTerm LGood2 LEval LSound1 MUpdate.
From Verif Require Import Nom.
Notation length := List.length (only parsing).
Open Scope N_scope.
Open Scope list_scope.

Lemma loc_tss : loc triples_same_subject.
Proof.
  unfold triples_same_subject, property_list, triples_node, property_list_not_empty, triples_node_of, collection_of, blank_node_property_list_of, property_list_not_empty_of, object_list_of. lo.
Qed.
#[export] Hint Resolve loc_tss : loc.
Lemma loc_template : loc triples_template. Proof. lou triples_template. Qed.
#[export] Hint Resolve loc_template : loc.
Lemma loc_braced : loc braced_template.
Proof. unfold braced_template. apply loc_braces; [exact open_brace|lo|intros d; exact (close_brace (S d))]. Qed.
#[export] Hint Resolve loc_braced : loc.
Lemma loc_quads : loc quads. Proof. unfold quads, quads_entry, quads_not_triples. lo. Qed.

(** one pair of braces *)
Lemma tag_chr c i : tag [c] i = match chr c i with Ok r a => Ok r [a] | Err (Error p KChar) => Err (Error p KTag) | Err e => Err e end.
Proof. unfold tag. destruct i as [|d i]; [reflexivity|]. cbn. rewrite (N.eqb_sym c d). destruct (d =? c) eqn:E; [|reflexivity]. apply N.eqb_eq in E. now subst. Qed.
Lemma quads_opened i : quads_pattern (123 :: i) = terminated (preceded sp quads) (terminated sp (tag [125])) i.
Proof.
  unfold quads_pattern, delimited, preceded, terminated. unfold map, pair. change (s_ "{") with [123]. change (s_ "}") with [125].
  replace (tag [123] (123 :: i)) with (Ok i [123]) by reflexivity. destruct (sp i) as [j b|e]; [|reflexivity]. destruct (quads j) as [k q|e]; [|reflexivity]. destruct (sp k) as [k1 q1|e]; [|reflexivity]. destruct (tag [125] k1); reflexivity.
Qed.
Lemma close_tag d i x : ends (S d) i -> tag [125] (i ++ x) = shifted x (tag [125] i) /\ forall r a, tag [125] i = Ok r a -> ends d r /\ suffix r i.
Proof.
  intros D. rewrite !tag_chr. destruct (close_brace d i x D) as [E R]. rewrite E. destruct (chr 125 i) as [r a|[p k|p k| | |]]; cbn [shifted]; (split; [try reflexivity|]).
  - intros r' a' X. injection X as <- _. eauto.
  - destruct k; reflexivity.
  - destruct k; discriminate.
  - discriminate.
  - discriminate.
  - discriminate.
  - discriminate.
Qed.
Lemma close_sp_tag d i x : ends (S d) i -> terminated sp (tag [125]) (i ++ x) = shifted x (terminated sp (tag [125]) i) /\ forall r a, terminated sp (tag [125]) i = Ok r a -> ends d r /\ suffix r i.
Proof.
  intros D. unfold terminated, map, pair. destruct (loc_sp d i x D) as [E R]. rewrite E. destruct (sp i) as [i1 a|[]]; cbn [shifted]; try (split; [reflexivity|discriminate]).
  destruct (R _ _ eq_refl) as [D1 S1]. destruct (close_tag d i1 x D1) as [E1 R1]. rewrite E1. destruct (tag [125] i1) as [i2 b|[]]; cbn [shifted]; (split; [reflexivity|]); try discriminate.
  intros r y X. injection X as <- _. destruct (R1 _ _ eq_refl) as [D3 S3]. split; [exact D3|]. exact (suffix_trans _ _ _ S3 S1).
Qed.
Lemma quads_local t x : block t -> quads_pattern (t ++ x) = shifted x (quads_pattern t) /\ forall r g, quads_pattern t = Ok r g -> r = [].
Proof.
  intros (i & -> & D). cbn [app]. rewrite !quads_opened.
  assert (K : loc (preceded sp quads)) by (pose proof loc_quads; lo). destruct (K O i x D) as [E R].
  unfold terminated at 1 3 5. unfold map at 1 2 3. unfold pair at 1 2 3. rewrite E. destruct (preceded sp quads i) as [r a|[]]; cbn [shifted]; try (split; [reflexivity|discriminate]).
  destruct (R _ _ eq_refl) as [D1 _]. destruct (close_sp_tag O r x D1) as [E1 R1]. rewrite E1. destruct (terminated sp (tag [125]) r) as [r' b|[]]; cbn [shifted]; (split; [reflexivity|]); try discriminate.
  intros r2 g X. injection X as <- _. destruct (R1 _ _ eq_refl) as [D2 _]. now inversion D2.
Qed.
Lemma quads_iff t x r q : block t -> (quads_pattern (t ++ x) = Ok r q <-> r = x /\ quads_pattern t = Ok [] q).
Proof.
  intros B. destruct (quads_local t x B) as [E R]. rewrite E. split.
  - destruct (quads_pattern t) as [r' a|[]]; cbn [shifted]; try discriminate. intros X. injection X as <- <-. now rewrite (R r' a eq_refl).
  - intros [-> ->]. reflexivity.
Qed.
Lemma quads_error t x p k : block t -> quads_pattern t = Err (Error p k) -> quads_pattern (t ++ x) = Err (Error (p ++ x) k).
Proof. intros B H. rewrite (proj1 (quads_local t x B)), H. reflexivity. Qed.
