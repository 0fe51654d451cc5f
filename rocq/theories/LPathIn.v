(** Brackets around paths. *)
From Verif Require Import LMods LC8 LDepth2 LC3 LLit.
From Verif Require Export LForms LPlace.
From Verif Require Import Nom.
Notation length := List.length (only parsing).
Open Scope N_scope.
Open Scope list_scope.

(** a path in [n] pairs of brackets, as a tree *)
Fixpoint path_in (n : nat) (p : PathAlternative) : PathAlternative :=
  match n with
  | O => p
  | S n => MkPathAlternative [MkPathSequence [PeiPathElt (MkPathElt (PpPath (path_in n p)) None)]]
  end.
Definition path_stop (x : str) : Prop := no_mod x /\ nxt (not_first 124) x.

Notation bar := (delimited sp (tag (s_ "|")) sp) (only parsing).
Lemma bar_moves : shrinks bar.
Proof. eapply gd_shrinks; intros k; sg. Qed.
Lemma elt_moves : shrinks path_elt_or_inverse.
Proof. unfold path_elt_or_inverse. eapply gd_shrinks; intros k; sg. Qed.
Lemma sequence_moves : shrinks path_sequence.
Proof. unfold path_sequence. eapply gd_shrinks; intros k; sg. Qed.
Lemma close_inv j r y : tag (s_ ")") j = Ok r y -> j = 41 :: r.
Proof.
  intros H. destruct j as [|c j]; [discriminate H|]. destruct (N.eq_dec c 41) as [->|N].
  - pose proof (tag_ok (s_ ")") j) as X. change (s_ ")" ++ j) with (41 :: j) in X. rewrite X in H. now injection H as <-.
  - exfalso. revert H. apply fails_not_ok, (tag_fails_first 41 []). exact N.
Qed.
Lemma no_bar x : nxt (not_first 124) x -> fails bar x.
Proof. intros (b & y & -> & B & S & N). eapply delimited_fails2; [exact (sp_ok b y B S)|]. now apply bar_tag_fails. Qed.

Lemma path_more i x p : path_stop x -> path_alternative i = Ok (41 :: x) p -> path_alternative (40 :: i) = Ok x (path_in 1 p).
Proof.
  intros [M X] H. apply no_bar in X. pose proof (gd_path_alternative) as G.
  assert (L : x <> 40 :: i).
  { pose proof (shrink_len _ _ _ _ (gd_shrinks _ _ _ _ G) H) as Q. intros ->. cbn in Q. lia. }
  rewrite path_alternative_eq. unfold path_alternative_body. eapply map_ok; [|reflexivity].
  eapply sepne_cons; [exact bar_moves|exact sequence_moves| |exact L|now apply sep_stop].
  eapply map_ok; [|reflexivity]. eapply sepne_cons; [exact bar_moves|exact elt_moves| |exact L|now apply sep_stop].
  apply alt_first. eapply map_ok; [|reflexivity]. apply (map_ok _ _ _ _ (PpPath p, None)); [|reflexivity].
  eapply pair_ok; [|now apply opt_none, no_mod_fails].
  apply alt_next; [now apply map_fails, iri_fails_first|]. do 2 (apply alt_next; [apply map_fails; first [apply preceded_fails1|idtac]; eexists _, _; reflexivity|]).
  apply alt_first. eapply map_ok; [|reflexivity]. eapply delimited_ok; [reflexivity|exact H|reflexivity].
Qed.
Theorem path_less i r p : path_alternative (40 :: i) = Ok r p -> exists k q m l, path_alternative i = Ok (41 :: k) q /\
  p = MkPathAlternative [MkPathSequence (PeiPathElt (MkPathElt (PpPath q) m) :: l)] /\ (m = None -> l = [] -> r = k).
Proof.
  intros H. destruct (path_one _ _ _ H) as [l0 E]. rewrite path_alternative_eq in H. apply map_inv in H. destruct H as (l1 & H & Q). rewrite E in Q. injection Q as ->.
  apply (sepne_iff _ _ _ _ _ bar_moves sequence_moves) in H. destruct H as (i1 & s & l2 & H & _ & M & Q). injection Q as <- <-.
  assert (R1 : r = i1) by now inversion M. subst i1. clear M.
  apply map_inv in H. destruct H as (l1 & H & Q). injection Q as ->.
  apply (sepne_iff _ _ _ _ _ bar_moves elt_moves) in H. destruct H as (i2 & e & l & H & _ & M & ->).
  apply alt_split in H. destruct H as [H|[_ H]]; [|exfalso; revert H; apply fails_not_ok, alt_fails_cons; [apply map_fails, preceded_fails1; eexists _, _; reflexivity|apply alt_fails_nil]].
  apply map_inv in H. destruct H as (y & H & <-). apply map_inv in H. destruct H as ((pp & m) & H & <-). apply pair_inv in H. destruct H as (k & H & O).
  do 3 (apply alt_split in H; destruct H as [H|[_ H]]; [exfalso; revert H; apply fails_not_ok, map_fails; first [now apply iri_fails_first | apply preceded_fails1; eexists _, _; reflexivity | eexists _, _; reflexivity]|]).
  apply alt_inv in H. destruct H as (z & [<-|[]] & H).
  apply map_inv in H. destruct H as (q & H & <-). apply delimited_inv in H. destruct H as (j1 & j2 & c1 & c2 & H1 & H & H2).
  injection H1 as <- <-. exists k, q, m, l. split; [|split; [exact E|]].
  - apply close_inv in H2. now subst j2.
  - intros -> ->. assert (r = i2) by now inversion M. subst. apply opt_inv in O. now destruct O.
Qed.
Lemma closing n x : repeat 41 (S n) ++ x = 41 :: repeat 41 n ++ x. Proof. reflexivity. Qed.
Lemma stop_at n x : path_stop x -> path_stop (repeat 41 n ++ x).
Proof.
  intros X. destruct n as [|n]; [exact X|]. split; [left; now apply char_solid|]. exists [], (repeat 41 (S n) ++ x). split; [reflexivity|]. split; [constructor|]. split; [now apply char_solid|discriminate].
Qed.
Lemma repeat_end n (x : str) : repeat 41 (S n) ++ x = repeat 41 n ++ 41 :: x.
Proof. induction n as [|n IH]; [reflexivity|]. cbn [repeat app] in *. now rewrite IH. Qed.
Theorem paths_iff n : forall t x p, path_stop x ->
  (path_alternative (repeat 40 n ++ t ++ repeat 41 n ++ x) = Ok x (path_in n p) <-> path_alternative (t ++ repeat 41 n ++ x) = Ok (repeat 41 n ++ x) p).
Proof.
  induction n as [|n IH]; intros t x p X; [reflexivity|]. rewrite repeat_end. cbn [repeat app path_in].
  assert (X' : path_stop (41 :: x)) by exact (stop_at 1 x X). rewrite <- (IH t (41 :: x) p X'). split.
  - intros H. apply path_less in H. destruct H as (k & q & m & l & H & E & R). injection E as <- <- <-. rewrite <- (R eq_refl eq_refl) in H. exact H.
  - intros H. exact (path_more _ _ _ X H).
Qed.
Theorem verb_paths n t x p : path_stop x -> path_alternative (t ++ repeat 41 n ++ x) = Ok (repeat 41 n ++ x) p ->
  verb_path_or_simple (repeat 40 n ++ t ++ repeat 41 n ++ x) = Ok x (VpsPath (path_in n p)).
Proof. intros X H. apply alt_first. eapply map_ok; [|reflexivity]. now apply paths_iff. Qed.
