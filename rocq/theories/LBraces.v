(** A group in further braces. *)
From Verif Require Import LMods LC8 LDepth2 LFlags3 LBlock4.
From Verif Require Export LForms LPlace SpecBlock.
From Verif Require Import Nom.
Notation length := List.length (only parsing).
Open Scope N_scope.
Open Scope list_scope.
Notation gg := group_graph_pattern (only parsing).

(** a group in [n] pairs of further braces, as a tree *)
Fixpoint in_braces (n : nat) (g : GroupGraphPattern) : GroupGraphPattern :=
  match n with
  | O => g
  | S n => GgpSub (MkGroupGraphPatternSub None [MkGraphPatternAndTriples (GpGroupOrUnion (MkGroupOrUnion [in_braces n g])) None])
  end.
(** ... and as a text, with blanks after the opening braces and before the closing ones *)
Fixpoint braced (bs : list (str * str)) (t : str) : str := match bs with [] => t | (b, b') :: bs => 123 :: b ++ braced bs t ++ b' ++ [125] end.

Lemma brace_more b b' i r g : blank b -> blank1 b' -> gg (123 :: i) = Ok (b' ++ 125 :: r) g -> gg (123 :: b ++ 123 :: i) = Ok r (in_braces 1 g).
Proof.
  intros B B' H. pose proof (sp_ok b' (125 :: r) (proj1 B') (solid_close r)) as SP.
  rewrite group_graph_pattern_eq. unfold ggp_body. apply (delimited_ok _ _ _ _ (b ++ 123 :: i) (125 :: r) r 123 _ 125); [reflexivity| |reflexivity].
  eapply delimited_ok; [apply (sp_ok b); [exact B|apply solid_open]| |exact SP].
  apply alt_next; [apply map_fails, map_fails, pair_fails1, map_fails, pair_fails1; eexists _, _; reflexivity|].
  eapply map_ok; [|reflexivity].
  apply (map_ok _ _ _ _ (None, [MkGraphPatternAndTriples (GpGroupOrUnion (MkGroupOrUnion [g])) None])); [|reflexivity].
  eapply pair_ok; [apply opt_none, terminated_fails1, brace_no_block|].
  assert (L : b' ++ 125 :: r <> 123 :: i).
  { intros X. rewrite X, (sp_solid _ (solid_open i)) in SP. discriminate SP. }
  eapply sepl_cons; [eapply gd_shrinks, gd_sp|eapply (gd_shrinks true IAny true); intros k; sm @ggp_and_triples_of| |exact L|].
  - apply (map_ok _ _ _ _ (GpGroupOrUnion (MkGroupOrUnion [g]), None)); [|reflexivity]. eapply separated_pair_ok.
    + apply alt_first. eapply map_ok; [|reflexivity]. eapply map_ok; [|reflexivity].
      eapply sepne_cons; [eapply (gd_shrinks true INever false); intros k; eapply sim_weaken; [sg|reflexivity ..]|eapply gd_shrinks, gd_group_graph_pattern|exact H|exact L|].
      apply sep_stop. eapply delimited_fails2; [apply (sp1_ok b' (125 :: r)); [exact B'|apply solid_close]|]. eexists _, _; reflexivity.
    + apply opt_none. eapply preceded_fails2; [exact SP|]. eexists _, _; reflexivity.
    + apply opt_none. eapply preceded_fails2; [exact SP|]. apply close_no_block.
  - eapply sep_back; [exact SP| |apply close_no_pattern]. destruct B' as [_ NE]. destruct b' as [|c b']; [congruence|]. intros X. apply (f_equal (@List.length _)) in X. cbn in X. rewrite app_length in X. cbn in X. lia.
Qed.
Lemma brace_less b i r g' : blank b -> gg (123 :: b ++ 123 :: i) = Ok r g' -> exists k g, gg (123 :: i) = Ok k g.
Proof.
  intros B H. apply group_inv in H. destruct H as (b0 & j & k & E & B0 & S & H & b' & -> & B'). injection E as E.
  pose proof (sp_ok b (123 :: i) B (solid_open i)) as E1. rewrite E, (sp_ok b0 j B0 S) in E1. injection E1 as -> _.
  apply alt_inv in H. destruct H as (p & [<-|[<-|[]]] & H); apply map_inv in H; destruct H as (x & H & _).
  { exfalso. revert H. apply fails_not_ok. apply map_fails, pair_fails1, map_fails, pair_fails1. eexists _, _; reflexivity. }
  apply map_inv in H. destruct H as ((o & l) & H & _). apply pair_inv in H. destruct H as (j & H1 & H).
  assert (O : opt (terminated triples_block sp) (123 :: i) = Ok (123 :: i) None) by apply opt_none, terminated_fails1, brace_no_block. rewrite O in H1. injection H1 as <- <-.
  apply sepl_inv in H. destruct H as [[_ H]|(i1 & a & H)].
  { exfalso. pose proof (sp_ok b' (125 :: r) B' (solid_close r)) as E2. rewrite H, (sp_solid _ (solid_open i)) in E2. discriminate E2. }
  apply map_inv in H. destruct H as ((p & t) & H & _). apply pair_inv in H. destruct H as (i2 & H & _). apply alt_inv in H. destruct H as (q & I & H). cbn [In] in I.
  destruct I as [<-|I].
  { apply map_inv in H. destruct H as (u & H & _). apply map_inv in H. destruct H as (l' & H & _). unfold separated_nonempty_list in H. destruct (gg (123 :: i)) as [k g|e] eqn:E3; [eauto|discriminate H]. }
  exfalso. revert H. apply fails_not_ok. decompose [or] I; try contradiction; subst q; apply map_fails; first [apply tag1_fails | apply map_fails, pair_fails1, terminated_fails1 | apply pair_fails1, terminated_fails1]; eexists _, _; reflexivity.
Qed.
Lemma braced_first bs t x : first 123 t -> exists i, braced bs t ++ x = 123 :: i.
Proof. intros [i ->]. destruct bs as [|[b b'] bs]; eexists; reflexivity. Qed.
Theorem braces_iff bs : forall t x r g, block t -> Forall (fun p => blank (fst p) /\ blank1 (snd p)) bs ->
  (gg (braced bs t ++ x) = Ok r g <-> r = x /\ exists g0, gg t = Ok [] g0 /\ g = in_braces (length bs) g0).
Proof.
  induction bs as [|[b b'] bs IH]; intros t x r g BL F.
  - cbn [braced length in_braces]. rewrite (block_iff t x r g BL). split; [intros [-> H]; eauto|intros [-> (g0 & H & ->)]; auto].
  - inversion F as [|p l [B B'] F']; subst. cbn [fst snd] in *.
    assert (X : braced ((b, b') :: bs) t ++ x = 123 :: b ++ (braced bs t ++ b' ++ 125 :: x)) by (cbn [braced app]; rewrite <- !app_assoc; reflexivity). rewrite X.
    destruct (braced_first bs t (b' ++ 125 :: x)) as [i I]; [destruct BL as (i & -> & _); now exists i|]. rewrite I. cbn [length in_braces].
    assert (Y : forall g0, gg t = Ok [] g0 -> gg (123 :: b ++ 123 :: i) = Ok x (in_braces 1 (in_braces (length bs) g0))).
    { intros g0 G. apply (brace_more b b'); auto. rewrite <- I. apply IH; eauto. }
    split.
    + intros H. destruct (brace_less _ _ _ _ B H) as (k & g1 & H1). rewrite <- I in H1. apply IH in H1; auto. destruct H1 as [-> (g0 & G & ->)].
      rewrite (Y _ G) in H. injection H as <- <-. split; [reflexivity|]. exists g0. auto.
    + intros [-> (g0 & G & ->)]. exact (Y _ G).
Qed.
