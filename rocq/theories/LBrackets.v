(** Brackets may be added around an expression. *)
From Verif Require Import LMods LC8 LDepth2 LC4 LLit.
From Verif Require Export LForms LPlace.
From Verif Require Import Nom.
Notation length := List.length (only parsing).
Open Scope N_scope.
Open Scope list_scope.

(** an expression in [n] pairs of brackets, as a tree *)
Fixpoint in_brackets (n : nat) (e : Expression) : Expression :=
  match n with
  | O => e
  | S n => MkExpression [MkConditionalAnd [MkRelational (MkAdditive (MkMultiplicative (UnDefault (PeBracketted (in_brackets n e))) []) []) None]]
  end.
(** the opening brackets, each with the blanks after it *)
Fixpoint opening (bs : list str) : str := match bs with [] => [] | b :: bs => 40 :: b ++ opening bs end.
(** the closing ones *)
Definition closed_by (bs : list str) : str := List.map (fun _ => 41) bs.

(** an operand in brackets before a closing bracket or a comma is an expression *)
Lemma operand_read c i x r : c = 44 \/ c = 41 -> primary_expression (40 :: i) = Ok (c :: r) x ->
  expression (40 :: i) = Ok (c :: r) (MkExpression [MkConditionalAnd [MkRelational (MkAdditive (MkMultiplicative (UnDefault x) []) []) None]]).
Proof.
  intros C H. assert (NE : c :: r <> 40 :: i) by (destruct C; subst; discriminate).
  assert (SC : solid (c :: r)) by (destruct C; subst; now apply char_solid). pose proof (sp_solid _ SC) as SP.
  rewrite expression_eq. unfold expression_body. eapply map_ok; [|reflexivity].
  eapply sepne_cons; [eapply (gd_shrinks true INever false); intros k; eapply sim_weaken; [sg|reflexivity ..]|
    eapply (gd_shrinks true IAny true); intros k; sm @conditional_and_expression_of| |exact NE|].
  2:{ apply sep_stop. eapply delimited_fails2; [exact SP|]. destruct C; subst; eexists _, _; reflexivity. }
  eapply map_ok; [|reflexivity].
  eapply sepne_cons; [eapply (gd_shrinks true INever false); intros k; eapply sim_weaken; [sg|reflexivity ..]|
    eapply (gd_shrinks true IAny true); intros k; sm @relational_expression_of| |exact NE|].
  2:{ apply sep_stop. eapply delimited_fails2; [exact SP|]. destruct C; subst; eexists _, _; reflexivity. }
  apply (map_ok _ _ _ _ (MkAdditive (MkMultiplicative (UnDefault x) []) [], None)); [|reflexivity].
  eapply pair_ok.
  2:{ apply opt_none. eapply preceded_fails2; [exact SP|]. destruct C; subst; eexists _, _; reflexivity. }
  apply (map_ok _ _ _ _ (MkMultiplicative (UnDefault x) [], [])); [|reflexivity].
  eapply pair_ok.
  2:{ eapply preceded_ok; [exact SP|]. apply LEval.sepl_nil. destruct C; subst; eexists _, _; reflexivity. }
  apply (map_ok _ _ _ _ (UnDefault x, [])); [|reflexivity].
  eapply pair_ok.
  2:{ eapply preceded_ok; [exact SP|]. apply LEval.sepl_nil. destruct C; subst; eexists _, _; reflexivity. }
  do 3 (apply alt_next; [apply map_fails, preceded_fails1, terminated_fails1; eexists _, _; reflexivity|]).
  apply alt_first. eapply map_ok; [exact H | reflexivity].
Qed.
Lemma bracket_read b i r e : blank b -> solid i -> expression i = Ok (41 :: r) e -> bracketted_expression_of expression (40 :: b ++ i) = Ok r e.
Proof.
  intros B S H. apply (delimited_ok _ _ _ _ (b ++ i) (41 :: r) _ 40 _ 41); [reflexivity| |reflexivity]. eapply delimited_ok; [now apply sp_ok|exact H|]. apply sp_solid. now apply char_solid.
Qed.
Lemma opening_solid bs i : solid i -> solid (opening bs ++ i).
Proof. intros S. destruct bs; [exact S|]. now apply char_solid. Qed.
Lemma closed_next bs c r : c = 44 \/ c = 41 -> exists c' r', closed_by bs ++ c :: r = c' :: r' /\ (c' = 44 \/ c' = 41).
Proof. intros C. destruct bs as [|b bs]; [exists c, r; auto|]. exists 41, (closed_by bs ++ c :: r). auto. Qed.
Theorem brackets_read bs : forall t c r e, c = 44 \/ c = 41 -> Forall blank bs -> solid (t ++ closed_by bs ++ c :: r) ->
  expression (t ++ closed_by bs ++ c :: r) = Ok (closed_by bs ++ c :: r) e -> expression (opening bs ++ t ++ closed_by bs ++ c :: r) = Ok (c :: r) (in_brackets (length bs) e).
Proof.
  induction bs as [|b bs IH]; intros t c r e C B S H; [exact H|]. inversion B as [|b' bs' B1 B2]; subst.
  assert (X : closed_by (b :: bs) ++ c :: r = closed_by bs ++ 41 :: c :: r).
  { unfold closed_by. clear. induction bs as [|b' bs IH]; [reflexivity|]. cbn in *. now rewrite <- IH. }
  rewrite X in *. cbn [opening length in_brackets]. cbn [app]. rewrite <- app_assoc. apply operand_read; [exact C|]. apply bracket_primary. apply bracket_read; [exact B1|now apply opening_solid|].
  apply IH; auto.
Qed.
Theorem filter_brackets bs w b0 b t r e : kw "filter" w -> blank1 b0 -> blank b -> Forall blank bs -> solid (t ++ closed_by bs ++ 41 :: r) ->
  expression (t ++ closed_by bs ++ 41 :: r) = Ok (closed_by bs ++ 41 :: r) e ->
  graph_pattern_not_triples (w ++ b0 ++ 40 :: b ++ opening bs ++ t ++ closed_by bs ++ 41 :: r) = Ok r (GpFilter (CoBracketted (in_brackets (length bs) e))).
Proof.
  intros K B0 B F S H. apply filter_at; auto; [now apply char_solid|]. apply alt_first. eapply map_ok; [|reflexivity]. apply bracket_read; [exact B|now apply opening_solid|]. apply brackets_read; auto.
Qed.

(** ** What starts with a bracket is an operand in brackets, with what follows it *)
Lemma sepne_head {A B} (s : parser B) (p : parser A) i r l : separated_nonempty_list s p i = Ok r l -> exists k a l', p i = Ok k a /\ l = a :: l'.
Proof.
  intros H. unfold separated_nonempty_list in H. destruct (p i) as [k a|e]; [|discriminate H]. destruct (str_eqb k i); [discriminate H|].
  destruct (sep_loop (S (length k)) s p k) as [r' l'|e]; [|discriminate H]. injection H as <- <-. eauto.
Qed.
Theorem bracket_less b i r e : blank b -> solid i -> expression (40 :: b ++ i) = Ok r e ->
  exists b' k e0 ms os o rs cs, blank b' /\ expression i = Ok (b' ++ 41 :: k) e0 /\
    e = MkExpression (MkConditionalAnd (MkRelational (MkAdditive (MkMultiplicative (UnDefault (PeBracketted e0)) ms) os) o :: rs) :: cs).
Proof.
  intros B S H. rewrite expression_eq in H. apply map_inv in H. destruct H as (l & H & <-). apply sepne_head in H. destruct H as (k1 & a1 & cs & H & ->).
  apply map_inv in H. destruct H as (l & H & <-). apply sepne_head in H. destruct H as (k2 & a2 & rs & H & ->).
  apply map_inv in H. destruct H as ((a3 & o) & H & <-). apply pair_inv in H. destruct H as (k3 & H & _).
  apply map_inv in H. destruct H as ((a4 & os) & H & <-). apply pair_inv in H. destruct H as (k4 & H & _).
  apply map_inv in H. destruct H as ((a5 & ms) & H & <-). apply pair_inv in H. destruct H as (k5 & H & _).
  do 3 (apply alt_split in H; destruct H as [H|[_ H]]; [exfalso; revert H; apply fails_not_ok, map_fails, preceded_fails1, terminated_fails1; eexists _, _; reflexivity|]).
  apply map_inv in H. destruct H as (x & H & <-).
  assert (Q : exists e0, bracketted_expression_of expression (40 :: b ++ i) = Ok k5 e0 /\ x = PeBracketted e0).
  { apply alt_split in H. destruct H as [H|[_ H]]; [apply map_inv in H; destruct H as (e0 & H & <-); eauto|]. exfalso. revert H. apply fails_not_ok.
    apply alt_fails_cons; [apply map_fails, LC4.built_in_first; reflexivity|].
    apply alt_fails_cons; [apply map_fails, map_fails, pair_fails1, iri_fails_first; reflexivity|].
    apply alt_fails_cons; [apply map_fails, rdf_literal_fails; discriminate|].
    apply alt_fails_cons; [apply map_fails, numeric_fails_first; (reflexivity || discriminate)|].
    apply alt_fails_cons; [apply map_fails, boolean_first; reflexivity|].
    apply alt_fails_cons; [apply map_fails, var_first; reflexivity|apply alt_fails_nil]. }
  destruct Q as (e0 & Q & ->). apply delimited_inv in Q. destruct Q as (i1 & i2 & c1 & c2 & Q1 & Q & Q2). apply chr_inv in Q1, Q2. destruct Q1 as [Q1 _], Q2 as [-> _]. injection Q1 as <-.
  apply delimited_inv in Q. destruct Q as (i3 & i4 & c3 & c4 & Q1 & Q & Q2). rewrite (sp_ok b i B S) in Q1. injection Q1 as <- <-. apply sp_iff in Q2. destruct Q2 as (-> & B' & _).
  exists c4, k5, e0, ms, os, o, rs, cs. auto.
Qed.
