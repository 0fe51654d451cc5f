(** Functions of the same number of arguments are read alike. *)
From Verif Require Export LCall LC5.
From Verif Require Import LMods LC8 LPrint1 LPrint2 LMore2 LFlags3.
From Verif Require Import Nom.
Notation length := List.length (only parsing).
Open Scope N_scope.
Open Scope list_scope.

(** the aggregates of one expression *)
Definition aggregate_calls {E} : list (string * (DistinctExpression E -> Aggregate E)) :=
  [ ("sum", AgSum); ("min", AgMin); ("max", AgMax); ("avg", AgAvg); ("sample", AgSample) ]%string.

Lemma pb_at {A} k (p : parser A) w b x : low_ascii (s_ k) = true -> kw k w -> blank b ->
  preceded_bracketted (s_ k) p (w ++ b ++ 40 :: x) = bracketted p (40 :: x).
Proof.
  intros L K B. assert (S : solid (40 :: x)) by now apply char_solid.
  destruct (rdx_kw k L w (b ++ 40 :: x) K) as [y E].
  unfold preceded_bracketted, preceded_tag, preceded. unfold map at 1. unfold pair at 1.
  rewrite (terminated_ok _ _ _ _ _ _ _ E (sp_ok b _ B S)). destruct (bracketted p (40 :: x)); reflexivity.
Qed.
Lemma pb_off {A} k k' (p : parser A) w j : kw k' w -> low_ascii (s_ k) = true -> low_ascii (s_ k') = true -> differ (s_ k') (s_ k) = true ->
  fails (preceded_bracketted (s_ k) p) (w ++ j).
Proof. intros K L L' D. apply tag0_fails. exact (nf_kw k k' L L' D w j K). Qed.
(** a call whose bracket is read *)
Definition read_call {A} (p : parser A) (a : A) : lang := fun t r => bracketted p (40 :: t ++ r) = Ok r a.
Lemma rd_read_call {A} k (p : parser A) a : low_ascii (s_ k) = true ->
  rd (preceded_bracketted (s_ k) p) a (word k >> gap >> sym "(" >> read_call p a).
Proof.
  intros L t r (w & y & -> & K & b & z & -> & [B _] & o & u & -> & -> & H). hnf in K, H.
  rewrite <- !app_assoc. change (s_ "(") with [40]. cbn [app]. now rewrite (pb_at k).
Qed.
Lemma call_text {A} k (p : parser A) a w b x r : kw k w -> blank b -> bracketted p (40 :: x) = Ok r a -> (exists t, x = t ++ r) ->
  exists t, w ++ b ++ 40 :: x = t ++ r /\ (word k >> gap >> sym "(" >> read_call p a) t r.
Proof.
  intros K B H (t & ->). exists (w ++ b ++ 40 :: t). split; [now rewrite <- !app_assoc|].
  apply then_app; [exact K|]. apply then_app; [split; [exact B|now apply char_solid]|]. now apply then_cons.
Qed.
Lemma bracket_rest {A} (p : parser A) x r a : shrinks p -> bracketted p (40 :: x) = Ok r a -> exists t, x = t ++ r.
Proof.
  intros S H. apply delimited_inv in H. destruct H as (i1 & i2 & y & z & H1 & H2 & H3). apply chr_inv in H1. destruct H1 as [H1 _]. injection H1 as <-.
  destruct (S _ _ _ H2) as (t & -> & _). apply chr_inv in H3. destruct H3 as [-> _]. exists (t ++ [c_ ")"]). now rewrite <- app_assoc.
Qed.
Ltac inside H :=
  lazymatch type of H with
  | alt _ _ = _ => apply alt_inv in H; let p := fresh "p" in let Hp := fresh "Hp" in destruct H as (p & Hp & H); cbn [In] in Hp;
      repeat (destruct Hp as [<-|Hp]; [inside H|]); try (destruct Hp; fail)
  | map _ _ _ = _ => apply map_inv in H; let x := fresh "x" in let X := fresh "X" in destruct H as (x & H & X); first [discriminate X | lazymatch type of x with (_ * (_ * _))%type => destruct x as [? [? ?]] | (_ * _)%type => destruct x as [? ?] end; discriminate X | idtac]
  | call1 _ _ _ _ = _ => unfold call1 in H; inside H
  | call2 _ _ _ _ = _ => unfold call2 in H; apply map_inv in H; let x := fresh "x" in let y := fresh "y" in let X := fresh "X" in destruct H as ([x y] & H & X); try discriminate X
  | call0 _ _ _ = _ => unfold call0 in H; inside H
  | built_in_call_1_of _ _ = _ => unfold built_in_call_1_of in H; inside H
  | built_in_call_2_of _ _ = _ => unfold built_in_call_2_of in H; inside H
  | built_in_call _ = _ => unfold built_in_call, built_in_call_of in H; inside H
  end.

Lemma unary_at k C w b x r e : In (k, C, true) unary_calls -> kw k w -> blank b ->
  (built_in_call (w ++ b ++ 40 :: x) = Ok r (C e) <-> bracketted ex (40 :: x) = Ok r e).
Proof.
  intros I K B. split; intros H.
  - cbn in I.
    repeat (destruct I as [I|I]; [first [discriminate I | injection I as <- <-; inside H;
      try (exfalso; revert H; apply fails_not_ok; eapply pb_off; [exact K|reflexivity..]);
      rewrite pb_at in H by (reflexivity || assumption)]|]); try (destruct I; fail).
    all: try (injection X as <-; exact H).
    injection X as ->. apply delimited_inv in H. destruct H as (i1 & i2 & y & z & H1 & H2 & H3). eapply delimited_ok; [exact H1| |exact H3].
    apply alt_inv in H2. destruct H2 as (p & [<-|[<-|[]]] & H2); apply map_inv in H2; destruct H2 as (e' & H2 & X); [injection X as ->; exact H2|discriminate X].
  - pose proof (bracket_rest ex x r e ltac:(eapply (gd_shrinks true IAny true); mv) H) as T. cbn in I.
    assert (R : rd built_in_call (C e) (word k >> gap >> sym "(" >> read_call ex e)).
    { repeat (destruct I as [I|I]; [first [discriminate I | injection I as <- <-]|]); try (destruct I; fail).
      all: lazymatch goal with |- rd _ _ (word ?k >> _) => bi (opens_gap k (read_call ex e)) end.
      all: first [apply (rd_map _ _ e); [apply rd_read_call; reflexivity|reflexivity] | idtac].
      apply (rd_map _ _ (Some e)); [|reflexivity]. intros t r' L. apply rd_read_call; [reflexivity|]. revert L.
      apply then_mono. intros t1 r1. apply then_mono. intros t2 r2. apply then_mono. intros t3 r3 L.
      apply delimited_inv in L. destruct L as (i1 & i2 & y & z & H1 & H2 & H3). eapply delimited_ok; [exact H1| |exact H3].
      apply alt_first. now apply (map_ok _ _ _ _ e). }
    destruct (call_text k ex e w b x r K B H T) as (t & -> & L). exact (R t r L).
Qed.
Lemma binary_at k C w b x r a c : In (k, C, true) binary_calls -> kw k w -> blank b ->
  (built_in_call (w ++ b ++ 40 :: x) = Ok r (C a c) <-> bracketted (expr2_of ex) (40 :: x) = Ok r (a, c)).
Proof.
  intros I K B. split; intros H.
  - cbn in I.
    repeat (destruct I as [I|I]; [first [discriminate I | injection I as <- <-; inside H; rewrite pb_at in H by (reflexivity || assumption)]|]); try (destruct I; fail).
    all: injection X as <- <-; exact H.
  - pose proof (bracket_rest (expr2_of ex) x r (a, c) ltac:(eapply (gd_shrinks true IAny true); unfold expr2_of; mv) H) as T. cbn in I.
    assert (R : rd built_in_call (C a c) (word k >> gap >> sym "(" >> read_call (expr2_of ex) (a, c))).
    { repeat (destruct I as [I|I]; [first [discriminate I | injection I as <- <-]|]); try (destruct I; fail).
      all: lazymatch goal with |- rd _ _ (word ?k >> _) => bi (opens_gap k (read_call (expr2_of ex) (a, c))) end.
      all: apply (rd_map _ _ (a, c)); [apply rd_read_call; reflexivity|reflexivity]. }
    destruct (call_text k (expr2_of ex) (a, c) w b x r K B H T) as (t & -> & L). exact (R t r L).
Qed.
Lemma aggregate_at k C w b x r d : In (k, C) aggregate_calls -> kw k w -> blank b ->
  (built_in_call (w ++ b ++ 40 :: x) = Ok r (BiAggregate (C d)) <-> bracketted (distinct_expression_of ex) (40 :: x) = Ok r d).
Proof.
  intros I K B. split; intros H.
  - inside H. injection X as ->. unfold aggregate_of in H. cbn in I.
    repeat (destruct I as [I|I]; [injection I as <- <-; inside H; rewrite pb_at in H by (reflexivity || assumption)|]); try (destruct I; fail).
    all: injection X as <-; exact H.
  - pose proof (bracket_rest (distinct_expression_of ex) x r d ltac:(eapply (gd_shrinks true IAny true); unfold distinct_expression_of; mv) H) as T. cbn in I.
    assert (R : rd built_in_call (BiAggregate (C d)) (word k >> gap >> sym "(" >> read_call (distinct_expression_of ex) d)).
    { repeat (destruct I as [I|I]; [injection I as <- <-|]); try (destruct I; fail).
      all: unfold built_in_call, built_in_call_of, built_in_call_1_of; apply rd_alt_first, rd_alt_first;
        lazymatch goal with |- rd _ (BiAggregate ?a) (word ?k >> _) => apply (rd_map _ _ a); [|reflexivity]; unfold aggregate_of; pick (opens_gap k (read_call (distinct_expression_of ex) d)) end.
      all: apply rd_alt_first, (rd_map _ _ d); [apply rd_read_call; reflexivity|reflexivity]. }
    destruct (call_text k (distinct_expression_of ex) d w b x r K B H T) as (t & -> & L). exact (R t r L).
Qed.
(** the pairs *)
Lemma unary_alike k C k' C' w b w' b' x r e : In (k, C, true) unary_calls -> In (k', C', true) unary_calls -> kw k w -> blank b -> kw k' w' -> blank b' ->
  (built_in_call (w ++ b ++ 40 :: x) = Ok r (C e) <-> built_in_call (w' ++ b' ++ 40 :: x) = Ok r (C' e)).
Proof. intros I I' K B K' B'. now rewrite (unary_at k C w b x r e I K B), (unary_at k' C' w' b' x r e I' K' B'). Qed.
Lemma binary_alike k C k' C' w b w' b' x r a c : In (k, C, true) binary_calls -> In (k', C', true) binary_calls -> kw k w -> blank b -> kw k' w' -> blank b' ->
  (built_in_call (w ++ b ++ 40 :: x) = Ok r (C a c) <-> built_in_call (w' ++ b' ++ 40 :: x) = Ok r (C' a c)).
Proof. intros I I' K B K' B'. now rewrite (binary_at k C w b x r a c I K B), (binary_at k' C' w' b' x r a c I' K' B'). Qed.
Lemma aggregate_alike k C k' C' w b w' b' x r d : In (k, C) aggregate_calls -> In (k', C') aggregate_calls -> kw k w -> blank b -> kw k' w' -> blank b' ->
  (built_in_call (w ++ b ++ 40 :: x) = Ok r (BiAggregate (C d)) <-> built_in_call (w' ++ b' ++ 40 :: x) = Ok r (BiAggregate (C' d))).
Proof. intros I I' K B K' B'. now rewrite (aggregate_at k C w b x r d I K B), (aggregate_at k' C' w' b' x r d I' K' B'). Qed.
