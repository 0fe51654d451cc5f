(** A group is read alike wherever it stands. *)
From Verif Require Import LMods LC8.
From Verif Require Export LForms.
From Verif Require Import Nom.
Notation length := List.length (only parsing).
Open Scope N_scope.
Open Scope list_scope.
Notation gg := group_graph_pattern (only parsing).

(** a parser that starts with another keyword fails *)
Ltac hd t := lazymatch t with ?f _ => hd f | _ => t end.
Ltac fl K := lazymatch goal with
  | |- fails (tag_no_case _) _ => eapply off; [exact K|reflexivity..]
  | |- fails (map _ _) _ => apply map_fails; fl K
  | |- fails (pair _ _) _ => apply pair_fails1; fl K
  | |- fails (tuple3 _ _ _) _ => apply pair_fails1; fl K
  | |- fails (tuple4 _ _ _ _) _ => apply pair_fails1; fl K
  | |- fails (preceded _ _) _ => apply preceded_fails1; fl K
  | |- fails (delimited _ _ _) _ => apply delimited_fails1; fl K
  | |- fails (terminated _ _) _ => apply terminated_fails1; fl K
  | |- fails (preceded_tag1 _ _) _ => apply preceded_fails1; fl K
  | |- fails (preceded_tag _ _) _ => apply preceded_fails1; fl K
  | |- fails (preceded_bracketted _ _) _ => apply preceded_fails1; fl K
  | |- fails (alt [_]) _ => apply alt_fails_cons; [fl K|apply alt_fails_nil]
  | |- fails (alt (_ :: _)) _ => apply alt_fails_cons; [fl K|fl K]
  | |- fails ?p _ => let h := hd p in unfold h; fl K
  end.
Ltac nx K := apply alt_next; [fl K|].
Lemma brace_not k w x : kw k w -> word_like k = true -> fails gg (w ++ x).
Proof. intros K L. apply gg_first. now apply (word_not 123 k). Qed.

Section At.
  Variables (w b j : str).
  Hypotheses (B : blank1 b) (S : solid j).
  Lemma where_at r g : kw "where" w -> (where_clause (w ++ b ++ j) = Ok r g <-> gg j = Ok r g).
  Proof.
    intros K. destruct (term_at "where" w b j eq_refl K B S) as [y Y]. unfold where_clause, where_clause_of. split; intros H.
    - apply preceded_inv in H. destruct H as (k & o & E & H). rewrite (opt_some _ _ _ _ Y) in E. now injection E as <- <-.
    - eapply preceded_ok; [apply opt_some; exact Y|exact H].
  Qed.
  Lemma optional_at r g : kw "optional" w -> (graph_pattern_not_triples (w ++ b ++ j) = Ok r (GpOptional g) <-> gg j = Ok r g).
  Proof.
    intros K. split; intros H.
    - apply alt_inv in H. destruct H as (p & [<-|[<-|[<-|[<-|[<-|[<-|[<-|[<-|[]]]]]]]]] & H); apply map_inv in H; destruct H as (x & H & X); try discriminate X.
      injection X as ->. unfold optional_of in H. now rewrite (tag1_at "optional") in H by auto.
    - apply alt_next; [now apply map_fails, map_fails, sepne_fails, (brace_not "optional")|]. apply alt_first. eapply map_ok; [|reflexivity].
      unfold optional_of. now rewrite (tag1_at "optional") by auto.
  Qed.
  Lemma minus_at r g : kw "minus" w -> (graph_pattern_not_triples (w ++ b ++ j) = Ok r (GpMinus g) <-> gg j = Ok r g).
  Proof.
    intros K. split; intros H.
    - apply alt_inv in H. destruct H as (p & [<-|[<-|[<-|[<-|[<-|[<-|[<-|[<-|[]]]]]]]]] & H); apply map_inv in H; destruct H as (x & H & X); try discriminate X.
      injection X as ->. unfold minus_of in H. now rewrite (tag1_at "minus") in H by auto.
    - apply alt_next; [now apply map_fails, map_fails, sepne_fails, (brace_not "minus")|]. nx K. apply alt_first. eapply map_ok; [|reflexivity].
      unfold minus_of. now rewrite (tag1_at "minus") by auto.
  Qed.
  Lemma exists_at r g : kw "exists" w -> (built_in_call (w ++ b ++ j) = Ok r (BiExistsFunc g) <-> gg j = Ok r g).
  Proof.
    intros K. assert (F1 : fails (built_in_call_1_of (G := GroupGraphPattern) expression) (w ++ b ++ j)) by (fl K).
    assert (F2 : fails (built_in_call_2_of (G := GroupGraphPattern) expression) (w ++ b ++ j)) by (fl K). split; intros H.
    - unfold built_in_call, built_in_call_of in H. apply alt_inv in H. destruct H as (p & Hp & H). cbn [In] in Hp.
      destruct Hp as [<-|[<-|Hp]]; [now apply (fails_not_ok _ _ r (BiExistsFunc g)) in F1|now apply (fails_not_ok _ _ r (BiExistsFunc g)) in F2|].
      repeat (destruct Hp as [<-|Hp]; [apply map_inv in H; let x := fresh "x" in let X := fresh "X" in destruct H as (x & H & X); try discriminate X; try (destruct x as [? ?]; discriminate X); try (destruct x as [? [? ?]]; discriminate X)|]); [|destruct Hp].
      injection X as ->. now rewrite (tag1_at "exists") in H by auto.
    - unfold built_in_call, built_in_call_of. apply alt_next; [exact F1|]. apply alt_next; [exact F2|]. do 16 (nx K). apply alt_first. eapply map_ok; [|reflexivity]. now rewrite (tag1_at "exists") by auto.
  Qed.
End At.
Lemma graph_at w b x t b' j r g : kw "graph" w -> blank1 b -> solid (t ++ b' ++ j) -> W_var_or_iri x t (b' ++ j) -> blank b' -> solid j ->
  (graph_pattern_not_triples (w ++ b ++ t ++ b' ++ j) = Ok r (GpGraph (MkGraphGraphPattern x g)) <-> gg j = Ok r g).
Proof.
  intros K B S0 W B' S. destruct (term_at "graph" w b _ eq_refl K B S0) as [y Y]. apply rd_var_or_iri in W.
  assert (Z : terminated var_or_iri sp (t ++ b' ++ j) = Ok j x) by (eapply terminated_ok; [exact W|now apply sp_ok]). split; intros H.
  - apply alt_inv in H. destruct H as (p & [<-|[<-|[<-|[<-|[<-|[<-|[<-|[<-|[]]]]]]]]] & H); apply map_inv in H; destruct H as (z & H & X); try discriminate X.
    injection X as ->. apply map_inv in H. destruct H as ([y' [x' g']] & H & X). injection X as -> ->. apply pair_inv in H. destruct H as (k & E & H). rewrite Y in E. injection E as <- <-.
    apply pair_inv in H. destruct H as (k & E & H). rewrite Z in E. injection E as <-. exact H.
  - apply alt_next; [now apply map_fails, map_fails, sepne_fails, (brace_not "graph")|]. do 2 (nx K). apply alt_first. eapply map_ok; [|reflexivity].
    apply (map_ok _ _ _ _ (y, (x, g))); [|reflexivity]. eapply pair_ok; [exact Y|]. eapply pair_ok; [exact Z|exact H].
Qed.
Lemma service_at w b s u x t b' j r g : kw "service" w -> blank1 b -> solid (u ++ t ++ b' ++ j) -> W_silent s u (t ++ b' ++ j) -> W_var_or_iri x t (b' ++ j) -> blank b' -> solid j ->
  (graph_pattern_not_triples (w ++ b ++ u ++ t ++ b' ++ j) = Ok r (GpService (MkServiceGraphPattern x s g)) <-> gg j = Ok r g).
Proof.
  intros K B S0 V W B' S. destruct (term_at "service" w b _ eq_refl K B S0) as [y Y]. apply rd_var_or_iri in W. apply rd_opt_silent in V.
  assert (Z : terminated var_or_iri sp (t ++ b' ++ j) = Ok j x) by (eapply terminated_ok; [exact W|now apply sp_ok]). split; intros H.
  - apply alt_inv in H. destruct H as (p & [<-|[<-|[<-|[<-|[<-|[<-|[<-|[<-|[]]]]]]]]] & H); apply map_inv in H; destruct H as (z & H & X); try discriminate X.
    injection X as ->. apply map_inv in H. destruct H as ([y' [s' [x' g']]] & H & X). injection X as -> -> ->. apply pair_inv in H. destruct H as (k & E & H). rewrite Y in E. injection E as <- <-.
    apply pair_inv in H. destruct H as (k & E & H). rewrite V in E. injection E as <-. apply pair_inv in H. destruct H as (k & E & H). rewrite Z in E. injection E as <-. exact H.
  - apply alt_next; [now apply map_fails, map_fails, sepne_fails, (brace_not "service")|]. do 3 (nx K). apply alt_first. eapply map_ok; [|reflexivity].
    apply (map_ok _ _ _ _ (y, (s, (x, g)))); [|reflexivity]. eapply pair_ok; [exact Y|]. eapply pair_ok; [exact V|]. eapply pair_ok; [exact Z|exact H].
Qed.
Lemma not_exists_at w b w' b' j r g : kw "not" w -> blank1 b -> kw "exists" w' -> blank1 b' -> solid j ->
  (built_in_call (w ++ b ++ w' ++ b' ++ j) = Ok r (BiNotExistsFunc g) <-> gg j = Ok r g).
Proof.
  intros K B K' B' S. assert (F1 : fails (built_in_call_1_of (G := GroupGraphPattern) expression) (w ++ b ++ w' ++ b' ++ j)) by (fl K).
  assert (F2 : fails (built_in_call_2_of (G := GroupGraphPattern) expression) (w ++ b ++ w' ++ b' ++ j)) by (fl K).
  assert (S0 : solid (w' ++ b' ++ j)) by (apply (begins_solid "exists"); [reflexivity|exists w', (b' ++ j); auto]).
  assert (Y : tag_no_case (s_ "not") (w ++ b ++ w' ++ b' ++ j) = Ok (b ++ w' ++ b' ++ j) w) by (apply tnc_ok; [reflexivity|exact K]).
  assert (Z : sp_enc1 (tag_no_case (s_ "exists")) (b ++ w' ++ b' ++ j) = Ok j w').
  { eapply delimited_ok; [apply sp1_ok; [exact B|exact S0]|apply tnc_ok; [reflexivity|exact K']|now apply sp1_ok]. }
  split; intros H.
  - unfold built_in_call, built_in_call_of in H. apply alt_inv in H. destruct H as (p & Hp & H). cbn [In] in Hp.
    destruct Hp as [<-|[<-|Hp]]; [now apply (fails_not_ok _ _ r (BiNotExistsFunc g)) in F1|now apply (fails_not_ok _ _ r (BiNotExistsFunc g)) in F2|].
    repeat (destruct Hp as [<-|Hp]; [apply map_inv in H; let x := fresh "x" in let X := fresh "X" in destruct H as (x & H & X); try discriminate X; try (destruct x as [? ?]; discriminate X); try (destruct x as [? [? ?]]; discriminate X)|]); [|destruct Hp].
    destruct x as [y [z g']]. injection X as ->. apply pair_inv in H. destruct H as (k & E & H). rewrite Y in E. injection E as <- <-. apply pair_inv in H.
    destruct H as (k & E & H). rewrite Z in E. injection E as <- <-. exact H.
  - unfold built_in_call, built_in_call_of. apply alt_next; [exact F1|]. apply alt_next; [exact F2|]. do 17 (nx K).
    cbn [alt]. apply (map_ok _ _ _ _ (w, (w', g))); [|reflexivity]. eapply pair_ok; [exact Y|]. eapply pair_ok; [exact Z|exact H].
Qed.
(** without WHERE, and as a pattern *)
Lemma bare_where j r g : gg j = Ok r g -> where_clause j = Ok r g.
Proof.
  intros H. unfold where_clause, where_clause_of. eapply preceded_ok; [|exact H]. apply opt_none, terminated_fails1.
  destruct j as [|c j]; [destruct (fails_not_ok gg [] r g); [apply gg_first; exact I|exact H]|].
  destruct (N.eq_dec c 123) as [->|N]; [|destruct (fails_not_ok gg (c :: j) r g); [apply gg_first; exact N|exact H]].
  eexists _, _. reflexivity.
Qed.
Lemma bare_where_inv j r g : where_clause j = Ok r g -> gg j = Ok r g \/ exists w b j', kw "where" w /\ blank1 b /\ j = w ++ b ++ j' /\ gg j' = Ok r g.
Proof.
  intros H. unfold where_clause, where_clause_of in H. apply preceded_inv in H. destruct H as (k & o & E & H). apply opt_inv in E. destruct o as [y|]; [|destruct E as [-> _]; auto].
  right. apply word1_inv in E; [|reflexivity]. destruct E as (w & b & -> & K & B & S). exists w, b, k. auto.
Qed.
Lemma group_pattern j r g l : graph_pattern_not_triples j = Ok r (GpGroupOrUnion (MkGroupOrUnion (g :: l))) -> exists r', gg j = Ok r' g /\ (l = [] -> r' = r).
Proof.
  intros H. apply alt_inv in H. destruct H as (p & [<-|[<-|[<-|[<-|[<-|[<-|[<-|[<-|[]]]]]]]]] & H); apply map_inv in H; destruct H as (z & H & X); try discriminate X.
  injection X as ->. apply map_inv in H. destruct H as (l' & H & X). injection X as ->.
  apply sepne_iff in H; [|apply (gd_shrinks true IAny true); mv|eapply gd_shrinks, gd_group_graph_pattern].
  destruct H as (r' & g' & l' & E & _ & H & X). injection X as -> ->. exists r'. split; [exact E|]. intros ->. inversion H; subst; reflexivity.
Qed.
Lemma group_as_pattern j r g : gg j = Ok r g -> nxt (fun x => ~ begins "union" x) r -> graph_pattern_not_triples j = Ok r (GpGroupOrUnion (MkGroupOrUnion [g])).
Proof.
  intros H (b & x & -> & B & S & N). apply alt_first. eapply map_ok; [|reflexivity]. eapply map_ok; [|reflexivity].
  eapply sepne_cons; [apply (gd_shrinks true IAny true); mv|eapply gd_shrinks, gd_group_graph_pattern|exact H|exact (gd_moves _ _ _ _ _ _ gd_group_graph_pattern H)|].
  apply sep_stop. destruct b as [|c b]; [now apply delimited_fails1, sp1_fails|]. eapply delimited_fails2; [apply sp1_ok; [split; [exact B|discriminate]|exact S]|].
  now apply (kw_fails "union").
Qed.
