(** Templates of CONSTRUCT against those of the data requests, and the dot at their end. *)
From Verif Require Import LMods LC8.
From Verif Require Export LMore2 LFlags3 LEither.
From Verif Require Import Nom.
Notation length := List.length (only parsing).
Open Scope N_scope.
Open Scope list_scope.

Lemma sepl_as_sepne {A B} (s : parser B) (p : parser A) i r a l : separated_list s p i = Ok r (a :: l) -> separated_nonempty_list s p i = Ok r (a :: l).
Proof.
  unfold separated_list, separated_nonempty_list. destruct (p i) as [i1 a1|[]] eqn:E; try discriminate; intros H; exact H.
Qed.
Lemma sepne_as_sepl {A B} (s : parser B) (p : parser A) i r l : separated_nonempty_list s p i = Ok r l -> separated_list s p i = Ok r l.
Proof.
  unfold separated_list, separated_nonempty_list. destruct (p i) as [i1 a1|[]] eqn:E; try discriminate; intros H; exact H.
Qed.
Lemma sepl_nil_inv {A B} (s : parser B) (p : parser A) i r : separated_list s p i = Ok r [] -> shrinks s -> shrinks p -> r = i /\ fails p i.
Proof.
  intros H Ss Sp. destruct (p i) as [i1 a|e] eqn:E.
  - destruct (sepl_step s p i r [] i1 a Ss Sp H E) as (l' & _ & X). discriminate X.
  - unfold separated_list in H. rewrite E in H. destruct e; try discriminate. injection H as <-. split; [reflexivity|]. unfold fails. rewrite E. eauto.
Qed.
Definition moving {A} (p : parser A) : Prop := forall i r a, p i = Ok r a -> (length r < length i)%nat.
Lemma gd_moving {A} c d (p : parser A) : good true c d p -> moving p.
Proof. intros G i r a H. pose proof (gd_moves _ _ _ _ _ _ G H) as N. destruct (gd_shrinks _ _ _ _ G _ _ _ H) as (t & X & _). apply suffix_neq_length; [now exists t|]. now apply str_eqb_neq. Qed.
Lemma sep_loop_quiet {A B} (s : parser B) (p : parser A) : moving s -> moving p -> forall n i x k, sep_loop n s p i <> Err (Error x k).
Proof.
  intros Ms Mp. induction n as [|n IH]; intros i x k; cbn [sep_loop]; [discriminate|].
  destruct (s i) as [i1 b|[]] eqn:E1; try discriminate. pose proof (Ms _ _ _ E1) as L1.
  destruct (str_eqb i1 i) eqn:Q; [apply str_eqb_eq in Q; subst; lia|].
  destruct (p i1) as [i2 a|[]] eqn:E2; try discriminate. pose proof (Mp _ _ _ E2) as L2.
  destruct (str_eqb i2 i) eqn:Q2; [apply str_eqb_eq in Q2; subst; lia|].
  destruct (sep_loop n s p i2) as [r l|e] eqn:E3; [discriminate|]. intros [= ->]. now apply IH in E3.
Qed.
Lemma sepne_fails_inv {A B} (s : parser B) (p : parser A) i : moving s -> moving p -> fails (separated_nonempty_list s p) i -> fails p i.
Proof.
  intros Ms Mp (x & k & H). unfold separated_nonempty_list in H. destruct (p i) as [i1 a|e] eqn:E; [|injection H as ->; unfold fails; eauto].
  exfalso. pose proof (Mp _ _ _ E) as L. destruct (str_eqb i1 i) eqn:Q; [apply str_eqb_eq in Q; subst; lia|].
  destruct (sep_loop (S (length i1)) s p i1) as [r l|e] eqn:E1; [discriminate|]. injection H as ->. revert E1. now apply sep_loop_quiet.
Qed.
(** the list of triples of an optional template *)
Definition triples_of (o : option TriplesTemplate) : list TriplesSameSubject := match o with Some l => l | None => [] end.

Lemma dots_moving : moving (many1 (sp_enc (chr (c_ ".")))).
Proof. apply (gd_moving IAny true). mv. Qed.
Lemma tss_moving : moving triples_same_subject.
Proof. apply (gd_moving IAny true). mv. Qed.
Lemma dots_shrinks : shrinks (many1 (sp_enc (chr (c_ ".")))).
Proof. apply (gd_shrinks true IAny true). mv. Qed.
Lemma tss_shrinks : shrinks triples_same_subject.
Proof. apply (gd_shrinks true IAny true). mv. Qed.
Lemma close_no_dot r2 r c : preceded sp (chr (c_ "}")) r2 = Ok r c -> exists b, sp r2 = Ok (125 :: r) b /\ fails (preceded sp (chr (c_ "."))) r2.
Proof.
  intros H. apply preceded_inv in H. destruct H as (j & b & S & H). apply chr_inv in H. destruct H as [-> _]. exists b. split; [exact S|].
  eapply preceded_fails2; [exact S|]. now apply chr_fails.
Qed.
Lemma construct_as_braced i r l : construct_template i = Ok r (MkConstructTemplate l) -> exists o, braced_template i = Ok r o /\ triples_of o = l.
Proof.
  intros H. apply map_inv in H. destruct H as (l' & H & X). injection X as ->. apply delimited_inv in H. destruct H as (i1 & i2 & a & c & E1 & E2 & E3).
  apply terminated_inv in E1. destruct E1 as (i0 & b0 & E0 & S0). destruct (close_no_dot _ _ _ E3) as (b & S & F).
  destruct l as [|t l].
  - apply sepl_nil_inv in E2; [|exact dots_shrinks|exact tss_shrinks]. destruct E2 as [-> E2]. exists None. split; [|reflexivity].
    eapply delimited_ok; [exact E0| |now apply chr_ok]. eapply delimited_ok; [exact S0| |exact S]. apply opt_none, terminated_fails1.
    destruct E2 as (x & k & E2). unfold fails, separated_nonempty_list. rewrite E2. eauto.
  - exists (Some (t :: l)). split; [|reflexivity]. eapply delimited_ok; [exact E0| |now apply chr_ok]. eapply delimited_ok; [exact S0| |exact S].
    apply opt_some. eapply terminated_ok; [exact (sepl_as_sepne _ _ _ _ _ _ E2)|]. now apply opt_none.
Qed.
Lemma braced_as_construct i r o : braced_template i = Ok r o ->
  construct_template i = Ok r (MkConstructTemplate (triples_of o)) \/
  (exists u b, i = u ++ 46 :: b ++ 125 :: r /\ blank b) /\ o <> None /\ forall r' c, construct_template i <> Ok r' c.
Proof.
  intros H. apply delimited_inv in H. destruct H as (i1 & i2 & a & c & E1 & E2 & E3). apply delimited_inv in E2. destruct E2 as (i3 & i4 & b0 & b1 & S0 & E2 & S1).
  apply chr_inv in E3. destruct E3 as [-> _]. apply opt_inv in E2. destruct o as [l|].
  - apply terminated_inv in E2. destruct E2 as (i5 & o & E2 & E4). apply opt_inv in E4. destruct o as [x|].
    + right. apply preceded_inv in E4. destruct E4 as (j & b & S & E4). apply chr_inv in E4. destruct E4 as [-> _].
      apply sp_iff in S1. destruct S1 as (-> & B1 & _). split; [|split; [discriminate|]].
      * apply chr_inv in E1. destruct E1 as [-> _]. apply sp_iff in S0. destruct S0 as (-> & B0 & _).
        assert (X : shrinks (separated_nonempty_list (many1 (sp_enc (chr (c_ ".")))) triples_same_subject)) by (apply (gd_shrinks true IAny true); mv).
        destruct (X _ _ _ E2) as (u & -> & _). apply sp_iff in S. destruct S as (-> & _ & _). exists (c_ "{" :: b0 ++ u ++ b), b1. split; [|exact B1].
        cbn [app]. now rewrite <- !app_assoc.
      * intros r' q H. apply map_inv in H. destruct H as (l' & H & _). apply delimited_inv in H. destruct H as (k1 & k2 & a' & c' & F1 & F2 & F3).
        apply terminated_inv in F1. destruct F1 as (k0 & b2 & F0 & T0). rewrite E1 in F0. injection F0 as <- <-. rewrite S0 in T0. injection T0 as <- <-.
        rewrite (sepne_as_sepl _ _ _ _ _ E2) in F2. injection F2 as <- <-. apply close_no_dot in F3. destruct F3 as (b3 & T & _). rewrite S in T. discriminate T.
    + left. destruct E4 as [-> F]. eapply map_ok; [|reflexivity]. eapply delimited_ok; [eapply terminated_ok; [exact E1|exact S0]| |].
      * apply sepne_as_sepl. exact E2.
      * eapply preceded_ok; [exact S1|]. now apply chr_ok.
  - left. destruct E2 as [-> F]. eapply map_ok; [|reflexivity]. eapply delimited_ok; [eapply terminated_ok; [exact E1|exact S0]| |].
    + cbn [triples_of]. apply LEval.sepl_nil. apply (sepne_fails_inv (many1 (sp_enc (chr (c_ "."))))); [exact dots_moving|exact tss_moving|].
      unfold fails, triples_template, terminated, map, pair in F. destruct F as (x & k & F).
      destruct (separated_nonempty_list (many1 (sp_enc (chr (c_ ".")))) triples_same_subject i3) as [j l|e] eqn:E; [|injection F as ->; unfold fails; eauto].
      unfold opt in F. destruct (preceded sp (chr (c_ ".")) j) as [|[]]; discriminate F.
    + eapply preceded_ok; [exact S1|]. now apply chr_ok.
Qed.

(** ** The dot at the end *)
Lemma tss_list l t r : sep1W W_tss dotsW template_end l t r -> separated_nonempty_list (many1 (sp_enc (chr (c_ ".")))) triples_same_subject (t ++ r) = Ok r l.
Proof.
  revert t r. change (rd (separated_nonempty_list (many1 (sp_enc (chr (c_ ".")))) triples_same_subject) l (sep1W W_tss dotsW template_end l)).
  apply rd_sep1; [exact rd_tss|mv|mv|now apply rdx_marks|intros t r; now apply (many1W_ne' ".")|].
  intros r [H|(s & r' & -> & H1 & H2)].
  + apply sep_stop. now apply many1_mark_fails.
  + destruct (rdx_marks 46 "." eq_refl _ _ H1) as [x E]. eapply sep_back; [exact E| |].
    * apply app_ne. revert H1. now apply (many1W_ne' ".").
    * now apply no_triple_fails.
Qed.
Lemma dot_end b b' x : blank b -> blank b' -> template_end (b ++ 46 :: b' ++ 125 :: x).
Proof.
  intros B B'. right. exists (b ++ 46 :: b'), (125 :: x). split; [now rewrite <- app_assoc|]. split.
  - exists []. exists (b ++ 46 :: b'), []. rewrite app_nil_r. split; [reflexivity|]. split.
    + exists b, (46 :: b'). split; [reflexivity|]. split; [split; [exact B|now apply char_solid]|]. exists [46], b'. split; [reflexivity|]. split; [reflexivity|].
      rewrite app_nil_l. split; [assumption|now apply char_solid].
    + cbn. split; [reflexivity|]. apply nxt_solid; [now apply char_solid|]. discriminate.
  - left. now exists x.
Qed.
Lemma construct_only i r q : begins "construct" i -> sparql_query i = Ok r q -> exists c, construct_query i = Ok r c.
Proof.
  intros B E. pose proof (query_form _ _ _ E) as F. apply alt_inv in E.
  destruct E as (p & [<-|[<-|[<-|[<-|[]]]]] & E); apply map_inv in E; destruct E as (y & E & <-); [|eauto|..]; exfalso; revert B F; apply begins_differ; reflexivity.
Qed.
Lemma after_same k w b y w' b' j : low_ascii (s_ k) = true -> kw k w -> blank1 b -> solid y -> kw k w' -> blank1 b' -> solid j -> w ++ b ++ y = w' ++ b' ++ j -> j = y.
Proof.
  intros L K B S K' B' S' E. destruct (kw_sp1 k L (w ++ b) y) as [z Z]; [exists w, b; split; [reflexivity|split; [exact K|split; assumption]]|].
  destruct (kw_sp1 k L (w' ++ b') j) as [z' Z']; [exists w', b'; split; [reflexivity|split; [exact K'|split; assumption]]|].
  rewrite <- app_assoc in Z, Z'. rewrite E, Z' in Z. now injection Z.
Qed.
Lemma construct_at w b j : kw "construct" w -> blank1 b -> solid j ->
  construct_query (w ++ b ++ j) = alt [ map sub_construct CqSubConstruct; map sub_triples CqSubTriples ] j.
Proof.
  intros K B S. destruct (kw_sp1 "construct" eq_refl (w ++ b) j) as [y E].
  { exists w, b. split; [reflexivity|]. split; [exact K|]. split; [exact B|exact S]. }
  unfold construct_query, preceded_tag1. rewrite <- app_assoc in E. destruct y as [y1 y2]. apply pair_inv in E. destruct E as (k & E1 & E2). unfold preceded. unfold map at 1. unfold pair at 1. rewrite (terminated_ok _ _ _ _ _ _ _ E1 E2).
  destruct (alt _ j); reflexivity.
Qed.
Section Dot.
  Variables (b0 : str) (l : list TriplesSameSubject) (t b b' x : str).
  Hypotheses (B0 : blank b0) (H : sep1W W_tss dotsW (fun r => r = b ++ 46 :: b' ++ 125 :: x) l t (b ++ 46 :: b' ++ 125 :: x)) (S : solid (t ++ b ++ 46 :: b' ++ 125 :: x))
    (B : blank b) (B' : blank b').
  Lemma stop_weaken {A} (W : A -> lang) T (P Q : str -> Prop) k : (forall r, P r -> Q r) -> forall u r, tailW W T P k u r -> tailW W T Q k u r.
  Proof.
    intros PQ. induction k as [|a k IH]; intros u r X; [destruct X as [-> X]; split; auto|]. cbn [tailW] in *.
    destruct X as (u1 & v1 & -> & X1 & X2). exists u1, v1. split; [reflexivity|]. split; [exact X1|].
    destruct X2 as (u2 & v2 & -> & X2 & X3). exists u2, v2. auto.
  Qed.
  Lemma dotted_list : separated_nonempty_list (many1 (sp_enc (chr (c_ ".")))) triples_same_subject (t ++ b ++ 46 :: b' ++ 125 :: x) = Ok (b ++ 46 :: b' ++ 125 :: x) l.
  Proof.
    apply tss_list. destruct l as [|a k]; [destruct H|]. destruct H as (u & v & -> & Hu & Hv). exists u, v. split; [reflexivity|]. split; [exact Hu|].
    revert Hv. apply stop_weaken. intros r ->. now apply dot_end.
  Qed.
  Lemma dotted_braced : braced_template (123 :: b0 ++ t ++ b ++ 46 :: b' ++ 125 :: x) = Ok x (Some l).
  Proof.
    eapply delimited_ok; [now apply chr_ok| |now apply chr_ok]. eapply delimited_ok; [apply sp_ok; [exact B0|exact S]| |].
    - apply opt_some. eapply terminated_ok; [exact dotted_list|]. apply opt_some. eapply preceded_ok; [apply sp_ok; [exact B|now apply char_solid]|now apply chr_ok].
    - apply sp_ok; [exact B'|now apply char_solid].
  Qed.
  Lemma dotted_construct r c : construct_template (123 :: b0 ++ t ++ b ++ 46 :: b' ++ 125 :: x) <> Ok r c.
  Proof.
    intros E. apply map_inv in E. destruct E as (l' & E & _). apply delimited_inv in E. destruct E as (k1 & k2 & a' & c' & F1 & F2 & F3).
    apply terminated_inv in F1. destruct F1 as (k0 & b2 & F0 & T0). apply chr_inv in F0. destruct F0 as [F0 _]. injection F0 as <-.
    rewrite (sp_ok _ _ B0 S) in T0. injection T0 as <- <-.
    rewrite (sepne_as_sepl _ _ _ _ _ dotted_list) in F2. injection F2 as <- <-. apply close_no_dot in F3. destruct F3 as (b3 & T & _).
    rewrite sp_ok in T; [discriminate T|exact B|now apply char_solid].
  Qed.
  Lemma dotted_query w b1 r q : kw "construct" w -> blank1 b1 -> sparql_query_stmt (w ++ b1 ++ 123 :: b0 ++ t ++ b ++ 46 :: b' ++ 125 :: x) <> Ok r q.
  Proof.
    intros K B1 E. apply map_inv in E. destruct E as ([p [q' v]] & E & _). apply pair_inv in E. destruct E as (j & E1 & E). apply pair_inv in E. destruct E as (k & E & _).
    set (y := 123 :: b0 ++ t ++ b ++ 46 :: b' ++ 125 :: x) in *.
    assert (Bg : begins "construct" (w ++ b1 ++ y)) by (exists w, (b1 ++ y); auto).
    assert (N : no_decl (w ++ b1 ++ y)) by (split; intros X; revert Bg X; apply begins_differ; reflexivity).
    assert (Sy : solid (w ++ b1 ++ y)) by (revert Bg; apply begins_solid; reflexivity).
    apply terminated_inv in E1. destruct E1 as (r1 & bb & E1 & Es). rewrite (rd_prologue (MkPrologue []) [] _ (conj eq_refl N) : prologue (w ++ b1 ++ y) = _) in E1. injection E1 as <- <-.
    rewrite (sp_nil _ Sy) in Es. injection Es as <- <-. destruct (construct_only _ _ _ Bg E) as (c & C).
    pose proof (construct_form _ _ _ C) as F. destruct F as (j & A & F).
    rewrite (construct_at w b1 y K B1) in C by now apply char_solid.
    assert (J : j = y). { destruct A as (w' & b2 & E0 & K' & B2 & Sj). apply (after_same "construct" w b1 y w' b2 j); auto. now apply char_solid. }
    subst j. destruct F as [_ F]. destruct F as [s Q]; [now exists (b0 ++ t ++ b ++ 46 :: b' ++ 125 :: x)|]. subst c.
    apply alt_inv in C. destruct C as (p1 & [<-|[<-|[]]] & C); apply map_inv in C; destruct C as (z & C & Z); [|discriminate Z].
    apply map_inv in C. destruct C as ([t1 z1] & C & _). apply pair_inv in C. destruct C as (i1 & C & _). apply terminated_inv in C. destruct C as (i2 & b3 & C & _).
    revert C. apply dotted_construct.
  Qed.
End Dot.
