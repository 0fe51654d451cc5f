(** Evaluation of the combinators: when a parser accepts, and when it gives way. *)
From Verif Require Export LMono.
Notation length := List.length (only parsing).
Open Scope N_scope.
Open Scope list_scope.

(** [p] gives a recoverable error on [i] *)
Definition fails {A} (p : parser A) (i : str) : Prop := exists pos k, p i = Err (Error pos k).

Lemma pair_ok {A B} (p : parser A) (q : parser B) i i1 i2 a b :
  p i = Ok i1 a -> q i1 = Ok i2 b -> pair p q i = Ok i2 (a, b).
Proof. intros H1 H2. unfold pair. now rewrite H1, H2. Qed.
Lemma map_ok {A B} (p : parser A) (f : A -> B) i r a b : p i = Ok r a -> f a = b -> map p f i = Ok r b.
Proof. intros H <-. unfold map. now rewrite H. Qed.
Lemma preceded_ok {A B} (p : parser A) (q : parser B) i i1 i2 a b :
  p i = Ok i1 a -> q i1 = Ok i2 b -> preceded p q i = Ok i2 b.
Proof. intros H1 H2. eapply map_ok; [eapply pair_ok; eassumption|reflexivity]. Qed.
Lemma terminated_ok {A B} (p : parser A) (q : parser B) i i1 i2 a b :
  p i = Ok i1 a -> q i1 = Ok i2 b -> terminated p q i = Ok i2 a.
Proof. intros H1 H2. eapply map_ok; [eapply pair_ok; eassumption|reflexivity]. Qed.
Lemma delimited_ok {A B C} (p : parser A) (q : parser B) (s : parser C) i i1 i2 i3 a b c :
  p i = Ok i1 a -> q i1 = Ok i2 b -> s i2 = Ok i3 c -> delimited p q s i = Ok i3 b.
Proof. intros H1 H2 H3. eapply preceded_ok; [eassumption|]. eapply terminated_ok; eassumption. Qed.
Lemma separated_pair_ok {A B C} (p : parser A) (s : parser B) (q : parser C) i i1 i2 i3 a b c :
  p i = Ok i1 a -> s i1 = Ok i2 b -> q i2 = Ok i3 c -> separated_pair p s q i = Ok i3 (a, c).
Proof. intros H1 H2 H3. eapply pair_ok; [eassumption|]. eapply preceded_ok; eassumption. Qed.
Lemma opt_some {A} (p : parser A) i r a : p i = Ok r a -> opt p i = Ok r (Some a).
Proof. intros H. unfold opt. now rewrite H. Qed.
Lemma opt_none {A} (p : parser A) i : fails p i -> opt p i = Ok i None.
Proof. intros (x & k & H). unfold opt. now rewrite H. Qed.
Lemma cut_ok {A} (p : parser A) i r a : p i = Ok r a -> cut p i = Ok r a.
Proof. intros H. unfold cut. now rewrite H. Qed.
Lemma alt_first {A} (p : parser A) ps i r a : p i = Ok r a -> alt (p :: ps) i = Ok r a.
Proof. intros H. destruct ps; cbn [alt]; now rewrite H. Qed.
Lemma alt_next {A} (p : parser A) ps i r a : fails p i -> alt ps i = Ok r a -> alt (p :: ps) i = Ok r a.
Proof.
  intros (x & k & H) H2. destruct ps; cbn [alt] in *; [discriminate|]. now rewrite H.
Qed.
Lemma alt_fails {A} (ps : list (parser A)) i : Forall (fun p => fails p i) ps -> fails (alt ps) i.
Proof.
  unfold fails. induction 1 as [|p ps (x & k & H) Hs IH]; [now exists i, KAlt|].
  destruct ps; cbn [alt]; rewrite H; [now exists x, k|]. exact IH.
Qed.
Lemma alt_fails_cons {A} (p : parser A) ps i : fails p i -> fails (alt ps) i -> fails (alt (p :: ps)) i.
Proof.
  unfold fails. intros (x & k & H) F. destruct ps; cbn [alt]; rewrite H; [now exists x, k|]. exact F.
Qed.
Lemma alt_fails_nil {A} i : fails (@alt A []) i. Proof. now exists i, KAlt. Qed.
Lemma pair_fails1 {A B} (p : parser A) (q : parser B) i : fails p i -> fails (pair p q) i.
Proof. intros (x & k & H). exists x, k. unfold pair. now rewrite H. Qed.
Lemma pair_fails2 {A B} (p : parser A) (q : parser B) i i1 a : p i = Ok i1 a -> fails q i1 -> fails (pair p q) i.
Proof. intros H1 (x & k & H). exists x, k. unfold pair. now rewrite H1, H. Qed.
Lemma map_fails {A B} (p : parser A) (f : A -> B) i : fails p i -> fails (map p f) i.
Proof. intros (x & k & H). exists x, k. unfold map. now rewrite H. Qed.
Lemma preceded_fails1 {A B} (p : parser A) (q : parser B) i : fails p i -> fails (preceded p q) i.
Proof. intros H. now apply map_fails, pair_fails1. Qed.
Lemma preceded_fails2 {A B} (p : parser A) (q : parser B) i i1 a : p i = Ok i1 a -> fails q i1 -> fails (preceded p q) i.
Proof. intros H1 H. apply map_fails. eapply pair_fails2; eassumption. Qed.
Lemma terminated_fails1 {A B} (p : parser A) (q : parser B) i : fails p i -> fails (terminated p q) i.
Proof. intros H. now apply map_fails, pair_fails1. Qed.
Lemma terminated_fails2 {A B} (p : parser A) (q : parser B) i i1 a : p i = Ok i1 a -> fails q i1 -> fails (terminated p q) i.
Proof. intros H1 H. apply map_fails. eapply pair_fails2; eassumption. Qed.
Lemma delimited_fails1 {A B C} (p : parser A) (q : parser B) (s : parser C) i : fails p i -> fails (delimited p q s) i.
Proof. apply preceded_fails1. Qed.
Lemma delimited_fails2 {A B C} (p : parser A) (q : parser B) (s : parser C) i i1 a :
  p i = Ok i1 a -> fails q i1 -> fails (delimited p q s) i.
Proof. intros H1 H. eapply preceded_fails2; [eassumption|]. now apply terminated_fails1. Qed.
Lemma delimited_fails3 {A B C} (p : parser A) (q : parser B) (s : parser C) i i1 i2 a b :
  p i = Ok i1 a -> q i1 = Ok i2 b -> fails s i2 -> fails (delimited p q s) i.
Proof. intros H1 H2 H. eapply preceded_fails2; [eassumption|]. eapply terminated_fails2; eassumption. Qed.
Lemma map_res_ok {A B} (p : parser A) (f : A -> option B) i r a b : p i = Ok r a -> f a = Some b -> map_res p f i = Ok r b.
Proof. intros H1 H2. unfold map_res. now rewrite H1, H2. Qed.
Lemma map_res_fails1 {A B} (p : parser A) (f : A -> option B) i : fails p i -> fails (map_res p f) i.
Proof. intros (x & k & H). exists x, k. unfold map_res. now rewrite H. Qed.
Lemma map_res_fails2 {A B} (p : parser A) (f : A -> option B) i r a : p i = Ok r a -> f a = None -> fails (map_res p f) i.
Proof. intros H1 H2. unfold fails, map_res. rewrite H1, H2. eauto. Qed.
Lemma recognize_fails {A} (p : parser A) i : fails p i -> fails (recognize p) i.
Proof. intros (x & k & H). exists x, k. unfold recognize. now rewrite H. Qed.
Lemma recognize_ok {A} (p : parser A) t r a : p (t ++ r) = Ok r a -> recognize p (t ++ r) = Ok r t.
Proof.
  intros H. unfold recognize. rewrite H. f_equal. rewrite app_length.
  replace (length t + length r - length r)%nat with (length t) by lia.
  rewrite firstn_app, Nat.sub_diag, firstn_O, app_nil_r. now rewrite firstn_all.
Qed.
Lemma fails_not_ok {A} (p : parser A) i r a : fails p i -> p i = Ok r a -> False.
Proof. intros (x & k & H) H2. congruence. Qed.

Lemma chr_ok c r : chr c (c :: r) = Ok r c.
Proof. unfold chr. now rewrite N.eqb_refl. Qed.
Lemma chr_fails c i : match i with x :: _ => x <> c | [] => True end -> fails (chr c) i.
Proof.
  intros H. destruct i as [|x i]; [now exists [], KChar|]. exists (x :: i), KChar. unfold chr.
  apply N.eqb_neq in H. now rewrite H.
Qed.
Lemma tag_ok s r : tag s (s ++ r) = Ok r s.
Proof. unfold tag. assert (E : strip_prefix s (s ++ r) = Some r) by now apply strip_prefix_some. now rewrite E. Qed.
Lemma tag_fails s i : (forall r, i <> s ++ r) -> fails (tag s) i.
Proof.
  intros H. exists i, KTag. unfold tag. destruct (strip_prefix s i) as [r|] eqn:E; [|reflexivity].
  apply strip_prefix_some in E. now apply H in E.
Qed.
(** the first character of the text is not [c] *)
Lemma tag_fails_first c s i : not_first c i -> fails (tag (c :: s)) i.
Proof. intros H. apply tag_fails. intros r ->. now apply H. Qed.
Lemma one_of_ok cs c r : In c cs -> one_of cs (c :: r) = Ok r c.
Proof. intros H. unfold one_of. apply contains_In in H. now rewrite H. Qed.
Lemma one_of_fails cs i : match i with x :: _ => ~ In x cs | [] => True end -> fails (one_of cs) i.
Proof.
  intros H. destruct i as [|x i]; [now exists [], KOneOf|]. exists (x :: i), KOneOf. unfold one_of.
  destruct (contains cs x) eqn:E; [|reflexivity]. now apply contains_In in E.
Qed.
Lemma take_while_ok f u r : all f u -> stops f r -> take_while f (u ++ r) = Ok r u.
Proof. intros H S. unfold take_while. now rewrite span_stops. Qed.
Lemma take1_ok k f u r : u <> [] -> all f u -> stops f r -> take1 k f (u ++ r) = Ok r u.
Proof. intros N H S. unfold take1. rewrite span_stops by assumption. destruct u; [congruence|reflexivity]. Qed.
Lemma take1_fails k f r : stops f r -> fails (take1 k f) r.
Proof.
  intros S. exists r, k. unfold take1. change r with ([] ++ r) at 1. rewrite span_stops; [reflexivity|constructor|assumption].
Qed.
Lemma take_one_ok f c r : f c = true -> take_while_m_n 1 1 f (c :: r) = Ok r [c].
Proof. intros H. unfold take_while_m_n. cbn [span_n]. rewrite H. destruct r; reflexivity. Qed.
Lemma take_one_fails f r : stops f r -> fails (take_while_m_n 1 1 f) r.
Proof.
  intros S. exists r, KTakeWhileMN. unfold take_while_m_n. destruct r as [|c r]; [reflexivity|].
  cbn [span_n]. cbn in S. now rewrite S.
Qed.

(** ** Repetition *)
Definition shrinks {A} (p : parser A) : Prop := sound p (fun _ _ => True).
Lemma sound_shrinks {A} (p : parser A) R : sound p R -> shrinks p.
Proof. intros H. eapply sound_weaken; [exact H|]. auto. Qed.

Inductive many_ok {A} (p : parser A) : str -> str -> list A -> Prop :=
| many_stop i : fails p i -> many_ok p i i []
| many_step i i1 r a l : p i = Ok i1 a -> i1 <> i -> many_ok p i1 r l -> many_ok p i r (a :: l).
Lemma many0_loop_iff {A} (p : parser A) : shrinks p -> forall n i r l, (length i < n)%nat ->
  many0_loop n p i = Ok r l <-> many_ok p i r l.
Proof.
  intros S. induction n as [|n IH]; intros i r l L; [lia|]. cbn [many0_loop]. split.
  - destruct (p i) as [i1 a|e] eqn:E.
    + destruct (str_eqb i1 i) eqn:Ei; [discriminate|]. apply str_eqb_neq in Ei.
      destruct (many0_loop n p i1) as [r' l'|] eqn:El; [|discriminate]. intros [= <- <-].
      destruct (S _ _ _ E) as (t & -> & _).
      assert (length i1 < n)%nat.
      { destruct t; [now destruct Ei|]. cbn in L. rewrite app_length in L. lia. }
      apply IH in El; [|assumption]. econstructor; eassumption.
    + destruct e; try discriminate. intros [= <- <-]. constructor. eexists; eauto.
  - intros H. inversion H as [j (x & k & F)|j i1 r' a l' E N M]; subst; [now rewrite F|]. rewrite E.
    apply str_eqb_neq in N as N'. rewrite N'.
    destruct (S _ _ _ E) as (t & -> & _).
    assert (length i1 < n)%nat.
    { destruct t; [now destruct N|]. cbn in L. rewrite app_length in L. lia. }
    apply IH in M; [|assumption]. now rewrite M.
Qed.
Lemma many0_iff {A} (p : parser A) i r l : shrinks p -> many0 p i = Ok r l <-> many_ok p i r l.
Proof. intros S. apply many0_loop_iff; [assumption|lia]. Qed.
Lemma many1_loop_iff {A} (p : parser A) : shrinks p -> forall n i r l, (length i < n)%nat ->
  many1_loop n p i = Ok r l <-> many_ok p i r l.
Proof.
  intros S. induction n as [|n IH]; intros i r l L; [lia|]. cbn [many1_loop]. split.
  - destruct (p i) as [i1 a|e] eqn:E.
    + destruct (str_eqb i1 i) eqn:Ei; [discriminate|]. apply str_eqb_neq in Ei.
      destruct (many1_loop n p i1) as [r' l'|] eqn:El; [|discriminate]. intros [= <- <-].
      destruct (S _ _ _ E) as (t & -> & _).
      assert (length i1 < n)%nat.
      { destruct t; [now destruct Ei|]. cbn in L. rewrite app_length in L. lia. }
      apply IH in El; [|assumption]. econstructor; eassumption.
    + destruct e; try discriminate. intros [= <- <-]. constructor. eexists; eauto.
  - intros H. inversion H as [j (x & k & F)|j i1 r' a l' E N M]; subst; [now rewrite F|]. rewrite E.
    apply str_eqb_neq in N as N'. rewrite N'.
    destruct (S _ _ _ E) as (t & -> & _).
    assert (length i1 < n)%nat.
    { destruct t; [now destruct N|]. cbn in L. rewrite app_length in L. lia. }
    apply IH in M; [|assumption]. now rewrite M.
Qed.
Lemma many1_iff {A} (p : parser A) i r l : shrinks p ->
  many1 p i = Ok r l <-> exists i1 a l', p i = Ok i1 a /\ many_ok p i1 r l' /\ l = a :: l'.
Proof.
  intros S. unfold many1. split.
  - destruct (p i) as [i1 a|e]; [|discriminate].
    destruct (many1_loop (Datatypes.S (length i1)) p i1) as [r' l'|] eqn:E; [|discriminate].
    intros [= <- <-]. apply many1_loop_iff in E; [|assumption|lia]. eauto 6.
  - intros (i1 & a & l' & -> & M & ->). apply (many1_loop_iff p S (Datatypes.S (length i1))) in M; [|lia].
    now rewrite M.
Qed.
Lemma many1_fails {A} (p : parser A) i : fails p i -> fails (many1 p) i.
Proof. intros (x & k & H). exists x, k. unfold many1. now rewrite H. Qed.

(** the tail of a separated list *)
Inductive sep_ok {A B} (s : parser B) (p : parser A) : str -> str -> list A -> Prop :=
| sep_stop i : fails s i -> sep_ok s p i i []
| sep_back i i1 b : s i = Ok i1 b -> i1 <> i -> fails p i1 -> sep_ok s p i i []
| sep_step i i1 i2 r b a l : s i = Ok i1 b -> i1 <> i -> p i1 = Ok i2 a -> sep_ok s p i2 r l ->
    sep_ok s p i r (a :: l).
Lemma shrink_len {A} (p : parser A) i i1 a : shrinks p -> p i = Ok i1 a -> (length i1 <= length i)%nat.
Proof. intros S E. destruct (S _ _ _ E) as (t & -> & _). rewrite app_length. lia. Qed.
Lemma shrink_lt {A} (p : parser A) i i1 a : shrinks p -> p i = Ok i1 a -> i1 <> i -> (length i1 < length i)%nat.
Proof.
  intros S E N. destruct (S _ _ _ E) as (t & -> & _). destruct t; [now destruct N|]. cbn. rewrite app_length. lia.
Qed.
Lemma sep_loop_iff {A B} (s : parser B) (p : parser A) : shrinks s -> shrinks p -> forall n i r l, (length i < n)%nat ->
  sep_loop n s p i = Ok r l <-> sep_ok s p i r l.
Proof.
  intros Ss Sp. induction n as [|n IH]; intros i r l L; [lia|]. cbn [sep_loop]. split.
  - destruct (s i) as [i1 b|e] eqn:E.
    + destruct (str_eqb i1 i) eqn:Ei; [discriminate|]. apply str_eqb_neq in Ei.
      pose proof (shrink_lt _ _ _ _ Ss E Ei).
      destruct (p i1) as [i2 a|e] eqn:Ep.
      * destruct (str_eqb i2 i) eqn:E2; [discriminate|].
        pose proof (shrink_len _ _ _ _ Sp Ep).
        destruct (sep_loop n s p i2) as [r' l'|] eqn:El; [|discriminate]. intros [= <- <-].
        apply IH in El; [|lia]. econstructor; eassumption.
      * destruct e; try discriminate. intros [= <- <-]. eapply sep_back; [eassumption..|]. eexists; eauto.
    + destruct e; try discriminate. intros [= <- <-]. apply sep_stop. eexists; eauto.
  - intros H. inversion H as [j (x & k & F)|j i1 b E N (x & k & F)|j i1 i2 r' b a l' E N E2 M]; subst.
    + now rewrite F.
    + rewrite E. apply str_eqb_neq in N. now rewrite N, F.
    + rewrite E. pose proof (shrink_lt _ _ _ _ Ss E N). pose proof (shrink_len _ _ _ _ Sp E2).
      apply str_eqb_neq in N as N'. rewrite N', E2.
      destruct (str_eqb i2 i) eqn:E3; [apply str_eqb_eq in E3; subst; lia|].
      apply IH in M; [|lia]. now rewrite M.
Qed.
Lemma sepne_iff {A B} (s : parser B) (p : parser A) i r l : shrinks s -> shrinks p ->
  separated_nonempty_list s p i = Ok r l <->
  exists i1 a l', p i = Ok i1 a /\ i1 <> i /\ sep_ok s p i1 r l' /\ l = a :: l'.
Proof.
  intros Ss Sp. unfold separated_nonempty_list. split.
  - destruct (p i) as [i1 a|e]; [|discriminate]. destruct (str_eqb i1 i) eqn:Ei; [discriminate|].
    apply str_eqb_neq in Ei. destruct (sep_loop (S (length i1)) s p i1) as [r' l'|] eqn:E; [|discriminate].
    intros [= <- <-]. apply sep_loop_iff in E; [|assumption..|lia]. eauto 7.
  - intros (i1 & a & l' & -> & N & M & ->). apply str_eqb_neq in N. rewrite N.
    apply (sep_loop_iff s p Ss Sp (S (length i1))) in M; [|lia]. now rewrite M.
Qed.
Lemma sepl_cons {A B} (s : parser B) (p : parser A) i i1 r a l : shrinks s -> shrinks p ->
  p i = Ok i1 a -> i1 <> i -> sep_ok s p i1 r l -> separated_list s p i = Ok r (a :: l).
Proof.
  intros Ss Sp E N M. unfold separated_list. rewrite E. apply str_eqb_neq in N. rewrite N.
  apply (sep_loop_iff s p Ss Sp (S (length i1))) in M; [|lia]. now rewrite M.
Qed.
Lemma sepl_nil {A B} (s : parser B) (p : parser A) i : fails p i -> separated_list s p i = Ok i [].
Proof. intros (x & k & H). unfold separated_list. now rewrite H. Qed.
Lemma sepne_cons {A B} (s : parser B) (p : parser A) i i1 r a l : shrinks s -> shrinks p ->
  p i = Ok i1 a -> i1 <> i -> sep_ok s p i1 r l -> separated_nonempty_list s p i = Ok r (a :: l).
Proof. intros Ss Sp E N M. apply sepne_iff; [assumption..|]. eauto 7. Qed.
Lemma sepne_fails {A B} (s : parser B) (p : parser A) i : fails p i -> fails (separated_nonempty_list s p) i.
Proof. intros (x & k & H). exists x, k. unfold separated_nonempty_list. now rewrite H. Qed.
Lemma many1_cons {A} (p : parser A) i i1 r a l : shrinks p -> p i = Ok i1 a -> many_ok p i1 r l ->
  many1 p i = Ok r (a :: l).
Proof. intros S E M. apply many1_iff; [assumption|]. eauto 7. Qed.
