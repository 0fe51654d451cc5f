(** Terminals: exactly which texts they read. *)
From Verif Require Export LTok.
Notation length := List.length (only parsing).
Open Scope N_scope.
Open Scope list_scope.

(** ** Longest match *)
Section Longest.
  Context (L : str -> Prop) (F : str -> str -> Prop) (p : parser str).
  Hypothesis p_reads : forall s r, L s -> F s r -> p (s ++ r) = Ok r s.
  Hypothesis p_ext : forall s r, L s -> F s r \/ exists x r', r = x ++ r' /\ x <> [] /\ L (s ++ x).
  Hypothesis p_sound : forall i r s, p i = Ok r s -> i = s ++ r /\ L s.
  Lemma longest_extend s r : L s -> exists s' r', s ++ r = s' ++ r' /\ L s' /\ F s' r' /\ (length s <= length s')%nat.
  Proof.
    remember (length r) as n eqn:E. revert s r E. induction n as [n IH] using lt_wf_ind. intros s r -> H.
    destruct (p_ext s r H) as [HF|(x & r' & -> & N & Hx)]; [exists s, r; auto|].
    assert (Lx : (0 < length x)%nat) by (destruct x; [congruence|cbn; lia]).
    destruct (IH (length r') ltac:(rewrite app_length; lia) (s ++ x) r' eq_refl Hx) as (s' & r2 & E & H1 & H2 & H3).
    exists s', r2. rewrite app_length in H3. repeat split; auto; [|lia]. now rewrite <- E, app_assoc.
  Qed.
  Lemma longest_follow s r : L s -> (forall s' r', s ++ r = s' ++ r' -> L s' -> (length s' <= length s)%nat) -> F s r.
  Proof.
    intros H M. destruct (p_ext s r H) as [HF|(x & r' & -> & N & Hx)]; [assumption|].
    specialize (M (s ++ x) r' ltac:(now rewrite app_assoc) Hx). rewrite app_length in M.
    destruct x; [congruence|cbn in M; lia].
  Qed.
  Lemma longest_iff i r s : p i = Ok r s <-> i = s ++ r /\ longest L s i.
  Proof.
    split.
    - intros H. destruct (p_sound _ _ _ H) as [-> Hs]. repeat split; [assumption|].
      intros s' r' E Hs'. destruct (longest_extend s' r' Hs') as (s2 & r2 & E2 & H1 & H2 & H3).
      rewrite E, E2 in H. rewrite (p_reads _ _ H1 H2) in H. injection H as -> ->. assumption.
    - intros (-> & Hs & M). apply p_reads; [assumption|]. now apply longest_follow.
  Qed.
  Lemma longest_some s r : L s -> exists r' s', p (s ++ r) = Ok r' s'.
  Proof.
    intros H. destruct (longest_extend s r H) as (s' & r' & -> & H1 & H2 & _). exists r', s'. now apply p_reads.
  Qed.
End Longest.

(** first character, as a test *)
Definition first_is (f : char -> bool) (i : str) : bool := match i with c :: _ => f c | [] => false end.
Lemma stops_iff f r : stops f r <-> first_is f r = false.
Proof. destruct r; cbn; split; auto. Qed.
Lemma all_span f t : all f t -> forall r, stops f r -> span f (t ++ r) = (t, r).
Proof. intros H r Hr. now apply span_stops. Qed.
Lemma all_cons f c t : all f (c :: t) <-> f c = true /\ all f t.
Proof. split; [intros H; inversion H; auto|intros [H1 H2]; now constructor]. Qed.

Lemma span_cases f i : exists s r, i = s ++ r /\ all f s /\ stops f r.
Proof.
  exists (fst (span f i)), (snd (span f i)). destruct (span_fst f i) as [H1 H2].
  repeat split; [apply span_app|assumption..].
Qed.

(** ** IRI references *)
Lemma iri_ref_ok s r : all iri_char s -> iri_ref (60 :: s ++ 62 :: r) = Ok r s.
Proof.
  intros H. unfold iri_ref. eapply delimited_ok; [apply (tag_ok (s_ "<"))| |apply (tag_ok (s_ ">"))].
  apply take_while_ok; [|reflexivity]. revert H. apply all_ext. intros c. now rewrite is_iri_char_eq.
Qed.
Lemma iri_ref_iff i r s : iri_ref i = Ok r s <-> i = 60 :: s ++ 62 :: r /\ all iri_char s.
Proof.
  split.
  - intros H. apply sd_iri_ref in H. destruct H as (t & -> & -> & H). split; [|assumption].
    cbn. now rewrite <- app_assoc.
  - intros [-> H]. now apply iri_ref_ok.
Qed.
Lemma iri_ref_fails i : not_first 60 i -> fails iri_ref i.
Proof. intros H. apply delimited_fails1. now apply tag_fails_first. Qed.
Lemma iri_ref_verdict i : (exists r s, iri_ref i = Ok r s) \/ fails iri_ref i.
Proof.
  destruct i as [|c i]; [right; now apply iri_ref_fails|].
  destruct (N.eq_dec c 60) as [->|N]; [|right; now apply iri_ref_fails].
  destruct (span_cases is_iri_char i) as (s & r & -> & H1 & H2).
  destruct r as [|d r].
  - right. eapply delimited_fails3; [apply (tag_ok (s_ "<"))|apply take_while_ok; eassumption|].
    now apply tag_fails_first.
  - destruct (N.eq_dec d 62) as [->|N].
    + left. exists r, s. apply iri_ref_ok. revert H1. apply all_ext, is_iri_char_eq.
    + right. eapply delimited_fails3; [apply (tag_ok (s_ "<"))|apply take_while_ok; eassumption|].
      now apply tag_fails_first.
Qed.

(** ** Strings *)
Lemma string_literal_ok q s r : q = 39 \/ q = 34 -> body q s -> s <> [] -> string_literal (q :: s ++ q :: r) = Ok r s.
Proof.
  intros Hq H N. rewrite string_literal_eq. destruct Hq as [-> | ->].
  - apply alt_first. apply quoted_iff; auto.
  - apply alt_next.
    + apply delimited_fails1. apply tag_fails_first. discriminate.
    + apply alt_first. apply quoted_iff; auto.
Qed.
Lemma string_literal_iff i r s : string_literal i = Ok r s <->
  exists q, (q = 39 \/ q = 34) /\ i = q :: s ++ q :: r /\ body q s /\ s <> [].
Proof.
  split.
  - intros H. apply sd_string_literal in H. destruct H as (t & -> & q & Hq & -> & Hb & N).
    exists q. repeat split; auto. cbn. now rewrite <- app_assoc.
  - intros (q & Hq & -> & Hb & N). now apply string_literal_ok.
Qed.
Lemma string_literal_fails i : not_first 39 i -> not_first 34 i -> fails string_literal i.
Proof.
  intros H1 H2. rewrite string_literal_eq. apply alt_fails. repeat constructor; apply delimited_fails1;
    now apply tag_fails_first.
Qed.

(** ** Language tags *)
Lemma alnum_shrinks : shrinks (pair (tag (s_ "-")) alphanumeric1).
Proof. eapply sound_shrinks, sound_pair; [apply sound_tag|apply sound_take1]. Qed.
Definition lang_follow (s r : str) : Prop :=
  (if existsb (N.eqb 45) s then stops (in_ranges alnum) r else stops (in_ranges letters) r) /\
  (forall c r', r = 45 :: c :: r' -> in_ranges alnum c = false).
Lemma stops_ext f g r : (forall c, f c = g c) -> stops f r -> stops g r.
Proof. intros H. destruct r; cbn; [auto|]. now rewrite H. Qed.
Lemma letters_alnum c : in_ranges letters c = true -> in_ranges alnum c = true.
Proof. unfold alnum, in_ranges. rewrite existsb_app. intros ->. reflexivity. Qed.
Lemma letters_no_dash u : all (in_ranges letters) u -> existsb (N.eqb 45) u = false.
Proof.
  induction 1 as [|c u Hc _ IH]; [reflexivity|]. cbn [existsb]. rewrite IH.
  destruct (N.eqb_spec 45 c) as [<-|]; [discriminate|reflexivity].
Qed.
Lemma subtags_first t r : lang_subtags t -> t <> [] -> exists t', t ++ r = 45 :: t' ++ r.
Proof. destruct 1 as [|u t]; [congruence|]. intros _. exists (u ++ t). reflexivity. Qed.
Lemma alnum_dash c : in_ranges alnum c = true -> c <> 45.
Proof. intros H ->. discriminate. Qed.
Lemma subtags_many t r : lang_subtags t -> (t <> [] -> stops (in_ranges alnum) r) ->
  (forall c r', r = 45 :: c :: r' -> in_ranges alnum c = false) ->
  exists l, many_ok (pair (tag (s_ "-")) alphanumeric1) (t ++ r) r l.
Proof.
  intros H Hr Hd. induction H as [|u t N Hu Ht IH].
  - exists []. apply many_stop. destruct r as [|c r]; [apply pair_fails1; now apply tag_fails_first|].
    destruct (N.eq_dec c 45) as [->|Nc]; [|apply pair_fails1; now apply tag_fails_first].
    eapply pair_fails2; [apply (tag_ok (s_ "-"))|]. apply take1_fails. destruct r as [|d r]; [exact I|].
    cbn. rewrite char_is_alphanum_eq. eapply Hd. reflexivity.
  - destruct IH as [l IH]; [intros Nt; apply Hr; discriminate|]. cbn [app]. rewrite <- app_assoc.
    eexists. eapply many_step; [| |exact IH].
    + eapply pair_ok; [apply (tag_ok (s_ "-"))|]. apply take1_ok; [assumption| |].
      * revert Hu. apply all_ext. intros c. now rewrite char_is_alphanum_eq.
      * apply (stops_ext (in_ranges alnum)); [intros c; now rewrite char_is_alphanum_eq|].
        destruct t as [|x t]; [apply Hr; discriminate|]. inversion Ht; subst. reflexivity.
    + intros E. apply (f_equal (@length char)) in E. cbn in E. rewrite !app_length in E. lia.
Qed.
Lemma existsb_subtags u t : all (in_ranges letters) u -> lang_subtags t ->
  existsb (N.eqb 45) (u ++ t) = match t with [] => false | _ => true end.
Proof.
  intros Hu Ht. rewrite existsb_app, letters_no_dash by assumption. destruct Ht as [|v t]; reflexivity.
Qed.
Lemma language_tag_ok s r : lang_tag s -> lang_follow s r -> language_tag (64 :: s ++ r) = Ok r s.
Proof.
  intros (u & t & -> & N & Hu & Ht) [F1 F2]. unfold language_tag. eapply preceded_ok; [apply chr_ok|].
  rewrite existsb_subtags in F1 by assumption.
  destruct (subtags_many t r Ht) as [l M]; [intros Nt; destruct t; [congruence|assumption]|assumption|].
  eapply recognize_ok. rewrite <- app_assoc. eapply pair_ok.
  - apply take1_ok; [assumption| |].
    + revert Hu. apply all_ext. intros c. now rewrite is_alphabetic_eq.
    + apply (stops_ext (in_ranges letters)); [intros c; now rewrite is_alphabetic_eq|].
      destruct t; [assumption|]. inversion Ht; subst. reflexivity.
  - apply many0_iff; [apply alnum_shrinks|exact M].
Qed.
Lemma subtags_app t v : lang_subtags t -> lang_subtags v -> lang_subtags (t ++ v).
Proof.
  intros H Hv. induction H as [|u t N Hu Ht IH]; [assumption|]. cbn [app]. rewrite <- app_assoc. now constructor.
Qed.
Lemma subtags_snoc t c : lang_subtags t -> t <> [] -> in_ranges alnum c = true -> lang_subtags (t ++ [c]).
Proof.
  intros H Nt Hc. induction H as [|u t N Hu Ht IH]; [congruence|]. destruct t as [|x t].
  - rewrite app_nil_r. cbn [app].
    replace (u ++ [c]) with ((u ++ [c]) ++ []) by apply app_nil_r. apply subtags_cons; [destruct u; discriminate| |constructor].
    apply all_app; [assumption|]. repeat constructor. assumption.
  - cbn [app]. rewrite <- app_assoc. apply (subtags_cons u ((x :: t) ++ [c])); [assumption..|]. apply IH. discriminate.
Qed.
Lemma lang_ext s r : lang_tag s -> lang_follow s r \/ exists x r', r = x ++ r' /\ x <> [] /\ lang_tag (s ++ x).
Proof.
  intros (u & t & -> & N & Hu & Ht). destruct r as [|c r].
  { left. split; [destruct (existsb _ _); exact I|discriminate]. }
  destruct (in_ranges alnum c) eqn:Ec.
  - destruct t as [|x t].
    + destruct (in_ranges letters c) eqn:El.
      * right. exists [c], r. repeat split; [discriminate|]. exists (u ++ [c]), []. rewrite !app_nil_r.
        repeat split; [destruct u; discriminate| |constructor]. apply all_app; [assumption|]. now repeat constructor.
      * left. split; [rewrite existsb_subtags by assumption; exact El|].
        intros d r' [= -> ->]. discriminate.
    + right. exists [c], r. repeat split; [discriminate|]. exists u, ((x :: t) ++ [c]). rewrite app_assoc.
      repeat split; auto. apply subtags_snoc; [assumption|discriminate|assumption].
  - destruct (N.eq_dec c 45) as [->|Nc].
    + destruct r as [|d r].
      * left. split; [destruct (existsb _ _); reflexivity|]. intros; discriminate.
      * destruct (in_ranges alnum d) eqn:Ed.
        -- right. exists [45; d], r. repeat split; [discriminate|]. exists u, (t ++ [45; d]). rewrite app_assoc.
           repeat split; auto. apply subtags_app; [assumption|]. apply (subtags_cons [d] []); [discriminate| |constructor].
           now repeat constructor.
        -- left. split; [destruct (existsb _ _); reflexivity|]. intros x y [= -> ->]. assumption.
    + left. split; [|intros x y [= -> ->]; congruence].
      destruct (existsb _ _); [exact Ec|]. unfold stops. destruct (in_ranges letters c) eqn:El; [|reflexivity].
      apply letters_alnum in El. congruence.
Qed.
Definition lang_body : parser str := recognize (pair alpha1 (many0 (pair (tag (s_ "-")) alphanumeric1))).
Lemma lang_at s : language_tag (64 :: s) = lang_body s.
Proof.
  change (language_tag (64 :: s)) with (preceded (chr 64) lang_body (64 :: s)).
  unfold preceded, map, pair. rewrite chr_ok. destruct (lang_body s); reflexivity.
Qed.
Lemma language_tag_iff i r s : language_tag i = Ok r s <-> exists j, i = 64 :: j /\ j = s ++ r /\ longest lang_tag s j.
Proof.
  assert (X : forall j r s, lang_body j = Ok r s <-> j = s ++ r /\ longest lang_tag s j).
  { apply (longest_iff lang_tag lang_follow).
    - intros s' r' H F. rewrite <- lang_at. now apply language_tag_ok.
    - apply lang_ext.
    - intros j r' s' H. rewrite <- lang_at in H. apply sd_language_tag in H. destruct H as (t & E & -> & H).
      injection E as ->. auto. }
  split.
  - intros H. pose proof H as H'. apply sd_language_tag in H. destruct H as (t & -> & -> & H).
    cbn [app] in H'. rewrite lang_at in H'. apply X in H'. exists (s ++ r). split; [reflexivity|assumption].
  - intros (j & -> & H). rewrite lang_at. now apply X.
Qed.
Lemma language_tag_fails i : not_first 64 i -> fails language_tag i.
Proof. intros H. apply preceded_fails1. now apply chr_fails. Qed.
Lemma lang_body_verdict i : (exists r s, lang_body i = Ok r s) \/ fails lang_body i.
Proof.
  unfold lang_body. destruct (span_cases is_alphabetic i) as (u & r & -> & H1 & H2). destruct u as [|c u].
  - right. apply recognize_fails, pair_fails1. now apply take1_fails.
  - left. apply (longest_some lang_tag lang_follow).
    + intros s' r' H F. change (lang_body (s' ++ r') = Ok r' s'). rewrite <- lang_at. now apply language_tag_ok.
    + apply lang_ext.
    + exists (c :: u), []. rewrite app_nil_r. repeat split; [discriminate| |constructor].
      revert H1. apply all_ext, is_alphabetic_eq.
Qed.
Lemma language_tag_verdict i : (exists r s, language_tag i = Ok r s) \/ fails language_tag i.
Proof.
  destruct i as [|c i]; [right; now apply language_tag_fails|].
  destruct (N.eq_dec c 64) as [->|N]; [|right; now apply language_tag_fails].
  unfold fails. rewrite lang_at. apply lang_body_verdict.
Qed.
