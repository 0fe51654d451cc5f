(** Prefixed names, IRIs, variables, labels, literals, numbers. *)
From Verif Require Export LName2.
Notation length := List.length (only parsing).
Open Scope N_scope.
Open Scope list_scope.

(** ** Delimiters *)
(** characters that end every name and every number *)
Definition dlm (c : char) : bool := existsb (N.eqb c) ([32; 9; 10; 13] ++ s_ "#{}()[],;|=<>!&*/?$""'").
#[global] Arguments dlm : simpl never.
Definition brk (r : str) : Prop := match r with c :: _ => dlm c = true | [] => True end.
Lemma dlm_out (f : char -> bool) : forallb (fun c => negb (f c)) ([32; 9; 10; 13] ++ s_ "#{}()[],;|=<>!&*/?$""'") = true ->
  forall c, dlm c = true -> f c = false.
Proof.
  intros H c Hc. rewrite forallb_forall in H. unfold dlm in Hc. apply existsb_exists in Hc.
  destruct Hc as (x & Hx & E). apply N.eqb_eq in E. subst x. apply H in Hx. now apply negb_true_iff.
Qed.
Lemma brk_stops (f : char -> bool) r : forallb (fun c => negb (f c)) ([32; 9; 10; 13] ++ s_ "#{}()[],;|=<>!&*/?$""'") = true ->
  brk r -> stops f r.
Proof. intros H. destruct r as [|c r]; [auto|]. cbn [brk stops]. now apply dlm_out. Qed.
Lemma brk_not (x : char) r : negb (dlm x) = true -> brk r -> not_first x r.
Proof. intros H. destruct r as [|c r]; [auto|]. cbn. intros Hc ->. now rewrite Hc in H. Qed.
Lemma brk_unit r : brk r -> unit_stop r.
Proof.
  intros H. repeat split; [now apply brk_stops..|]. apply no_plx_first; now apply brk_not.
Qed.
Lemma stop_tail t r : stops name_char r -> stops dot_char r -> tail_follow t r.
Proof. intros H1 H2. split; [assumption|]. destruct (forallb _ _); [assumption|now apply stops_dots_end]. Qed.
Lemma brk_name p r : brk r -> name_follow p r.
Proof. intros H. apply stop_tail; now apply brk_stops. Qed.
Lemma blank_brk b r : blank b -> b <> [] \/ brk r -> brk (b ++ r).
Proof.
  destruct 1 as [|c t Hc|bd nl t]; intros N; [destruct N; [congruence|assumption]| |reflexivity].
  cbn. cbn in Hc. repeat (destruct Hc as [Hc|Hc]; [subst c; reflexivity|]). destruct Hc.
Qed.

(** ** Prefixed names *)
Lemma colon_follow p b r : blank b -> name_follow p (b ++ 58 :: r).
Proof.
  intros H. destruct b as [|c b]; [apply stop_tail; reflexivity|]. apply brk_name. apply blank_brk; [assumption|].
  left. discriminate.
Qed.
Lemma colon_solid r : solid (58 :: r). Proof. apply solid_first. cbn. intuition discriminate. Qed.
Lemma blank_stops (f : char -> bool) b r : forallb (fun c => negb (f c)) [32; 9; 10; 13; 35] = true ->
  blank b -> stops f r -> stops f (b ++ r).
Proof.
  intros H Hb Hr. rewrite forallb_forall in H. destruct Hb as [|c t Hc|bd nl t]; [assumption| |].
  - cbn. apply negb_true_iff, H. cbn in *. intuition.
  - cbn. apply negb_true_iff, H. cbn. intuition.
Qed.
Lemma pname_ns_ok p t b r : opt_ (text prefix_name) p t -> blank b -> pname_ns (t ++ b ++ 58 :: r) = Ok r p.
Proof.
  intros Hp Hb. unfold pname_ns.
  assert (E : opt pn_prefix (t ++ b ++ 58 :: r) = Ok (b ++ 58 :: r) p).
  { destruct p as [p|].
    - destruct Hp as [-> Hp]. apply opt_some. apply pn_prefix_ok; [assumption|]. now apply colon_follow.
    - hnf in Hp. subst t. apply opt_none. apply pn_prefix_fails. apply blank_stops; [reflexivity|assumption|reflexivity]. }
  eapply terminated_ok; [exact E|]. eapply preceded_ok; [apply sp_ok; [assumption|apply colon_solid]|]. apply chr_ok.
Qed.
Lemma pname_ns_iff i r p : pname_ns i = Ok r p <-> exists t, i = t ++ r /\ R_pname_ns p t.
Proof.
  split.
  - apply sd_pname_ns.
  - intros (t & -> & u & v & -> & Hu & b & c & -> & Hb & ->).
    replace ((u ++ b ++ s_ ":") ++ r) with (u ++ b ++ 58 :: r) by (rewrite <- !app_assoc; reflexivity).
    now apply pname_ns_ok.
Qed.
Lemma pname_ns_fails_word p b r : prefix_name p -> name_follow p (b ++ r) -> blank b -> solid r -> not_first 58 r ->
  fails pname_ns (p ++ b ++ r).
Proof.
  intros Hp F Hb Hr N. unfold pname_ns. eapply terminated_fails2; [apply opt_some; now apply pn_prefix_ok|].
  eapply preceded_fails2; [now apply sp_ok|]. now apply chr_fails.
Qed.
Lemma pname_ns_fails_blank b r : stops base_char (b ++ r) -> blank b -> solid r -> not_first 58 r -> fails pname_ns (b ++ r).
Proof.
  intros S Hb Hr N. unfold pname_ns. eapply terminated_fails2; [apply opt_none; now apply pn_prefix_fails|].
  eapply preceded_fails2; [now apply sp_ok|]. now apply chr_fails.
Qed.
Lemma chr_verdict c i : (exists r, chr c i = Ok r c) \/ fails (chr c) i.
Proof.
  destruct i as [|x i]; [right; now apply chr_fails|].
  destruct (N.eq_dec x c) as [->|N]; [left; exists i; apply chr_ok|right; now apply chr_fails].
Qed.
Lemma pname_ns_verdict i : (exists r p, pname_ns i = Ok r p) \/ fails pname_ns i.
Proof.
  assert (E : exists r o, opt pn_prefix i = Ok r o).
  { destruct (pn_prefix_verdict i) as [(r & p & E)|F]; [exists r, (Some p); now apply opt_some|exists i, None; now apply opt_none]. }
  destruct E as (r & o & E). destruct (sp_total r) as (r1 & b & Eb). destruct (chr_verdict 58 r1) as [(r2 & Ec)|F].
  - left. exists r2, o. eapply terminated_ok; [exact E|]. eapply preceded_ok; [exact Eb|exact Ec].
  - right. eapply terminated_fails2; [exact E|]. eapply preceded_fails2; [exact Eb|exact F].
Qed.
Lemma local_first l : local_name l -> exists c l', l = c :: l' /\ ~ In c [32; 9; 10; 13; 35].
Proof.
  intros (u & t & -> & [H|(c & -> & H)] & _).
  - destruct (plx_first u H) as (c & u' & -> & Hc). exists c, (u' ++ t). split; [reflexivity|].
    destruct Hc; subst c; cbn; intuition discriminate.
  - exists c, t. split; [reflexivity|]. intros Hc. cbn in Hc.
    repeat (destruct Hc as [Hc|Hc]; [subst c; discriminate|]). destruct Hc.
Qed.
Lemma local_solid l r : local_name l -> solid (l ++ r).
Proof. intros H. destruct (local_first l H) as (c & l' & -> & N). cbn [app]. now apply solid_first. Qed.
Lemma local_after b i : blank b -> (forall l r, i = b ++ l ++ r -> ~ local_name l) -> forall r', i = b ++ r' -> solid r' -> fails pn_local r'.
Proof. intros Hb H r' -> S. apply pn_local_fails. intros l r ->. now apply (H l r). Qed.
Lemma pname_ln_ok i r1 b p l r : pname_ns i = Ok (b ++ l ++ r) p -> blank b -> local_name l -> unit_stop r ->
  r1 = r -> pname_ln i = Ok r1 (p, l).
Proof.
  intros E Hb Hl S ->. unfold pname_ln. eapply pair_ok; [exact E|]. eapply preceded_ok; [apply sp_ok; [assumption|now apply local_solid]|].
  now apply pn_local_ok.
Qed.
Lemma sp_local_fails i : no_local i -> fails (preceded sp pn_local) i.
Proof.
  intros H. destruct (blank_split i) as (b & r & -> & Hb & Hr). eapply preceded_fails2; [now apply sp_ok|].
  apply pn_local_fails. intros l r' ->. eapply H; [reflexivity|assumption].
Qed.
Lemma sp_local_verdict i : (exists b l r, i = b ++ l ++ r /\ blank b /\ local_name l /\ unit_stop r) \/ no_local i.
Proof.
  destruct (blank_split i) as (b & r & -> & Hb & Hr). destruct (pn_local_verdict r) as [(r' & l & E)|F].
  - left. apply pn_local_iff in E. destruct E as [-> [Hl M]].
    exists b, l, r'. repeat split; auto; eapply (longest_follow local_name (fun _ => unit_stop)); eauto; apply local_ext.
  - right. intros b' l r' E Hb' Hl.
    assert (X : sp (b ++ r) = Ok r b) by now apply sp_ok.
    rewrite E, (sp_ok b' (l ++ r') Hb' (local_solid l r' Hl)) in X. injection X as <- <-.
    destruct (longest_some local_name (fun _ => unit_stop) pn_local pn_local_ok local_ext l r' Hl) as (a & c & K).
    eapply fails_not_ok; eassumption.
Qed.
Lemma prefixed_ln_ok p t b l r : R_pname_ns p t -> blank b -> local_name l -> unit_stop r ->
  prefixed_name (t ++ b ++ l ++ r) = Ok r (PnameLN p l).
Proof.
  intros Hp Hb Hl S. unfold prefixed_name. apply alt_first. apply (map_ok _ _ _ _ (p, l)); [|reflexivity].
  eapply pname_ln_ok; eauto. apply pname_ns_iff. eauto.
Qed.
Lemma prefixed_ns_ok p t r : R_pname_ns p t -> no_local r -> prefixed_name (t ++ r) = Ok r (PnameNS p).
Proof.
  intros Hp H. unfold prefixed_name.
  assert (E : pname_ns (t ++ r) = Ok r p) by (apply pname_ns_iff; eauto).
  apply alt_next; [|apply alt_first; eapply map_ok; [exact E|reflexivity]].
  apply map_fails. unfold pname_ln. eapply pair_fails2; [exact E|]. now apply sp_local_fails.
Qed.
Lemma prefixed_name_fails i : fails pname_ns i -> fails prefixed_name i.
Proof.
  intros F. apply alt_fails. repeat constructor; apply map_fails; [|assumption]. now apply pair_fails1.
Qed.
Lemma prefixed_name_verdict i : (exists r p, prefixed_name i = Ok r p) \/ fails prefixed_name i.
Proof.
  destruct (pname_ns_verdict i) as [(r & p & E)|F]; [|right; now apply prefixed_name_fails]. left.
  apply pname_ns_iff in E. destruct E as (t & -> & Ht). destruct (sp_local_verdict r) as [(b & l & r' & -> & Hb & Hl & S)|N].
  - exists r', (PnameLN p l). now apply prefixed_ln_ok.
  - exists r, (PnameNS p). now apply prefixed_ns_ok.
Qed.
Lemma prefixed_ln_iff i r p l : prefixed_name i = Ok r (PnameLN p l) <->
  exists t b, i = t ++ b ++ l ++ r /\ R_pname_ns p t /\ blank b /\ longest local_name l (l ++ r).
Proof.
  split.
  - intros H. unfold prefixed_name in H. rewrite alt_cons in H by discriminate. unfold map at 1 in H.
    destruct (pname_ln i) as [r' [p' l']|e] eqn:E.
    + injection H as -> -> ->. unfold pname_ln, pair in E. destruct (pname_ns i) as [i1 p1|] eqn:E1; [|discriminate].
      unfold preceded, map, pair in E. destruct (sp i1) as [i2 b|] eqn:E2; [|discriminate].
      destruct (pn_local i2) as [i3 l1|] eqn:E3; [|discriminate]. injection E as -> -> ->.
      apply pname_ns_iff in E1. destruct E1 as (t & -> & Ht). apply sp_iff in E2. destruct E2 as (-> & Hb & _).
      apply pn_local_iff in E3. destruct E3 as (-> & M). exists t, b. auto.
    + destruct e; try discriminate. cbn [alt] in H. unfold map in H. destruct (pname_ns i); discriminate.
  - intros (t & b & -> & Hp & Hb & Hl & M). apply prefixed_ln_ok; auto.
    eapply (longest_follow local_name (fun _ => unit_stop)); eauto. apply local_ext.
Qed.
Lemma prefixed_ns_iff i r p : prefixed_name i = Ok r (PnameNS p) <->
  exists t, i = t ++ r /\ R_pname_ns p t /\ no_local r.
Proof.
  split.
  - intros H. pose proof H as H'. apply sd_prefixed_name in H. destruct H as (t & -> & Ht). cbn in Ht.
    exists t. repeat split; auto. destruct (sp_local_verdict r) as [(b & l & r' & -> & Hb & Hl & S)|N]; [|assumption].
    rewrite (prefixed_ln_ok p t b l r' Ht Hb Hl S) in H'. discriminate.
  - intros (t & -> & H1 & H2). now apply prefixed_ns_ok.
Qed.

(** ** IRIs *)
Lemma pname_not_lt p t r : R_pname_ns p t -> not_first 60 (t ++ r).
Proof.
  intros (u & v & -> & Hu & b & c & -> & Hb & ->). destruct p as [p|].
  - destruct Hu as [-> (x & y & -> & Hx & _)]. cbn. intros ->. discriminate.
  - hnf in Hu. subst u. cbn [app]. destruct Hb as [|x b Hx|bd nl b]; cbn; [discriminate| |discriminate].
    intros ->. cbn in Hx. repeat (destruct Hx as [Hx|Hx]; [discriminate|]). destruct Hx.
Qed.
Lemma iri_ref_iri s r : all iri_char s -> iri (60 :: s ++ 62 :: r) = Ok r (IriIri s).
Proof. intros H. apply alt_first. eapply map_ok; [now apply iri_ref_ok|reflexivity]. Qed.
Lemma iri_prefixed i r n : not_first 60 i -> prefixed_name i = Ok r n -> iri i = Ok r (IriPrefixedName n).
Proof.
  intros N H. apply alt_next; [apply map_fails; now apply iri_ref_fails|]. apply alt_first. eapply map_ok; eauto.
Qed.
Lemma iri_fails i : fails iri_ref i -> fails pname_ns i -> fails iri i.
Proof. intros H1 H2. apply alt_fails. repeat constructor; apply map_fails; [assumption|now apply prefixed_name_fails]. Qed.
Lemma iri_verdict i : (exists r p, iri i = Ok r p) \/ fails iri i.
Proof.
  destruct (iri_ref_verdict i) as [(r & s & E)|F1].
  - left. exists r, (IriIri s). apply alt_first. eapply map_ok; eauto.
  - destruct (prefixed_name_verdict i) as [(r & p & E)|F2].
    + left. exists r, (IriPrefixedName p). apply alt_next; [now apply map_fails|]. apply alt_first. eapply map_ok; eauto.
    + right. apply alt_fails. repeat constructor; now apply map_fails.
Qed.
Lemma iri_fails_iff i : fails iri i <-> forall j t r, i = t ++ r -> ~ R_iri j t.
Proof.
  split.
  - intros F j t r -> H. destruct j as [s|p].
    + destruct H as [-> Hs]. cbn in F. rewrite <- app_assoc in F. cbn in F. eapply fails_not_ok; [exact F|]. now apply iri_ref_iri.
    + assert (X : exists q u v, t ++ r = u ++ v /\ R_pname_ns q u).
      { destruct p as [q l|q]; cbn in H.
        - destruct H as (u & v & -> & Hu & _). exists q, u, (v ++ r). split; [now rewrite app_assoc|assumption].
        - exists q, t, r. auto. }
      destruct X as (q & u & v & E & Hq). rewrite E in F.
      destruct (sp_local_verdict v) as [(b & l & r' & -> & Hb & Hl & S)|N].
      * eapply fails_not_ok; [exact F|]. apply iri_prefixed; [eapply pname_not_lt; eassumption|]. exact (prefixed_ln_ok q u b l r' Hq Hb Hl S).
      * eapply fails_not_ok; [exact F|]. apply iri_prefixed; [eapply pname_not_lt; eassumption|]. exact (prefixed_ns_ok q u v Hq N).
  - intros H. destruct (iri_verdict i) as [(r & p & E)|F]; [|assumption].
    apply sd_iri in E. destruct E as (t & -> & Ht). exfalso. eapply H; [reflexivity|eassumption].
Qed.
(** first characters an IRI may have *)
Definition iri_first (c : char) : bool := base_char c || existsb (N.eqb c) [60; 58; 32; 9; 10; 13; 35].
#[global] Arguments iri_first : simpl never.
Lemma iri_fails_first i : stops iri_first i -> fails iri i.
Proof.
  intros S. destruct i as [|c i].
  - apply iri_fails; [now apply iri_ref_fails|]. apply (pname_ns_fails_blank [] []); try exact I. constructor.
  - cbn in S. unfold iri_first in S. apply orb_false_iff in S. destruct S as [S1 S2].
    assert (N : forall x, In x [60; 58; 32; 9; 10; 13; 35] -> c <> x).
    { intros x Hx ->. assert (existsb (N.eqb x) [60; 58; 32; 9; 10; 13; 35] = true) by (apply existsb_In_N; exact Hx). congruence. }
    apply iri_fails; [apply iri_ref_fails, N; cbn; auto|].
    apply (pname_ns_fails_blank [] (c :: i)); [exact S1|constructor| |apply N; cbn; auto].
    apply solid_first. intros Hc. apply (N c); [cbn in *; intuition|reflexivity].
Qed.
Lemma iri_fails_word p b r : prefix_name p -> name_follow p (b ++ r) -> blank b -> solid r -> not_first 58 r -> fails iri (p ++ b ++ r).
Proof.
  intros Hp F Hb Hr N. apply iri_fails; [|now apply pname_ns_fails_word].
  apply iri_ref_fails. destruct Hp as (c & t & -> & Hc & _). cbn. intros ->. discriminate.
Qed.

(** ** Variables *)
Lemma var_name_reads s r : var_name_ok s -> stops var_char r -> var_name (s ++ r) = Ok r s.
Proof.
  intros [N H] S. unfold var_name. destruct s as [|c s]; [congruence|]. apply all_cons in H. destruct H as [H1 H2].
  eapply recognize_ok. eapply pair_ok; [apply take_one_ok; now rewrite is_var_char_eq|]. apply take_while_ok.
  - revert H2. apply all_ext. intros x. now rewrite is_var_char_eq.
  - revert S. apply stops_ext. intros x. now rewrite is_var_char_eq.
Qed.
Lemma var_name_fails r : stops var_char r -> fails var_name r.
Proof.
  intros S. apply recognize_fails, pair_fails1, take_one_fails. revert S. apply stops_ext. intros x. now rewrite is_var_char_eq.
Qed.
Lemma var_name_solid s r : var_name_ok s -> solid (s ++ r).
Proof.
  intros [N H]. destruct s as [|c s]; [congruence|]. apply all_cons in H. destruct H as [H _]. apply solid_first.
  intros Hc. cbn in Hc. repeat (destruct Hc as [Hc|Hc]; [subst c; discriminate|]). destruct Hc.
Qed.
Lemma var_ok v b r : blank b -> var_name_ok (vname v) -> stops var_char r -> var (sigil v :: b ++ vname v ++ r) = Ok r v.
Proof.
  intros Hb Hs S. unfold var. destruct v as [s|s]; cbn [sigil vname] in *.
  - apply alt_first. apply (map_ok _ _ _ _ s); [|reflexivity]. eapply preceded_ok; [apply chr_ok|].
    eapply preceded_ok; [apply sp_ok; [assumption|now apply var_name_solid]|]. now apply var_name_reads.
  - apply alt_next; [apply map_fails, preceded_fails1, chr_fails; discriminate|].
    apply alt_first. apply (map_ok _ _ _ _ s); [|reflexivity]. eapply preceded_ok; [apply chr_ok|].
    eapply preceded_ok; [apply sp_ok; [assumption|now apply var_name_solid]|]. now apply var_name_reads.
Qed.
Lemma R_var_text v t : R_var v t <-> exists b, t = sigil v :: b ++ vname v /\ blank b /\ var_name_ok (vname v).
Proof.
  split.
  - destruct v as [s|s]; intros (u & w & -> & -> & b & n & -> & Hb & -> & Hn); exists b; auto.
  - intros (b & -> & Hb & Hn). destruct v as [s|s]; cbn [sigil vname] in *.
    + exists (s_ "?"), (b ++ s). repeat split. exists b, s. repeat split; auto; apply Hn.
    + exists (s_ "$"), (b ++ s). repeat split. exists b, s. repeat split; auto; apply Hn.
Qed.
Lemma var_reads v t r : R_var v t -> stops var_char r -> var (t ++ r) = Ok r v.
Proof.
  intros H S. apply R_var_text in H. destruct H as (b & -> & Hb & Hn). cbn [app]. rewrite <- app_assoc. now apply var_ok.
Qed.
Lemma var_ext v t r : R_var v t -> stops var_char r \/ exists c r', r = c :: r' /\ var_char c = true.
Proof. intros _. destruct r as [|c r]; [now left|]. cbn. destruct (var_char c) eqn:E; [right; eauto|now left]. Qed.
Lemma var_name_longest i r s : var_name i = Ok r s <-> i = s ++ r /\ var_name_ok s /\ stops var_char r.
Proof.
  split.
  - intros H. pose proof H as H'. apply sd_var_name in H. destruct H as (t & -> & -> & H). repeat split; try apply H.
    destruct (span_cases var_char r) as (u & r' & -> & Hu & Hr).
    rewrite app_assoc, (var_name_reads (s ++ u) r') in H'; [|split; [destruct H as [N _]; destruct s; [congruence|discriminate]|apply all_app; [apply H|assumption]]|assumption].
    injection H' as H1 H2. rewrite <- H1 in *. exact Hr.
  - intros (-> & H & S). now apply var_name_reads.
Qed.
Lemma var_iff i r v : var i = Ok r v <-> exists b, i = sigil v :: b ++ vname v ++ r /\ blank b /\ var_name_ok (vname v) /\ stops var_char r.
Proof.
  split.
  - intros H. pose proof H as H'. apply sd_var in H. destruct H as (t & -> & Ht).
    apply R_var_text in Ht. destruct Ht as (b & -> & Hb & Hn). exists b. split; [cbn; now rewrite <- app_assoc|]. repeat split; auto; try apply Hn.
    destruct (span_cases var_char r) as (u & r' & -> & Hu & Hr).
    set (v' := match v with QMark s => QMark (s ++ u) | Dollar s => Dollar (s ++ u) end).
    assert (E : (sigil v :: b ++ vname v) ++ u ++ r' = sigil v' :: b ++ vname v' ++ r').
    { destruct v; cbn; now rewrite <- !app_assoc. }
    rewrite E, var_ok in H'; auto.
    + injection H' as H1 H2. rewrite <- H1 in *. exact Hr.
    + destruct Hn as [N A]. split; [destruct v as [[|]|[|]]; cbn in *; congruence|]. destruct v; cbn in *; now apply all_app.
  - intros (b & -> & H1 & H2 & H3). now apply var_ok.
Qed.
Lemma var_fails i : not_first 63 i -> not_first 36 i -> fails var i.
Proof. intros H1 H2. apply alt_fails. repeat constructor; apply map_fails, preceded_fails1; now apply chr_fails. Qed.
Lemma var_fails_after c b r : blank b -> solid r -> stops var_char r -> fails var (c :: b ++ r).
Proof.
  intros Hb Hr S. apply alt_fails. repeat constructor; apply map_fails.
  - destruct (N.eq_dec c 63) as [->|N]; [|apply preceded_fails1; now apply chr_fails].
    eapply preceded_fails2; [apply chr_ok|]. eapply preceded_fails2; [now apply sp_ok|]. now apply var_name_fails.
  - destruct (N.eq_dec c 36) as [->|N]; [|apply preceded_fails1; now apply chr_fails].
    eapply preceded_fails2; [apply chr_ok|]. eapply preceded_fails2; [now apply sp_ok|]. now apply var_name_fails.
Qed.
Lemma var_verdict i : (exists r v, var i = Ok r v) \/ fails var i.
Proof.
  destruct i as [|c i]; [right; now apply var_fails|]. destruct (blank_split i) as (b & r & -> & Hb & Hr).
  destruct (span_cases var_char r) as (u & r' & -> & Hu & Hr'). destruct u as [|x u]; [right; now apply var_fails_after|].
  assert (Hn : var_name_ok (x :: u)) by (split; [discriminate|assumption]).
  destruct (N.eq_dec c 63) as [->|N1]; [left; exists r', (QMark (x :: u)); now apply (var_ok (QMark (x :: u)))|].
  destruct (N.eq_dec c 36) as [->|N2]; [left; exists r', (Dollar (x :: u)); now apply (var_ok (Dollar (x :: u)))|].
  right. now apply var_fails.
Qed.

(** ** Blank nodes *)
Definition label_p : parser str :=
  recognize (pair (alt [pn_chars_u_one; take_while_m_n 1 1 (fun c => is_digit (as_u8 c))]) pn_chars_tail).
Lemma label_ok s r : label_name s -> name_follow s r -> label_p (s ++ r) = Ok r s.
Proof.
  intros (c & t & -> & Hc & Ht) F. unfold label_p. eapply recognize_ok. eapply pair_ok; [|apply pn_chars_tail_ok; [exact Ht|exact F]].
  change ((c :: t) ++ r) with (c :: t ++ r). destruct (start_char c) eqn:S; [now apply alt_first, u_one_ok|].
  destruct Hc as [Hc|Hc]; [congruence|]. apply alt_next; [now apply u_one_fails|]. now apply alt_first, digit_one_ok.
Qed.
Lemma label_first s : label_name s -> exists c l', s = c :: l' /\ ~ In c [32; 9; 10; 13; 35].
Proof.
  intros (c & t & -> & H & _). exists c, t. split; [reflexivity|]. intros Hc. cbn in Hc.
  repeat (destruct Hc as [Hc|Hc]; [subst c; destruct H; discriminate|]). destruct Hc.
Qed.
Lemma label_reads s b r : label_name s -> blank b -> name_follow s r -> blank_node (95 :: 58 :: b ++ s ++ r) = Ok r (Label s).
Proof.
  intros H Hb F. unfold blank_node. apply alt_first. apply (map_ok _ _ _ _ (s_ "_:", s)); [|reflexivity].
  eapply separated_pair_ok; [apply (tag_ok (s_ "_:"))| |now apply label_ok].
  apply sp_ok; [assumption|]. destruct (label_first s H) as (c & l & -> & N). now apply solid_first.
Qed.
Lemma anon_ok b r : blank b -> anon (91 :: b ++ 93 :: r) = Ok r b.
Proof.
  intros Hb. eapply preceded_ok; [apply chr_ok|]. apply cut_ok. eapply terminated_ok; [apply sp_ok; [assumption|]|apply chr_ok].
  apply solid_first. cbn. intuition discriminate.
Qed.
Lemma anon_reads b r : blank b -> blank_node (91 :: b ++ 93 :: r) = Ok r Anon.
Proof.
  intros Hb. unfold blank_node. apply alt_next.
  - apply map_fails. unfold sp_sep, separated_pair. apply pair_fails1. now apply tag_fails_first.
  - apply alt_first. eapply map_ok; [now apply anon_ok|reflexivity].
Qed.
Lemma nil_ok b r : blank b -> nil_ (40 :: b ++ 41 :: r) = Ok r b.
Proof.
  intros Hb. eapply preceded_ok; [apply chr_ok|]. apply cut_ok. eapply terminated_ok; [apply sp_ok; [assumption|]|apply chr_ok].
  apply solid_first. cbn. intuition discriminate.
Qed.
