(** RDF literals, booleans, terms, LIMIT and OFFSET. *)
From Verif Require Export LNum.
Notation length := List.length (only parsing).
Open Scope N_scope.
Open Scope list_scope.

(** ** IRIs, exactly *)
Lemma iri_iff i r j : iri i = Ok r j <-> iri_at j i r.
Proof.
  split.
  - intros H. unfold iri in H. rewrite alt_cons in H by discriminate. unfold map at 1 in H.
    destruct (iri_ref i) as [r' s|e] eqn:E.
    + injection H as -> <-. now apply iri_ref_iff in E.
    + destruct e; try discriminate. cbn [alt] in H. unfold map in H. destruct (prefixed_name i) as [r' n|] eqn:E2; [|discriminate].
      injection H as -> <-. destruct n as [p l|p]; [now apply prefixed_ln_iff|now apply prefixed_ns_iff].
  - destruct j as [s|[p l|p]]; cbn [iri_at].
    + intros [-> H]. now apply iri_ref_iri.
    + intros H. apply iri_prefixed; [|now apply prefixed_ln_iff]. destruct H as (t & b & -> & H & _). eapply pname_not_lt, H.
    + intros H. apply iri_prefixed; [|now apply prefixed_ns_iff]. destruct H as (t & -> & H & _). eapply pname_not_lt, H.
Qed.

(** ** RDF literals *)
Definition desc_p : parser RdfLiteralDescriptor :=
  alt [ map language_tag LangTag; map (preceded (tag (s_ "^^")) iri) DescIri ].
Lemma desc_fails r : no_descriptor r -> fails desc_p r.
Proof.
  intros [H1 H2]. apply alt_fails. repeat constructor; apply map_fails.
  - destruct (language_tag_verdict r) as [(r' & s & E)|F]; [|assumption].
    apply language_tag_iff in E. destruct E as (j & -> & -> & [L _]). exfalso. eapply H1; [reflexivity|exact L].
  - destruct r as [|a r]; [apply preceded_fails1; now apply tag_fails_first|].
    destruct (N.eq_dec a 94) as [->|N]; [|apply preceded_fails1; now apply tag_fails_first].
    destruct r as [|b r]; [apply preceded_fails1, tag_fails; discriminate|].
    destruct (N.eq_dec b 94) as [->|N]; [|apply preceded_fails1, tag_fails; intros r' [= E]; congruence].
    eapply preceded_fails2; [apply (tag_ok (s_ "^^"))|]. apply iri_fails_iff. intros j t r' ->. now apply (H2 j t r').
Qed.
Lemma desc_ok d x r : desc_at d x r -> opt desc_p x = Ok r d.
Proof.
  destruct d as [[g|j]|]; cbn [desc_at].
  - intros [-> L]. apply opt_some, alt_first. apply (map_ok _ _ _ _ g); [|reflexivity].
    apply language_tag_iff. exists (g ++ r). auto.
  - intros (y & -> & H). apply opt_some, alt_next; [apply map_fails; now apply language_tag_fails|]. apply alt_first.
    apply (map_ok _ _ _ _ j); [|reflexivity]. eapply preceded_ok; [apply (tag_ok (s_ "^^"))|]. now apply iri_iff.
  - intros [-> H]. now apply opt_none, desc_fails.
Qed.
Lemma desc_verdict x : (exists d r, desc_at (Some d) x r) \/ no_descriptor x.
Proof.
  destruct (language_tag_verdict x) as [(r & s & E)|F].
  - left. apply language_tag_iff in E. destruct E as (j & -> & -> & L). exists (LangTag s), r. split; [reflexivity|assumption].
  - assert (H1 : forall s r', x = 64 :: s ++ r' -> ~ lang_tag s).
    { intros s r' -> L. destruct (longest_extend lang_tag lang_follow lang_ext s r' L) as (s2 & r2 & E & L2 & F2 & _).
      rewrite E in F. eapply fails_not_ok; [exact F|]. now apply language_tag_ok. }
    destruct x as [|a x]; [right; split; [assumption|discriminate]|].
    destruct (N.eq_dec a 94) as [->|N]; [|right; split; [assumption|intros j t r' [= E]; congruence]].
    destruct x as [|b x]; [right; split; [assumption|discriminate]|].
    destruct (N.eq_dec b 94) as [->|N]; [|right; split; [assumption|intros j t r' [= E]; congruence]].
    destruct (iri_verdict x) as [(r & j & E)|Fi].
    + left. exists (DescIri j), r. exists x. split; [reflexivity|now apply iri_iff].
    + right. split; [assumption|]. intros j t r' E. assert (x = t ++ r') by (injection E as E; exact E).
      now apply (proj1 (iri_fails_iff x) Fi j t r').
Qed.
Lemma desc_iff d x r : opt desc_p x = Ok r d <-> desc_at d x r.
Proof.
  split; [|apply desc_ok]. intros H. destruct (desc_verdict x) as [(d' & r' & K)|K].
  - pose proof (desc_ok (Some d') x r' K) as E. rewrite H in E. injection E as -> ->. exact K.
  - pose proof (desc_ok None x x (conj eq_refl K)) as E. rewrite H in E. injection E as -> ->. split; [reflexivity|assumption].
Qed.
Lemma rdf_literal_iff i r s d : rdf_literal i = Ok r (MkRdfLiteral s d) <->
  exists q x, (q = 39 \/ q = 34) /\ i = q :: s ++ q :: x /\ body q s /\ s <> [] /\ desc_at d x r.
Proof.
  split.
  - intros H. change rdf_literal with (map (pair string_literal (opt desc_p)) (fun '(l, d) => MkRdfLiteral l d)) in H.
    unfold map, pair in H. destruct (string_literal i) as [x s'|] eqn:E; [|discriminate].
    destruct (opt desc_p x) as [r' d'|] eqn:E2; [|discriminate]. injection H as -> -> ->.
    apply string_literal_iff in E. destruct E as (q & Hq & -> & Hb & N). apply desc_iff in E2. exists q, x. auto.
  - intros (q & x & Hq & -> & Hb & N & D).
    apply (map_ok _ _ _ _ (s, d)); [|reflexivity]. eapply pair_ok; [now apply string_literal_ok|]. now apply desc_ok.
Qed.
Lemma rdf_literal_fails i : not_first 39 i -> not_first 34 i -> fails rdf_literal i.
Proof. intros H1 H2. apply map_fails, pair_fails1. now apply string_literal_fails. Qed.

(** ** LIMIT / OFFSET *)
Lemma u64_take t r : digits1 t -> stops low_digit r -> take_while1 (fun c => is_digit (as_u8 c)) (t ++ r) = Ok r t.
Proof.
  intros [N H] S. apply take1_ok; [assumption| |].
  - revert H. apply Forall_impl. intros c Hc. rewrite low_digit_eq. unfold low_digit. apply isd_range in Hc as R.
    rewrite N.mod_small by lia. exact Hc.
  - revert S. apply stops_ext. intros c. now rewrite low_digit_eq.
Qed.
Lemma digits_plus t : digits1 t -> forall c, In c t -> c <> 43.
Proof. intros [_ H] c Hc ->. unfold all in H. rewrite Forall_forall in H. apply H in Hc. discriminate. Qed.
Lemma digits1_solid t r : digits1 t -> solid (t ++ r).
Proof.
  intros [N H]. destruct t as [|c t]; [congruence|]. inversion H; subst. apply solid_first. intros Hc.
  cbn in Hc. repeat (destruct Hc as [Hc|Hc]; [subst c; discriminate|]). destruct Hc.
Qed.
Section IntClause.
  Context (k : str) (K : low_ascii k = true).
  Lemma int_clause_ok w b t z r : kwd k w -> blank b -> R_u64 z t -> stops low_digit r ->
    int_clause (tag_no_case k) (w ++ b ++ t ++ r) = Ok r z.
  Proof.
    intros Hw Hb Ht S. unfold int_clause. pose proof Ht as (D & _). eapply map_res_ok.
    - eapply preceded_ok; [eapply terminated_ok; [now apply tnc_ok|apply sp_ok; [assumption|now apply digits1_solid]]|].
      now apply u64_take.
    - apply parse_u64_digits; [now apply digits_plus|assumption].
  Qed.
  Lemma int_clause_range w b t r : kwd k w -> blank b -> digits1 t -> ~ u64 (value t) -> stops low_digit r ->
    fails (int_clause (tag_no_case k)) (w ++ b ++ t ++ r).
  Proof.
    intros Hw Hb D B S. unfold int_clause. eapply map_res_fails2.
    - eapply preceded_ok; [eapply terminated_ok; [now apply tnc_ok|apply sp_ok; [assumption|now apply digits1_solid]]|].
      now apply u64_take.
    - destruct (parse_u64 t) as [z|] eqn:P; [|reflexivity]. apply parse_u64_digits in P; [|now apply digits_plus].
      destruct P as (_ & -> & U). contradiction.
  Qed.
  Lemma int_clause_fails_zip i : zip_same i k = false -> fails (int_clause (tag_no_case k)) i.
  Proof.
    intros H. unfold int_clause. apply map_res_fails1, preceded_fails1, terminated_fails1. now apply tnc_fails_zip.
  Qed.
  Lemma int_clause_fails i : fails (tag_no_case k) i -> fails (int_clause (tag_no_case k)) i.
  Proof. intros H. unfold int_clause. now apply map_res_fails1, preceded_fails1, terminated_fails1. Qed.
End IntClause.
Lemma limit_ok z t r : R_limit z t -> stops low_digit r -> limit_clause (t ++ r) = Ok r z.
Proof.
  intros (w & u & -> & Hw & b & n & -> & Hb & Hn) S. rewrite <- !app_assoc. now apply int_clause_ok.
Qed.
Lemma offset_ok z t r : R_offset z t -> stops low_digit r -> offset_clause (t ++ r) = Ok r z.
Proof.
  intros (w & u & -> & Hw & b & n & -> & Hb & Hn) S. rewrite <- !app_assoc. now apply int_clause_ok.
Qed.
Lemma kwd_nonempty k x w : kwd (x :: k) w -> exists c w', w = c :: w' /\ lower c = x.
Proof. intros H. destruct w as [|c w]; [discriminate|]. injection H as H1 H2. eauto. Qed.
Lemma kw_solid k x w r : kwd (x :: k) w -> 97 <= x <= 122 -> solid (w ++ r).
Proof.
  intros H Hx. destruct (kwd_nonempty _ _ _ H) as (c & w' & -> & L). apply solid_first. intros Hc.
  cbn in Hc. repeat (destruct Hc as [Hc|Hc]; [subst c; cbn in L; lia|]). destruct Hc.
Qed.
Lemma kw_stops_digit k x w r : kwd (x :: k) w -> 97 <= x <= 122 -> stops low_digit (w ++ r).
Proof.
  intros H Hx. destruct (kwd_nonempty _ _ _ H) as (c & w' & -> & L). cbn. unfold lower, in_ranges, existsb in L. rewrite orb_false_r in L.
  unfold low_digit, in_ranges, digits, existsb. rewrite orb_false_r.
  destruct ((65 <=? c) && (c <=? 90)) eqn:E.
  - apply andb_true_iff in E. destruct E as [E1 E2]. apply N.leb_le in E1, E2. rewrite N.mod_small by lia.
    apply andb_false_iff. right. apply N.leb_gt. lia.
  - rewrite N.mod_small by lia. apply andb_false_iff. right. apply N.leb_gt. lia.
Qed.
Lemma nokel k i : ~ In 107 k -> no_kelvin k i.
Proof. intros H1 H2. contradiction. Qed.
Lemma blank_low b r : blank b -> stops low_digit r -> stops low_digit (b ++ r).
Proof. now apply blank_stops. Qed.
Lemma limit_offset_ok l t r : R_limit_offset l t -> lo_follow l r -> limit_offset_clause (t ++ r) = Ok r l.
Proof.
  intros H (F2 & F3). unfold limit_offset_clause. destruct l as [n o|n o]; cbn [R_limit_offset] in H.
  - destruct H as (u & v & -> & Hn & b & w & -> & Hb & Ho). apply alt_first. rewrite <- !app_assoc.
    apply (map_ok _ _ _ _ (n, o)); [|reflexivity]. destruct o as [m|]; cbn [opt_] in Ho.
    + pose proof Ho as (x & y & -> & Hx & _). eapply separated_pair_ok.
      * apply limit_ok; [exact Hn|]. apply blank_low; [assumption|]. rewrite <- app_assoc. eapply kw_stops_digit; [exact Hx|]. vm_compute; split; discriminate.
      * apply sp_ok; [assumption|]. rewrite <- app_assoc. eapply kw_solid; [exact Hx|]. vm_compute; split; discriminate.
      * apply opt_some. now apply offset_ok.
    + destruct F3 as [F1 F3]. hnf in Ho. subst w. cbn [app]. eapply separated_pair_ok; [apply limit_ok; [exact Hn|now apply blank_low]|now apply sp_ok|].
      apply opt_none, int_clause_fails. apply tnc_fails_begins; [reflexivity|apply nokel; vm_compute; intuition discriminate|].
      intros t' r' E Ht. apply F3. exists t', r'. auto.
  - destruct H as (u & v & -> & Hn & b & w & -> & Hb & Ho). rewrite <- !app_assoc. apply alt_next.
    { apply map_fails. apply pair_fails1. destruct Hn as (x & y & -> & Hx & _). rewrite <- app_assoc. apply int_clause_fails.
      eapply tnc_fails_kwd; [| | |exact Hx]; reflexivity. }
    apply alt_first. apply (map_ok _ _ _ _ (n, o)); [|reflexivity]. destruct o as [m|]; cbn [opt_] in Ho.
    + pose proof Ho as (x & y & -> & Hx & _). eapply separated_pair_ok.
      * apply offset_ok; [exact Hn|]. apply blank_low; [assumption|]. rewrite <- app_assoc. eapply kw_stops_digit; [exact Hx|]. vm_compute; split; discriminate.
      * apply sp_ok; [assumption|]. rewrite <- app_assoc. eapply kw_solid; [exact Hx|]. vm_compute; split; discriminate.
      * apply opt_some. now apply limit_ok.
    + destruct F3 as [F1 F3]. hnf in Ho. subst w. cbn [app]. eapply separated_pair_ok; [apply offset_ok; [exact Hn|now apply blank_low]|now apply sp_ok|].
      apply opt_none, int_clause_fails. apply tnc_fails_begins; [reflexivity|apply nokel; vm_compute; intuition discriminate|].
      intros t' r' E Ht. apply F3. exists t', r'. auto.
Qed.
(** a first number out of range *)
Lemma limit_range w b t r : kw "limit" w -> blank b -> digits1 t -> ~ u64 (value t) -> stops low_digit r ->
  fails limit_offset_clause (w ++ b ++ t ++ r).
Proof.
  intros Hw Hb D B S. apply alt_fails. repeat constructor; apply map_fails; apply pair_fails1.
  - now apply int_clause_range.
  - apply int_clause_fails. eapply tnc_fails_kwd; [| | |exact Hw]; reflexivity.
Qed.
Lemma offset_range w b t r : kw "offset" w -> blank b -> digits1 t -> ~ u64 (value t) -> stops low_digit r ->
  fails limit_offset_clause (w ++ b ++ t ++ r).
Proof.
  intros Hw Hb D B S. apply alt_fails. repeat constructor; apply map_fails; apply pair_fails1.
  - apply int_clause_fails. eapply tnc_fails_kwd; [| | |exact Hw]; reflexivity.
  - now apply int_clause_range.
Qed.
