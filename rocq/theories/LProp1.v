(** Consequences of the exact descriptions of the terminals, in the form the properties state them. *)
From Verif Require Export LTerm2.
Notation length := List.length (only parsing).
Open Scope N_scope.
Open Scope list_scope.

(** ** Integers *)
Lemma int_in_range sg k ds r : signed sg k ds -> digits1 ds -> int_follow r -> i64 (k * value ds) ->
  numeric_literal (sg ++ ds ++ r) = Ok r (NInt (k * value ds)).
Proof.
  intros Hs D F B. rewrite app_assoc. apply numeric_int; [|assumption]. exists sg, k, ds. repeat split; auto; apply D || apply B.
Qed.
Lemma int_only i r z : numeric_literal i = Ok r (NInt z) ->
  exists sg k ds, i = sg ++ ds ++ r /\ signed sg k ds /\ digits1 ds /\ int_follow r /\ z = (k * value ds)%Z /\ i64 z.
Proof.
  intros H. unfold numeric_literal in H. rewrite alt_cons in H by discriminate. unfold map at 1 in H.
  destruct (sparql_int i) as [r' z'|e] eqn:E.
  - injection H as -> ->. apply sparql_int_iff in E. destruct E as (t & -> & (sg & k & ds & Hs & -> & D & -> & B) & F).
    exists sg, k, ds. rewrite <- app_assoc. auto 6.
  - destruct e; try discriminate. cbn [alt] in H. unfold map in H. destruct (sparql_double i) as [? [? ?]|]; discriminate.
Qed.
Lemma Qdiv_1_r x : (x / inject_Z 1 == x)%Q.
Proof. change (inject_Z 1) with 1%Q. field. Qed.
Lemma decimal_int sg k ds : signed sg k ds -> digits1 ds ->
  exists v, R_decimal v (sg ++ ds) /\ rounds (inject_Z (value ds)) v /\ (negative v = true <-> k = (-1)%Z).
Proof.
  intros Hs [N D]. set (s := if (k =? -1)%Z then true else false). exists (round_f64 s (value ds) 1).
  assert (R : rounds (inject_Z (value ds) / inject_Z 1) (round_f64 s (value ds) 1)) by (apply round_ok; [apply value_nonneg|reflexivity]).
  assert (S : negative (round_f64 s (value ds) 1) = true <-> k = (-1)%Z) by (rewrite round_negative; unfold s; destruct Hs; cbn; split; intros; reflexivity || discriminate).
  split; [|split; [exact (rounds_eq _ _ _ (Qdiv_1_r _) R)|exact S]].
  exists sg, k, ds, [], []. rewrite !app_nil_r. repeat split; auto; try apply S. constructor.
Qed.
Lemma int_out_of_range sg k ds r : signed sg k ds -> digits1 ds -> int_follow r -> ~ i64 (k * value ds) ->
  exists v, numeric_literal (sg ++ ds ++ r) = Ok r (NDouble v None) /\ rounds (inject_Z (value ds)) v /\
    (negative v = true <-> k = (-1)%Z).
Proof.
  intros Hs D F B. destruct (decimal_int sg k ds Hs D) as (v & R & H). exists v. split; [|exact H].
  rewrite app_assoc. assert (Fd : dec_follow (sg ++ ds) r) by (split; [apply F|intros _; apply F]).
  apply numeric_dec; [exact R|assumption| |apply exponent_fails_first; apply F].
  eapply int_fails_dec; [exact R|assumption|]. right. right. exists sg, k, ds. auto.
Qed.

(** ** Decimals *)
Lemma longest_dec_follow t r : longest dec_text t (t ++ r) -> dec_follow t r.
Proof. intros [H1 H2]. eapply (longest_follow dec_text); eauto. apply dec_ext. Qed.
Lemma decimal_plain q t r : R_decimal q t -> In 46 t -> longest dec_text t (t ++ r) -> not_first 101 r -> not_first 69 r ->
  numeric_literal (t ++ r) = Ok r (NDouble q None).
Proof.
  intros H D L N1 N2. apply longest_dec_follow in L. apply numeric_dec; auto; [|now apply exponent_fails_first].
  eapply int_fails_dec; eauto. left. unfold has_dot. apply existsb_exists. exists 46. auto.
Qed.
Lemma e_dec_follow c t r : c = 101 \/ c = 69 -> dec_follow t (c :: r).
Proof. intros [-> | ->]; (split; [reflexivity|intros _; discriminate]). Qed.
Lemma exponent_range q t c sg k ds r : R_decimal q t -> c = 101 \/ c = 69 -> signed sg k ds -> digits1 ds ->
  stops isd r -> ~ i64 (k * value ds) ->
  numeric_literal (t ++ c :: sg ++ ds ++ r) = Ok (c :: sg ++ ds ++ r) (NDouble q None).
Proof.
  intros H Hc Hs D S B. apply numeric_dec; [assumption|now apply e_dec_follow| |now apply exponent_fails_range with (k := k)].
  eapply int_fails_dec; [exact H|now apply e_dec_follow|]. right. left. cbn. now destruct Hc; subst c.
Qed.
Lemma bare_exponent q t c sg k r : R_decimal q t -> c = 101 \/ c = 69 -> signed sg k r -> stops isd r ->
  not_first 43 r -> not_first 45 r ->
  exists p e, numeric_literal (t ++ c :: sg ++ r) = Err (Failure p e).
Proof.
  intros H Hc Hs S N1 N2.
  assert (F : fails sparql_int (t ++ c :: sg ++ r)).
  { eapply int_fails_dec; [exact H|now apply e_dec_follow|]. right. left. cbn. now destruct Hc; subst c. }
  destruct F as (p & e & F). destruct (digit1_fails r S) as (p2 & e2 & D).
  destruct (opt_sign_ok sg k r r Hs N1 N2) as [o O].
  exists p2, e2. unfold numeric_literal. rewrite alt_cons by discriminate. unfold map at 1. rewrite F. cbn [alt].
  unfold map, sparql_double, pair. rewrite (sparql_decimal_ok q t _ H (e_dec_follow c t _ Hc)).
  unfold opt, exponent. unfold preceded, map, pair. rewrite (e_ok c (sg ++ r) Hc). unfold map_res, recognize, pair.
  rewrite O. unfold cut. now rewrite D.
Qed.

(** ** LIMIT / OFFSET: only the first number was read *)
Lemma second_range w b t v b2 u r : kw "limit" w -> blank b -> R_u64 (value t) t -> stops low_digit (v ++ b2 ++ u ++ r) -> forall b1,
  blank b1 -> kw "offset" v -> blank b2 -> digits1 u -> ~ u64 (value u) -> stops low_digit r ->
  limit_offset_clause (w ++ b ++ t ++ b1 ++ v ++ b2 ++ u ++ r) = Ok (v ++ b2 ++ u ++ r) (LimitOffset (value t) None).
Proof.
  intros Hw Hb Ht S b1 Hb1 Hv Hb2 D B S2. apply alt_first. apply (map_ok _ _ _ _ (value t, None)); [|reflexivity].
  eapply separated_pair_ok; [| |apply opt_none; now apply int_clause_range].
  - apply int_clause_ok; auto. now apply blank_low.
  - apply sp_ok; [assumption|]. eapply kw_solid; [exact Hv|]. vm_compute; split; discriminate.
Qed.

(** ** Strings *)
Lemma empty_string q r : q = 39 \/ q = 34 -> forall r' s, string_literal (q :: q :: r) <> Ok r' s.
Proof.
  intros Hq r' s H. apply string_literal_iff in H. destruct H as (p & Hp & E & Hb & N).
  destruct s as [|c s]; [congruence|]. injection E as -> <- E. inversion Hb; subst; auto. destruct Hp; discriminate.
Qed.

(** ** IRI references *)
Lemma iri_char_w3c c : iri_char c = true -> w3c_iri_char c = true.
Proof.
  unfold iri_char, w3c_iri_char. intros H. apply andb_true_iff in H. destruct H as [H ->]. rewrite andb_true_r.
  apply negb_true_iff in H. apply negb_true_iff. unfold in_ranges in *. cbn [existsb] in *. rewrite orb_false_r in *.
  destruct ((0 <=? c) && (c <=? 32)) eqn:E; [|reflexivity]. apply andb_true_iff in E. destruct E as [_ E]. apply N.leb_le in E.
  rewrite N.mod_small in H by lia. apply andb_false_iff in H. rewrite !N.leb_gt in H. lia.
Qed.
Lemma iri_char_latin c : w3c_iri_char c = true -> 32 < c mod 256 -> iri_char c = true.
Proof.
  unfold iri_char, w3c_iri_char. intros H L. apply andb_true_iff in H. destruct H as [_ ->]. rewrite andb_true_r.
  apply negb_true_iff. unfold in_ranges. cbn [existsb]. rewrite orb_false_r. apply andb_false_iff. right. now apply N.leb_gt.
Qed.

(** ** Blanks *)
Lemma blank_app a b : blank a -> blank b -> blank (a ++ b).
Proof.
  induction 1 as [|c t Hc Ht IH|bd nl t Hbd Hn Ht IH]; intros Hb; [assumption|apply blank_space; auto|].
  cbn [app]. rewrite <- app_assoc. cbn [app]. apply blank_comment; auto.
Qed.
Lemma solid_longest b r : blank b -> solid r -> longest blank b (b ++ r).
Proof.
  intros Hb Hr. split; [assumption|]. intros b' r' E Hb'. destruct (blank_split r') as (b2 & r2 & -> & H2 & S2).
  pose proof (sp_ok b r Hb Hr) as X. rewrite E, app_assoc in X.
  rewrite (sp_ok (b' ++ b2) r2) in X by (auto using blank_app). injection X as -> <-. rewrite app_length. lia.
Qed.
Lemma longest_unique (L : str -> Prop) i s s' r r' : i = s ++ r -> i = s' ++ r' -> longest L s i -> longest L s' i -> s = s' /\ r = r'.
Proof.
  intros E E' [H1 H2] [H3 H4]. specialize (H2 s' r' E' H3). specialize (H4 s r E H1). rewrite E in E'.
  assert (length s = length s') as Hl by lia.
  clear - E' Hl. revert s' Hl E'. induction s as [|c s IH]; intros [|c' s'] Hl E'; try discriminate; [auto|].
  injection E' as -> E'. injection Hl as Hl. destruct (IH s' Hl E') as [-> ->]. auto.
Qed.
Lemma sp_longest i r b : sp i = Ok r b <-> i = b ++ r /\ longest blank b i.
Proof.
  split.
  - intros H. apply sp_iff in H. destruct H as (-> & Hb & Hr). split; [reflexivity|now apply solid_longest].
  - intros [E L]. destruct (blank_split i) as (b' & r' & E' & Hb & Hr). rewrite E' in *.
    destruct (longest_unique blank (b' ++ r') b b' r r' E eq_refl L (solid_longest _ _ Hb Hr)) as [-> ->]. now apply sp_ok.
Qed.

(** ** Rounding *)
Lemma double_rounded i r v x : numeric_literal i = Ok r (NDouble v x) ->
  exists sg k ip pt fp y, i = (sg ++ ip ++ pt ++ fp) ++ y ++ r /\ signed sg k ip /\ digits0 ip /\ digits0 fp /\
    (pt = [46] \/ (pt = [] /\ fp = [])) /\ opt_ R_exponent x y /\ (negative v = true <-> k = (-1)%Z) /\
    let w := (inject_Z (value (ip ++ fp)) / inject_Z (10 ^ Z.of_nat (List.length fp)))%Q in
    rounds w v /\
    (forall m e, binary64 m e -> (w == magnitude m e)%Q -> exists s, v = Finite s m e) /\
    (forall s m e, v = Finite s m e -> (- 2 ^ (e - 1) <= w - magnitude m e <= 2 ^ (e - 1))%Q).
Proof.
  intros H. apply numeric_double_longest in H. destruct H as (t & y & -> & (sg & k & ip & fp & pt & H1 & -> & H2 & H3 & H4 & H5 & H6 & H7) & _ & Hy).
  exists sg, k, ip, pt, fp, y. refine (conj eq_refl (conj H1 (conj H2 (conj H3 (conj H4 (conj Hy (conj H6 (conj H7 (conj _ _))))))))).
  - intros m e B E. exists (negative v). refine (rounds_exact _ _ _ m e v _ _ B E H7 eq_refl); [apply value_nonneg|apply pow10_pos].
  - intros s m e ->. apply rounds_error in H7; [|apply value_nonneg|apply pow10_pos]. apply Qabs.Qabs_Qle_condition in H7. exact H7.
Qed.
