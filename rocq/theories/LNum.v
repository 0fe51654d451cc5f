(** Numbers, RDF literals, LIMIT / OFFSET. *)
From Verif Require Export LName3.
Notation length := List.length (only parsing).
Open Scope N_scope.
Open Scope list_scope.
Notation isd := (in_ranges digits).

Lemma digit1_ok u r : digits1 u -> stops isd r -> digit1 (u ++ r) = Ok r u.
Proof.
  intros [N H] S. apply take1_ok; [assumption| |].
  - revert H. apply all_ext. intros c. now rewrite is_digit_eq.
  - revert S. apply stops_ext. intros c. now rewrite is_digit_eq.
Qed.
Lemma digit1_fails r : stops isd r -> fails digit1 r.
Proof. intros S. apply take1_fails. revert S. apply stops_ext. intros c. now rewrite is_digit_eq. Qed.
Lemma opt_sign_ok sg k ds r : signed sg k ds -> not_first 43 r -> not_first 45 r -> exists o, opt_sign (sg ++ r) = Ok r o.
Proof.
  intros H N1 N2. unfold opt_sign. destruct H; cbn [app].
  - exists None. apply opt_none, alt_fails. repeat constructor; now apply chr_fails.
  - eexists. apply opt_some, alt_first, chr_ok.
  - eexists. apply opt_some, alt_next; [now apply chr_fails|]. apply alt_first, chr_ok.
Qed.
Lemma opt_sign_total i : exists sg r o, i = sg ++ r /\ (exists k, signed sg k r) /\ opt_sign i = Ok r o.
Proof.
  destruct i as [|c i].
  - exists [], [], None. split; [reflexivity|]; split; [exists 1%Z; constructor|]. apply opt_none, alt_fails. repeat constructor; now apply chr_fails.
  - destruct (N.eq_dec c 43) as [->|N1].
    + exists [43], i, (Some 43). split; [reflexivity|]; split; [exists 1%Z; constructor|]. apply opt_some, alt_first, chr_ok.
    + destruct (N.eq_dec c 45) as [->|N2].
      * exists [45], i, (Some 45). split; [reflexivity|]; split; [exists (-1)%Z; constructor|]. apply opt_some, alt_next; [now apply chr_fails|apply alt_first, chr_ok].
      * exists [], (c :: i), None. split; [reflexivity|]; split; [exists 1%Z; constructor|]. apply opt_none, alt_fails. repeat constructor; now apply chr_fails.
Qed.
Lemma signed_any sg k r r' : signed sg k r -> signed sg k r'.
Proof. destruct 1; constructor. Qed.
Lemma digits_not c ds r : digits1 ds -> in_ranges digits c = false -> not_first c (ds ++ r).
Proof.
  intros [N H] Hc. destruct ds as [|d ds]; [congruence|]. cbn [app not_first]. intros ->. inversion H. congruence.
Qed.

(** ** Integers *)
Lemma int_follow_bool r : int_follow r -> match r with c :: _ => contains (s_ ".eE") c | [] => false end = false.
Proof.
  intros (_ & H1 & H2 & H3). destruct r as [|c r]; [reflexivity|].
  destruct (contains (s_ ".eE") c) eqn:E; [|reflexivity]. apply contains_In in E. cbn in *.
  repeat (destruct E as [E|E]; [congruence|]). destruct E.
Qed.
Lemma int_text_read sg k ds r : signed sg k ds -> digits1 ds -> stops isd r ->
  recognize (pair opt_sign digit1) (sg ++ ds ++ r) = Ok r (sg ++ ds).
Proof.
  intros Hs D S. destruct (opt_sign_ok sg k ds (ds ++ r) Hs) as [o E]; [now apply digits_not|now apply digits_not|].
  rewrite app_assoc. eapply recognize_eq; [|reflexivity]. rewrite <- app_assoc. eapply pair_ok; [exact E|now apply digit1_ok].
Qed.
Lemma sparql_int_ok z t r : R_i64 z t -> int_follow r -> sparql_int (t ++ r) = Ok r z.
Proof.
  intros H F. pose proof H as P. apply parse_i64_iff in P. destruct H as (sg & k & ds & Hs & -> & D & -> & B).
  unfold sparql_int. rewrite <- app_assoc, (int_text_read sg k ds r) by (assumption || apply F).
  rewrite int_follow_bool by assumption. now rewrite P.
Qed.
Lemma sparql_int_fails_follow sg k ds c r : signed sg k ds -> digits1 ds -> In c [46; 101; 69] ->
  fails sparql_int (sg ++ ds ++ c :: r).
Proof.
  intros Hs D Hc. exists (c :: r), KFloat. unfold sparql_int.
  rewrite (int_text_read sg k ds (c :: r)); auto.
  - cbn in Hc. repeat (destruct Hc as [Hc|Hc]; [subst c; reflexivity|]). destruct Hc.
  - cbn in Hc. repeat (destruct Hc as [Hc|Hc]; [subst c; reflexivity|]). destruct Hc.
Qed.
Lemma sparql_int_fails_range sg k ds r : signed sg k ds -> digits1 ds -> stops isd r -> ~ i64 (k * value ds) ->
  fails sparql_int (sg ++ ds ++ r).
Proof.
  intros Hs D S B. unfold fails, sparql_int. rewrite (int_text_read sg k ds r) by assumption.
  destruct (match r with c :: _ => contains (s_ ".eE") c | [] => false end); [eauto|].
  destruct (parse_i64 (sg ++ ds)) as [v|] eqn:P; [|eauto]. exfalso. apply B.
  unfold parse_i64 in P.
  assert (E : parse_signed (sg ++ ds) = Some (k * value ds)%Z) by (apply parse_signed_iff; exists sg, k, ds; auto).
  rewrite E in P. unfold i64, i64_min, i64_max in *.
  destruct ((- 2 ^ 63 <=? k * value ds) && (k * value ds <=? 2 ^ 63 - 1))%Z eqn:X; [|discriminate].
  apply andb_true_iff in X. destruct X as [X1 X2]. apply Z.leb_le in X1, X2. lia.
Qed.
Lemma sparql_int_fails_start sg k r : signed sg k r -> stops isd r -> not_first 43 r -> not_first 45 r -> fails sparql_int (sg ++ r).
Proof.
  intros Hs S N1 N2. destruct (opt_sign_ok sg k r r Hs N1 N2) as [o E].
  assert (F : fails (recognize (pair opt_sign digit1)) (sg ++ r)) by (eapply recognize_fails, pair_fails2; [exact E|now apply digit1_fails]).
  destruct F as (p & e & F). exists p, e. unfold sparql_int. now rewrite F.
Qed.
Lemma sparql_int_iff i r z : sparql_int i = Ok r z <-> exists t, i = t ++ r /\ R_i64 z t /\ int_follow r.
Proof.
  split; [|intros (t & -> & H & F); now apply sparql_int_ok].
  intros H. pose proof H as H'. apply sd_sparql_int in H. destruct H as (t & -> & H). exists t. split; [reflexivity|]. split; [assumption|].
  destruct H as (sg & k & ds & Hs & -> & D & -> & B).
  destruct (span_cases isd r) as (u & r' & -> & Hu & Hr).
  assert (D' : digits1 (ds ++ u)).
  { destruct D as [N A]. split; [destruct ds; [congruence|discriminate]|now apply all_app]. }
  assert (E : (sg ++ ds) ++ u ++ r' = sg ++ (ds ++ u) ++ r') by now rewrite <- !app_assoc.
  assert (R : recognize (pair opt_sign digit1) ((sg ++ ds) ++ u ++ r') = Ok r' (sg ++ ds ++ u)).
  { rewrite E. apply (int_text_read sg k); auto. eapply signed_any, Hs. }
  unfold sparql_int in H'. rewrite R in H'. 
  destruct (match r' with c :: _ => contains (s_ ".eE") c | [] => false end) eqn:X; [discriminate|].
  destruct (parse_i64 _); [|discriminate]. injection H' as H1 H2. rewrite <- H1. split; [assumption|].
  destruct r' as [|c r']; [repeat split|]. repeat split; intros ->; discriminate.
Qed.

(** ** Decimals *)
Definition float_p : parser str := recognize_sparql_float.
Definition has_dot (t : str) : bool := existsb (N.eqb 46) t.
Definition dec_follow (t r : str) : Prop := stops isd r /\ (has_dot t = false -> not_first 46 r).
Lemma has_dot_digits u : all isd u -> has_dot u = false.
Proof.
  induction 1 as [|c u Hc _ IH]; [reflexivity|]. cbn [has_dot existsb]. destruct (N.eqb_spec 46 c) as [<-|]; [discriminate|exact IH].
Qed.
Lemma has_dot_app u v : has_dot (u ++ v) = has_dot u || has_dot v.
Proof. apply existsb_app. Qed.
Lemma signed_dot sg k r : signed sg k r -> has_dot sg = false.
Proof. now destruct 1. Qed.
(** the shape alone *)
Definition dec_shape (sg ip pt fp : str) : Prop :=
  (exists k, signed sg k ip) /\ digits0 ip /\ digits0 fp /\ (pt = [46] \/ (pt = [] /\ fp = [])) /\ ip ++ fp <> [].
Lemma dec_text_iff t : dec_text t <-> exists sg ip pt fp, t = sg ++ ip ++ pt ++ fp /\ dec_shape sg ip pt fp.
Proof.
  split.
  - intros (q & sg & k & ip & fp & pt & Hs & -> & H1 & H2 & H3 & H4 & _). exists sg, ip, pt, fp. split; [reflexivity|].
    repeat split; eauto.
  - intros (sg & ip & pt & fp & -> & [k Hs] & H1 & H2 & H3 & H4).
    exists (round_f64 (if (k =? -1)%Z then true else false) (value (ip ++ fp)) (10 ^ Z.of_nat (length fp))).
    destruct (R_unsigned_intro (if (k =? -1)%Z then true else false) ip fp pt H1 H2 H3 H4) as (ip' & fp' & pt' & E & H).
    replace (if if (k =? -1)%Z then true else false then (-1)%Z else 1%Z) with k in H by (destruct Hs; reflexivity).
    exists sg, k, ip', fp', pt'. split; [eapply signed_any, Hs|]. split; [f_equal; exact E|]. exact H.
Qed.
Lemma digits0_cases u : digits0 u -> u = [] \/ digits1 u.
Proof. intros H. destruct u; [now left|right]. split; [discriminate|assumption]. Qed.
Lemma opt_digit1 fp r : digits0 fp -> stops isd r -> exists o, opt digit1 (fp ++ r) = Ok r o.
Proof.
  intros H S. destruct (digits0_cases fp H) as [->|D]; [exists None; now apply opt_none, digit1_fails|].
  eexists. apply opt_some. now apply digit1_ok.
Qed.
Lemma float_read sg ip pt fp r : dec_shape sg ip pt fp -> dec_follow (sg ++ ip ++ pt ++ fp) r ->
  float_p ((sg ++ ip ++ pt ++ fp) ++ r) = Ok r (sg ++ ip ++ pt ++ fp).
Proof.
  intros ([k Hs] & H1 & H2 & H3 & H4) [F1 F2].
  assert (HD : has_dot (sg ++ ip ++ pt ++ fp) = match pt with [] => false | _ => true end).
  { rewrite !has_dot_app, (signed_dot sg k ip Hs), (has_dot_digits ip H1), (has_dot_digits fp H2).
    destruct H3 as [->|[-> ->]]; reflexivity. }
  rewrite HD in F2.
  assert (NF : forall c, c = 43 \/ c = 45 -> not_first c ((ip ++ pt ++ fp) ++ r)).
  { intros c Hc. destruct (digits0_cases ip H1) as [->|D].
    - destruct H3 as [->|[-> ->]]; [|now destruct H4]. cbn. destruct Hc; subst c; discriminate.
    - rewrite <- app_assoc. apply digits_not; [assumption|]. destruct Hc; subst c; reflexivity. }
  destruct (opt_sign_ok sg k ip ((ip ++ pt ++ fp) ++ r) Hs) as [o E]; [apply NF; auto|apply NF; auto|].
  unfold float_p, recognize_sparql_float. eapply recognize_ok. rewrite <- app_assoc. eapply pair_ok; [exact E|].
  destruct (digits0_cases ip H1) as [->|D].
  - destruct H3 as [->|[-> ->]]; [|now destruct H4]. cbn [app] in *.
    apply alt_next; [apply map_fails, pair_fails1, digit1_fails; reflexivity|]. apply alt_first.
    eapply map_ok; [|reflexivity]. eapply pair_ok; [apply chr_ok|]. apply digit1_ok; [|assumption].
    split; [assumption|assumption].
  - apply alt_first. destruct (opt_digit1 fp r H2 F1) as [o' E'].
    destruct H3 as [->|[-> ->]].
    + eapply map_ok; [|reflexivity]. rewrite <- app_assoc. eapply pair_ok; [apply digit1_ok; [assumption|reflexivity]|].
      apply opt_some. cbn [app]. eapply pair_ok; [apply chr_ok|exact E'].
    + cbn [app]. rewrite app_nil_r. eapply map_ok; [|reflexivity]. eapply pair_ok; [now apply digit1_ok|].
      apply opt_none, pair_fails1, chr_fails. now apply F2.
Qed.
Lemma float_ok t r : dec_text t -> dec_follow t r -> float_p (t ++ r) = Ok r t.
Proof. intros H F. apply dec_text_iff in H. destruct H as (sg & ip & pt & fp & -> & H). now apply float_read. Qed.
Lemma dec_ext t r : dec_text t -> dec_follow t r \/ exists x r', r = x ++ r' /\ x <> [] /\ dec_text (t ++ x).
Proof.
  intros H. apply dec_text_iff in H. destruct H as (sg & ip & pt & fp & -> & H).
  pose proof H as ([k Hs] & H1 & H2 & H3 & H4).
  destruct r as [|c r]; [left; split; [exact I|intros _; exact I]|].
  destruct (isd c) eqn:C.
  - right. exists [c], r. split; [reflexivity|]. split; [discriminate|]. apply dec_text_iff.
    destruct H3 as [->|[-> ->]].
    + exists sg, ip, [46], (fp ++ [c]). split; [now rewrite <- !app_assoc|]. repeat split; [exists k; eapply signed_any, Hs|assumption| |now left|].
      * apply all_app; [assumption|now repeat constructor].
      * destruct ip; [destruct fp; discriminate|discriminate].
    + exists sg, (ip ++ [c]), [], []. split; [now rewrite !app_nil_r, app_assoc|]. repeat split; [exists k; eapply signed_any, Hs| |constructor|now right|].
      * apply all_app; [assumption|now repeat constructor].
      * destruct ip; discriminate.
  - destruct (N.eq_dec c 46) as [->|N]; [|left; split; [exact C|intros _; exact N]].
    destruct H3 as [->|[-> ->]].
    + left. split; [reflexivity|]. rewrite !has_dot_app. cbn. rewrite !orb_true_r. discriminate.
    + right. exists [46], r. split; [reflexivity|]. split; [discriminate|]. apply dec_text_iff.
      exists sg, ip, [46], []. split; [now rewrite !app_nil_r, <- app_assoc|]. repeat split; eauto.
Qed.
Lemma sparql_decimal_ok q t r : R_decimal q t -> dec_follow t r -> sparql_decimal (t ++ r) = Ok r q.
Proof.
  intros H F. unfold sparql_decimal. change recognize_sparql_float with float_p. rewrite float_ok; [|now exists q|assumption].
  apply parse_decimal_iff in H. now rewrite H.
Qed.
Lemma sparql_decimal_iff i r q : sparql_decimal i = Ok r q <-> exists t, i = t ++ r /\ R_decimal q t /\ longest dec_text t i.
Proof.
  split.
  - intros H. pose proof H as H'. apply sd_sparql_decimal in H. destruct H as (t & -> & H). exists t. repeat split; auto; [now exists q|].
    intros s' r' E Hs'. destruct (longest_extend dec_text dec_follow dec_ext s' r' Hs') as (s2 & r2 & E2 & [q2 X1] & X2 & X3).
    rewrite E, E2, (sparql_decimal_ok q2 s2 r2 X1 X2) in H'. injection H' as -> ->.
    rewrite E2 in E. apply app_inv_tail in E. now subst.
  - intros (t & -> & H & L & M). apply sparql_decimal_ok; [assumption|]. eapply (longest_follow dec_text); eauto. apply dec_ext.
Qed.
Lemma decimal_fails sg k r : signed sg k r -> stops isd r -> not_first 43 r -> not_first 45 r ->
  (forall c r', r = 46 :: c :: r' -> isd c = false) -> fails sparql_decimal (sg ++ r).
Proof.
  intros Hs S N1 N2 D. destruct (opt_sign_ok sg k r r Hs N1 N2) as [o E].
  assert (F : fails recognize_sparql_float (sg ++ r)).
  { eapply recognize_fails, pair_fails2; [exact E|]. apply alt_fails. repeat constructor; apply map_fails.
    - now apply pair_fails1, digit1_fails.
    - destruct r as [|c r]; [apply pair_fails1, chr_fails; exact I|].
      destruct (N.eq_dec c 46) as [->|N]; [|apply pair_fails1, chr_fails; exact N].
      eapply pair_fails2; [apply chr_ok|]. apply digit1_fails. destruct r as [|d r]; [exact I|]. now apply (D d r). }
  destruct F as (p & e & F). exists p, e. unfold sparql_decimal. now rewrite F.
Qed.

(** ** Exponents *)
Lemma e_ok c r : c = 101 \/ c = 69 -> alt [chr (c_ "e"); chr (c_ "E")] (c :: r) = Ok r c.
Proof. intros [-> | ->]; [apply alt_first, chr_ok|apply alt_next; [now apply chr_fails|apply alt_first, chr_ok]]. Qed.
Lemma exp_text_read sg k ds r : signed sg k ds -> digits1 ds -> stops isd r ->
  recognize (pair opt_sign (cut digit1)) (sg ++ ds ++ r) = Ok r (sg ++ ds).
Proof.
  intros Hs D S. destruct (opt_sign_ok sg k ds (ds ++ r) Hs) as [o E]; [now apply digits_not|now apply digits_not|].
  rewrite app_assoc. eapply recognize_eq; [|reflexivity]. rewrite <- app_assoc. eapply pair_ok; [exact E|apply cut_ok; now apply digit1_ok].
Qed.
Lemma exponent_ok z x r : R_exponent z x -> stops isd r -> exponent (x ++ r) = Ok r z.
Proof.
  intros (u & t & -> & Hu & H) S. pose proof H as P. apply parse_i64_iff in P.
  destruct H as (sg & k & ds & Hs & -> & D & -> & B).
  assert (X : exists c, u = [c] /\ (c = 101 \/ c = 69)) by (destruct Hu as [-> | ->]; [exists 101|exists 69]; auto).
  destruct X as (c & -> & Hc). cbn [app]. unfold exponent. eapply preceded_ok; [now apply e_ok|].
  rewrite <- app_assoc. eapply map_res_ok; [now apply (exp_text_read sg k ds)|exact P].
Qed.
(** an exponent that does not fit is not read at all *)
Lemma exponent_fails_range c sg k ds r : c = 101 \/ c = 69 -> signed sg k ds -> digits1 ds -> stops isd r -> ~ i64 (k * value ds) ->
  fails exponent (c :: sg ++ ds ++ r).
Proof.
  intros Hc Hs D S B. unfold exponent. eapply preceded_fails2; [now apply e_ok|].
  eapply map_res_fails2; [now apply (exp_text_read sg k ds)|].
  destruct (parse_i64 (sg ++ ds)) as [z|] eqn:P; [|reflexivity]. exfalso. apply B. unfold parse_i64 in P.
  assert (E : parse_signed (sg ++ ds) = Some (k * value ds)%Z) by (apply parse_signed_iff; exists sg, k, ds; auto).
  rewrite E in P. unfold i64, i64_min, i64_max in *.
  destruct ((- 2 ^ 63 <=? k * value ds) && (k * value ds <=? 2 ^ 63 - 1))%Z eqn:X; [|discriminate].
  apply andb_true_iff in X. destruct X as [X1 X2]. apply Z.leb_le in X1, X2. lia.
Qed.
Lemma exponent_fails_first r : not_first 101 r -> not_first 69 r -> fails exponent r.
Proof. intros H1 H2. apply preceded_fails1, alt_fails. repeat constructor; now apply chr_fails. Qed.
(** ** Numeric literals *)
Definition num_follow (r : str) : Prop := stops isd r /\ not_first 46 r /\ not_first 101 r /\ not_first 69 r.
Lemma numeric_int z t r : R_i64 z t -> int_follow r -> numeric_literal (t ++ r) = Ok r (NInt z).
Proof. intros H F. apply alt_first. apply (map_ok _ _ _ _ z); [now apply sparql_int_ok|reflexivity]. Qed.
Lemma int_fails_dec q t r : R_decimal q t -> dec_follow t r ->
  (has_dot t = true \/ first_is (fun c => (c =? 101) || (c =? 69)) r = true \/
   (exists sg k ds, t = sg ++ ds /\ signed sg k ds /\ digits1 ds /\ ~ i64 (k * value ds))) -> fails sparql_int (t ++ r).
Proof.
  intros (sg & k & ip & fp & pt & Hs & -> & H1 & H2 & H3 & H4 & _) [F1 F2] K.
  destruct H3 as [->|[-> ->]].
  - destruct (digits0_cases ip H1) as [->|D].
    + cbn [app]. rewrite <- app_assoc. cbn [app]. eapply sparql_int_fails_start; [eapply signed_any, Hs|reflexivity|discriminate..].
    + rewrite <- !app_assoc. cbn [app].
      eapply sparql_int_fails_follow; [eassumption..|cbn; auto].
  - cbn [app] in *. rewrite app_nil_r in *. assert (D : digits1 ip) by (split; [destruct ip; [now destruct H4|discriminate]|assumption]).
    rewrite <- app_assoc. destruct K as [K|[K|K]].
    + rewrite has_dot_app, (signed_dot _ _ _ Hs), (has_dot_digits ip H1) in K. discriminate.
    + destruct r as [|c r]; [discriminate|]. cbn in K. apply orb_true_iff in K.
      eapply sparql_int_fails_follow; [eassumption..|]. cbn. destruct K as [K|K]; apply N.eqb_eq in K; auto.
    + destruct K as (sg' & k' & ds & E & Hs' & D' & B).
      rewrite app_assoc, E, <- app_assoc. eapply sparql_int_fails_range; eassumption.
Qed.
Lemma numeric_exp q t z x r : R_decimal q t -> R_exponent z x -> stops isd r -> numeric_literal (t ++ x ++ r) = Ok r (NDouble q (Some z)).
Proof.
  intros H X S.
  assert (E : exists c u, x ++ r = c :: u /\ (c = 101 \/ c = 69)).
  { destruct X as (u & v & -> & [-> | ->] & _); eexists; eexists; (split; [reflexivity|auto]). }
  destruct E as (c & u & E & Hc).
  assert (F : dec_follow t (x ++ r)).
  { rewrite E. destruct Hc; subst c; split; try reflexivity; intros _; discriminate. }
  apply alt_next.
  - apply map_fails. eapply int_fails_dec; [eassumption..|]. right. left. rewrite E. destruct Hc; subst c; reflexivity.
  - apply alt_first. apply (map_ok _ _ _ _ (q, Some z)); [|reflexivity]. unfold sparql_double.
    eapply pair_ok; [now apply sparql_decimal_ok|]. apply opt_some. now apply exponent_ok.
Qed.
Lemma numeric_dec q t r : R_decimal q t -> dec_follow t r -> fails sparql_int (t ++ r) -> fails exponent r ->
  numeric_literal (t ++ r) = Ok r (NDouble q None).
Proof.
  intros H F K X. apply alt_next; [now apply map_fails|]. apply alt_first. apply (map_ok _ _ _ _ (q, None)); [|reflexivity].
  eapply pair_ok; [now apply sparql_decimal_ok|]. now apply opt_none.
Qed.
Lemma numeric_fails_first i : stops isd i -> not_first 43 i -> not_first 45 i -> not_first 46 i -> fails numeric_literal i.
Proof.
  intros S N1 N2 N3. apply alt_fails. repeat constructor; apply map_fails.
  - apply (sparql_int_fails_start [] 1%Z i); auto. constructor.
  - apply pair_fails1. apply (decimal_fails [] 1%Z i); auto; [constructor|]. intros c r' ->. cbn in N3. congruence.
Qed.
(** what a double reading means *)
Lemma numeric_double_longest i r q e : numeric_literal i = Ok r (NDouble q e) ->
  exists t x, i = t ++ x ++ r /\ R_decimal q t /\ longest dec_text t i /\ opt_ R_exponent e x.
Proof.
  intros H. unfold numeric_literal in H. rewrite alt_cons in H by discriminate. unfold map at 1 in H.
  destruct (sparql_int i) as [|e0]; [discriminate|]. destruct e0; try discriminate. cbn [alt] in H. unfold map in H.
  destruct (sparql_double i) as [r' [q' e']|] eqn:E; [|discriminate]. injection H as -> -> ->.
  unfold sparql_double, pair in E. destruct (sparql_decimal i) as [i1 q1|] eqn:E1; [|discriminate].
  destruct (opt exponent i1) as [i2 e2|] eqn:E2; [|discriminate]. injection E as -> -> ->.
  apply sparql_decimal_iff in E1. destruct E1 as (t & -> & Hq & L).
  apply (sound_opt _ _ sd_exponent) in E2. destruct E2 as (x & -> & Hx). exists t, x. auto.
Qed.
