(** Soundness of the terminals. *)
From Verif Require Export LF64 LSound.
Notation length := List.length (only parsing).
Open Scope N_scope.
Open Scope list_scope.

(** ** Character classes *)
Lemma is_digit_eq c : is_digit c = in_ranges digits c.
Proof. unfold is_digit, in_ranges, digits, existsb. now rewrite orb_false_r. Qed.
Lemma is_alphabetic_eq c : is_alphabetic c = in_ranges letters c.
Proof. unfold is_alphabetic, in_ranges, letters, existsb. now rewrite orb_false_r. Qed.
Lemma is_unicode_eq c : is_unicode c = in_ranges w3c_bmp c.
Proof. unfold is_unicode, in_ranges, w3c_bmp, existsb. now rewrite orb_false_r, !orb_assoc. Qed.
Lemma is_pn_chars_base_eq c : is_pn_chars_base c = base_char c.
Proof. unfold is_pn_chars_base, base_char, as_u8. now rewrite is_alphabetic_eq, is_unicode_eq. Qed.
Lemma is_pn_chars_u_eq c : is_pn_chars_u c = start_char c.
Proof. unfold is_pn_chars_u, start_char. now rewrite is_pn_chars_base_eq. Qed.
Lemma is_pn_char_eq c : is_pn_char c = name_char c.
Proof. unfold is_pn_char, name_char, char_is_dec_digit. now rewrite is_pn_chars_u_eq, is_digit_eq. Qed.
Lemma is_var_char_eq c : is_var_char c = var_char c.
Proof. unfold is_var_char, var_char, char_is_dec_digit. now rewrite is_pn_chars_u_eq, is_digit_eq. Qed.
Lemma low_digit_eq c : is_digit (as_u8 c) = low_digit c.
Proof. apply is_digit_eq. Qed.
Lemma char_is_hex_eq c : char_is_hex c = hex_digit c.
Proof. unfold char_is_hex, hex_digit, is_digit, in_ranges, existsb. now rewrite orb_false_r, orb_assoc. Qed.
Lemma char_is_alphanum_eq c : char_is_alphanum c = in_ranges alnum c.
Proof.
  unfold char_is_alphanum, char_is_alpha, char_is_dec_digit, is_alphabetic, is_digit, in_ranges, alnum, letters, digits, app, existsb.
  now rewrite orb_false_r, <- orb_assoc.
Qed.
Lemma is_iri_char_eq c : is_iri_char c = iri_char c.
Proof.
  unfold is_iri_char, iri_char, in_ranges, existsb at 1, as_u8. rewrite orb_false_r.
  assert (contains (s_ "<>""{}|^\`") c = existsb (N.eqb c) (s_ "<>""{}|^`\")) as ->.
  { unfold contains. cbn [s_ List.map list_ascii_of_string existsb].
    repeat match goal with |- context [c =? ?x] => destruct (c =? x) end; reflexivity. }
  destruct (existsb (N.eqb c) (s_ "<>""{}|^`\")); [now rewrite andb_false_r|]. rewrite andb_true_r.
  assert (0 <=? c mod 256 = true) as -> by (apply N.leb_le, N.le_0_l). cbn [andb].
  now rewrite N.ltb_antisym.
Qed.
Lemma all_ext f g t : (forall c, f c = g c) -> all f t -> all g t.
Proof. intros H. apply Forall_impl. intros c. now rewrite H. Qed.

(** ** Strings *)
Lemma existsb_In_N c l : existsb (N.eqb c) l = true <-> In c l.
Proof. apply contains_In. Qed.

Lemma firstn_sub {A} (u i : list A) : firstn (length (u ++ i) - length i) (u ++ i) = u.
Proof.
  rewrite app_length. replace (length u + length i - length i)%nat with (length u + 0)%nat by lia.
  rewrite firstn_app_2. simpl. apply app_nil_r.
Qed.

Section StringLiteral.
  Context (q : char) (Hq : q = 39 \/ q = 34).
  Notation normal := (none_of [q; 92]).
  Notation loop := (fun n => escaped_loop n normal 92 (one_of esc_chars)).

  Lemma normal_ok c i : c <> q -> c <> 92 -> normal (c :: i) = Ok i c.
  Proof.
    intros H1 H2. unfold none_of, contains, existsb. apply N.eqb_neq in H1, H2. now rewrite H1, H2.
  Qed.
  Lemma normal_quote i : normal (q :: i) = Err (Error (q :: i) KNoneOf).
  Proof. unfold none_of, contains, existsb. now rewrite N.eqb_refl. Qed.
  Lemma normal_esc i : normal (92 :: i) = Err (Error (92 :: i) KNoneOf).
  Proof. unfold none_of, contains, existsb. now rewrite N.eqb_refl, orb_true_r. Qed.
  Lemma quote_not_esc : (q =? 92) = false.
  Proof. destruct Hq as [-> | ->]; reflexivity. Qed.

  (** reading a body that is followed by the quote *)
  Lemma loop_complete v : body q v -> forall n u r, (length (v ++ q :: r) < n)%nat -> u ++ v <> [] ->
    loop n (u ++ v ++ q :: r) (v ++ q :: r) = Ok (q :: r) (u ++ v).
  Proof.
    induction 1 as [|c t H1 H2 Ht IH|c t Hc Ht IH]; intros [|n] u r L N; try (simpl in L; lia).
    - cbn [app escaped_loop]. rewrite normal_quote, quote_not_esc, app_nil_r in *.
      rewrite app_length. cbn [length].
      replace (Nat.eqb _ _) with false.
      + f_equal. replace (length u + S (length r) - S (length r))%nat with (length u + 0)%nat by lia.
        rewrite firstn_app_2. simpl. apply app_nil_r.
      + symmetry. apply Nat.eqb_neq. destruct u; [congruence|]. simpl. lia.
    - cbn [app escaped_loop]. rewrite normal_ok by assumption.
      destruct (t ++ q :: r) as [|x y] eqn:E; [destruct t; discriminate|]. cbv iota. rewrite <- E.
      replace (u ++ c :: t ++ q :: r) with ((u ++ [c]) ++ t ++ q :: r) by (rewrite <- app_assoc; reflexivity).
      rewrite IH.
      + f_equal. rewrite <- app_assoc. reflexivity.
      + simpl in L. lia.
      + destruct u; discriminate.
    - cbn [app escaped_loop]. rewrite normal_esc. cbn [N.eqb Pos.eqb].
      assert (one_of esc_chars (c :: t ++ q :: r) = Ok (t ++ q :: r) c) as ->.
      { unfold one_of. apply contains_In in Hc. change (contains esc_chars c = true) in Hc. now rewrite Hc. }
      destruct (t ++ q :: r) as [|x y] eqn:E; [destruct t; discriminate|]. cbv iota. rewrite <- E.
      replace (u ++ (92 : char) :: c :: t ++ q :: r) with ((u ++ [(92 : char); c]) ++ t ++ q :: r) by (rewrite <- app_assoc; reflexivity).
      rewrite IH.
      + f_equal. rewrite <- app_assoc. reflexivity.
      + simpl in L. lia.
      + destruct u; discriminate.
  Qed.

  (** and conversely *)
  Lemma loop_sound n : forall u i r s, loop n (u ++ i) i = Ok r s ->
    r = [] \/ exists v, i = v ++ r /\ body q v /\ s = u ++ v /\ s <> [].
  Proof.
    induction n as [|n IH]; intros u i r s E; [discriminate|]. cbn [escaped_loop] in E.
    destruct i as [|c i]; [injection E as <- <-; now left|].
    destruct (N.eq_dec c 92) as [->|N92].
    - rewrite normal_esc in E. cbn [N.eqb Pos.eqb] in E. destruct i as [|d i]; [discriminate|].
      unfold one_of at 1 in E. destruct (contains esc_chars d) eqn:Ed; [|discriminate].
      destruct i as [|x i]; [injection E as <- <-; now left|].
      replace (u ++ (92:char) :: d :: x :: i) with ((u ++ [(92 : char); d]) ++ x :: i) in E by (rewrite <- app_assoc; reflexivity).
      apply IH in E. destruct E as [|(v & Ev & Hv & -> & N)]; [now left|]. right.
      exists (92 :: d :: v). cbn [app]. rewrite Ev. split; [reflexivity|]. split.
      { apply body_esc; [|assumption]. apply contains_In in Ed. exact Ed. }
      split; [now rewrite <- app_assoc|assumption].
    - destruct (N.eq_dec c q) as [->|Nq].
      + rewrite normal_quote, quote_not_esc in E.
        destruct (Nat.eqb (length (u ++ q :: i)) (length (q :: i))) eqn:L; [discriminate|].
        injection E as <- <-. right. exists []. split; [reflexivity|]. split; [constructor|].
        change (S (length i)) with (length (q :: i)). rewrite app_nil_r, (firstn_sub u (q :: i)). split; [reflexivity|]. intros ->.
        apply Nat.eqb_neq in L. now apply L.
      + rewrite normal_ok in E by assumption. destruct i as [|x i]; [injection E as <- <-; now left|].
        replace (u ++ c :: x :: i) with ((u ++ [c]) ++ x :: i) in E by (rewrite <- app_assoc; reflexivity).
        apply IH in E. destruct E as [|(v & Ev & Hv & -> & N)]; [now left|]. right.
        exists (c :: v). cbn [app]. rewrite Ev. split; [reflexivity|]. split; [now apply body_char|].
        split; [now rewrite <- app_assoc|assumption].
  Qed.

  Definition quoted : parser str :=
    delimited (tag [q]) (escaped normal 92 (one_of esc_chars)) (tag [q]).
  Lemma quoted_iff i r s : quoted i = Ok r s <-> i = q :: s ++ q :: r /\ body q s /\ s <> [].
  Proof.
    split.
    - unfold quoted, delimited, preceded, terminated, map, pair, tag. intros E.
      destruct (strip_prefix [q] i) as [i1|] eqn:E1; [|discriminate]. apply strip_prefix_some in E1. subst i.
      destruct (escaped normal 92 (one_of esc_chars) i1) as [i2 s'|] eqn:E2; [|discriminate].
      destruct (strip_prefix [q] i2) as [i3|] eqn:E3; [|discriminate]. apply strip_prefix_some in E3. subst i2.
      cbn [fst snd] in E. injection E as -> ->. apply (loop_sound _ []) in E2.
      destruct E2 as [E2|(v & -> & Hv & -> & N)]; [discriminate|]. auto.
    - intros (-> & Hb & N). unfold quoted, delimited, preceded, terminated, map, pair, tag.
      cbn [strip_prefix]. rewrite N.eqb_refl. unfold escaped.
      pose proof (loop_complete s Hb (S (length (s ++ q :: r))) [] r ltac:(lia) N) as L. cbn [app] in L. rewrite L.
      cbn [strip_prefix]. now rewrite N.eqb_refl.
  Qed.
End StringLiteral.

Lemma string_literal_eq : string_literal = alt [quoted 39; quoted 34].
Proof. reflexivity. Qed.
Lemma sd_string_literal : sound string_literal R_string.
Proof.
  rewrite string_literal_eq. alts.
  - intros i r s E. apply quoted_iff in E; [|now left]. destruct E as (-> & Hb & N).
    exists (39 :: s ++ [39]). split; [cbn [app]; now rewrite <- app_assoc|]. exists 39. auto.
  - intros i r s E. apply quoted_iff in E; [|now right]. destruct E as (-> & Hb & N).
    exists (34 :: s ++ [34]). split; [cbn [app]; now rewrite <- app_assoc|]. exists 34. auto.
Qed.
#[export] Hint Resolve sd_string_literal : sound.

Lemma text_and (P : str -> Prop) s t : text P s t -> t = s /\ P s. Proof. exact (fun H => H). Qed.

Lemma star_subtags l t : star (fun (_ : str * str) => (fun u => u = [45]) ;; (fun u => u <> [] /\ all (in_ranges alnum) u)) l t ->
  lang_subtags t.
Proof.
  revert t; induction l as [|a l IH]; intros t H; [hnf in H; subst; constructor|].
  destruct H as (u & v & -> & (x & y & -> & -> & N & Hy) & Hv). rewrite <- app_assoc.
  apply (subtags_cons y v N Hy). exact (IH v Hv).
Qed.
Lemma sd_language_tag : sound language_tag R_lang.
Proof.
  unfold language_tag. eapply sound_weaken.
  - eapply sound_preceded; [apply eats_chr|]. apply sound_recognize. apply eats_pair.
    + eapply eats_of; [apply sound_take1|]. intros a t [-> H]. exact H.
    + eapply eats_of; [apply sound_many0, sound_pair; [apply eats_tag|]|].
      * eapply eats_of; [apply sound_take1|]. intros a t [-> H]. exact H.
      * intros l t H. apply (star_subtags l). revert H. apply star_mono. intros a u.
        apply seq_mono; [auto|]. intros x [N Hx]. split; [assumption|].
        revert Hx. apply all_ext. apply char_is_alphanum_eq.
  - intros s t (u & v & -> & -> & -> & x & y & -> & [N Hx] & Hy). split; [reflexivity|].
    exists x, y. repeat split; auto. revert Hx. apply all_ext. apply is_alphabetic_eq.
Qed.
#[export] Hint Resolve sd_language_tag : sound.

Lemma sd_iri_ref : sound iri_ref R_iri_ref.
Proof.
  unfold iri_ref. eapply sound_weaken; [sdv|]. 
  intros s t (u & v & -> & -> & x & y & -> & [-> H] & ->). split; [reflexivity|].
  revert H. apply all_ext. apply is_iri_char_eq.
Qed.
#[export] Hint Resolve sd_iri_ref : sound.

(** ** Names *)
Lemma all_app f u v : all f u -> all f v -> all f (u ++ v).
Proof. intros. now apply Forall_app. Qed.
Lemma sd_dots : eats (take_while1 is_dot) (fun t => t <> [] /\ all (N.eqb 46) t).
Proof.
  eapply eats_of; [apply sound_take1|]. intros a t [-> [N H]]. split; [assumption|].
  revert H. apply all_ext. intros c. apply N.eqb_sym.
Qed.
Lemma last_app_ne {A} (u v : list A) d : v <> [] -> last (u ++ v) d = last v d.
Proof.
  intros N. induction u as [|a u IH]; [reflexivity|]. cbn [app last].
  destruct (u ++ v) eqn:E; [apply app_eq_nil in E; tauto|]. assumption.
Qed.
Lemma last_In {A} (v : list A) d : v <> [] -> In (last v d) v.
Proof.
  induction v as [|a v IH]; [congruence|]. intros _. destruct v as [|b v]; [now left|].
  right. apply IH. discriminate.
Qed.
Lemma name_char_46 : name_char 46 = false. Proof. reflexivity. Qed.
Lemma sepby_inner l t : sepby (fun (_ : str) u => u <> [] /\ all is_pn_char u) (fun u => u <> [] /\ all (N.eqb 46) u) l t ->
  inner_ok t /\ (l <> [] -> t <> []).
Proof.
  assert (W : forall u, all is_pn_char u -> all (fun c => name_char c || (c =? 46)) u).
  { intros u. apply Forall_impl. intros c Hc. rewrite <- is_pn_char_eq, Hc. reflexivity. }
  assert (D : forall u, all (N.eqb 46) u -> all (fun c => name_char c || (c =? 46)) u).
  { intros u. apply Forall_impl. intros c Hc. rewrite N.eqb_sym, Hc. apply orb_true_r. }
  assert (I : forall u, u <> [] -> all is_pn_char u ->
     exists a m, u = a :: m /\ name_char a = true /\ all (fun c => name_char c || (c =? 46)) m /\ last u 0 <> 46).
  { intros [|a u] N H; [congruence|]. exists a, u. split; [reflexivity|]. split.
    { rewrite <- is_pn_char_eq. now inversion H. }
    split; [apply W; now inversion H|]. intros E.
    assert (Hin : In (last (a :: u) 0) (a :: u)) by (apply last_In; discriminate).
    rewrite E in Hin. unfold all in H. rewrite Forall_forall in H. apply H in Hin.
    rewrite is_pn_char_eq in Hin. discriminate. }
  revert t. induction l as [|a [|b l] IH]; intros t H.
  - hnf in H. subst. split; [now left | congruence].
  - destruct H as [N H]. split; [right; now apply I | auto].
  - destruct H as (u & v & -> & [N Hu] & x & y & -> & [Nx Hx] & Hy). apply IH in Hy.
    destruct Hy as [Hy Ny]. specialize (Ny ltac:(discriminate)).
    split; [|intros _ E; apply app_eq_nil in E; tauto]. right.
    destruct (I u N Hu) as (c & m & -> & Hc & Hm & _).
    destruct Hy as [->|(d & m' & -> & Hd & Hm' & Hl)]; [congruence|].
    exists c, (m ++ x ++ d :: m'). split; [reflexivity|]. split; [assumption|]. split.
    + apply all_app; [assumption|]. apply all_app; [now apply D|]. constructor; [|assumption].
      now rewrite Hd.
    + rewrite (app_assoc _ x), last_app_ne by discriminate. assumption.
Qed.
Lemma sd_pn_chars_tail : eats pn_chars_tail name_tail.
Proof.
  unfold pn_chars_tail. apply eats_recognize. eapply eats_of.
  - eapply sound_pair; [apply sound_opt, sd_dots|].
    apply sound_separated_list; [apply sd_dots|].
    eapply eats_of; [apply sound_take1|]. intros a t [-> H]. exact H.
  - intros [o l] t (u & v & -> & Hu & Hv). cbn [fst snd] in *.
    exists u, v. split; [reflexivity|]. split.
    + destruct o; cbn in Hu; [apply Hu | hnf in Hu; subst; constructor].
    + apply (sepby_inner l). revert Hv. apply sepby_mono; [auto|]. now intros w [? _].
Qed.
Lemma sd_base_one : eats pn_chars_base_one (fun t => exists c, t = [c] /\ base_char c = true).
Proof.
  eapply eats_of; [apply sound_take_one|]. intros a t (_ & c & -> & H). exists c.
  now rewrite <- is_pn_chars_base_eq.
Qed.
Lemma sd_u_one : eats pn_chars_u_one (fun t => exists c, t = [c] /\ start_char c = true).
Proof.
  unfold pn_chars_u_one. alts.
  - eapply eats_of; [apply sd_base_one|]. intros _ t (c & -> & H). exists c. unfold start_char. now rewrite H.
  - eapply eats_of; [apply sound_tag|]. intros a t [_ ->]. now exists 95.
Qed.
Lemma sd_digit_one : eats (take_while_m_n 1 1 (fun c => is_digit (as_u8 c))) (fun t => exists c, t = [c] /\ low_digit c = true).
Proof.
  eapply eats_of; [apply sound_take_one|]. intros a t (_ & c & -> & H). exists c. now rewrite <- low_digit_eq.
Qed.
Lemma sd_pn_prefix : sound pn_prefix (text prefix_name).
Proof.
  unfold pn_prefix. apply sound_recognize. eapply eats_of.
  - eapply eats_pair; [apply sd_base_one | apply sd_pn_chars_tail].
  - intros _ t (u & v & -> & (c & -> & H) & Hv). now exists c, v.
Qed.
#[export] Hint Resolve sd_pn_prefix : sound.
Lemma sd_hex : eats hex_primary (fun t => exists a b, t = [a; b] /\ hex_digit a = true /\ hex_digit b = true).
Proof.
  intros [|a i] r s E; [discriminate|]. unfold hex_primary, take_while_m_n in E. cbn [span_n] in E.
  destruct (char_is_hex a) eqn:Ha; [|discriminate]. destruct i as [|b i]; [discriminate|].
  cbn [span_n] in E. destruct (char_is_hex b) eqn:Hb; [|discriminate]. cbn in E. injection E as -> <-.
  rewrite char_is_hex_eq in Ha, Hb. exists [a; b]. split; [reflexivity|]. eauto.
Qed.
Lemma sd_plx : eats plx plx_text.
Proof.
  unfold plx. apply eats_recognize. alts.
  - eapply eats_of; [apply eats_pair; [apply eats_tag | apply sd_hex]|].
    intros _ t (u & v & -> & -> & a & b & -> & Ha & Hb). left. exists a, b. auto.
  - eapply eats_of; [apply eats_pair; [apply eats_tag | apply eats_recognize]|].
    + apply (eats_of _ _ (fun t => exists c, t = [c] /\ In c (s_ "_~.-!$&'()*+,;=/?#@%")) (sound_one_of _)). eauto.
    + intros _ t (u & v & -> & -> & c & -> & H). right. exists c. auto.
Qed.
Lemma units_app u v : local_units u -> local_units v -> local_units (u ++ v).
Proof.
  induction 1; intros; cbn [app]; [assumption | constructor; auto |].
  rewrite <- app_assoc. apply units_plx; auto.
Qed.
Lemma units_all f t : (forall c, f c = true -> (name_char c || (c =? 58) || (c =? 46)) = true) -> all f t -> local_units t.
Proof. intros H. induction 1; [constructor|]. apply units_char; auto. Qed.
(** a run of units with at least one that is not a dot *)
Definition some_units (t : str) : Prop := t <> [] -> local_units t /\ ~ all (N.eqb 46) t.
Notation unit_run := (alt [take_while1 (fun c => is_pn_char c || (c =? c_ ":")); plx]).
Lemma sd_unit_run : eats unit_run (fun t => t <> [] /\ some_units t).
Proof.
  alts.
  - eapply eats_of; [apply sound_take1|]. intros a t [-> [N H]]. split; [assumption|]. split.
    + eapply units_all; [|exact H]. intros c. cbv beta. rewrite is_pn_char_eq. intros E. apply orb_true_iff in E.
      change (c =? c_ ":") with (c =? 58) in E. destruct E as [-> | ->]; [reflexivity|]. now rewrite orb_true_r.
    + intros D. destruct a as [|c a']; [congruence|]. inversion H; inversion D; subst.
      match goal with X : (46 =? c) = true |- _ => apply N.eqb_eq in X; subst c end. discriminate.
  - eapply eats_of; [apply sd_plx|]. intros a0 t H. split.
    { destruct H as [(a & b & -> & _) | (c & -> & _)]; discriminate. }
    split.
    + rewrite <- (app_nil_r t). apply units_plx; [assumption|constructor].
    + intros D. destruct H as [(a & b & -> & _) | (c & -> & _)]; inversion D; discriminate.
Qed.
Lemma star_units {A} (l : list A) t : star (fun _ t => t <> [] /\ some_units t) l t -> some_units t.
Proof.
  revert t. induction l as [|a l IH]; intros t H; [hnf in H; subst; intros N; congruence|].
  destruct H as (u & v & -> & [Nu Hu] & Hv). apply IH in Hv. destruct (Hu Nu) as [U1 U2].
  intros _. split.
  - apply units_app; [assumption|]. destruct v; [constructor|]. apply Hv. discriminate.
  - intros D. apply Forall_app in D. now apply U2.
Qed.
Lemma many0_no_error {A} (p : parser A) P : eats p P -> (forall t, P t -> t <> []) ->
  forall i pos k, many0 p i <> Err (Error pos k).
Proof.
  intros HP N i. unfold many0. generalize (S (length i)) as n. intros n. revert i.
  induction n as [|n IH]; intros i pos k; [discriminate|]. cbn [many0_loop].
  destruct (p i) as [i1 a|[]] eqn:E; try discriminate.
  destruct (HP _ _ _ E) as (t & -> & Ht). apply N in Ht.
  destruct (str_eqb i1 (t ++ i1)) eqn:Q.
  { apply str_eqb_eq in Q. apply (f_equal (@length char)) in Q. rewrite app_length in Q.
    destruct t; [congruence|simpl in Q; lia]. }
  specialize (IH i1 pos k). destruct (many0_loop n p i1); [discriminate|]. congruence.
Qed.
Lemma sound_separated_list_first {A B} (s : parser B) (p : parser A) S R : eats s S -> sound p R ->
  (forall i pos k, p i <> Err (Error pos k)) ->
  sound (separated_list s p) (fun l t => exists a l' u v, l = a :: l' /\ t = u ++ v /\ R a u /\ u <> [] /\
    star (fun a => nonempty S ;; R a) l' v).
Proof.
  intros HS H NE i r l E. unfold separated_list in E.
  destruct (p i) as [i1 a|[]] eqn:Ep; try discriminate; [|exfalso; exact (NE _ _ _ Ep)].
  destruct (str_eqb i1 i) eqn:Q; [discriminate|].
  destruct (sep_loop _ s p i1) as [i2 l'|] eqn:El; [|discriminate]. injection E as -> <-.
  destruct (H _ _ _ Ep) as (u & -> & Hu). destruct (sep_loop_sound _ _ _ _ HS H _ _ _ _ El) as (v & -> & Hv).
  exists (u ++ v). split; [now rewrite app_assoc|]. exists a, l', u, v. repeat split; auto.
  intros ->. apply str_eqb_neq in Q. now apply Q.
Qed.
Lemma dots_units t : all (N.eqb 46) t -> local_units t.
Proof.
  apply units_all. intros c E. apply N.eqb_eq in E. now subst.
Qed.
Definition local_tail (t : str) : Prop := local_units t /\ ~ all (N.eqb 46) t.
Lemma sd_local_tail : eats (pair (opt (take_while1 is_dot)) (separated_list (take_while1 is_dot) (many0 unit_run))) local_tail.
Proof.
  eapply eats_of.
  - eapply sound_pair; [apply sound_opt, sd_dots|]. apply sound_separated_list_first; [apply sd_dots| |].
    + apply sound_many0, sd_unit_run.
    + apply (many0_no_error _ _ sd_unit_run). tauto.
  - intros [o l] t (d & w & -> & Hd & a & l' & u & v & _ & -> & Hu & Nu & Hv). cbn [fst snd] in *.
    apply star_units in Hu. destruct (Hu Nu) as [U1 U2].
    assert (D : local_units d).
    { destruct o; cbn [opt_] in Hd; [apply dots_units, Hd | hnf in Hd; subst; constructor]. }
    split.
    + apply units_app; [assumption|]. apply units_app; [assumption|]. clear -Hv. revert v Hv.
      induction l' as [|b l' IH]; intros v Hv; [hnf in Hv; subst; constructor|].
      destruct Hv as (x & y & -> & (x1 & x2 & -> & [[_ X1] _] & X2) & Hy).
      apply units_app; [apply units_app|].
      * now apply dots_units.
      * apply star_units in X2. destruct x2; [constructor|]. apply X2. discriminate.
      * now apply IH.
    + intros A. apply Forall_app in A. destruct A as [_ A]. apply Forall_app in A. now apply U2.
Qed.
Lemma sd_local_start :
  eats (alt [ pn_chars_u_one; tag (s_ ":"); take_while_m_n 1 1 (fun c => is_digit (as_u8 c)); plx ]) local_start.
Proof.
  alts.
  - eapply eats_of; [apply sd_u_one|]. intros _ t (c & -> & H). right. exists c. now rewrite H.
  - eapply eats_of; [apply eats_tag|]. intros _ t ->. right. now exists 58.
  - eapply eats_of; [apply sd_digit_one|]. intros _ t (c & -> & H). right. exists c. now rewrite H, orb_true_r.
  - eapply eats_of; [apply sd_plx|]. intros a0 t H. now left.
Qed.
Lemma sd_pn_local : sound pn_local (text local_name).
Proof.
  unfold pn_local. apply sound_recognize. eapply eats_of.
  - eapply eats_pair; [apply sd_local_start|apply eats_recognize, sd_local_tail].
  - intros _ t (u & v & -> & Hu & H1 & H2). exists u, v. auto.
Qed.
#[export] Hint Resolve sd_pn_local : sound.

Lemma sd_pname_ns : sound pname_ns R_pname_ns.
Proof. unfold pname_ns. eapply sound_weaken; [sdv|]. write. Qed.
#[export] Hint Resolve sd_pname_ns : sound.
Lemma sd_prefixed_name : sound prefixed_name R_prefixed_name.
Proof.
  unfold prefixed_name, pname_ln. alts; (eapply sound_map; [sdv|]); write.
Qed.
#[export] Hint Resolve sd_prefixed_name : sound.
Ltac sda p := unfold p; alts; (eapply sound_map; [sdv|]); write.
Lemma sd_iri : sound iri R_iri.
Proof. sda iri. Qed.
#[export] Hint Resolve sd_iri : sound.
Lemma sd_iri_or_prefixed : sound (alt [map iri_ref IriIri; map prefixed_name IriPrefixedName]) R_iri.
Proof. exact sd_iri. Qed.
#[export] Hint Resolve sd_iri_or_prefixed : sound.
Lemma sd_named_iri : sound named_iri (fun i => kw "named" ;; blank1 ;; R_iri i).
Proof. unfold named_iri. eapply sound_weaken; [sdv|]. write. Qed.
#[export] Hint Resolve sd_named_iri : sound.
Lemma sd_default_or_named_iri : sound default_or_named_iri R_default_or_named.
Proof. sda default_or_named_iri. Qed.
#[export] Hint Resolve sd_default_or_named_iri : sound.
Lemma sd_base_decl : sound base_decl (fun s => R_decl (DeclBase s)).
Proof. unfold base_decl. eapply sound_weaken; [sdv|]. write. Qed.
Lemma sd_prefix_decl : sound prefix_decl (fun s => R_decl (DeclPrefix s)).
Proof. unfold prefix_decl. eapply sound_map; [sdv|]. write. Qed.
#[export] Hint Resolve sd_base_decl sd_prefix_decl : sound.
Lemma sd_decl : sound (alt [ map base_decl DeclBase; map prefix_decl DeclPrefix ]) R_decl.
Proof. alts; (eapply sound_map; [sdv|]); auto. Qed.
#[export] Hint Resolve sd_decl : sound.
Lemma sd_prologue : sound prologue R_prologue.
Proof. unfold prologue. eapply sound_map; [sdv|]. write. Qed.
#[export] Hint Resolve sd_prologue : sound.

Lemma sd_descriptor : sound (alt [ map language_tag LangTag; map (preceded (tag (s_ "^^")) iri) DescIri ]) R_descriptor.
Proof. alts; (eapply sound_map; [sdv|]); write. Qed.
#[export] Hint Resolve sd_descriptor : sound.
Lemma sd_rdf_literal : sound rdf_literal R_rdf_literal.
Proof. unfold rdf_literal. eapply sound_map; [sdv|]. write. Qed.
#[export] Hint Resolve sd_rdf_literal : sound.
Lemma eats_chr_v c : sound (chr c) (fun a t => a = c /\ t = [c]).
Proof.
  intros [|x i] r a E; [discriminate|]. unfold chr in E. destruct (x =? c) eqn:Ec; [|discriminate].
  apply N.eqb_eq in Ec. subst. injection E as <- <-. now exists [c].
Qed.
Lemma sd_nil : eats nil_ R_nil.
Proof. unfold nil_. eapply eats_of; [sdv|]. write. Qed.
Lemma sd_anon : eats anon (R_blank_node Anon).
Proof. unfold anon. eapply eats_of; [sdv|]. write. Qed.
#[export] Hint Resolve sd_nil sd_anon : sound.
Lemma sd_boolean : sound boolean R_boolean.
Proof. sda boolean. Qed.
#[export] Hint Resolve sd_boolean : sound.

(** ** Numbers *)
Notation isd := (in_ranges digits).
Lemma isd_range c : isd c = true -> 48 <= c <= 57.
Proof.
  unfold in_ranges, digits, existsb. rewrite orb_false_r. intros H. apply andb_true_iff in H.
  destruct H as [A B]. apply N.leb_le in A, B. lia.
Qed.
Lemma fold_value ds : all isd ds -> forall acc,
  fold_left (fun acc c => (acc * 10 + (Z.of_N c - 48))%Z) ds acc = (acc * 10 ^ Z.of_nat (length ds) + value ds)%Z.
Proof.
  induction 1 as [|c ds Hc H IH]; intros acc; [cbn; lia|].
  cbn [fold_left]. rewrite IH. apply isd_range in Hc. cbn [value length]. rewrite Nat2Z.inj_succ, Z.pow_succ_r by lia.
  rewrite N2Z.inj_sub by lia. ring.
Qed.
Lemma dval_value ds : all isd ds -> dval ds = value ds.
Proof. intros H. unfold dval. rewrite (fold_value ds H). lia. Qed.
Lemma all_digits_iff ds : all_digits ds = true <-> digits1 ds.
Proof.
  unfold all_digits, digits1, all. rewrite Forall_forall. destruct ds as [|d ds]; [now split; [|intros []]|].
  split.
  - intros H. split; [discriminate|]. intros c Hc. rewrite <- is_digit_eq. rewrite forallb_forall in H. auto.
  - intros [_ H]. apply forallb_forall. intros c Hc. rewrite is_digit_eq. auto.
Qed.
Lemma digit_not_sign c ds : digits1 (c :: ds) -> (c =? 43) = false /\ (c =? 45) = false.
Proof.
  intros [_ H]. inversion H. match goal with X : isd c = true |- _ => apply isd_range in X end.
  split; apply N.eqb_neq; lia.
Qed.
Lemma parse_signed_iff x z : parse_signed x = Some z <->
  exists sg k ds, signed sg k ds /\ x = sg ++ ds /\ digits1 ds /\ z = (k * value ds)%Z.
Proof.
  assert (V : forall ds, digits1 ds -> dval ds = value ds) by (intros ds [_ H]; now apply dval_value).
  split.
  - destruct x as [|c ds]; [discriminate|]. unfold parse_signed.
    change (c_ "+") with (43 : char). change (c_ "-") with (45 : char).
    destruct (c =? 43) eqn:E1; [apply N.eqb_eq in E1; subst c|destruct (c =? 45) eqn:E2; [apply N.eqb_eq in E2; subst c|]].
    + destruct (all_digits ds) eqn:A; [|discriminate]. intros H. injection H as <-. apply all_digits_iff in A.
      exists [43], 1%Z, ds. repeat split; [constructor|apply A..|]. rewrite V by assumption. lia.
    + destruct (all_digits ds) eqn:A; [|discriminate]. intros H. injection H as <-. apply all_digits_iff in A.
      exists [45], (-1)%Z, ds. repeat split; [constructor|apply A..|]. rewrite V by assumption. lia.
    + destruct (all_digits (c :: ds)) eqn:A; [|discriminate]. intros H. injection H as <-. apply all_digits_iff in A.
      exists [], 1%Z, (c :: ds). repeat split; [constructor|apply A..|]. rewrite V by assumption. lia.
  - intros (sg & k & ds & Hs & -> & D & ->). pose proof D as D'. apply all_digits_iff in D'. rewrite <- V by assumption.
    inversion Hs; subst; cbn [app].
    + destruct ds as [|c ds]; [destruct D; congruence|]. destruct (digit_not_sign c ds D) as [E1 E2].
      unfold parse_signed. change (c_ "+") with (43 : char). change (c_ "-") with (45 : char).
      rewrite E1, E2, D'. f_equal. lia.
    + unfold parse_signed. change (43 =? c_ "+") with true. cbv iota. rewrite D'. f_equal; lia.
    + unfold parse_signed. change (45 =? c_ "+") with false. change (45 =? c_ "-") with true. cbv iota.
      rewrite D'. f_equal; lia.
Qed.
Lemma parse_i64_iff x z : parse_i64 x = Some z <-> R_i64 z x.
Proof.
  unfold parse_i64, R_i64, i64, i64_min, i64_max. split.
  - destruct (parse_signed x) as [z'|] eqn:E; [|discriminate]. apply parse_signed_iff in E.
    destruct ((- 2 ^ 63 <=? z') && (z' <=? 2 ^ 63 - 1))%Z eqn:B; [|discriminate]. intros H; injection H as <-.
    apply andb_true_iff in B. destruct B as [B1 B2]. apply Z.leb_le in B1, B2.
    destruct E as (sg & k & ds & Hs & -> & D & ->). exists sg, k, ds. repeat split; auto; try apply D; lia.
  - intros (sg & k & ds & Hs & -> & D & -> & B).
    assert (P : parse_signed (sg ++ ds) = Some (k * value ds)%Z) by (apply parse_signed_iff; exists sg, k, ds; auto).
    rewrite P. replace ((- 2 ^ 63 <=? k * value ds) && (k * value ds <=? 2 ^ 63 - 1))%Z with true; [reflexivity|].
    symmetry. apply andb_true_iff. split; apply Z.leb_le; lia.
Qed.
Lemma value_nonneg ds : (0 <= value ds)%Z.
Proof. induction ds as [|d ds IH]; cbn [value]; [lia|]. assert (0 <= 10 ^ Z.of_nat (length ds))%Z by (apply Z.pow_nonneg; lia). nia. Qed.
Lemma parse_u64_digits x z : (forall c, In c x -> c <> 43) -> parse_u64 x = Some z <-> R_u64 z x.
Proof.
  intros NP. unfold parse_u64, R_u64, u64, u64_max. destruct x as [|c ds]; [split; [discriminate|intros [[H _] _]; now contradiction H]|].
  assert (E : (c =? c_ "+") = false) by (apply N.eqb_neq, NP; now left). rewrite E.
  cbv zeta. split.
  - destruct (all_digits (c :: ds)) eqn:A; [|discriminate]. apply all_digits_iff in A.
    rewrite dval_value by apply A. destruct (value (c :: ds) <=? 2 ^ 64 - 1)%Z eqn:B; [|discriminate].
    intros H; injection H as <-. apply Z.leb_le in B. pose proof (value_nonneg (c :: ds)).
    split; [assumption|]. split; [reflexivity|]. change (0 <= value (c :: ds) < 2 ^ 64)%Z. lia.
  - intros (D & -> & B). pose proof D as D'. apply all_digits_iff in D'. rewrite D'.
    rewrite dval_value by apply D. replace (value (c :: ds) <=? 2 ^ 64 - 1)%Z with true; [reflexivity|].
    symmetry. apply Z.leb_le. lia.
Qed.

Lemma sd_opt_sign : eats opt_sign (fun t => t = [] \/ t = [43] \/ t = [45]).
Proof.
  unfold opt_sign. eapply eats_of; [apply sound_opt|].
  - apply (sound_alt_cons _ _ (fun _ t => t = [43] \/ t = [45])).
    + eapply eats_of; [apply eats_chr|]. intros _ t ->. now left.
    + alts. eapply eats_of; [apply eats_chr|]. intros _ t ->. now right.
  - intros [a|] t H; cbn in H; auto.
Qed.
Lemma sd_digit1 : eats digit1 digits1.
Proof.
  eapply eats_of; [apply sound_take1|]. intros a t [-> [N H]]. split; [assumption|].
  revert H. apply all_ext. apply is_digit_eq.
Qed.
#[export] Hint Resolve sd_opt_sign sd_digit1 : sound.
Lemma sd_exponent : sound exponent R_exponent.
Proof.
  unfold exponent. eapply sound_weaken.
  - eapply sound_preceded with (P := (lit "e" || lit "E")%lang).
    + apply sound_alt_cons; [|alts]; (eapply eats_of; [apply eats_chr|]); intros _ t ->; [now left | now right].
    + apply sound_map_res, sound_recognize. eapply eats_pair; [apply sd_opt_sign|]. apply eats_cut, sd_digit1.
  - cbv beta. intros z t (u & v & -> & Hu & x & Hx & -> & _). apply parse_i64_iff in Hx. now apply seq_intro.
Qed.
Lemma sd_sparql_int : sound sparql_int R_i64.
Proof.
  intros i r z E. unfold sparql_int in E.
  destruct (recognize (pair opt_sign digit1) i) as [i1 o|] eqn:Er; [|discriminate].
  apply (sound_recognize _ _ (eats_pair _ _ _ _ sd_opt_sign sd_digit1)) in Er.
  destruct Er as (t & -> & -> & _).
  destruct (match i1 with c :: _ => contains (s_ ".eE") c | [] => false end); [discriminate|].
  destruct (parse_i64 o) as [v|] eqn:P; [|discriminate]. injection E as -> ->.
  exists o. split; [reflexivity|]. now apply parse_i64_iff.
Qed.

(** [f] does not continue into [r] *)
Lemma span_stops f u r : all f u -> stops f r -> span f (u ++ r) = (u, r).
Proof.
  intros H S. induction H as [|c u Hc H IH]; cbn [app span].
  - destruct r as [|c r]; [reflexivity|]. simpl in *. now rewrite S.
  - now rewrite Hc, IH.
Qed.
Lemma span_fst f i : all f (fst (span f i)) /\ stops f (snd (span f i)).
Proof.
  induction i as [|c i IH]; cbn [span]; [now split; [constructor|]|].
  destruct (f c) eqn:E; [|now split; [constructor|]].
  destruct (span f i) as [a b]; cbn [fst snd] in *. split; [constructor|]; tauto.
Qed.
Lemma all_isd u : all isd u <-> forallb is_digit u = true.
Proof.
  unfold all. rewrite Forall_forall, forallb_forall. split; intros H c Hc; [rewrite is_digit_eq|rewrite <- is_digit_eq]; auto.
Qed.
Lemma all_is_digit u : all is_digit u <-> all isd u.
Proof. split; apply all_ext; intros c; [|symmetry]; apply is_digit_eq. Qed.
Lemma pow10_pos n : (0 < 10 ^ Z.of_nat n)%Z.
Proof. apply Z.pow_pos_nonneg; lia. Qed.
Definition unsigned (neg : bool) (u : str) : option f64 :=
  let (ip, rest) := span is_digit u in
  let '(fp, ok) := match rest with
                   | [] => ([], true)
                   | c :: f => (f, (c =? c_ ".") && forallb is_digit f)
                   end in
  if ok && negb (Nat.eqb (List.length ip + List.length fp) 0) then
    Some (round_f64 neg (dval (ip ++ fp)) (10 ^ Z.of_nat (List.length fp)))
  else None.
Lemma parse_decimal_eq x : parse_decimal x =
  match x with
  | c :: u => if c =? 43 then unsigned false u else if c =? 45 then unsigned true u else unsigned false x
  | [] => unsigned false x
  end.
Proof.
  unfold parse_decimal, unsigned. destruct x as [|c u]; [reflexivity|].
  change (c_ "+") with (43 : char). change (c_ "-") with (45 : char).
  destruct (c =? 43); [reflexivity|]. destruct (c =? 45); reflexivity.
Qed.
Definition R_unsigned (k : Z) (v : f64) (t : str) : Prop :=
  exists ip fp pt, t = ip ++ pt ++ fp /\ digits0 ip /\ digits0 fp /\
    (pt = [46] \/ (pt = [] /\ fp = [])) /\ ip ++ fp <> [] /\ (negative v = true <-> k = (-1)%Z) /\
    rounds (inject_Z (value (ip ++ fp)) / inject_Z (10 ^ Z.of_nat (List.length fp))) v.
Lemma R_unsigned_intro neg ip fp pt : digits0 ip -> digits0 fp -> (pt = [46] \/ (pt = [] /\ fp = [])) -> ip ++ fp <> [] ->
  R_unsigned (if neg : bool then -1 else 1) (round_f64 neg (value (ip ++ fp)) (10 ^ Z.of_nat (length fp))) (ip ++ pt ++ fp).
Proof.
  intros H1 H2 H3 H4. exists ip, fp, pt. refine (conj eq_refl (conj H1 (conj H2 (conj H3 (conj H4 (conj _ _)))))).
  - rewrite round_negative. destruct neg; split; congruence.
  - apply round_ok; [apply value_nonneg|apply pow10_pos].
Qed.
Lemma length_zero {A} (u v : list A) : Nat.eqb (length u + length v) 0 = false <-> u ++ v <> [].
Proof.
  rewrite Nat.eqb_neq, <- app_length. destruct (u ++ v); simpl; split; intros; try congruence; lia.
Qed.
Lemma unsigned_iff neg u q : unsigned neg u = Some q <-> R_unsigned (if neg then -1 else 1) q u.
Proof.
  assert (V : forall ip fp, all isd ip -> all isd fp -> dval (ip ++ fp) = value (ip ++ fp)).
  { intros ip fp H1 H2. rewrite dval_value by now apply all_app. reflexivity. }
  unfold unsigned. split.
  - pose proof (span_app is_digit u) as A. pose proof (span_fst is_digit u) as [H1 H2].
    destruct (span is_digit u) as [ip rest]. cbn [fst snd] in *. apply all_is_digit in H1.
    destruct rest as [|c f].
    + cbn [andb]. destruct (Nat.eqb (length ip + length []) 0) eqn:L; [discriminate|]. apply length_zero in L.
      cbn [negb]. intros E; injection E as <-. rewrite (V ip []) by (auto; constructor). rewrite A.
      apply (R_unsigned_intro _ ip [] []); auto. constructor.
    + destruct (c =? c_ ".") eqn:Ec; [|discriminate]. apply N.eqb_eq in Ec. subst c.
      destruct (forallb is_digit f) eqn:F; [|discriminate]. apply all_isd in F. cbn [andb].
      destruct (Nat.eqb (length ip + length f) 0) eqn:L; [discriminate|]. apply length_zero in L.
      cbn [negb]. intros E; injection E as <-. rewrite (V ip f) by auto. rewrite A.
      apply (R_unsigned_intro _ ip f [46]); auto.
  - intros (ip & fp & pt & -> & H1 & H2 & Hp & Ne & Hr & Hq).
    assert (S : stops is_digit (pt ++ fp)) by (destruct Hp as [->|[-> ->]]; exact eq_refl || exact I).
    rewrite (span_stops is_digit ip (pt ++ fp)) by (auto; now apply all_is_digit).
    apply length_zero in Ne. unfold digits0 in *.
    assert (Q : round_f64 neg (dval (ip ++ fp)) (10 ^ Z.of_nat (List.length fp)) = q).
    { rewrite V by assumption. apply rounds_iff; [apply value_nonneg|apply pow10_pos|]. split; [|exact Hq].
      destruct neg; [now apply Hr|]. destruct (negative q) eqn:Eq; [|reflexivity]. discriminate (proj1 Hr eq_refl). }
    destruct Hp as [->|[-> ->]].
    + cbn [app]. change (46 =? c_ ".") with true. apply all_isd in H2. rewrite H2, Ne. cbn [andb negb].
      now f_equal.
    + cbn [app]. rewrite Ne. cbn [andb negb]. now f_equal.
Qed.
Lemma parse_decimal_iff x q : parse_decimal x = Some q <-> R_decimal q x.
Proof.
  rewrite parse_decimal_eq. split.
  - assert (W : forall sg k u, signed sg k u -> R_unsigned k q u -> R_decimal q (sg ++ u)).
    { intros sg k u Hs (ip & fp & pt & -> & H). exists sg, k, ip, fp, pt. split; [|split; [reflexivity|exact H]].
      inversion Hs; constructor. }
    destruct x as [|c u]; [intros H; apply unsigned_iff in H; apply (W [] 1%Z); [constructor|exact H]|].
    destruct (c =? 43) eqn:E1; [|destruct (c =? 45) eqn:E2].
    + apply N.eqb_eq in E1. subst. intros H. apply unsigned_iff in H. apply (W [43] 1%Z u); [constructor|exact H].
    + apply N.eqb_eq in E2. subst. intros H. apply unsigned_iff in H. apply (W [45] (-1)%Z u); [constructor|exact H].
    + intros H. apply unsigned_iff in H. apply (W [] 1%Z); [constructor|exact H].
  - intros (sg & k & ip & fp & pt & Hs & -> & H).
    assert (U : R_unsigned k q (ip ++ pt ++ fp)) by (exists ip, fp, pt; split; [reflexivity|exact H]).
    inversion Hs; subst; cbn [app].
    + destruct H as (H1 & H2 & Hp & Ne & _).
      assert (F : forall c u, ip ++ pt ++ fp = c :: u -> (c =? 43) = false /\ (c =? 45) = false).
      { intros c u E. destruct ip as [|d ip].
        - destruct Hp as [->|[-> ->]]; [injection E as <- _; now split | now contradiction Ne].
        - injection E as <- _. inversion H1. apply (digit_not_sign d []). split; [discriminate|]. now repeat constructor. }
      destruct (ip ++ pt ++ fp) as [|c u] eqn:E; [now apply unsigned_iff|].
      destruct (F c u eq_refl) as [-> ->]. now apply unsigned_iff.
    + now apply unsigned_iff.
    + now apply unsigned_iff.
Qed.
Lemma sd_sparql_decimal : sound sparql_decimal R_decimal.
Proof.
  intros i r q E. unfold sparql_decimal in E.
  destruct (recognize_sparql_float i) as [i1 s|] eqn:Er; [|discriminate].
  destruct (parse_decimal s) as [n|] eqn:P; [|discriminate]. injection E as -> ->.
  apply parse_decimal_iff in P. unfold recognize_sparql_float in Er.
  eapply (sound_recognize _ (_ ;; fun _ => True)) in Er.
  - destruct Er as (t & -> & -> & _). eauto.
  - eapply eats_pair; [apply sd_opt_sign|].
    alts; (eapply eats_of; [eapply eats_map; sde | auto]).
Qed.
#[export] Hint Resolve sd_exponent sd_sparql_decimal sd_sparql_int : sound.
Lemma sd_numeric_literal : sound numeric_literal R_numeric.
Proof. unfold numeric_literal, sparql_double. alts; (eapply sound_map; [sdv|]); write. Qed.
#[export] Hint Resolve sd_numeric_literal : sound.

(** ** Variables, terms *)
Lemma sd_var_name : sound var_name (text var_name_ok).
Proof.
  unfold var_name. apply sound_recognize. eapply eats_of.
  - eapply sound_pair; [apply sound_take_one | apply sound_take_while].
  - cbv beta. intros [a b] t (u & v & -> & (_ & c & -> & Hc) & -> & Hv). split; [discriminate|].
    constructor; [now rewrite <- is_var_char_eq|]. revert Hv. apply all_ext. apply is_var_char_eq.
Qed.
#[export] Hint Resolve sd_var_name : sound.
Lemma sd_var : sound var R_var.
Proof. sda var. Qed.
#[export] Hint Resolve sd_var : sound.
Lemma sd_var_or_iri : sound var_or_iri R_var_or_iri.
Proof. sda var_or_iri. Qed.
#[export] Hint Resolve sd_var_or_iri : sound.
Lemma sd_verb : sound verb R_verb.
Proof. sda verb. Qed.
#[export] Hint Resolve sd_verb : sound.
Lemma sd_var_or_iris_or_all : sound var_or_iris_or_all R_var_or_iris_or_all.
Proof. sda var_or_iris_or_all. Qed.
#[export] Hint Resolve sd_var_or_iris_or_all : sound.
Lemma sd_label : sound (recognize (pair (alt [pn_chars_u_one; take_while_m_n 1 1 (fun c => is_digit (as_u8 c))]) pn_chars_tail))
  (text label_name).
Proof.
  apply sound_recognize. eapply eats_of; [eapply eats_pair; [|apply sd_pn_chars_tail]|].
  - apply (sound_alt_cons _ _ (fun _ t => exists c, t = [c] /\ (start_char c = true \/ low_digit c = true))).
    + eapply eats_of; [apply sd_u_one|]. intros _ t (c & -> & H). eauto.
    + alts. eapply eats_of; [apply sd_digit_one|]. intros _ t (c & -> & H). eauto.
  - intros _ t (u & v & -> & (c & -> & H) & Hv). now exists c, v.
Qed.
Lemma sd_blank_node : sound blank_node R_blank_node.
Proof.
  unfold blank_node. alts; (eapply sound_map).
  - unfold sp_sep. eapply sound_separated_pair; [apply eats_tag | apply sd_sp | apply sd_label].
  - write.
  - apply sd_anon.
  - auto.
Qed.
#[export] Hint Resolve sd_blank_node : sound.
Lemma sd_graph_term : sound graph_term R_graph_term.
Proof. sda graph_term. Qed.
#[export] Hint Resolve sd_graph_term : sound.
Lemma sd_var_or_term : sound var_or_term R_var_or_term.
Proof. sda var_or_term. Qed.
#[export] Hint Resolve sd_var_or_term : sound.
Lemma sd_iri_or_a : sound iri_or_a R_iri_or_a.
Proof. sda iri_or_a. Qed.
#[export] Hint Resolve sd_iri_or_a : sound.
Lemma sd_iri_or_a_or_caret : sound iri_or_a_or_caret R_iri_or_a_or_caret.
Proof. sda iri_or_a_or_caret. Qed.
#[export] Hint Resolve sd_iri_or_a_or_caret : sound.

(** ** Graph references, data blocks, LIMIT and OFFSET *)
Lemma sd_graph_ref : sound graph_ref R_graph_ref.
Proof. unfold graph_ref. eapply sound_map; [sdv|]. write. Qed.
#[export] Hint Resolve sd_graph_ref : sound.
Lemma sd_flag k : kw_ok k = true -> sound (map (tag_no_case k) (fun _ => true)) (fun b t => b = true /\ kwd k t).
Proof. intros K. eapply sound_map; [apply (eats_tag_no_case k K)|]. auto. Qed.
Lemma sd_opt_silent : sound opt_silent R_silent.
Proof.
  unfold opt_silent, silent. eapply sound_map; [eapply sound_opt, sound_terminated; [now apply sd_flag|sde]|].
  intros [b|] t H; cbn [opt_] in H; [|exact H]. destruct H as (u & v & -> & [-> Hu] & Hv). now apply seq_intro.
Qed.
Lemma sd_opt_distinct : sound opt_distinct R_distinct.
Proof.
  unfold opt_distinct, distinct. eapply sound_map; [eapply sound_opt, sound_terminated; [now apply sd_flag|sde]|].
  intros [b|] t H; cbn [opt_] in H; [|exact H]. destruct H as (u & v & -> & [-> Hu] & Hv). now apply seq_intro.
Qed.
#[export] Hint Resolve sd_opt_silent sd_opt_distinct : sound.
Lemma sd_graph_or_default : sound graph_or_default R_graph_or_default.
Proof.
  unfold graph_or_default. alts; eapply sound_map; [sdv | write | eapply (sound_pair _ _ (fun _ => _)); [sde|sdv] |].
  intros [a b] t (u & v & -> & Hu & Hv). now apply seq_intro.
Qed.
#[export] Hint Resolve sd_graph_or_default : sound.
Lemma sd_graph_ref_all : sound graph_ref_all R_graph_ref_all.
Proof. sda graph_ref_all. Qed.
#[export] Hint Resolve sd_graph_ref_all : sound.
Lemma sd_data_set_clause : sound data_set_clause R_dataset.
Proof. unfold data_set_clause, DataSetClause. eapply sound_weaken; [sdv|]. write. Qed.
Lemma sd_using_clause : sound using_clause R_using.
Proof. unfold using_clause. eapply sound_weaken; [sdv|]. write. Qed.
#[export] Hint Resolve sd_data_set_clause sd_using_clause : sound.
Lemma sd_datablock_value : sound datablock_value R_value.
Proof. sda datablock_value. Qed.
#[export] Hint Resolve sd_datablock_value : sound.
Lemma sd_inline_data_one_var : sound inline_data_one_var (fun d => R_datablock (DbOneVar d)).
Proof. unfold inline_data_one_var. eapply sound_map; [sdv|]. write. Qed.
Lemma sd_row : sound (bracketted (preceded sp (many0 (sp_enc datablock_value)))) R_row.
Proof. eapply sound_weaken; [sdv|]. write. Qed.
#[export] Hint Resolve sd_inline_data_one_var : sound.
Lemma sd_inline_data_full : sound inline_data_full (fun d => R_datablock (DbFull d)).
Proof.
  unfold inline_data_full. eapply sound_map.
  - eapply sound_pair; [sdv|]. eapply sound_delimited; [sde| |sde]. apply sound_many0. unfold sp_enc.
    eapply sound_delimited; [sde|apply sd_row|sde].
  - write.
Qed.
#[export] Hint Resolve sd_inline_data_full : sound.
Lemma sd_datablock : sound datablock R_datablock.
Proof. unfold datablock. alts; (eapply sound_map; [sdv|]); auto. Qed.
#[export] Hint Resolve sd_datablock : sound.
Lemma sd_inline_data : sound inline_data R_values.
Proof. unfold inline_data. eapply sound_weaken; [sdv|]. write. Qed.
#[export] Hint Resolve sd_inline_data : sound.
Lemma sd_values : sound (preceded_tag1 (s_ "values") datablock) R_values.
Proof. exact sd_inline_data. Qed.
Lemma sd_values_clause : sound values_clause (opt_ R_values).
Proof. apply sound_opt, sd_values. Qed.
#[export] Hint Resolve sd_values_clause : sound.
Lemma sd_int_clause k : kw_ok k = true -> sound (int_clause (tag_no_case k)) (fun z => kwd k ;; blank ;; R_u64 z).
Proof.
  intros K. unfold int_clause. eapply sound_weaken.
  - apply sound_map_res. eapply sound_preceded; [eapply eats_terminated; [now apply eats_tag_no_case|sde]|].
    apply sound_take1.
  - cbv beta. intros z t (a & Ha & u & v & -> & (x & y & -> & Hx & Hy) & -> & N & Hv).
    rewrite <- app_assoc. apply seq_intro; [assumption|]. apply seq_intro; [assumption|].
    apply parse_u64_digits in Ha; [assumption|].
    intros c Hc ->. unfold all in Hv. rewrite Forall_forall in Hv. apply Hv in Hc. discriminate.
Qed.
Lemma sd_limit_clause : sound limit_clause R_limit.
Proof. now apply sd_int_clause. Qed.
Lemma sd_offset_clause : sound offset_clause R_offset.
Proof. now apply sd_int_clause. Qed.
#[export] Hint Resolve sd_limit_clause sd_offset_clause : sound.
Lemma sd_limit_offset_clause : sound limit_offset_clause R_limit_offset.
Proof. sda limit_offset_clause. Qed.
#[export] Hint Resolve sd_limit_offset_clause : sound.
