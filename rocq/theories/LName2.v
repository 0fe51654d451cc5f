(** Local names, prefixed names, IRIs, variables, labels. *)
From Verif Require Export LName.
Notation length := List.length (only parsing).
Open Scope N_scope.
Open Scope list_scope.

Lemma hex_ok a b r : hex_digit a = true -> hex_digit b = true -> hex_primary (a :: b :: r) = Ok r [a; b].
Proof.
  intros Ha Hb. unfold hex_primary, take_while_m_n. cbn [span_n]. rewrite !char_is_hex_eq, Ha, Hb. reflexivity.
Qed.
Lemma hex_fails i : (forall a b r, i = a :: b :: r -> hex_digit a && hex_digit b = false) -> fails hex_primary i.
Proof.
  intros H. exists i, KTakeWhileMN. unfold hex_primary, take_while_m_n.
  destruct i as [|a i]; [reflexivity|]. cbn [span_n]. rewrite char_is_hex_eq.
  destruct (hex_digit a) eqn:Ha; [|reflexivity]. destruct i as [|b i]; [reflexivity|]. cbn [span_n].
  specialize (H a b i eq_refl). rewrite Ha in H. cbn [andb] in H. rewrite char_is_hex_eq, H. reflexivity.
Qed.
Notation plx_chars := (s_ "_~.-!$&'()*+,;=/?#@%").
Lemma plx_ok u r : plx_text u -> plx (u ++ r) = Ok r u.
Proof.
  intros [(a & b & -> & Ha & Hb)|(c & -> & Hc)]; unfold plx; eapply recognize_ok.
  - apply alt_first. eapply pair_ok; [apply (tag_ok (s_ "%"))|]. now apply hex_ok.
  - apply alt_next; [apply pair_fails1; now apply tag_fails_first|]. apply alt_first.
    eapply pair_ok; [apply (tag_ok (s_ "\"))|]. apply (recognize_ok _ [c] r c). now apply one_of_ok.
Qed.
Definition no_plx (r : str) : Prop := forall u r', r = u ++ r' -> ~ plx_text u.
Lemma plx_fails r : no_plx r -> fails plx r.
Proof.
  intros H. unfold plx. apply recognize_fails. destruct r as [|c r].
  { apply alt_fails. repeat constructor; apply pair_fails1; now apply tag_fails_first. }
  destruct (N.eq_dec c 37) as [->|N1].
  - apply alt_fails. repeat constructor; [|apply pair_fails1; now apply tag_fails_first].
    eapply pair_fails2; [apply (tag_ok (s_ "%"))|]. apply hex_fails. intros a b r' ->.
    destruct (hex_digit a) eqn:Ha; [|reflexivity]. destruct (hex_digit b) eqn:Hb; [|reflexivity].
    exfalso. apply (H [37; a; b] r'); [reflexivity|]. left. exists a, b. auto.
  - apply alt_fails. constructor; [apply pair_fails1; now apply tag_fails_first|]. constructor; [|constructor].
    destruct (N.eq_dec c 92) as [->|N2]; [|apply pair_fails1; now apply tag_fails_first].
    eapply pair_fails2; [apply (tag_ok (s_ "\"))|]. apply recognize_fails, one_of_fails. destruct r as [|c r]; [exact I|].
    intros Hc. apply (H [92; c] r); [reflexivity|]. right. exists c. auto.
Qed.
Lemma no_plx_first r : not_first 37 r -> not_first 92 r -> no_plx r.
Proof.
  intros H1 H2 u r' -> [(a & b & -> & _)|(c & -> & _)]; cbn in *; congruence.
Qed.
Lemma plx_first u : plx_text u -> exists c u', u = c :: u' /\ (c = 37 \/ c = 92).
Proof. intros [(a & b & -> & _)|(c & -> & _)]; eauto. Qed.
Lemma no_plx_dec r : no_plx r \/ exists u r', r = u ++ r' /\ plx_text u.
Proof.
  assert (X : (exists r' s, plx r = Ok r' s) \/ fails plx r).
  { destruct r as [|c r].
    { right. apply plx_fails. intros u r' E H. apply plx_first in H. destruct H as (x & y & -> & _). discriminate. }
    destruct (N.eq_dec c 37) as [->|N1].
    - destruct r as [|a [|b r]].
      1, 2: right; apply plx_fails; intros u r' E [(a1 & b1 & -> & _)|(c1 & -> & _)]; discriminate.
      destruct (hex_digit a) eqn:Ha; [destruct (hex_digit b) eqn:Hb|].
      + left. exists r, [37; a; b]. apply (plx_ok [37; a; b]). left. eauto.
      + right; apply plx_fails; intros u r' E [(a1 & b1 & -> & X1 & X2)|(c1 & -> & _)]; [|discriminate].
        injection E as -> -> ->. congruence.
      + right; apply plx_fails; intros u r' E [(a1 & b1 & -> & X1 & X2)|(c1 & -> & _)]; [|discriminate].
        injection E as -> -> ->. congruence.
    - destruct (N.eq_dec c 92) as [->|N2]; [|right; apply plx_fails, no_plx_first; assumption].
      destruct r as [|a r]; [right; apply plx_fails; intros u r' E [(a1 & b1 & -> & _)|(c1 & -> & _)]; discriminate|].
      destruct (in_dec N.eq_dec a plx_chars) as [Ha|Ha].
      + left. exists r, [92; a]. apply (plx_ok [92; a]). right. eauto.
      + right; apply plx_fails; intros u r' E [(a1 & b1 & -> & _)|(c1 & -> & X)]; [discriminate|].
        injection E as -> ->. now apply Ha. }
  destruct X as [(r' & s & X)|X].
  - right. apply sd_plx in X. destruct X as (t & -> & Ht). eauto.
  - left. intros u r' -> Hu. eapply fails_not_ok; [exact X|]. now apply plx_ok.
Qed.

Definition unit_char (c : char) : bool := name_char c || (c =? 58).
#[global] Arguments unit_char : simpl never.
Lemma unit_char_eq c : is_pn_char c || (c =? c_ ":") = unit_char c.
Proof. unfold unit_char. now rewrite is_pn_char_eq. Qed.
Definition ur : parser str := unit_run.
Lemma ur_shrinks : shrinks ur. Proof. eapply sound_shrinks, sd_unit_run. Qed.
Lemma ur_chars w r : w <> [] -> all unit_char w -> stops unit_char r -> ur (w ++ r) = Ok r w.
Proof.
  intros N H S. apply alt_first. apply take1_ok; [assumption| |].
  - revert H. apply all_ext. intros c. now rewrite unit_char_eq.
  - revert S. apply stops_ext. intros c. now rewrite unit_char_eq.
Qed.
Lemma unit_run_fails1 r : stops unit_char r -> fails (take_while1 (fun c => is_pn_char c || (c =? c_ ":"))) r.
Proof. intros S. apply take1_fails. revert S. apply stops_ext. intros c. now rewrite unit_char_eq. Qed.
Lemma ur_plx u r : plx_text u -> ur (u ++ r) = Ok r u.
Proof.
  intros H. apply alt_next; [|now apply alt_first, plx_ok]. apply unit_run_fails1.
  apply plx_first in H. destruct H as (c & u' & -> & [-> | ->]); reflexivity.
Qed.
Lemma ur_fails r : stops unit_char r -> no_plx r -> fails ur r.
Proof. intros S P. apply alt_fails. constructor; [now apply unit_run_fails1|]. repeat constructor. now apply plx_fails. Qed.

Definition unit_stop (r : str) : Prop := stops unit_char r /\ stops dot_char r /\ no_plx r.
Lemma units_first X : local_units X -> X = [] \/
  (exists c t, X = c :: t /\ unit_char c = true /\ local_units t) \/
  (exists t, X = 46 :: t /\ local_units t) \/ (exists u t, X = u ++ t /\ plx_text u /\ local_units t).
Proof.
  destruct 1 as [|c t H Ht|u t H Ht]; [now left| |right; right; right; eauto].
  apply orb_true_iff in H. destruct H as [H|H]; [right; left; eauto|].
  apply N.eqb_eq in H. subst. right. right. left. eauto.
Qed.
Lemma unit_chars_split X : local_units X -> exists w v, X = w ++ v /\ all unit_char w /\ local_units v /\
  (v = [] \/ (exists t, v = 46 :: t /\ local_units t) \/ (exists u t, v = u ++ t /\ plx_text u /\ local_units t)).
Proof.
  induction 1 as [|c t H Ht IH|u t H Ht IH].
  - exists [], []. repeat split; [constructor..|auto].
  - destruct (unit_char c) eqn:C.
    + destruct IH as (w & v & -> & Hw & Hv & K). exists (c :: w), v. repeat split; [now constructor|assumption..].
    + exists [], (c :: t). repeat split; [constructor|now constructor|]. right. left. exists t. split; [|assumption].
      unfold unit_char in C. rewrite C in H. cbn in H. apply N.eqb_eq in H. now subst.
  - exists [], (u ++ t). repeat split; [constructor|now apply units_plx|]. right. right. eauto.
Qed.
Lemma plx_stops u t : plx_text u -> stops unit_char (u ++ t) /\ stops dot_char (u ++ t).
Proof. intros H. apply plx_first in H. destruct H as (c & u' & -> & [-> | ->]); split; reflexivity. Qed.
Lemma units_eval X r : local_units X -> unit_stop r ->
  exists w v l, X = w ++ v /\ many_ok ur (X ++ r) (v ++ r) l /\ local_units v /\
    (v = [] \/ exists t, v = 46 :: t /\ local_units t).
Proof.
  remember (length X) as n eqn:En. revert X En. induction n as [n IH] using lt_wf_ind. intros X -> H S.
  destruct (unit_chars_split X H) as (w & v & -> & Hw & Hv & K).
  (* what happens at [v] *)
  assert (K' : stops unit_char (v ++ r) /\ exists w' v' l, v = w' ++ v' /\ many_ok ur (v ++ r) (v' ++ r) l /\ local_units v' /\
    (v' = [] \/ exists t, v' = 46 :: t /\ local_units t)).
  { destruct K as [->|[(t & -> & Ht)|(u & t & -> & Hu & Ht)]].
    - split; [apply S|]. exists [], [], []. repeat split; [|constructor|auto]. apply many_stop. apply ur_fails; apply S.
    - split; [reflexivity|]. exists [], (46 :: t), []. repeat split; [|assumption|right; eauto].
      apply many_stop. apply ur_fails; [reflexivity|]. apply no_plx_first; discriminate.
    - split; [rewrite <- app_assoc; now apply plx_stops|].
      destruct (plx_first u Hu) as (c & u' & Eu & _).
      destruct (IH (length t)) with (X := t) as (w' & v' & l & -> & M & Hv' & Kv'); auto.
      { rewrite !app_length, Eu. cbn. lia. }
      exists (u ++ w'), v', (u :: l). split; [now rewrite app_assoc|]. split; [|auto].
      rewrite <- (app_assoc u). eapply many_step; [now apply ur_plx| |exact M]. apply app_ne. now rewrite Eu. }
  destruct K' as [Sv (w' & v' & l & -> & M & Hv' & Kv')]. destruct w as [|c w].
  - exists w', v', l. auto.
  - exists ((c :: w) ++ w'), v', ((c :: w) :: l). split; [now rewrite app_assoc|]. split; [|auto].
    rewrite <- (app_assoc (c :: w)). eapply many_step; [apply ur_chars; [discriminate|assumption..]| |exact M].
    now apply app_ne.
Qed.
Lemma many_ur_shrinks : shrinks (many0 ur).
Proof. eapply sound_shrinks, sound_many0, sd_unit_run. Qed.
Lemma dots_then_units v : local_units v -> exists d u, v = d ++ u /\ all dot_char d /\ local_units u /\ (u = [] \/ stops dot_char u).
Proof.
  induction 1 as [|c t H Ht IH|u t H Ht IH].
  - exists [], []. repeat split; [constructor..|auto].
  - destruct (dot_char c) eqn:D.
    + destruct IH as (d & u & -> & Hd & Hu & K). exists (c :: d), u. repeat split; [now constructor|assumption..].
    + exists [], (c :: t). repeat split; [constructor|now constructor|]. now right.
  - exists [], (u ++ t). repeat split; [constructor|now apply units_plx|]. right. now apply plx_stops.
Qed.
Lemma stops_app f v r : (v = [] \/ stops f v) -> stops f r -> stops f (v ++ r).
Proof. destruct v; [auto|]. intros [|]; [discriminate|auto]. Qed.
(** the tail of the separated list: [v] is empty or starts with a dot *)
Lemma units_sep v r : local_units v -> (v = [] \/ exists t, v = 46 :: t /\ local_units t) -> unit_stop r ->
  exists l, sep_ok dots1 (many0 ur) (v ++ r) r l.
Proof.
  remember (length v) as n eqn:En. revert v En. induction n as [n IH] using lt_wf_ind. intros v -> H K S.
  destruct K as [->|(t & -> & Ht)].
  - exists []. apply sep_stop, dots1_fails, S.
  - destruct (dots_then_units t Ht) as (d & u & -> & Hd & Hu & K).
    destruct (units_eval u r Hu S) as (w & v' & l & E & M & Hv' & Kv').
    destruct (IH (length v')) with (v := v') as [l' L]; auto.
    { rewrite E. cbn. rewrite !app_length. lia. }
    exists (l :: l'). change (46 :: d ++ u) with (((46 : char) :: d) ++ u). rewrite <- app_assoc.
    eapply sep_step; [apply dots1_ok; [discriminate|now constructor|]| | |exact L].
    + apply stops_app; [assumption|apply S].
    + now apply app_ne.
    + apply many0_iff; [apply ur_shrinks|exact M].
Qed.
Definition local_tail_p : parser str :=
  recognize (pair (opt dots1) (separated_list dots1 (many0 ur))).
Lemma local_tail_ok t r : local_units t -> ~ all dot_char t -> unit_stop r -> local_tail_p (t ++ r) = Ok r t.
Proof.
  intros H N S. destruct (dots_then_units t H) as (d & u & -> & Hd & Hu & K).
  assert (Nu : u <> []). { intros ->. apply N. now rewrite app_nil_r. }
  destruct (units_eval u r Hu S) as (w & v & l & E & M & Hv & Kv).
  assert (Nw : w <> []).
  { intros ->. cbn in E. subst v. destruct Kv as [|(t & -> & _)]; [congruence|].
    destruct K; [discriminate|]. discriminate. }
  destruct (units_sep v r Hv Kv S) as [l' L].
  destruct (opt_dots d (u ++ r) Hd) as [o Eo]; [apply stops_app; [assumption|apply S]|].
  unfold local_tail_p. eapply recognize_ok. rewrite <- app_assoc.
  eapply pair_ok; [exact Eo|]. eapply sepl_cons; [apply dots1_shrinks|apply many_ur_shrinks| | |exact L].
  - apply many0_iff; [apply ur_shrinks|exact M].
  - rewrite E, <- app_assoc. now apply app_ne.
Qed.
(** only dots after the first unit: rejected *)
Lemma many0_empty r : stops unit_char r -> no_plx r -> many0 ur r = Ok r [].
Proof. intros H1 H2. apply many0_iff; [apply ur_shrinks|]. now apply many_stop, ur_fails. Qed.
Lemma sepl_empty {A B} (s : parser B) (p : parser A) i a : p i = Ok i a -> fails (separated_list s p) i.
Proof. intros E. exists i, KSeparatedList. unfold separated_list. rewrite E. assert (str_eqb i i = true) as -> by now apply str_eqb_eq. reflexivity. Qed.
Lemma local_tail_fails d r : all dot_char d -> unit_stop r -> fails local_tail_p (d ++ r).
Proof.
  intros Hd (S1 & S2 & S3). destruct (opt_dots d r Hd S2) as [o E]. unfold local_tail_p.
  apply recognize_fails. eapply pair_fails2; [exact E|]. eapply sepl_empty. now apply many0_empty.
Qed.

Definition local_head : parser str :=
  alt [ pn_chars_u_one; tag (s_ ":"); take_while_m_n 1 1 (fun c => is_digit (as_u8 c)); plx ].
Lemma u_one_ok c r : start_char c = true -> pn_chars_u_one (c :: r) = Ok r [c].
Proof.
  intros H. unfold start_char in H. destruct (base_char c) eqn:B.
  - now apply alt_first, base_one_ok.
  - apply alt_next; [now apply base_one_fails|]. apply alt_first. cbn in H. apply N.eqb_eq in H. subst c. apply (tag_ok (s_ "_")).
Qed.
Lemma u_one_fails r : stops start_char r -> fails pn_chars_u_one r.
Proof.
  intros S. apply alt_fails. destruct r as [|c r].
  - repeat constructor; [now apply base_one_fails|now apply tag_fails_first].
  - cbn in S. unfold start_char in S. apply orb_false_iff in S. destruct S as [S1 S2]. apply N.eqb_neq in S2.
    repeat constructor; [now apply base_one_fails|now apply tag_fails_first].
Qed.
Lemma digit_one_ok c r : low_digit c = true -> take_while_m_n 1 1 (fun c => is_digit (as_u8 c)) (c :: r) = Ok r [c].
Proof. intros H. apply take_one_ok. now rewrite low_digit_eq. Qed.
Lemma digit_one_fails r : stops low_digit r -> fails (take_while_m_n 1 1 (fun c => is_digit (as_u8 c))) r.
Proof. intros S. apply take_one_fails. revert S. apply stops_ext. intros c. now rewrite low_digit_eq. Qed.
Lemma local_head_ok u r : local_start u -> local_head (u ++ r) = Ok r u.
Proof.
  unfold local_head. intros [H|(c & -> & H)].
  - destruct (plx_first u H) as (c & u' & E & Hc).
    apply alt_next; [apply u_one_fails; subst u; destruct Hc; subst c; reflexivity|].
    apply alt_next; [apply tag_fails_first; subst u; destruct Hc; subst c; discriminate|].
    apply alt_next; [apply digit_one_fails; subst u; destruct Hc; subst c; reflexivity|].
    now apply alt_first, plx_ok.
  - destruct (start_char c) eqn:S; [now apply alt_first, u_one_ok|].
    apply alt_next; [now apply u_one_fails|]. destruct (N.eq_dec c 58) as [->|N]; [apply alt_first, (tag_ok (s_ ":"))|].
    apply alt_next; [now apply tag_fails_first|]. apply alt_first, digit_one_ok.
    apply N.eqb_neq in N. now rewrite N in H.
Qed.
Lemma local_head_fails r : stops start_char r -> not_first 58 r -> stops low_digit r -> no_plx r -> fails local_head r.
Proof.
  intros. apply alt_fails. constructor; [now apply u_one_fails|]. constructor; [now apply tag_fails_first|].
  constructor; [now apply digit_one_fails|]. constructor; [now apply plx_fails|constructor].
Qed.
Lemma pn_local_ok l r : local_name l -> unit_stop r -> pn_local (l ++ r) = Ok r l.
Proof.
  intros (u & t & -> & Hu & Ht & N) S. unfold pn_local. eapply recognize_ok. rewrite <- app_assoc.
  eapply pair_ok; [now apply local_head_ok|]. now apply local_tail_ok.
Qed.
Lemma unit_stop_dec r : unit_stop r \/ exists x r', r = x ++ r' /\ x <> [] /\ local_units x /\ (all dot_char x \/ ~ all dot_char x).
Proof.
  destruct (no_plx_dec r) as [P|(u & r' & -> & Hu)].
  - destruct r as [|c r]; [left; repeat split; auto|].
    destruct (unit_char c) eqn:C.
    + right. exists [c], r. repeat split; [discriminate|apply units_char; [|constructor]|].
      { unfold unit_char in C. now rewrite C. }
      right. intros D. inversion D; subst. unfold dot_char in *. apply N.eqb_eq in H1. subst c. discriminate.
    + destruct (dot_char c) eqn:D.
      * right. exists [c], r. unfold dot_char in D. apply N.eqb_eq in D. subst c.
        repeat split; [discriminate|now repeat constructor|]. left. now repeat constructor.
      * left. repeat split; auto.
  - right. destruct (plx_first u Hu) as (c & u' & -> & Hc). exists (c :: u'), r'. repeat split; [discriminate| |].
    + rewrite <- (app_nil_r (c :: u')). apply units_plx; [assumption|constructor].
    + right. intros D. inversion D; subst. destruct Hc; subst c; discriminate.
Qed.
Lemma local_ext l r : local_name l -> unit_stop r \/ exists x r', r = x ++ r' /\ x <> [] /\ local_name (l ++ x).
Proof.
  intros (u & t & -> & Hu & Ht & N). destruct (unit_stop_dec r) as [S|(x & r' & -> & Nx & Hx & _)]; [now left|].
  right. exists x, r'. repeat split; [assumption|]. exists u, (t ++ x). split; [now rewrite app_assoc|].
  repeat split; [assumption|now apply units_app|]. intros D. apply N. now apply Forall_app in D.
Qed.
Lemma pn_local_iff i r l : pn_local i = Ok r l <-> i = l ++ r /\ longest local_name l i.
Proof.
  apply (longest_iff local_name (fun _ => unit_stop)); [intros; now apply pn_local_ok|apply local_ext|].
  clear. intros i r l H. apply sd_pn_local in H. destruct H as (t & -> & -> & H). auto.
Qed.
(** the longest run of units *)
Lemma units_run r : exists x r', r = x ++ r' /\ local_units x /\ unit_stop r'.
Proof.
  remember (length r) as n eqn:En. revert r En. induction n as [n IH] using lt_wf_ind. intros r ->.
  destruct (unit_stop_dec r) as [S|(x & r' & -> & Nx & Hx & _)].
  - exists [], r. repeat split; [constructor|apply S..].
  - destruct (IH (length r')) with (r := r') as (y & r2 & -> & Hy & S); auto.
    { rewrite app_length. destruct x; [congruence|cbn; lia]. }
    exists (x ++ y), r2. split; [now rewrite app_assoc|]. split; [now apply units_app|assumption].
Qed.
Lemma all_dec (f : char -> bool) t : all f t \/ ~ all f t.
Proof. rewrite <- forallb_all. destruct (forallb f t); [now left|right; discriminate]. Qed.
Lemma local_head_dec i : (exists u r, i = u ++ r /\ local_start u) \/ fails local_head i.
Proof.
  destruct (no_plx_dec i) as [P|(u & r' & -> & Hu)]; [|left; exists u, r'; split; [reflexivity|now left]].
  destruct i as [|c i]; [right; now apply local_head_fails|].
  destruct (start_char c || (c =? 58) || low_digit c) eqn:E.
  - left. exists [c], i. split; [reflexivity|]. right. eauto.
  - right. apply orb_false_iff in E. destruct E as [E E3]. apply orb_false_iff in E. destruct E as [E1 E2].
    apply N.eqb_neq in E2. now apply local_head_fails.
Qed.
Lemma pn_local_verdict i : (exists r l, pn_local i = Ok r l) \/ fails pn_local i.
Proof.
  destruct (local_head_dec i) as [(u & r & -> & Hu)|F]; [|right; now apply recognize_fails, pair_fails1].
  destruct (units_run r) as (x & r' & -> & Hx & S). destruct (all_dec dot_char x) as [D|D].
  - right. unfold pn_local. apply recognize_fails. eapply pair_fails2; [now apply local_head_ok|].
    now apply local_tail_fails.
  - left. exists r', (u ++ x). rewrite app_assoc. apply pn_local_ok; [|assumption]. exists u, x. auto.
Qed.
Lemma pn_local_fails i : (forall l r, i = l ++ r -> ~ local_name l) -> fails pn_local i.
Proof.
  intros H. destruct (pn_local_verdict i) as [(r & l & E)|F]; [|assumption].
  apply pn_local_iff in E. destruct E as [E [X _]]. now apply H in E.
Qed.
