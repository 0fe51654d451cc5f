(** Names: prefixes, local names, labels, variables. *)
From Verif Require Export LTerm.
Notation length := List.length (only parsing).
Open Scope N_scope.
Open Scope list_scope.

Definition dot_char (c : char) : bool := 46 =? c.
#[global] Arguments dot_char : simpl never.
#[global] Arguments name_char : simpl never.
#[global] Arguments base_char : simpl never.
#[global] Arguments start_char : simpl never.
#[global] Arguments var_char : simpl never.
#[global] Arguments low_digit : simpl never.
Lemma dot_eq c : is_dot c = dot_char c.
Proof. unfold is_dot, dot_char. now rewrite N.eqb_sym. Qed.
Notation dots1 := (take_while1 is_dot).
Lemma dots1_ok u r : u <> [] -> all dot_char u -> stops dot_char r -> dots1 (u ++ r) = Ok r u.
Proof.
  intros N H S. apply take1_ok; [assumption| |].
  - revert H. apply all_ext. intros c. now rewrite dot_eq.
  - revert S. apply stops_ext. intros c. now rewrite dot_eq.
Qed.
Lemma dots1_fails r : stops dot_char r -> fails dots1 r.
Proof. intros S. apply take1_fails. revert S. apply stops_ext. intros c. now rewrite dot_eq. Qed.
Lemma dots1_shrinks : shrinks dots1. Proof. eapply sound_shrinks, sound_take1. Qed.
Lemma pn_chars1_shrinks : shrinks pn_chars1. Proof. eapply sound_shrinks, sound_take1. Qed.
Lemma pn_chars1_ok u r : u <> [] -> all name_char u -> stops name_char r -> pn_chars1 (u ++ r) = Ok r u.
Proof.
  intros N H S. apply take1_ok; [assumption| |].
  - revert H. apply all_ext. intros c. now rewrite is_pn_char_eq.
  - revert S. apply stops_ext. intros c. now rewrite is_pn_char_eq.
Qed.
Lemma pn_chars1_fails r : stops name_char r -> fails pn_chars1 r.
Proof. intros S. apply take1_fails. revert S. apply stops_ext. intros c. now rewrite is_pn_char_eq. Qed.
Lemma app_ne {A} (t r : list A) : t <> [] -> r <> t ++ r.
Proof. intros N E. apply (f_equal (@length A)) in E. rewrite app_length in E. destruct t; [congruence|cbn in E; lia]. Qed.
Lemma opt_dots d r : all dot_char d -> stops dot_char r -> exists o, opt dots1 (d ++ r) = Ok r o.
Proof.
  intros H S. destruct d as [|c d].
  - exists None. now apply opt_none, dots1_fails.
  - eexists. apply opt_some. apply dots1_ok; [discriminate|assumption..].
Qed.

(** no run of dots leads to a name character *)
Definition dots_end (r : str) : Prop :=
  forall d c r', r = d ++ c :: r' -> d <> [] -> all dot_char d -> name_char c = false.
Lemma stops_dots_end r : stops dot_char r -> dots_end r.
Proof.
  intros S [|x d] c r' -> N D; [congruence|]. inversion D; subst. cbn in S. congruence.
Qed.
Lemma all_or c (m : str) : all (fun c => name_char c || (c =? 46)) m -> In c m -> name_char c = true \/ c = 46.
Proof.
  intros H Hi. unfold all in H. rewrite Forall_forall in H. apply H in Hi. apply orb_true_iff in Hi.
  destruct Hi as [|E]; [auto|]. apply N.eqb_eq in E. auto.
Qed.
Lemma inner_reads u r : inner_ok u -> u <> [] -> stops name_char r -> dots_end r ->
  exists w v l, u = w ++ v /\ w <> [] /\ pn_chars1 (u ++ r) = Ok (v ++ r) w /\ sep_ok dots1 pn_chars1 (v ++ r) r l.
Proof.
  remember (length u) as n eqn:En. revert u En. induction n as [n IH] using lt_wf_ind. intros u -> H N S D.
  destruct H as [->|(a & m & -> & Ha & Hm & Hl)]; [congruence|].
  assert (Hall : all (fun c => name_char c || (c =? 46)) (a :: m)) by (constructor; [now rewrite Ha|assumption]).
  destruct (span_cases name_char (a :: m)) as (w & v & E & Hw & Hv).
  assert (Nw : w <> []).
  { intros ->. cbn in E. subst v. cbn in Hv. congruence. }
  exists w, v. rewrite E in *. destruct v as [|c v].
  - destruct (span_cases dot_char r) as (d & r' & -> & Hd & Hr).
    exists []. split; [reflexivity|]. split; [assumption|]. split.
    + rewrite app_nil_r. now apply pn_chars1_ok.
    + cbn [app]. destruct d as [|x d]; [apply sep_stop; now apply dots1_fails|].
      eapply sep_back; [apply dots1_ok; [discriminate|eassumption..]|now apply app_ne|].
      apply pn_chars1_fails. destruct r' as [|c r']; [exact I|]. eapply D; [reflexivity|discriminate|assumption].
  - assert (c = 46).
    { destruct (all_or c (w ++ c :: v) Hall) as [H|]; [apply in_or_app; right; now left| |assumption]. cbn in Hv. congruence. }
    subst c. destruct (span_cases dot_char v) as (d & u' & -> & Hd & Hu').
    assert (Nu : u' <> []).
    { intros ->. rewrite app_nil_r in Hl. apply Hl.
      change (w ++ 46 :: d) with (w ++ ((46 : char) :: d)). rewrite last_app_ne by discriminate.
      assert (X : all dot_char (46 :: d)) by (constructor; [reflexivity|assumption]).
      assert (In (last (46 :: d) 0) (46 :: d)) as Y by (apply last_In; discriminate).
      unfold all in X. rewrite Forall_forall in X. apply X in Y. unfold dot_char in Y. now apply N.eqb_eq in Y. }
    assert (Hu'' : inner_ok u').
    { right. destruct u' as [|b u']; [congruence|]. exists b, u'. split; [reflexivity|].
      assert (Hb : all (fun c => name_char c || (c =? 46)) (b :: u')).
      { unfold all in Hall |- *. rewrite Forall_forall in Hall |- *. intros x Hx. apply Hall.
        apply in_or_app. right. right. apply in_or_app. now right. }
      split; [|split].
      - destruct (all_or b (b :: u') Hb) as [X|X]; [now left|assumption|]. subst b. discriminate.
      - now inversion Hb.
      - intros E'. apply Hl. change (w ++ 46 :: d ++ b :: u') with (w ++ ((46 : char) :: d) ++ b :: u').
        rewrite app_assoc, last_app_ne by discriminate. exact E'. }
    destruct (IH (length u')) with (u := u') as (w' & v' & l & -> & Nw' & E1 & E2); auto.
    { rewrite app_length. cbn. rewrite app_length. lia. }
    exists (w' :: l). split; [reflexivity|]. split; [assumption|]. split.
    + rewrite <- app_assoc. apply pn_chars1_ok; [assumption..|reflexivity].
    + cbn [app]. rewrite <- app_assoc.
      change (46 :: d ++ (w' ++ v') ++ r) with (((46 : char) :: d) ++ (w' ++ v') ++ r).
      eapply sep_step; [apply dots1_ok; [discriminate| |]| | |exact E2].
      * now constructor.
      * rewrite <- app_assoc. destruct w' as [|x w']; [congruence|]. exact Hu'.
      * apply app_ne. discriminate.
      * exact E1.
Qed.
Definition tail_follow (t r : str) : Prop :=
  stops name_char r /\ (if forallb dot_char t then stops dot_char r else dots_end r).
Lemma forallb_all f t : forallb f t = true <-> all f t.
Proof. unfold all. rewrite forallb_forall, Forall_forall. reflexivity. Qed.
Lemma inner_forallb d u : all dot_char d -> inner_ok u -> forallb dot_char (d ++ u) = match u with [] => true | _ => false end.
Proof.
  intros Hd [->|(a & m & -> & Ha & _)]; rewrite forallb_app.
  - apply forallb_all in Hd. now rewrite Hd.
  - cbn [forallb]. unfold dot_char at 2. destruct (N.eqb_spec 46 a) as [<-|]; [discriminate|]. apply andb_false_r.
Qed.
Lemma inner_first u r : inner_ok u -> u <> [] -> stops dot_char (u ++ r).
Proof.
  intros [->|(a & m & -> & Ha & _)] N; [congruence|]. cbn. unfold dot_char.
  destruct (N.eqb_spec 46 a) as [<-|]; [discriminate|reflexivity].
Qed.
Lemma pn_chars_tail_ok t r : name_tail t -> tail_follow t r -> pn_chars_tail (t ++ r) = Ok r t.
Proof.
  intros (d & u & -> & Hd & Hu) [F1 F2]. rewrite inner_forallb in F2 by assumption.
  destruct u as [|a m].
  - rewrite app_nil_r. destruct (opt_dots d r Hd F2) as [o E]. unfold pn_chars_tail. eapply recognize_ok.
    eapply pair_ok; [exact E|]. apply sepl_nil. now apply pn_chars1_fails.
  - destruct (inner_reads (a :: m) r Hu ltac:(discriminate) F1 F2) as (w & v & l & E & Nw & E1 & E2).
    destruct (opt_dots d ((a :: m) ++ r) Hd) as [o Eo]; [now apply inner_first|].
    unfold pn_chars_tail. eapply recognize_ok. rewrite <- app_assoc. eapply pair_ok; [exact Eo|].
    eapply sepl_cons; [apply dots1_shrinks|apply pn_chars1_shrinks|exact E1| |exact E2].
    rewrite E, <- app_assoc. apply app_ne, Nw.
Qed.
Lemma inner_snoc u x : inner_ok u -> u <> [] -> all (fun c => name_char c || (c =? 46)) x -> x <> [] -> last x 0 <> 46 -> inner_ok (u ++ x).
Proof.
  intros [->|(a & m & -> & Ha & Hm & Hl)] N Hx Nx Lx; [congruence|]. right. exists a, (m ++ x).
  split; [reflexivity|]. split; [assumption|]. split; [now apply all_app|].
  rewrite last_app_ne by assumption. exact Lx.
Qed.
Lemma name_char_not_dot c : name_char c = true -> c <> 46.
Proof. intros H ->. discriminate. Qed.
Lemma dots_end_dec r : dots_end r \/ exists d c r', r = d ++ c :: r' /\ d <> [] /\ all dot_char d /\ name_char c = true.
Proof.
  destruct (span_cases dot_char r) as (d & r' & -> & Hd & Hr).
  assert (U : forall d' c r2, d ++ r' = d' ++ c :: r2 -> d' <> [] -> all dot_char d' -> name_char c = true -> d' = d /\ c :: r2 = r').
  { intros d' c r2 E _ D C. assert (S : stops dot_char (c :: r2)).
    { cbn. unfold dot_char. destruct (N.eqb_spec 46 c) as [<-|]; [discriminate|reflexivity]. }
    pose proof (all_span dot_char d' D (c :: r2) S) as X. rewrite <- E, (all_span dot_char d Hd r' Hr) in X.
    injection X as -> ->. auto. }
  destruct r' as [|c r'].
  - left. intros d' c r2 E N D. destruct (name_char c) eqn:C; [|reflexivity]. destruct (U _ _ _ E N D C). discriminate.
  - destruct d as [|x d].
    + left. now apply stops_dots_end.
    + destruct (name_char c) eqn:C.
      * right. exists (x :: d), c, r'. repeat split; [discriminate|assumption..].
      * left. intros d' c' r2 E N D. destruct (name_char c') eqn:C'; [|reflexivity].
        destruct (U _ _ _ E N D C') as [_ [= <- <-]]. congruence.
Qed.
Lemma tail_ext t r : name_tail t -> tail_follow t r \/ exists x r', r = x ++ r' /\ x <> [] /\ name_tail (t ++ x).
Proof.
  intros (d & u & -> & Hd & Hu). unfold tail_follow. rewrite inner_forallb by assumption.
  assert (G : forall x, u <> [] -> all (fun c => name_char c || (c =? 46)) x -> x <> [] -> last x 0 <> 46 -> name_tail ((d ++ u) ++ x)).
  { intros x N Hx Nx Lx. exists d, (u ++ x). split; [now rewrite app_assoc|]. split; [assumption|].
    apply inner_snoc; assumption. }
  assert (G1 : forall c, name_char c = true -> name_tail ((d ++ u) ++ [c])).
  { intros c C. destruct u as [|a m].
    - exists d, [c]. split; [now rewrite app_nil_r|]. split; [assumption|]. right. exists c, []. repeat split; auto.
      + constructor.
      + cbn. now apply name_char_not_dot.
    - apply G; [discriminate| |discriminate|now apply name_char_not_dot]. repeat constructor. now rewrite C. }
  destruct r as [|c r]; [left; split; [exact I|]; destruct u; [exact I|intros [|] ? ? E; discriminate]|].
  destruct (name_char c) eqn:C.
  { right. exists [c], r. repeat split; [discriminate|]. now apply G1. }
  destruct u as [|a m].
  - destruct (dot_char c) eqn:Dc; [|left; split; assumption].
    right. exists [c], r. repeat split; [discriminate|]. exists (d ++ [c]), []. rewrite !app_nil_r.
    repeat split; [|now left]. apply all_app; [assumption|]. now repeat constructor.
  - destruct (dots_end_dec (c :: r)) as [H|(d' & c' & r' & E & N & D & C')]; [left; split; assumption|].
    right. exists (d' ++ [c']), r'. rewrite <- app_assoc. split; [exact E|]. split; [destruct d'; discriminate|].
    apply G; [discriminate| |destruct d'; discriminate|rewrite last_app_ne by discriminate; now apply name_char_not_dot].
    apply all_app; [|repeat constructor; now rewrite C'].
    revert D. apply Forall_impl. intros y Hy. unfold dot_char in Hy. rewrite N.eqb_sym, Hy. apply orb_true_r.
Qed.

(** ** Prefixes *)
Lemma base_one_ok c r : base_char c = true -> pn_chars_base_one (c :: r) = Ok r [c].
Proof. intros H. apply take_one_ok. now rewrite is_pn_chars_base_eq. Qed.
Lemma base_one_fails r : stops base_char r -> fails pn_chars_base_one r.
Proof. intros S. apply take_one_fails. revert S. apply stops_ext. intros c. now rewrite is_pn_chars_base_eq. Qed.
Definition name_follow (p r : str) : Prop := tail_follow (List.tl p) r.
Lemma pn_prefix_ok p r : prefix_name p -> name_follow p r -> pn_prefix (p ++ r) = Ok r p.
Proof.
  intros (c & t & -> & Hc & Ht) F. unfold pn_prefix. eapply recognize_ok. eapply pair_ok; [apply base_one_ok, Hc|].
  apply pn_chars_tail_ok; [assumption|exact F].
Qed.
Lemma prefix_ext p r : prefix_name p -> name_follow p r \/ exists x r', r = x ++ r' /\ x <> [] /\ prefix_name (p ++ x).
Proof.
  intros (c & t & -> & Hc & Ht). destruct (tail_ext t r Ht) as [F|(x & r' & -> & N & Hx)]; [left; exact F|].
  right. exists x, r'. repeat split; [assumption|]. exists c, (t ++ x). auto.
Qed.
Lemma pn_prefix_iff i r p : pn_prefix i = Ok r p <-> i = p ++ r /\ longest prefix_name p i.
Proof.
  apply (longest_iff prefix_name name_follow); [apply pn_prefix_ok|apply prefix_ext|].
  clear. intros i r p H. apply sd_pn_prefix in H. destruct H as (t & -> & -> & H). auto.
Qed.
Lemma pn_prefix_fails i : stops base_char i -> fails pn_prefix i.
Proof. intros S. now apply recognize_fails, pair_fails1, base_one_fails. Qed.
Lemma pn_prefix_verdict i : (exists r p, pn_prefix i = Ok r p) \/ fails pn_prefix i.
Proof.
  destruct i as [|c i]; [right; now apply pn_prefix_fails|].
  destruct (base_char c) eqn:C; [|right; now apply pn_prefix_fails]. left.
  apply (longest_some prefix_name name_follow pn_prefix pn_prefix_ok prefix_ext [c] i).
  exists c, []. repeat split; auto. exists [], []. repeat split; [constructor|now left].
Qed.
