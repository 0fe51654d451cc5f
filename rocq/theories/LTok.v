(** Blanks, keywords and terminals: exactly what they accept. *)
From Verif Require Export LEval.
Notation length := List.length (only parsing).
Open Scope N_scope.
Open Scope list_scope.

Lemma recognize_eq {A} (p : parser A) i t r a : p i = Ok r a -> i = t ++ r -> recognize p i = Ok r t.
Proof. intros H ->. eapply recognize_ok, H. Qed.
(** ** Keywords *)
Definition low_ascii (k : str) : bool := forallb (fun c => (c <? 128) && negb ((65 <=? c) && (c <=? 90))) k.
Lemma lower_ascii c x : lower c = x -> x < 128 -> c < 128.
Proof.
  unfold lower, in_ranges, existsb. rewrite orb_false_r. destruct ((65 <=? c) && (c <=? 90)) eqn:E; [|lia].
  apply andb_true_iff in E. destruct E as [_ E]. apply N.leb_le in E. lia.
Qed.
Lemma to_lower_ascii c : c < 128 -> to_lower c = lower c.
Proof. intros H. apply lower_to_lower. lia. Qed.
Lemma to_lower_low c : (c <? 128) && negb ((65 <=? c) && (c <=? 90)) = true -> to_lower c = c.
Proof.
  intros H. apply andb_true_iff in H. destruct H as [H1 H2]. apply N.ltb_lt in H1. apply negb_true_iff in H2.
  unfold to_lower. rewrite H2. destruct (c =? 0x212A) eqn:E; [apply N.eqb_eq in E; lia|reflexivity].
Qed.
Lemma kwd_ascii k t : low_ascii k = true -> kwd k t -> is_ascii t.
Proof.
  unfold kwd. revert k. induction t as [|c t IH]; intros k K H; [constructor|].
  destruct k as [|x k]; [discriminate|]. cbn in H. injection H as H1 H2. cbn in K. apply andb_true_iff in K.
  destruct K as [K1 K2]. constructor; [|now apply (IH k)]. apply andb_true_iff in K1. destruct K1 as [K1 _].
  apply N.ltb_lt in K1. eapply lower_ascii; eassumption.
Qed.
Lemma kwd_length k t : kwd k t -> length t = length k.
Proof. intros <-. now rewrite map_length. Qed.
Lemma zip_same_kwd w k t r : low_ascii w = true -> low_ascii k = true -> kwd w t ->
  zip_same (t ++ r) k = (fix go (w k : str) := match w, k with
     | a :: w', b :: k' => (a =? b) && go w' k'
     | [], _ => zip_same r k
     | _, [] => true end) w k.
Proof.
  unfold kwd. revert w k. induction t as [|c t IH]; intros w k W K H; cbn in H; subst w; [reflexivity|].
  cbn [app zip_same]. destruct k as [|b k]; [reflexivity|].
  cbn in W, K. apply andb_true_iff in W, K. destruct W as [W1 W2], K as [K1 K2].
  rewrite (to_lower_low b K1), to_lower_ascii.
  - f_equal. now apply IH.
  - apply andb_true_iff in W1. destruct W1 as [W1 _]. apply N.ltb_lt in W1. eapply lower_ascii; eauto.
Qed.
Lemma zip_same_self w t r : low_ascii w = true -> kwd w t -> zip_same (t ++ r) w = true.
Proof.
  intros W H. rewrite (zip_same_kwd w w t r W W H). clear. induction w; [now destruct r|].
  rewrite N.eqb_refl. exact IHw.
Qed.
Lemma split_at_cons n c i : (utf8_len c <= n)%nat -> split_at n (c :: i) =
  match split_at (n - utf8_len c) i with Some (a, b) => Some (c :: a, b) | None => None end.
Proof.
  intros H. pose proof (utf8_len_pos c). destruct n; [lia|]. cbn [split_at]. apply Nat.leb_le in H. now rewrite H.
Qed.
Lemma split_at_ascii (t r : str) : is_ascii t -> split_at (length t) (t ++ r) = Some (t, r).
Proof.
  induction 1 as [|c t Hc Ht IH]; [now destruct r|].
  assert (U : utf8_len c = 1%nat) by (unfold utf8_len; apply N.ltb_lt in Hc; now rewrite Hc).
  change ((c :: t) ++ r) with (c :: (t ++ r)). rewrite split_at_cons by (rewrite U; cbn; lia).
  rewrite U. assert (L : (@length char (c :: t) - 1 = @length char t)%nat) by (change (S (length t) - 1 = length t)%nat; lia). rewrite L.
  match goal with |- match ?x with _ => _ end = _ => replace x with (Some (t, r)) by (symmetry; exact IH) end. reflexivity.
Qed.
Lemma blen_app t r : blen (t ++ r) = (blen t + blen r)%nat.
Proof. induction t; cbn [app blen]; lia. Qed.
Lemma low_ascii_is k : low_ascii k = true -> is_ascii k.
Proof.
  unfold low_ascii. rewrite forallb_forall. intros H. apply Forall_forall. intros c Hc. apply H in Hc.
  apply andb_true_iff in Hc. destruct Hc as [Hc _]. now apply N.ltb_lt.
Qed.
Lemma tnc_ok k t r : low_ascii k = true -> kwd k t -> tag_no_case k (t ++ r) = Ok r t.
Proof.
  intros K H. unfold tag_no_case, compare_no_case. rewrite zip_same_self by assumption.
  pose proof (kwd_ascii _ _ K H) as A. rewrite blen_app, (blen_ascii t A), (blen_ascii k) by now apply low_ascii_is.
  rewrite <- (kwd_length _ _ H). destruct (Nat.leb_spec (length t) (length t + blen r)); [|lia].
  now rewrite split_at_ascii.
Qed.
Lemma tncs_ok k t r : low_ascii k = true -> kwd k t -> tag_no_case_streaming k (t ++ r) = Ok r t.
Proof.
  intros K H. unfold tag_no_case_streaming, compare_no_case. rewrite zip_same_self by assumption.
  pose proof (kwd_ascii _ _ K H) as A. rewrite blen_app, (blen_ascii t A), (blen_ascii k) by now apply low_ascii_is.
  rewrite <- (kwd_length _ _ H). destruct (Nat.leb_spec (length t) (length t + blen r)); [|lia].
  now rewrite split_at_ascii.
Qed.
(** a text that differs from the keyword *)
Lemma tnc_fails_zip k i : zip_same i k = false -> fails (tag_no_case k) i.
Proof. intros Z. exists i, KTag. unfold tag_no_case, compare_no_case. now rewrite Z. Qed.
Lemma tnc_fails_nil x k : fails (tag_no_case (x :: k)) [].
Proof.
  exists [], KTag. unfold tag_no_case, compare_no_case. cbn [zip_same blen].
  pose proof (utf8_len_pos x). destruct (Nat.leb_spec (utf8_len x + blen k) 0); [lia|reflexivity].
Qed.
(** the first character, in lower case, is not [x] *)
Definition not_first_nc (x : char) (i : str) : Prop := match i with c :: _ => to_lower c <> x | [] => True end.
Lemma tnc_fails_first x k i : low_ascii (x :: k) = true -> not_first_nc x i -> fails (tag_no_case (x :: k)) i.
Proof.
  intros K H. destruct i as [|c i]; [apply tnc_fails_nil|]. apply tnc_fails_zip. cbn [zip_same].
  cbn in K. apply andb_true_iff in K. destruct K as [K _]. rewrite (to_lower_low x K).
  cbn in H. apply N.eqb_neq in H. now rewrite H.
Qed.
Fixpoint differ (w k : str) : bool :=
  match w, k with a :: w', b :: k' => negb (a =? b) || differ w' k' | _, _ => false end.
Lemma tnc_fails_kwd w k t r : low_ascii w = true -> low_ascii k = true -> differ w k = true -> kwd w t ->
  fails (tag_no_case k) (t ++ r).
Proof.
  intros W K D H. apply tnc_fails_zip. rewrite (zip_same_kwd w k t r W K H). clear - D. revert k D.
  induction w as [|a w IH]; intros [|b k] D; try discriminate. cbn in D.
  destruct (a =? b); cbn in *; [now apply IH|reflexivity].
Qed.

(** exactly when a keyword is recognised; U+212A lower-cases to 'k' *)
Definition no_kelvin (k i : str) : Prop := In 107 k -> ~ In 0x212A i.
Lemma zip_begins k i : low_ascii k = true -> no_kelvin k i -> zip_same i k = true -> (blen k <= blen i)%nat ->
  exists t r, i = t ++ r /\ kwd k t.
Proof.
  revert i. induction k as [|x k IH]; intros i K NK Z B; [exists [], i; repeat split|].
  destruct i as [|c i]; [cbn [blen] in B; pose proof (utf8_len_pos x); lia|].
  pose proof K as K'. cbn in K. apply andb_true_iff in K. destruct K as [K1 K2].
  cbn [zip_same] in Z. apply andb_true_iff in Z. destruct Z as [Z1 Z2]. rewrite (to_lower_low x K1) in Z1. apply N.eqb_eq in Z1.
  assert (Hc : c <> 0x212A).
  { intros ->. apply NK; [|now left]. left. rewrite <- Z1. reflexivity. }
  rewrite lower_to_lower in Z1 by exact Hc.
  assert (X : x < 128) by (apply andb_true_iff in K1; destruct K1 as [K1 _]; now apply N.ltb_lt).
  pose proof (lower_ascii _ _ Z1 X) as C. apply N.ltb_lt in X, C. cbn [blen] in B. unfold utf8_len in B. rewrite X, C in B.
  destruct (IH i K2) as (t & r & -> & Ht); [|assumption|lia|].
  - intros H1 H2. apply NK; now right.
  - exists (c :: t), r. split; [reflexivity|]. hnf. cbn. now rewrite Z1, Ht.
Qed.
Lemma tnc_fails_begins k i : low_ascii k = true -> no_kelvin k i -> (forall t r, i = t ++ r -> ~ kwd k t) ->
  fails (tag_no_case k) i.
Proof.
  intros K NK H. exists i, KTag. unfold tag_no_case, compare_no_case.
  destruct (zip_same i k) eqn:Z; [|reflexivity]. destruct (Nat.leb_spec (blen k) (blen i)); [|reflexivity].
  destruct (zip_begins k i K NK Z) as (t & r & E & Ht); [assumption|]. destruct (H t r E Ht).
Qed.
Lemma begins_dec k i : low_ascii k = true -> no_kelvin k i ->
  (exists t r, i = t ++ r /\ kwd k t) \/ (forall t r, i = t ++ r -> ~ kwd k t).
Proof.
  intros K NK. destruct (zip_same i k) eqn:Z; [destruct (Nat.leb_spec (blen k) (blen i))|].
  - left. now apply zip_begins.
  - right. intros t r -> Ht. pose proof (kwd_ascii _ _ K Ht) as A.
    rewrite blen_app, (blen_ascii t A), (blen_ascii k) in H by now apply low_ascii_is. rewrite (kwd_length _ _ Ht) in H. lia.
  - right. intros t r -> Ht. rewrite zip_same_self in Z by assumption. discriminate.
Qed.
Lemma tnc_iff k i r t : low_ascii k = true -> no_kelvin k i -> (tag_no_case k i = Ok r t <-> i = t ++ r /\ kwd k t).
Proof.
  intros K NK. split; [|intros [-> H]; now apply tnc_ok].
  intros H. destruct (begins_dec k i K NK) as [(t' & r' & -> & Ht)|F].
  - rewrite tnc_ok in H by assumption. injection H as <- <-. auto.
  - destruct (tnc_fails_begins k i K NK F) as (p & e & E). congruence.
Qed.

(** ** Blanks *)
Definition bu : parser str := alt [recognize (one_of [32; 9]); new_line].
Lemma bu_ws c r : In c [32; 9; 10; 13] -> bu (c :: r) = Ok r [c].
Proof.
  intros H. unfold bu. destruct (in_dec N.eq_dec c [32; 9]) as [H1|H1].
  - apply alt_first. apply (recognize_ok (one_of [32; 9]) [c] r c). now apply one_of_ok.
  - apply alt_next; [now apply recognize_fails, one_of_fails|].
    assert (H2 : In c [13; 10]) by (cbn in *; intuition).
    apply alt_first. unfold new_line.
    apply (recognize_ok _ [c] r (None, c)).
    eapply pair_ok; [apply opt_none, preceded_fails1, chr_fails|apply one_of_ok, H2].
    cbn in H2. intros ->. destruct H2 as [H2|[H2|[]]]; discriminate.
Qed.
Lemma none_of_shrinks cs : shrinks (none_of cs).
Proof. eapply sound_shrinks, sound_none_of. Qed.
Lemma none_of_ok cs c r : ~ In c cs -> none_of cs (c :: r) = Ok r c.
Proof. intros H. unfold none_of. destruct (contains cs c) eqn:E; [now apply contains_In in E|reflexivity]. Qed.
Lemma none_of_fails cs i : match i with c :: _ => In c cs | [] => True end -> fails (none_of cs) i.
Proof.
  intros H. exists i, KNoneOf. unfold none_of. destruct i; [reflexivity|]. apply contains_In in H. now rewrite H.
Qed.
Lemma cons_ne {A} (c : A) r : r <> c :: r.
Proof. intros H. apply (f_equal (@length A)) in H. cbn in H. lia. Qed.
Lemma many_no_nl bd r : no_nl bd -> match r with c :: _ => In c [10; 13] | [] => True end ->
  many_ok (none_of [10; 13]) (bd ++ r) r bd.
Proof.
  intros H Hr. induction H as [|c bd Hc _ IH].
  - apply many_stop. now apply none_of_fails.
  - eapply many_step; [apply none_of_ok; cbn; intuition|apply cons_ne|exact IH].
Qed.
Lemma bu_comment bd nl r : no_nl bd -> In nl [10; 13] -> bu (35 :: bd ++ nl :: r) = Ok r (35 :: bd ++ [nl]).
Proof.
  intros H Hn. unfold bu. apply alt_next; [apply recognize_fails, one_of_fails; cbn; intuition discriminate|].
  apply alt_first. unfold new_line.
  eapply recognize_eq; [|cbn; now rewrite <- app_assoc].
  apply (pair_ok _ _ _ (nl :: r) r (Some bd) nl); [|apply one_of_ok; cbn in *; intuition].
  apply opt_some. eapply preceded_ok; [apply chr_ok|]. apply many0_iff; [apply none_of_shrinks|].
  exact (many_no_nl bd (nl :: r) H Hn).
Qed.
Lemma bu_fails r : solid r -> fails bu r.
Proof.
  intros H. apply alt_fails. constructor; [|constructor; [|constructor]].
  - apply recognize_fails, one_of_fails. destruct r as [|c r]; [exact I|]. destruct H as [H _]. cbn in *. intuition.
  - unfold new_line. apply recognize_fails. destruct r as [|c r].
    + eapply pair_fails2; [apply opt_none, preceded_fails1, chr_fails; exact I|now apply one_of_fails].
    + destruct H as [H1 H2]. destruct (N.eq_dec c 35) as [->|N].
      * specialize (H2 eq_refl). eapply pair_fails2.
        -- apply opt_some. eapply preceded_ok; [apply chr_ok|]. apply many0_iff; [apply none_of_shrinks|].
           pose proof (many_no_nl r [] H2 I) as M. rewrite app_nil_r in M. exact M.
        -- now apply one_of_fails.
      * eapply pair_fails2; [apply opt_none, preceded_fails1, chr_fails; exact N|].
        apply one_of_fails. cbn in *. intuition.
Qed.
Lemma bu_shrinks : shrinks bu.
Proof. eapply sound_shrinks, sd_blank_unit. Qed.
Lemma many_blank b r : blank b -> solid r -> exists l, many_ok bu (b ++ r) r l.
Proof.
  intros H S. induction H as [|c t Hc _ [l IH]|bd nl t Hb Hn _ [l IH]].
  - exists []. now apply many_stop, bu_fails.
  - eexists. eapply many_step; [now apply bu_ws|apply cons_ne|exact IH].
  - eexists. cbn [app]. rewrite <- app_assoc. cbn [app]. eapply many_step; [now apply bu_comment| |exact IH].
    intros E. apply (f_equal (@length char)) in E. cbn in E. rewrite !app_length in E. cbn in E. rewrite app_length in E. lia.
Qed.
Lemma sp_ok b r : blank b -> solid r -> sp (b ++ r) = Ok r b.
Proof.
  intros H S. unfold sp. destruct (many_blank b r H S) as [l M]. eapply recognize_ok.
  apply many0_iff; [apply bu_shrinks|exact M].
Qed.
Lemma sp_nil r : solid r -> sp r = Ok r [].
Proof. apply (sp_ok []). constructor. Qed.
Lemma sp1_ok b r : blank1 b -> solid r -> sp1 (b ++ r) = Ok r b.
Proof.
  intros [H N] S. unfold sp1. destruct (many_blank b r H S) as [l M]. apply (recognize_ok (many1 bu) b r l).
  inversion M as [j F E1 E2|j i1 r' a l' E Ni M' E1]; subst.
  - destruct N. apply (app_inv_tail r). now rewrite E2.
  - eapply many1_cons; [apply bu_shrinks|eassumption..].
Qed.
Lemma sp1_fails r : solid r -> fails sp1 r.
Proof. intros H. apply recognize_fails, many1_fails, bu_fails, H. Qed.
Lemma no_nl_dec r : no_nl r \/ exists bd nl r', r = bd ++ nl :: r' /\ no_nl bd /\ In nl [10; 13].
Proof.
  induction r as [|c r IH]; [left; constructor|].
  destruct (N.eq_dec c 10) as [->|N1]; [right; exists [], 10, r; repeat split; [constructor|cbn; auto]|].
  destruct (N.eq_dec c 13) as [->|N2]; [right; exists [], 13, r; repeat split; [constructor|cbn; auto]|].
  destruct IH as [IH|(bd & nl & r' & -> & H & Hn)]; [left; now constructor|].
  right. exists (c :: bd), nl, r'. repeat split; [now constructor|assumption].
Qed.
Lemma blank_split i : exists b r, i = b ++ r /\ blank b /\ solid r.
Proof.
  remember (length i) as n eqn:E. revert i E. induction n as [n IH] using lt_wf_ind. intros i ->.
  destruct i as [|c i]; [exists [], []; repeat split; constructor|].
  destruct (in_dec N.eq_dec c [32; 9; 10; 13]) as [H|H].
  - destruct (IH (length i) ltac:(cbn; lia) i eq_refl) as (b & r & -> & Hb & Hr).
    exists (c :: b), r. repeat split; [now constructor|assumption].
  - destruct (N.eq_dec c 35) as [->|N].
    + destruct (no_nl_dec i) as [Hi|(bd & nl & r' & -> & Hb & Hn)].
      * exists [], (35 :: i). repeat split; [constructor|assumption|auto].
      * destruct (IH (length r') ltac:(cbn; rewrite app_length; cbn; lia) r' eq_refl) as (b & r & -> & Hb' & Hr).
        exists (35 :: bd ++ nl :: b), r. repeat split; [cbn; now rewrite <- app_assoc| |assumption].
        now apply blank_comment.
    + exists [], (c :: i). repeat split; [constructor|assumption|congruence].
Qed.
Lemma sp_iff i r b : sp i = Ok r b <-> i = b ++ r /\ blank b /\ solid r.
Proof.
  destruct (blank_split i) as (b' & r' & -> & Hb & Hr). rewrite (sp_ok b' r' Hb Hr). split.
  - intros [= <- <-]. auto.
  - intros (E & Hb2 & Hr2). assert (X := sp_ok b r Hb2 Hr2). rewrite <- E, (sp_ok b' r' Hb Hr) in X. exact X.
Qed.
Lemma sp1_iff i r b : sp1 i = Ok r b <-> i = b ++ r /\ blank1 b /\ solid r.
Proof.
  destruct (blank_split i) as (b' & r' & -> & Hb & Hr). split.
  - intros H. destruct b' as [|c b'].
    + exfalso. eapply fails_not_ok; [apply sp1_fails|eassumption]. exact Hr.
    + rewrite (sp1_ok (c :: b') r') in H; [|split; [assumption|discriminate]|assumption].
      injection H as <- <-. repeat split; [assumption|discriminate|assumption].
  - intros (E & Hb2 & Hr2). rewrite E. now apply sp1_ok.
Qed.
Lemma sp_total i : exists r b, sp i = Ok r b.
Proof. destruct (blank_split i) as (b & r & -> & Hb & Hr). exists r, b. now apply sp_ok. Qed.
Lemma solid_first c r : ~ In c [32; 9; 10; 13; 35] -> solid (c :: r).
Proof. intros H. cbn in *. split; [|intros ->]; intuition. Qed.
