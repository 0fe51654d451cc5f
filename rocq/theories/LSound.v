(** Soundness framework: [sound p R] says that whenever [p] succeeds, the text it consumed is a
    writing of its result according to [R]. *)
From Verif Require Export Spec2 LNom.
From Verif Require Export MUpdate.
Notation length := List.length (only parsing).
Open Scope N_scope.
Open Scope list_scope.

Definition sound {A} (p : parser A) (R : A -> str -> Prop) : Prop :=
  forall i r a, p i = Ok r a -> exists t, i = t ++ r /\ R a t.
Notation eats p P := (sound p (fun _ => P)).

(** ** Languages *)
Lemma seq_intro (P Q : str -> Prop) u v : P u -> Q v -> (P ;; Q) (u ++ v).
Proof. intros; exists u, v; auto. Qed.
Lemma seq_assoc P Q R t : (P ;; Q ;; R) t -> ((P ;; Q) ;; R) t.
Proof.
  intros (u & v & -> & Hu & w & x & -> & Hw & Hx). rewrite app_assoc.
  apply seq_intro; [apply seq_intro|]; assumption.
Qed.
Lemma seq_empty_l (P : str -> Prop) t : P t -> (empty ;; P) t.
Proof. intros H. exists [], t. repeat split; auto. Qed.
Lemma seq_none_l {A} (R : A -> str -> Prop) (P : str -> Prop) t : P t -> (opt_ R None ;; P) t.
Proof. apply seq_empty_l. Qed.
Lemma seq_some_l {A} (R : A -> str -> Prop) (P : str -> Prop) a t : (R a ;; P) t -> (opt_ R (Some a) ;; P) t.
Proof. exact (fun H => H). Qed.
Lemma seq_single (P Q : str -> Prop) u : P u -> Q [] -> (P ;; Q) u.
Proof. intros Hu H. rewrite <- (app_nil_r u). now apply seq_intro. Qed.
Lemma may_skip P (Q : str -> Prop) t : Q t -> (may P ;; Q) t.
Proof. intros H. exists [], t. repeat split; auto. now left. Qed.
Lemma may_take P (Q : str -> Prop) t : (P ;; Q) t -> (may P ;; Q) t.
Proof. intros (u & v & -> & Hu & Hv). exists u, v. repeat split; auto. now right. Qed.
Lemma seq_mono (P P' Q Q' : str -> Prop) t : (forall u, P u -> P' u) -> (forall u, Q u -> Q' u) ->
  (P ;; Q) t -> (P' ;; Q') t.
Proof. intros HP HQ (u & v & -> & Hu & Hv). exists u, v; auto. Qed.
Lemma opt_mono {A} (R R' : A -> str -> Prop) o t : (forall a t, R a t -> R' a t) -> opt_ R o t -> opt_ R' o t.
Proof. intros H. destruct o; simpl; auto. Qed.
Lemma star_mono {A} (R R' : A -> str -> Prop) l t : (forall a t, R a t -> R' a t) -> star R l t -> star R' l t.
Proof.
  intros H. revert t. induction l as [|a l IH]; intros t; simpl; [auto|].
  apply seq_mono; auto.
Qed.
Lemma sepby_mono {A} (R R' : A -> str -> Prop) (S S' : str -> Prop) l t : (forall a t, R a t -> R' a t) ->
  (forall t, S t -> S' t) -> sepby R S l t -> sepby R' S' l t.
Proof.
  intros H HS. revert t. induction l as [|a [|b l] IH]; intros t; [auto|apply H|].
  change ((R a ;; S ;; sepby R S (b :: l)) t -> (R' a ;; S' ;; sepby R' S' (b :: l)) t).
  apply seq_mono; [apply H|]. intros u. apply seq_mono; auto.
Qed.
Lemma plus_mono (P Q : str -> Prop) t : (forall t, P t -> Q t) -> plus P t -> plus Q t.
Proof. intros H. induction 1; [apply plus_one | apply plus_more]; auto. Qed.
Lemma plus_star {A} (P : str -> Prop) (l : list A) t : l <> [] -> star (fun _ => P) l t -> plus P t.
Proof.
  revert t; induction l as [|a l IH]; intros t N; [congruence|]. simpl.
  intros (u & v & -> & Hu & Hv). destruct l as [|b l].
  - unfold star, empty in Hv. subst v. rewrite app_nil_r. now apply plus_one.
  - apply plus_more; [assumption|]. now apply IH.
Qed.

(** ** Combinators *)
Lemma sound_weaken {A} (p : parser A) (R R' : A -> str -> Prop) :
  sound p R -> (forall a t, R a t -> R' a t) -> sound p R'.
Proof. intros H W i r a E. destruct (H _ _ _ E) as (t & -> & Ht). eauto. Qed.
Lemma eats_of {A} (p : parser A) (R : A -> str -> Prop) (P : str -> Prop) :
  sound p R -> (forall a t, R a t -> P t) -> eats p P.
Proof. intros H W. eapply sound_weaken; eauto. Qed.

Lemma sound_pair {A B} (p : parser A) (q : parser B) P Q : sound p P -> sound q Q ->
  sound (pair p q) (fun ab => P (fst ab) ;; Q (snd ab)).
Proof.
  intros HP HQ i r [a b] E. unfold pair in E.
  destruct (p i) as [i1 a1|] eqn:Ep; [|discriminate].
  destruct (q i1) as [i2 b1|] eqn:Eq; [|discriminate]. injection E as -> -> ->.
  destruct (HP _ _ _ Ep) as (u & -> & Hu). destruct (HQ _ _ _ Eq) as (v & -> & Hv).
  exists (u ++ v). split; [now rewrite app_assoc|]. now apply seq_intro.
Qed.
Lemma sound_map {A B} (p : parser A) (f : A -> B) (P : A -> str -> Prop) (Q : B -> str -> Prop) : sound p P ->
  (forall a t, P a t -> Q (f a) t) -> sound (map p f) Q.
Proof.
  intros HP W i r b E. unfold map in E. destruct (p i) as [i1 a|] eqn:Ep; [|discriminate].
  injection E as -> <-. destruct (HP _ _ _ Ep) as (u & -> & Hu). eauto.
Qed.
Lemma sound_preceded {A B} (p : parser A) (q : parser B) P Q : eats p P -> sound q Q ->
  sound (preceded p q) (fun b => P ;; Q b).
Proof. intros HP HQ. eapply sound_map; [apply sound_pair; eassumption|]. now intros [a b] t. Qed.
Lemma sound_terminated {A B} (p : parser A) (q : parser B) P Q : sound p P -> eats q Q ->
  sound (terminated p q) (fun a => P a ;; Q).
Proof.
  intros HP HQ.
  exact (sound_map (pair p q) fst _ _ (sound_pair p q P (fun _ => Q) HP HQ) (fun '(a, b) t H => H)).
Qed.
Lemma sound_delimited {A B C} (p : parser A) (q : parser B) (s : parser C) P Q S :
  eats p P -> sound q Q -> eats s S -> sound (delimited p q s) (fun b => P ;; Q b ;; S).
Proof. intros. apply sound_preceded; [assumption|]. now apply sound_terminated. Qed.
Lemma sound_separated_pair {A B C} (p : parser A) (s : parser B) (q : parser C) P S Q :
  sound p P -> eats s S -> sound q Q ->
  sound (separated_pair p s q) (fun ab => P (fst ab) ;; S ;; Q (snd ab)).
Proof. intros. unfold separated_pair. apply (sound_pair p _ P (fun b => S ;; Q b)); [assumption|]. now apply sound_preceded. Qed.

Lemma sound_alt {A} (ps : list (parser A)) R : Forall (fun p => sound p R) ps -> sound (alt ps) R.
Proof.
  induction 1 as [|p ps Hp Hps IH]; intros i r a E; [discriminate|].
  destruct ps as [|q ps]; [exact (Hp _ _ _ E)|].
  rewrite alt_cons in E by discriminate.
  destruct (p i) as [i1 a1|[]] eqn:Ep; try discriminate; [injection E as -> ->; exact (Hp _ _ _ Ep)|].
  exact (IH _ _ _ E).
Qed.
Lemma sound_alt_nil {A} (R : A -> str -> Prop) : sound (alt []) R.
Proof. discriminate. Qed.
Lemma sound_alt_cons {A} (p : parser A) ps R : sound p R -> sound (alt ps) R -> sound (alt (p :: ps)) R.
Proof.
  intros Hp Hps i r a E. destruct ps as [|q ps]; [exact (Hp _ _ _ E)|].
  rewrite alt_cons in E by discriminate.
  destruct (p i) as [i1 a1|[]] eqn:Ep; try discriminate; [injection E as -> ->; exact (Hp _ _ _ Ep)|].
  exact (Hps _ _ _ E).
Qed.
Lemma sound_opt {A} (p : parser A) R : sound p R -> sound (opt p) (opt_ R).
Proof.
  intros H i r o E. unfold opt in E.
  destruct (p i) as [i1 a|[]] eqn:Ep; try discriminate; injection E as <- <-.
  - exact (H _ _ _ Ep).
  - exists []. split; reflexivity.
Qed.
Lemma eats_opt {A} (p : parser A) P : eats p P -> eats (opt p) (may P).
Proof.
  intros H. eapply eats_of; [apply sound_opt, H|]. intros [a|] t Ht; [now right | now left].
Qed.
Lemma sound_cut {A} (p : parser A) R : sound p R -> sound (cut p) R.
Proof.
  intros H i r o E. unfold cut in E. destruct (p i) as [i1 a|[]] eqn:Ep; try discriminate.
  injection E as -> ->. exact (H _ _ _ Ep).
Qed.
Lemma eats_cut {A} (p : parser A) P : eats p P -> eats (cut p) P.
Proof. apply sound_cut. Qed.
Lemma sound_map_res {A B} (p : parser A) (f : A -> option B) R : sound p R ->
  sound (map_res p f) (fun b t => exists a, f a = Some b /\ R a t).
Proof.
  intros H i r b E. unfold map_res in E. destruct (p i) as [i1 a|[]] eqn:Ep; try discriminate.
  destruct (f a) as [b'|] eqn:Ef; [|discriminate]. injection E as -> ->.
  destruct (H _ _ _ Ep) as (t & -> & Ht). eauto.
Qed.
Lemma sound_recognize {A} (p : parser A) P : eats p P -> sound (recognize p) (text P).
Proof.
  intros H i r s E. unfold recognize in E. destruct (p i) as [i1 a|[]] eqn:Ep; try discriminate.
  injection E as -> <-. destruct (H _ _ _ Ep) as (t & -> & Ht). exists t. split; [reflexivity|].
  rewrite app_length.
  replace (length t + length r - length r)%nat with (length t + 0)%nat by lia.
  rewrite firstn_app_2. simpl. rewrite app_nil_r. split; auto.
Qed.

Lemma many0_loop_sound {A} (p : parser A) R : sound p R -> forall n i r l,
  many0_loop n p i = Ok r l -> exists t, i = t ++ r /\ star R l t.
Proof.
  intros H. induction n as [|n IH]; intros i r l E; [discriminate|]. simpl in E.
  destruct (p i) as [i1 a|[]] eqn:Ep; try discriminate.
  - destruct (str_eqb i1 i); [discriminate|].
    destruct (many0_loop n p i1) as [i2 l'|] eqn:El; [|discriminate]. injection E as -> <-.
    destruct (H _ _ _ Ep) as (u & -> & Hu). destruct (IH _ _ _ El) as (v & -> & Hv).
    exists (u ++ v). split; [now rewrite app_assoc|]. now apply seq_intro.
  - injection E as -> <-. exists []. split; reflexivity.
Qed.
Lemma many1_loop_sound {A} (p : parser A) R : sound p R -> forall n i r l,
  many1_loop n p i = Ok r l -> exists t, i = t ++ r /\ star R l t.
Proof.
  intros H. induction n as [|n IH]; intros i r l E; [discriminate|]. simpl in E.
  destruct (p i) as [i1 a|[]] eqn:Ep; try discriminate.
  - destruct (str_eqb i1 i); [discriminate|].
    destruct (many1_loop n p i1) as [i2 l'|] eqn:El; [|discriminate]. injection E as -> <-.
    destruct (H _ _ _ Ep) as (u & -> & Hu). destruct (IH _ _ _ El) as (v & -> & Hv).
    exists (u ++ v). split; [now rewrite app_assoc|]. now apply seq_intro.
  - injection E as -> <-. exists []. split; reflexivity.
Qed.
Lemma sound_many0 {A} (p : parser A) R : sound p R -> sound (many0 p) (star R).
Proof. intros H i r l E. exact (many0_loop_sound p R H _ _ _ _ E). Qed.
Lemma sound_many1 {A} (p : parser A) R : sound p R -> sound (many1 p) (fun l t => l <> [] /\ star R l t).
Proof.
  intros H i r l E. unfold many1 in E. destruct (p i) as [i1 a|] eqn:Ep; [|discriminate].
  destruct (many1_loop _ p i1) as [i2 l'|] eqn:El; [|discriminate]. injection E as -> <-.
  destruct (H _ _ _ Ep) as (u & -> & Hu). destruct (many1_loop_sound p R H _ _ _ _ El) as (v & -> & Hv).
  exists (u ++ v). split; [now rewrite app_assoc|]. split; [discriminate|]. now apply seq_intro.
Qed.
Lemma eats_many1 {A} (p : parser A) P : eats p P -> eats (many1 p) (plus P).
Proof.
  intros H. eapply eats_of; [apply sound_many1, H|]. intros l t [N S]. now apply plus_star in S.
Qed.

(** the separator is never empty *)
Definition nonempty (P : str -> Prop) : str -> Prop := fun t => P t /\ t <> [].
Lemma sep_loop_sound {A B} (s : parser B) (p : parser A) S R : eats s S -> sound p R -> forall n i r l,
  sep_loop n s p i = Ok r l -> exists t, i = t ++ r /\ star (fun a => nonempty S ;; R a) l t.
Proof.
  intros HS H. induction n as [|n IH]; intros i r l E; [discriminate|]. simpl in E.
  destruct (s i) as [i1 x|[]] eqn:Es; try discriminate.
  - destruct (str_eqb i1 i) eqn:Eq; [discriminate|].
    destruct (p i1) as [i2 a|[]] eqn:Ep; try discriminate.
    + destruct (str_eqb i2 i); [discriminate|].
      destruct (sep_loop n s p i2) as [i3 l'|] eqn:El; [|discriminate]. injection E as -> <-.
      destruct (HS _ _ _ Es) as (w & -> & Hw). destruct (H _ _ _ Ep) as (u & -> & Hu).
      destruct (IH _ _ _ El) as (v & -> & Hv).
      exists ((w ++ u) ++ v). split; [now rewrite !app_assoc|].
      apply seq_intro; [|assumption]. apply seq_intro; [|assumption]. split; [assumption|].
      intros ->. apply str_eqb_neq in Eq. now apply Eq.
    + injection E as -> <-. exists []. split; reflexivity.
  - injection E as -> <-. exists []. split; reflexivity.
Qed.
Lemma sepby_cons_star {A} (R : A -> str -> Prop) S a l u v :
  R a u -> star (fun a => S ;; R a) l v -> sepby R S (a :: l) (u ++ v).
Proof.
  revert a u v. induction l as [|b l IH]; intros a u v Hu Hv.
  - unfold star, empty in Hv. subst v. now rewrite app_nil_r.
  - destruct Hv as (x & y & -> & (x1 & x2 & -> & H1 & H2) & Hy).
    change ((R a ;; S ;; sepby R S (b :: l)) (u ++ (x1 ++ x2) ++ y)).
    apply seq_intro; [assumption|]. rewrite <- app_assoc. apply seq_intro; [assumption|]. now apply IH.
Qed.
Lemma sound_separated_nonempty_list {A B} (s : parser B) (p : parser A) S R : eats s S -> sound p R ->
  sound (separated_nonempty_list s p) (fun l t => l <> [] /\ sepby R (nonempty S) l t).
Proof.
  intros HS H i r l E. unfold separated_nonempty_list in E.
  destruct (p i) as [i1 a|] eqn:Ep; [|discriminate]. destruct (str_eqb i1 i); [discriminate|].
  destruct (sep_loop _ s p i1) as [i2 l'|] eqn:El; [|discriminate]. injection E as -> <-.
  destruct (H _ _ _ Ep) as (u & -> & Hu). destruct (sep_loop_sound _ _ _ _ HS H _ _ _ _ El) as (v & -> & Hv).
  exists (u ++ v). split; [now rewrite app_assoc|]. split; [discriminate|]. now apply sepby_cons_star.
Qed.
Lemma sound_separated_list {A B} (s : parser B) (p : parser A) S R : eats s S -> sound p R ->
  sound (separated_list s p) (sepby R (nonempty S)).
Proof.
  intros HS H i r l E. unfold separated_list in E.
  destruct (p i) as [i1 a|[]] eqn:Ep; try discriminate.
  - destruct (str_eqb i1 i); [discriminate|].
    destruct (sep_loop _ s p i1) as [i2 l'|] eqn:El; [|discriminate]. injection E as -> <-.
    destruct (H _ _ _ Ep) as (u & -> & Hu). destruct (sep_loop_sound _ _ _ _ HS H _ _ _ _ El) as (v & -> & Hv).
    exists (u ++ v). split; [now rewrite app_assoc|]. now apply sepby_cons_star.
  - injection E as -> <-. exists []. split; reflexivity.
Qed.

Lemma sound_iter {A} (body : parser A -> parser A) R : (forall p, sound p R -> sound (body p) R) ->
  forall n, sound (iter n body) R.
Proof.
  intros H. induction n as [|n IH]; [discriminate|]. intros i r a E. exact (H _ IH i r a E).
Qed.
Lemma sound_fixp {A} (body : parser A -> parser A) R : (forall p, sound p R -> sound (body p) R) ->
  sound (fixp body) R.
Proof. intros H i r a E. exact (sound_iter body R H _ _ _ _ E). Qed.

(** ** Leaves *)
Lemma sound_tag s : sound (tag s) (fun x t => x = s /\ t = s).
Proof.
  intros i r a E. unfold tag in E. destruct (strip_prefix s i) as [r'|] eqn:Es; [|discriminate].
  injection E as -> <-. apply strip_prefix_some in Es. eauto.
Qed.
Lemma eats_tag s : eats (tag s) (fun t => t = s).
Proof. eapply eats_of; [apply sound_tag|]. now intros a t [_ ?]. Qed.
Lemma eats_chr c : eats (chr c) (fun t => t = [c]).
Proof.
  intros [|x i] r a E; [discriminate|]. unfold chr in E. destruct (x =? c) eqn:Ec; [|discriminate].
  apply N.eqb_eq in Ec. subst. injection E as <- <-. now exists [c].
Qed.
Lemma contains_In cs c : contains cs c = true <-> In c cs.
Proof.
  unfold contains. rewrite existsb_exists. split.
  - intros (x & H & E). apply N.eqb_eq in E. now subst.
  - intros H. exists c. split; [assumption|apply N.eqb_refl].
Qed.
Lemma sound_one_of cs : sound (one_of cs) (fun c t => t = [c] /\ In c cs).
Proof.
  intros [|x i] r a E; [discriminate|]. unfold one_of in E. destruct (contains cs x) eqn:Ec; [|discriminate].
  apply contains_In in Ec. injection E as <- <-. exists [x]. auto.
Qed.
Lemma sound_none_of cs : sound (none_of cs) (fun c t => t = [c] /\ ~ In c cs).
Proof.
  intros [|x i] r a E; [discriminate|]. unfold none_of in E. destruct (contains cs x) eqn:Ec; [discriminate|].
  injection E as <- <-. exists [x]. repeat split; auto. intros H%contains_In. congruence.
Qed.
Lemma span_all f i : all f (fst (span f i)).
Proof.
  induction i as [|c i IH]; [constructor|]. simpl. destruct (f c) eqn:E; [|constructor].
  destruct (span f i); simpl in *. now constructor.
Qed.
Lemma sound_take_while f : sound (take_while f) (text (all f)).
Proof.
  intros i r a E. unfold take_while in E. pose proof (span_all f i) as H. pose proof (span_app f i) as A.
  destruct (span f i) as [u v]. injection E as -> ->. exists a. split; [assumption|]. split; auto.
Qed.
Lemma sound_take1 k f : sound (take1 k f) (text (fun t => t <> [] /\ all f t)).
Proof.
  intros i r a E. unfold take1 in E. pose proof (span_all f i) as H. pose proof (span_app f i) as A.
  destruct (span f i) as [[|x u] v]; [discriminate|]. injection E as -> <-. exists (x :: u).
  split; [assumption|]. split; [reflexivity|]. split; [discriminate|assumption].
Qed.
Lemma sound_take_one f : sound (take_while_m_n 1 1 f) (fun s t => s = t /\ exists c, t = [c] /\ f c = true).
Proof.
  intros [|c i] r a E; [discriminate|]. unfold take_while_m_n in E. simpl in E.
  destruct (f c) eqn:Ec; simpl in E; [|discriminate]. injection E as -> <-.
  exists [c]. split; [reflexivity|]. split; [reflexivity|]. eauto.
Qed.

(** case-insensitive keywords *)
Lemma lower_to_lower c : c <> 0x212A -> to_lower c = lower c.
Proof.
  intros H. unfold to_lower, lower, in_ranges, existsb. rewrite orb_false_r.
  destruct ((65 <=? c) && (c <=? 90)); [reflexivity|]. apply N.eqb_neq in H. now rewrite H.
Qed.
(** a lower case ASCII keyword whose only 'k', if any, is its last letter *)
Definition kw_ok (k : str) : bool :=
  forallb (fun c => (c <? 128) && negb ((65 <=? c) && (c <=? 90))) k &&
  forallb (fun c => negb (c =? 107)) (removelast k).

Lemma zip_split_kw k : kw_ok k = true -> forall i a b, zip_same i k = true ->
  split_at (blen k) i = Some (a, b) -> List.map lower a = k.
Proof.
  unfold kw_ok. induction k as [|x k IH]; intros K i a b Z E.
  - simpl in E. destruct i; injection E as <- <-; reflexivity.
  - apply andb_true_iff in K. destruct K as [K1 K2]. simpl in K1. apply andb_true_iff in K1.
    destruct K1 as [Kx K1]. apply andb_true_iff in Kx. destruct Kx as [Kx Ku].
    apply N.ltb_lt in Kx. apply negb_true_iff in Ku.
    assert (Ux : utf8_len x = 1%nat) by (unfold utf8_len; apply N.ltb_lt in Kx; now rewrite Kx).
    assert (Lx : to_lower x = x).
    { unfold to_lower. rewrite Ku. destruct (x =? 0x212A) eqn:Ek; [apply N.eqb_eq in Ek; lia|reflexivity]. }
    cbn [blen] in E. rewrite Ux in E.
    destruct i as [|y i]; [discriminate|]. cbn [zip_same] in Z. apply andb_true_iff in Z.
    destruct Z as [Zy Z]. apply N.eqb_eq in Zy. rewrite Lx in Zy.
    cbn [split_at Nat.add] in E.
    destruct (Nat.leb (utf8_len y) (S (blen k))) eqn:Ly; [|discriminate].
    destruct (N.eq_dec y 0x212A) as [->|Ny].
    + (* the Kelvin sign: then x is 'k', so it is the last letter, and the slice panics *)
      assert (x = 107) as -> by (symmetry; exact Zy).
      destruct k as [|z k]; [discriminate|].
      change (removelast (107 :: z :: k)) with (107 :: removelast (z :: k)) in K2. discriminate.
    + rewrite lower_to_lower in Zy by assumption.
      assert (Hy : y < 128).
      { unfold lower in Zy. destruct (in_ranges [(65, 90)] y) eqn:Ey; [|lia].
        unfold in_ranges, existsb in Ey. rewrite orb_false_r in Ey. apply andb_true_iff in Ey.
        destruct Ey as [_ Ey]. apply N.leb_le in Ey. lia. }
      assert (Uy : utf8_len y = 1%nat) by (unfold utf8_len; apply N.ltb_lt in Hy; now rewrite Hy).
      rewrite Uy in E. replace (S (blen k) - 1)%nat with (blen k) in E by lia.
      destruct (split_at (blen k) i) as [[a' b']|] eqn:Es; [|discriminate]. injection E as <- <-.
      cbn [List.map]. rewrite Zy. f_equal. refine (IH _ _ _ _ Z Es). rewrite K1. cbn [andb].
      destruct k as [|z k]; [reflexivity|].
      change (removelast (x :: z :: k)) with (x :: removelast (z :: k)) in K2.
      cbn [forallb] in K2. apply andb_true_iff in K2. apply K2.
Qed.

Definition kwd (k : str) : str -> Prop := fun t => List.map lower t = k.
Lemma sound_tag_no_case k : kw_ok k = true -> sound (tag_no_case k) (text (kwd k)).
Proof.
  intros K i r a E. unfold tag_no_case, compare_no_case in E.
  destruct (zip_same i k) eqn:Z; [|discriminate]. destruct (Nat.leb (blen k) (blen i)); [|discriminate].
  destruct (split_at (blen k) i) as [[u v]|] eqn:S; [|discriminate]. injection E as -> ->.
  exists a. split; [now apply split_at_app in S|]. split; [reflexivity|]. exact (zip_split_kw k K _ _ _ Z S).
Qed.
Lemma sound_tag_no_case_streaming k : kw_ok k = true -> sound (tag_no_case_streaming k) (text (kwd k)).
Proof.
  intros K i r a E. unfold tag_no_case_streaming, compare_no_case in E.
  destruct (zip_same i k) eqn:Z; [|discriminate]. destruct (Nat.leb (blen k) (blen i)); [|discriminate].
  destruct (split_at (blen k) i) as [[u v]|] eqn:S; [|discriminate]. injection E as -> ->.
  exists a. split; [now apply split_at_app in S|]. split; [reflexivity|]. exact (zip_split_kw k K _ _ _ Z S).
Qed.
(** a keyword without letters has only one writing *)
Definition no_letter (k : str) : bool := forallb (fun c => negb ((97 <=? c) && (c <=? 122))) k.
Lemma kwd_plain k t : no_letter k = true -> kwd k t -> t = k.
Proof.
  unfold kwd. revert k. induction t as [|c t IH]; intros k N E; simpl in E; [now subst|].
  destruct k as [|x k]; [discriminate|]. injection E as E1 E2. simpl in N. apply andb_true_iff in N.
  destruct N as [N1 N2]. rewrite (IH k N2 E2). f_equal. unfold lower in E1.
  destruct (in_ranges [(65, 90)] c) eqn:Ec; [|assumption].
  unfold in_ranges, existsb in Ec. rewrite orb_false_r in Ec. apply andb_true_iff in Ec. destruct Ec as [E3 E4].
  apply N.leb_le in E3, E4. apply negb_true_iff, andb_false_iff in N1.
  destruct N1 as [N1|N1]; apply N.leb_gt in N1; lia.
Qed.

(** ** Consumed text only *)
Lemma eats_pair {A B} (p : parser A) (q : parser B) P Q : eats p P -> eats q Q -> eats (pair p q) (P ;; Q).
Proof. intros HP HQ. exact (sound_pair p q (fun _ => P) (fun _ => Q) HP HQ). Qed.
Lemma eats_map {A B} (p : parser A) (f : A -> B) P : eats p P -> eats (map p f) P.
Proof. intros HP. exact (sound_map p f (fun _ => P) (fun _ => P) HP (fun _ _ H => H)). Qed.
Lemma eats_preceded {A B} (p : parser A) (q : parser B) P Q : eats p P -> eats q Q -> eats (preceded p q) (P ;; Q).
Proof. intros HP HQ. exact (sound_preceded p q P (fun _ => Q) HP HQ). Qed.
Lemma eats_terminated {A B} (p : parser A) (q : parser B) P Q : eats p P -> eats q Q -> eats (terminated p q) (P ;; Q).
Proof. intros HP HQ. exact (sound_terminated p q (fun _ => P) Q HP HQ). Qed.
Lemma eats_delimited {A B C} (p : parser A) (q : parser B) (s : parser C) P Q S :
  eats p P -> eats q Q -> eats s S -> eats (delimited p q s) (P ;; Q ;; S).
Proof. intros. now apply (sound_delimited p q s P (fun _ => Q) S). Qed.
Lemma eats_recognize {A} (p : parser A) P : eats p P -> eats (recognize p) P.
Proof. intros HP. eapply eats_of; [apply sound_recognize, HP|]. intros a t [-> ?]; assumption. Qed.
Lemma eats_many0 {A} (p : parser A) P : eats p P -> eats (many0 p) (fun t => exists l : list unit, star (fun _ => P) l t).
Proof.
  intros HP. eapply eats_of; [apply sound_many0, HP|]. intros l. induction l as [|a l IH]; intros t H.
  - now exists [].
  - destruct H as (u & v & -> & Hu & Hv). destruct (IH _ Hv) as (l' & Hl).
    exists (tt :: l'). now apply seq_intro.
Qed.
Lemma eats_tag_no_case k : kw_ok k = true -> eats (tag_no_case k) (kwd k).
Proof. intros K. eapply eats_of; [now apply sound_tag_no_case|]. intros a t [-> ?]; assumption. Qed.
Lemma eats_tag_no_case_streaming k : kw_ok k = true -> eats (tag_no_case_streaming k) (kwd k).
Proof. intros K. eapply eats_of; [now apply sound_tag_no_case_streaming|]. intros a t [-> ?]; assumption. Qed.

(** ** Blanks *)
Lemma blank_app u v : blank u -> blank v -> blank (u ++ v).
Proof.
  induction 1 as [|c t Hc Ht IH|bd nl t Hb Hn Ht IH]; intros Hv; cbn [app].
  - assumption.
  - constructor; auto.
  - rewrite <- app_assoc. cbn [app]. apply blank_comment; auto.
Qed.
Definition blank_unit (t : str) : Prop :=
  (exists c, t = [c] /\ In c [32; 9; 10; 13]) \/
  (exists bd nl, t = 35 :: bd ++ [nl] /\ Forall (fun c => c <> 10 /\ c <> 13) bd /\ In nl [10; 13]).
Lemma blank_unit_blank t : blank_unit t -> blank t /\ t <> [].
Proof.
  intros [(c & -> & H) | (bd & nl & -> & H & Hn)]; (split; [|discriminate]).
  - constructor; [assumption|constructor].
  - apply blank_comment; [assumption..|constructor].
Qed.
Lemma star_none_of cs l t : star (fun c u => u = [c] /\ ~ In c cs) l t -> Forall (fun c => ~ In c cs) t.
Proof.
  revert t. induction l as [|a l IH]; intros t H; [hnf in H; subst; constructor|].
  destruct H as (u & v & -> & (-> & Hu) & Hv). constructor; auto.
Qed.
Lemma sd_new_line : eats new_line blank_unit.
Proof.
  unfold new_line. apply eats_recognize. eapply eats_of.
  - eapply sound_pair; [apply sound_opt, sound_preceded; [apply eats_chr | apply sound_many0, sound_none_of]
                       | apply sound_one_of].
  - intros [[l|] c] t (u & v & -> & Hu & -> & Hc); cbn [fst snd opt_] in *.
    + destruct Hu as (x & y & -> & -> & Hy). apply star_none_of in Hy. right. exists y, c.
      rewrite <- app_assoc. repeat split.
      * eapply Forall_impl; [|exact Hy]. intros d Hd. split; intros ->; apply Hd; simpl; auto.
      * destruct Hc as [<-|[<-|[]]]; simpl; auto.
    + left. exists c. hnf in Hu. subst u. split; [reflexivity|].
      destruct Hc as [<-|[<-|[]]]; simpl; auto.
Qed.
Lemma sd_blank_unit : eats (alt [recognize (one_of [32; 9]); new_line]) blank_unit.
Proof.
  apply sound_alt_cons; [|apply sound_alt_cons; [apply sd_new_line | apply sound_alt_nil]].
  apply eats_recognize. eapply eats_of; [apply sound_one_of|]. intros c t [-> H]. left. exists c.
  split; [reflexivity|]. destruct H as [<-|[<-|[]]]; simpl; auto.
Qed.
Lemma sd_sp : eats sp blank.
Proof.
  unfold sp. apply eats_recognize. eapply eats_of; [apply sound_many0, sd_blank_unit|].
  intros l. induction l as [|a l IH]; intros t H; [hnf in H; subst; constructor|].
  destruct H as (u & v & -> & Hu & Hv). apply blank_app; [apply blank_unit_blank, Hu | apply IH, Hv].
Qed.
Lemma sd_sp1 : eats sp1 blank1.
Proof.
  unfold sp1. apply eats_recognize. eapply eats_of; [apply sound_many1, sd_blank_unit|].
  intros [|a l] t [N H]; [congruence|]. destruct H as (u & v & -> & Hu & Hv).
  apply blank_unit_blank in Hu. destruct Hu as [Hu Nu]. split.
  - apply blank_app; [assumption|]. clear N. revert v Hv. induction l as [|b l IH]; intros t H; [hnf in H; subst; constructor|].
    destruct H as (x & v & -> & Hx & Hv). apply blank_app; [apply blank_unit_blank, Hx | apply IH, Hv].
  - intros E. apply app_eq_nil in E. tauto.
Qed.

(** ** Automation *)
Create HintDb sound discriminated.
#[export] Hint Constants Opaque : sound.

Ltac sde :=
  lazymatch goal with
  | |- eats (pair _ _) _ => eapply eats_pair; [sde | sde]
  | |- eats (tuple3 _ _ _) _ => unfold tuple3; sde
  | |- eats (map _ _) _ => eapply eats_map; sde
  | |- eats (preceded _ _) _ => eapply eats_preceded; [sde | sde]
  | |- eats (terminated _ _) _ => eapply eats_terminated; [sde | sde]
  | |- eats (delimited _ _ _) _ => eapply eats_delimited; [sde | sde | sde]
  | |- eats (sp_enc _) _ => unfold sp_enc; sde
  | |- eats (sp_enc1 _) _ => unfold sp_enc1; sde
  | |- eats comma _ => unfold comma; sde
  | |- eats (kw_by _) _ => unfold kw_by; sde
  | |- eats (opt _) _ => eapply eats_opt; sde
  | |- eats (cut _) _ => eapply eats_cut; sde
  | |- eats (many1 _) _ => eapply eats_many1; sde
  | |- eats (many0 _) _ => eapply eats_many0; sde
  | |- eats (recognize _) _ => eapply eats_recognize; sde
  | |- eats (tag _) _ => apply eats_tag
  | |- eats (chr _) _ => apply eats_chr
  | |- eats (tag_no_case _) _ => apply eats_tag_no_case; reflexivity
  | |- eats (tag_no_case_streaming _) _ => apply eats_tag_no_case_streaming; reflexivity
  | |- eats sp _ => apply sd_sp
  | |- eats sp1 _ => apply sd_sp1
  | |- eats _ _ => solve [eauto with sound nocore]
  end.

Ltac sdv :=
  lazymatch goal with
  | |- sound (pair _ _) _ => eapply sound_pair; [sdv | sdv]
  | |- sound (tuple3 _ _ _) _ => unfold tuple3; sdv
  | |- sound (tuple4 _ _ _ _) _ => unfold tuple4; sdv
  | |- sound (tuple5 _ _ _ _ _) _ => unfold tuple5; sdv
  | |- sound (preceded _ _) _ => eapply sound_preceded; [sde | sdv]
  | |- sound (terminated _ _) _ => eapply sound_terminated; [sdv | sde]
  | |- sound (delimited _ _ _) _ => eapply sound_delimited; [sde | sdv | sde]
  | |- sound (separated_pair _ _ _) _ => eapply sound_separated_pair; [sdv | sde | sdv]
  | |- sound (sp_sep _ _) _ => unfold sp_sep; sdv
  | |- sound (sp_sep1 _ _) _ => unfold sp_sep1; sdv
  | |- sound (bracketted _) _ => unfold bracketted; sdv
  | |- sound (preceded_tag _ _) _ => unfold preceded_tag; sdv
  | |- sound (preceded_tag1 _ _) _ => unfold preceded_tag1; sdv
  | |- sound (preceded_bracketted _ _) _ => unfold preceded_bracketted; sdv
  | |- sound (sp_enc _) _ => unfold sp_enc; sdv
  | |- sound (sp_enc1 _) _ => unfold sp_enc1; sdv
  | |- sound (opt _) _ => eapply sound_opt; sdv
  | |- sound (cut _) _ => eapply sound_cut; sdv
  | |- sound (many0 _) _ => eapply sound_many0; sdv
  | |- sound (many1 _) _ => eapply sound_many1; sdv
  | |- sound (separated_list _ _) _ => eapply sound_separated_list; [sde | sdv]
  | |- sound (separated_nonempty_list _ _) _ => eapply sound_separated_nonempty_list; [sde | sdv]
  | |- sound (recognize _) _ => eapply sound_recognize; sde
  | |- sound (tag _) _ => apply sound_tag
  | |- sound (chr _) _ => apply eats_chr
  | |- sound (one_of _) _ => apply sound_one_of
  | |- sound (none_of _) _ => apply sound_none_of
  | |- sound (take_while _) _ => apply sound_take_while
  | |- sound (take1 _ _) _ => apply sound_take1
  | |- sound (take_while1 _) _ => apply sound_take1
  | |- sound (tag_no_case _) _ => apply sound_tag_no_case; reflexivity
  | |- sound sp _ => apply sd_sp
  | |- sound sp1 _ => apply sd_sp1
  | |- _ => solve [eauto with sound nocore]
  end.

(** take hypotheses about a text apart into pieces of text *)
Ltac take_apart :=
  repeat match goal with
  | H : (_ ;; _) ?t |- _ => is_var t; destruct H as (? & ? & -> & ? & ?)
  | H : exists _, _ |- _ => destruct H
  | H : opt_ _ (Some _) _ |- _ => cbn [opt_] in H
  | H : opt_ _ None _ |- _ => red in H; red in H; subst
  | H : empty _ |- _ => red in H; subst
  end.
Ltac options := repeat match goal with H : opt_ _ ?o _ |- _ => is_var o; destruct o end.
Lemma nonempty_intro (P : str -> Prop) t : P t -> t <> [] -> nonempty P t.
Proof. now split. Qed.
Lemma nonempty_drop (P Q : str -> Prop) t : (forall u, P u -> Q u) -> nonempty P t -> Q t.
Proof. intros H [Ht _]. auto. Qed.
Ltac leaf :=
  lazymatch goal with
  | |- [] = [] => reflexivity
  | |- empty [] => reflexivity
  | |- blank [] => constructor
  | |- _ => first
    [ assumption
    | match goal with H : text (kwd _) _ ?t |- kw _ ?t => destruct H as [-> H]; exact H end
    | match goal with H : kwd ?k ?t |- lit _ ?t => exact (kwd_plain k t eq_refl H) end
    | match goal with H : star _ ?l ?t |- star _ ?l ?t => exact H end
    | match goal with H : sepby _ _ ?l ?t |- sepby _ _ ?l ?t =>
        first [ exact H
              | refine (sepby_mono _ _ _ _ _ _ _ _ H);
                [ solve [intros ? ? ?; assumption] | solve [intros ? [? ?]; assumption | intros ? ?; assumption] ] ]
      end
    | match goal with H : ?l <> [] /\ _ |- ?l <> [] /\ _ =>
        destruct H; split; [assumption | leaf] end
    | match goal with H : ?l <> [] /\ _ |- sepby1 _ _ ?l _ =>
        destruct H; split; [assumption | leaf] end
    | solve [eexists; eassumption]
    | match goal with H : _ = _ /\ ?t = _ |- lit _ ?t => exact (proj2 H) end
    | reflexivity ]
  end.
Ltac rebuild :=
  lazymatch goal with
  | |- ((_ ;; _) ;; _) _ => apply seq_assoc; rebuild
  | |- (empty ;; _) _ => apply seq_empty_l; rebuild
  | |- (opt_ _ None ;; _) _ => apply seq_none_l; rebuild
  | |- (opt_ _ (Some _) ;; _) _ => apply seq_some_l; cbv beta; rebuild
  | |- (?P ;; ?Q) (_ ++ _) => apply seq_intro; [leaf | rebuild]
  | |- (?P ;; ?Q) _ => apply seq_single; [leaf | rebuild]
  | |- opt_ _ (Some _) _ => cbn [opt_]; rebuild
  | |- opt_ _ None _ => red; rebuild
  | |- _ => leaf
  end.
Ltac tuples :=
  repeat match goal with
  | p : (_ * _)%type |- _ => destruct p
  end.
(** the obligations left by [sound_map] *)
Ltac unfold_lang := unfold fun0, fun1, fun2, R_bracketted, comma_, bar, paren, R_nil, padded, padded1.
Ltac write1 :=
  unfold_lang; rewrite ?app_nil_l, ?app_nil_r, <- ?app_assoc; rebuild.
Ltac head_of t := lazymatch t with ?f _ => head_of f | _ => t end.
Ltac open_goal := lazymatch goal with
  | |- (_ ;; _) _ => idtac
  | |- ?R ?t => let h := head_of R in try unfold h; cbv beta iota end.
Ltac unfold_lang_in H := cbv beta in H;
  unfold fun0, fun1, fun2, R_bracketted, comma_, bar, paren, R_nil, padded, padded1 in H.
Ltac open_hyps := repeat match goal with H : ?P ?t |- _ => is_var t; progress unfold_lang_in H end.
Ltac write0 :=
  cbn [fst snd] in *; open_hyps; take_apart; open_hyps; take_apart; tuples; cbn [fst snd] in *;
  first [ assumption | solve [write1] | options; take_apart; write1 ].
Ltac write := intros; tuples; cbv beta iota; open_goal; write0.
(** [sd_alt tac]: one goal per alternative *)
Ltac alts :=
  lazymatch goal with
  | |- sound (alt (_ :: _)) _ => apply sound_alt_cons; [|alts]
  | |- sound (alt []) _ => apply sound_alt_nil
  end.
