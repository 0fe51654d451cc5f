(** Inside a block the parsers do not look behind its closing brace: combinators and terminals. *)
From Verif Require Export SpecBlock.
From Verif Require Import LTerm LGood2 LEval.
From Verif Require Import Nom.
Notation length := List.length (only parsing).
Open Scope N_scope.
Open Scope list_scope.

(** ** Texts *)
Definition easy (c : char) : bool := negb (contains [34; 35; 39; 92; 123; 125] c).
Lemma easy_by f : existsb f [34; 35; 39; 92; 123; 125] = false -> forall c, f c = true -> easy c = true.
Proof.
  intros H c Hc. unfold easy, contains. destruct (existsb (N.eqb c) _) eqn:X; [|reflexivity].
  apply existsb_exists in X. destruct X as (y & I & Y). apply N.eqb_eq in Y. subst y.
  assert (existsb f [34; 35; 39; 92; 123; 125] = true) by (apply existsb_exists; eauto). congruence.
Qed.
Lemma ends_tail d c i : easy c = true -> ends (S d) (c :: i) -> ends (S d) i.
Proof.
  intros E H. inversion H; subst; try discriminate E; try assumption.
  match goal with H : _ \/ _ |- _ => destruct H; subst; discriminate E end.
Qed.
Lemma ends_skip d a i : Forall (fun c => easy c = true) a -> ends (S d) (a ++ i) -> ends (S d) i.
Proof. induction a as [|c a IH]; intros F H; [exact H|]. apply IH; [exact (Forall_inv_tail F)|]. exact (ends_tail _ _ _ (Forall_inv F) H). Qed.
Lemma ends_in d i : ends (S d) i -> In 125 i.
Proof.
  assert (K : forall n i, ends n i -> n <> O -> In 125 i).
  { intros n j H. induction H; intros N; try (now destruct N); try (right; auto; fail); try (now left).
    - right. apply in_or_app. right. right. auto.
    - right. apply in_or_app. right. right. auto.
    - right. right. auto. }
  intros H. now apply (K (S d)).
Qed.
Lemma ends_cons d i : ends (S d) i -> exists c j, i = c :: j.
Proof. inversion 1; eauto. Qed.

(** ** [loc p]: [p] answers the same whatever follows the block *)
Definition shifted {A} (x : str) (s : res A) : res A :=
  match s with
  | Ok r a => Ok (r ++ x) a
  | Err (Error p k) => Err (Error (p ++ x) k)
  | Err (Failure p k) => Err (Failure (p ++ x) k)
  | Err e => Err e
  end.
Definition loc {A} (p : parser A) : Prop := forall d i x, ends (S d) i ->
  p (i ++ x) = shifted x (p i) /\ forall r a, p i = Ok r a -> ends (S d) r /\ suffix r i.

Lemma eqb_app a b x : str_eqb (a ++ x) (b ++ x) = str_eqb a b.
Proof.
  destruct (str_eqb a b) eqn:E.
  - apply str_eqb_eq in E. subst. apply str_eqb_refl.
  - apply str_eqb_neq in E. apply str_eqb_neq. intros X. now apply app_inv_tail in X.
Qed.
Lemma loc_fail {A} e : e = OutOfFuel \/ e = Incomplete \/ e = Panic -> loc (fun _ => @Err A e).
Proof. intros [->|[->| ->]] d i x _; (split; [reflexivity|discriminate]). Qed.
Lemma loc_ext {A} (p q : parser A) : (forall i, p i = q i) -> loc p -> loc q.
Proof. intros E H d i x D. rewrite <- !E. exact (H d i x D). Qed.
Lemma loc_map {A B} (p : parser A) (f : A -> B) : loc p -> loc (map p f).
Proof.
  intros H d i x D. destruct (H d i x D) as [E R]. unfold map. rewrite E. destruct (p i) as [r a|[]]; cbn [shifted]; (split; [reflexivity|]); try discriminate.
  intros r' b X. injection X as <- <-. eauto.
Qed.
Lemma loc_pair {A B} (p : parser A) (q : parser B) : loc p -> loc q -> loc (pair p q).
Proof.
  intros HP HQ d i x D. destruct (HP d i x D) as [E R]. unfold pair. rewrite E. destruct (p i) as [i1 a|[]]; cbn [shifted]; try (split; [reflexivity|discriminate]).
  destruct (R _ _ eq_refl) as [D1 S1]. destruct (HQ d i1 x D1) as [E1 R1]. rewrite E1. destruct (q i1) as [i2 b|[]]; cbn [shifted]; (split; [reflexivity|]); try discriminate.
  intros r' ab X. injection X as <- <-. destruct (R1 _ _ eq_refl) as [D2 S2]. split; [exact D2|exact (suffix_trans _ _ _ S2 S1)].
Qed.
Lemma loc_preceded {A B} (p : parser A) (q : parser B) : loc p -> loc q -> loc (preceded p q).
Proof. intros. apply loc_map. now apply loc_pair. Qed.
Lemma loc_terminated {A B} (p : parser A) (q : parser B) : loc p -> loc q -> loc (terminated p q).
Proof. intros. apply loc_map. now apply loc_pair. Qed.
Lemma loc_alt_nil {A} : loc (@alt A []).
Proof. intros d i x _. split; [reflexivity|discriminate]. Qed.
Lemma loc_alt_cons {A} (p : parser A) ps : loc p -> loc (alt ps) -> loc (alt (p :: ps)).
Proof.
  intros HP HS. destruct ps as [|q ps]; [exact HP|]. intros d i x D. rewrite (alt_cons p (q :: ps) i), (alt_cons p (q :: ps) (i ++ x)) by discriminate.
  destruct (HP d i x D) as [E R]. rewrite E. destruct (p i) as [r a|[]]; cbn [shifted]; try (split; [reflexivity|]; (exact R || discriminate)). exact (HS d i x D).
Qed.
Lemma loc_opt {A} (p : parser A) : loc p -> loc (opt p).
Proof.
  intros H d i x D. destruct (H d i x D) as [E R]. unfold opt. rewrite E. destruct (p i) as [r a|[]]; cbn [shifted]; (split; [reflexivity|]); try discriminate.
  - intros r' b X. injection X as <- <-. eauto.
  - intros r' b X. injection X as <- <-. split; [exact D|apply suffix_refl].
Qed.
Lemma loc_cut {A} (p : parser A) : loc p -> loc (cut p).
Proof.
  intros H d i x D. destruct (H d i x D) as [E R]. unfold cut. rewrite E. destruct (p i) as [r a|[]]; cbn [shifted]; (split; [reflexivity|]); try discriminate. exact R.
Qed.
Lemma loc_map_res {A B} (p : parser A) (f : A -> option B) : loc p -> loc (map_res p f).
Proof.
  intros H d i x D. destruct (H d i x D) as [E R]. unfold map_res. rewrite E. destruct (p i) as [r a|[]]; cbn [shifted]; try (split; [reflexivity|discriminate]).
  destruct (f a); (split; [reflexivity|]); try discriminate. intros r' b' X. injection X as <- <-. eauto.
Qed.
Lemma loc_recognize {A} (p : parser A) : loc p -> loc (recognize p).
Proof.
  intros H d i x D. destruct (H d i x D) as [E R]. unfold recognize. rewrite E. destruct (p i) as [r a|[]]; cbn [shifted]; try (split; [reflexivity|discriminate]).
  destruct (R _ _ eq_refl) as [D1 [t ->]]. split.
  - f_equal. rewrite !app_length. rewrite <- !app_assoc, !firstn_app. replace (length t + length r + length x - (length r + length x))%nat with (length t) by lia.
    replace (length t + length r - length r)%nat with (length t) by lia. rewrite Nat.sub_diag. reflexivity.
  - intros r' b X. injection X as <- <-. split; [exact D1|now exists t].
Qed.
Lemma loc_many0_loop {A} (p : parser A) : loc p -> forall n m d i x, (length i < n)%nat -> (length i < m)%nat -> ends (S d) i ->
  many0_loop m p (i ++ x) = shifted x (many0_loop n p i) /\ forall r l, many0_loop n p i = Ok r l -> ends (S d) r /\ suffix r i.
Proof.
  intros H. induction n as [|n IH]; intros m d i x L M D; [lia|]. destruct m as [|m]; [lia|]. destruct (H d i x D) as [E R]. cbn [many0_loop]. rewrite E.
  destruct (p i) as [i1 a|[]]; cbn [shifted]; try (split; [reflexivity|discriminate]).
  - rewrite eqb_app. destruct (str_eqb i1 i) eqn:Q; [split; [reflexivity|discriminate]|]. destruct (R _ _ eq_refl) as [D1 S1].
    pose proof (suffix_neq_length _ _ S1 Q) as LT. destruct (IH m d i1 x ltac:(lia) ltac:(lia) D1) as [E1 R1]. rewrite E1.
    destruct (many0_loop n p i1) as [r l|[]]; cbn [shifted]; (split; [reflexivity|]); try discriminate. intros r' l' X. injection X as <- <-.
    destruct (R1 _ _ eq_refl) as [D2 S2]. split; [exact D2|exact (suffix_trans _ _ _ S2 S1)].
  - split; [reflexivity|]. intros r' l' X. injection X as <- <-. split; [exact D|apply suffix_refl].
Qed.
Lemma loc_many0 {A} (p : parser A) : loc p -> loc (many0 p).
Proof. intros H d i x D. unfold many0. apply loc_many0_loop; auto; rewrite ?app_length; lia. Qed.
Lemma loc_many1_loop {A} (p : parser A) : loc p -> forall n m d i x, (length i < n)%nat -> (length i < m)%nat -> ends (S d) i ->
  many1_loop m p (i ++ x) = shifted x (many1_loop n p i) /\ forall r l, many1_loop n p i = Ok r l -> ends (S d) r /\ suffix r i.
Proof.
  intros H. induction n as [|n IH]; intros m d i x L M D; [lia|]. destruct m as [|m]; [lia|]. destruct (H d i x D) as [E R]. cbn [many1_loop]. rewrite E.
  destruct (p i) as [i1 a|[]]; cbn [shifted]; try (split; [reflexivity|discriminate]).
  - rewrite eqb_app. destruct (str_eqb i1 i) eqn:Q; [split; [reflexivity|discriminate]|]. destruct (R _ _ eq_refl) as [D1 S1].
    pose proof (suffix_neq_length _ _ S1 Q) as LT. destruct (IH m d i1 x ltac:(lia) ltac:(lia) D1) as [E1 R1]. rewrite E1.
    destruct (many1_loop n p i1) as [r l|[]]; cbn [shifted]; (split; [reflexivity|]); try discriminate. intros r' l' X. injection X as <- <-.
    destruct (R1 _ _ eq_refl) as [D2 S2]. split; [exact D2|exact (suffix_trans _ _ _ S2 S1)].
  - split; [reflexivity|]. intros r' l' X. injection X as <- <-. split; [exact D|apply suffix_refl].
Qed.
Lemma loc_many1 {A} (p : parser A) : loc p -> loc (many1 p).
Proof.
  intros H d i x D. destruct (H d i x D) as [E R]. unfold many1. rewrite E. destruct (p i) as [i1 a|[]]; cbn [shifted]; try (split; [reflexivity|discriminate]).
  destruct (R _ _ eq_refl) as [D1 S1]. destruct (loc_many1_loop p H (S (length i1)) (S (length (i1 ++ x))) d i1 x) as [E1 R1]; auto; [rewrite app_length; lia|]. rewrite E1.
  destruct (many1_loop (S (length i1)) p i1) as [r l|[]]; cbn [shifted]; (split; [reflexivity|]); try discriminate. intros r' l' X. injection X as <- <-.
  destruct (R1 _ _ eq_refl) as [D2 S2]. split; [exact D2|exact (suffix_trans _ _ _ S2 S1)].
Qed.
Lemma loc_sep_loop {A B} (s : parser B) (p : parser A) : loc s -> loc p -> forall n m d i x, (length i < n)%nat -> (length i < m)%nat -> ends (S d) i ->
  sep_loop m s p (i ++ x) = shifted x (sep_loop n s p i) /\ forall r l, sep_loop n s p i = Ok r l -> ends (S d) r /\ suffix r i.
Proof.
  intros HS H. induction n as [|n IH]; intros m d i x L M D; [lia|]. destruct m as [|m]; [lia|]. destruct (HS d i x D) as [E R]. cbn [sep_loop]. rewrite E.
  destruct (s i) as [i1 b|[]]; cbn [shifted]; try (split; [reflexivity|discriminate]).
  2:{ split; [reflexivity|]. intros r' l' X. injection X as <- <-. split; [exact D|apply suffix_refl]. }
  rewrite eqb_app. destruct (str_eqb i1 i) eqn:Q; [split; [reflexivity|discriminate]|]. destruct (R _ _ eq_refl) as [D1 S1].
  destruct (H d i1 x D1) as [E1 R1]. rewrite E1. destruct (p i1) as [i2 a|[]]; cbn [shifted]; try (split; [reflexivity|discriminate]).
  2:{ split; [reflexivity|]. intros r' l' X. injection X as <- <-. split; [exact D|apply suffix_refl]. }
  rewrite eqb_app. destruct (str_eqb i2 i) eqn:Q2; [split; [reflexivity|discriminate]|]. destruct (R1 _ _ eq_refl) as [D2 S2].
  pose proof (suffix_trans _ _ _ S2 S1) as S3. pose proof (suffix_neq_length _ _ S3 Q2) as LT. destruct (IH m d i2 x ltac:(lia) ltac:(lia) D2) as [E2 R2]. rewrite E2.
  destruct (sep_loop n s p i2) as [r l|[]]; cbn [shifted]; (split; [reflexivity|]); try discriminate. intros r' l' X. injection X as <- <-.
  destruct (R2 _ _ eq_refl) as [D4 S4]. split; [exact D4|exact (suffix_trans _ _ _ S4 S3)].
Qed.
Lemma loc_sepl {A B} (s : parser B) (p : parser A) : loc s -> loc p -> loc (separated_list s p).
Proof.
  intros HS H d i x D. destruct (H d i x D) as [E R]. unfold separated_list. rewrite E. destruct (p i) as [i1 a|[]]; cbn [shifted]; try (split; [reflexivity|discriminate]).
  2:{ split; [reflexivity|]. intros r' l' X. injection X as <- <-. split; [exact D|apply suffix_refl]. }
  rewrite eqb_app. destruct (str_eqb i1 i); [split; [reflexivity|discriminate]|].
  destruct (R _ _ eq_refl) as [D1 S1]. destruct (loc_sep_loop s p HS H (S (length i1)) (S (length (i1 ++ x))) d i1 x) as [E1 R1]; auto; [rewrite app_length; lia|]. rewrite E1.
  destruct (sep_loop (S (length i1)) s p i1) as [r l|[]]; cbn [shifted]; (split; [reflexivity|]); try discriminate. intros r' l' X. injection X as <- <-.
  destruct (R1 _ _ eq_refl) as [D2 S2]. split; [exact D2|exact (suffix_trans _ _ _ S2 S1)].
Qed.
Lemma loc_sepne {A B} (s : parser B) (p : parser A) : loc s -> loc p -> loc (separated_nonempty_list s p).
Proof.
  intros HS H d i x D. destruct (H d i x D) as [E R]. unfold separated_nonempty_list. rewrite E. destruct (p i) as [i1 a|[]]; cbn [shifted]; try (split; [reflexivity|discriminate]).
  rewrite eqb_app. destruct (str_eqb i1 i); [split; [reflexivity|discriminate]|].
  destruct (R _ _ eq_refl) as [D1 S1]. destruct (loc_sep_loop s p HS H (S (length i1)) (S (length (i1 ++ x))) d i1 x) as [E1 R1]; auto; [rewrite app_length; lia|]. rewrite E1.
  destruct (sep_loop (S (length i1)) s p i1) as [r l|[]]; cbn [shifted]; (split; [reflexivity|]); try discriminate. intros r' l' X. injection X as <- <-.
  destruct (R1 _ _ eq_refl) as [D2 S2]. split; [exact D2|exact (suffix_trans _ _ _ S2 S1)].
Qed.

(** ** Characters and words *)
Lemma loc_chr c : easy c = true -> loc (chr c).
Proof.
  intros Ec d i x D. destruct (ends_cons _ _ D) as (y & j & ->). cbn [chr app]. destruct (y =? c) eqn:Y; (split; [reflexivity|]); try discriminate.
  intros r a X. injection X as <- <-. apply N.eqb_eq in Y. subst y. split; [exact (ends_tail _ _ _ Ec D)|now exists [c]].
Qed.
Lemma loc_one_of cs : forallb easy cs = true -> loc (one_of cs).
Proof.
  intros F d i x D. destruct (ends_cons _ _ D) as (y & j & ->). cbn [one_of app]. destruct (contains cs y) eqn:Y; (split; [reflexivity|]); try discriminate.
  intros r a X. injection X as <- <-. split; [|now exists [y]]. apply (ends_tail _ y); [|exact D].
  unfold contains in Y. apply existsb_exists in Y. destruct Y as (z & I & Y). apply N.eqb_eq in Y. subst z. rewrite forallb_forall in F. exact (F _ I).
Qed.
Lemma loc_tag t : forallb easy t = true -> loc (tag t).
Proof.
  intros F d i x D. unfold tag.
  assert (K : forall i, ends (S d) i -> strip_prefix t (i ++ x) = option_map (fun r => r ++ x) (strip_prefix t i) /\ forall r, strip_prefix t i = Some r -> ends (S d) r /\ suffix r i).
  { clear i D. revert F. induction t as [|a t IH]; intros F i D; [split; [reflexivity|]; intros r X; injection X as <-; split; [exact D|apply suffix_refl]|].
    destruct (ends_cons _ _ D) as (b & j & ->). cbn [strip_prefix app]. destruct (a =? b) eqn:E; [|split; [reflexivity|discriminate]].
    apply N.eqb_eq in E. subst b. cbn [forallb] in F. apply andb_true_iff in F. destruct F as [Fa F].
    destruct (IH F j (ends_tail _ _ _ Fa D)) as [X Y]. split; [exact X|]. intros r Z. destruct (Y r Z) as [Y1 [u ->]]. split; [exact Y1|now exists (a :: u)]. }
  destruct (K i D) as [E R]. rewrite E. destruct (strip_prefix t i) as [r|]; cbn [option_map]; (split; [reflexivity|]); try discriminate.
  intros r' a X. injection X as <- <-. exact (R _ eq_refl).
Qed.
Lemma easy_lower a b : easy a = true -> to_lower b = to_lower a -> easy b = true.
Proof.
  intros Ea L. unfold easy, contains. destruct (existsb (N.eqb b) _) eqn:X; [exfalso|reflexivity].
  apply existsb_exists in X. destruct X as (y & I & Y). apply N.eqb_eq in Y. subst y.
  assert (B : to_lower b = b) by (cbn in I; repeat (destruct I as [<-|I]; [reflexivity|]); destruct I). rewrite B in L. unfold to_lower in L.
  destruct ((65 <=? a) && (a <=? 90)) eqn:Q; [|destruct (a =? 8490) eqn:Q2].
  - apply andb_true_iff in Q. destruct Q as [Q1 Q2]. apply N.leb_le in Q1, Q2. cbn in I. lia.
  - subst b. cbn in I. lia.
  - subst b. unfold easy, contains in Ea. apply negb_true_iff in Ea.
    assert (existsb (N.eqb a) [34; 35; 39; 92; 123; 125] = true) by (apply existsb_exists; exists a; split; [exact I|apply N.eqb_refl]). congruence.
Qed.
Lemma zip_false i t x : zip_same i t = false -> zip_same (i ++ x) t = false.
Proof.
  revert t. induction i as [|a i IH]; intros [|b t]; cbn [zip_same app]; try discriminate.
  destruct (to_lower a =? to_lower b); cbn [andb]; [apply IH|reflexivity].
Qed.
Lemma zip_true d t : forallb easy t = true -> forall i x, ends (S d) i -> zip_same i t = true -> zip_same (i ++ x) t = true /\
  exists a b, i = a ++ b /\ length a = length t /\ Forall (fun c => easy c = true) a.
Proof.
  induction t as [|c t IH]; intros F i x D Z; [split; [now destruct i, x|now exists [], i]|].
  destruct (ends_cons _ _ D) as (y & j & ->). cbn [zip_same app] in *. apply andb_true_iff in Z. destruct Z as [Z1 Z2]. rewrite Z1. apply N.eqb_eq in Z1.
  cbn [forallb] in F. apply andb_true_iff in F. destruct F as [Fc F]. pose proof (easy_lower _ _ Fc Z1) as Ey.
  destruct (IH F j x (ends_tail _ _ _ Ey D) Z2) as (K & a & b & -> & La & Fa). split; [exact K|]. exists (y :: a), b. cbn. repeat split; auto.
Qed.
Lemma blen_ge i : (length i <= blen i)%nat.
Proof. induction i as [|c i IH]; cbn; [lia|]. unfold utf8_len. destruct (c <? 128), (c <? 2048), (c <? 65536); lia. Qed.
Lemma blen_app a b : blen (a ++ b) = (blen a + blen b)%nat.
Proof. induction a as [|c a IH]; cbn [app blen]; lia. Qed.
Lemma split_at_more n i x : (n <= blen i)%nat -> split_at n (i ++ x) = option_map (fun '(a, b) => (a, b ++ x)) (split_at n i).
Proof.
  revert n. induction i as [|c i IH]; intros n L; [cbn in L; replace n with O by lia; now destruct x|].
  destruct n as [|n]; [reflexivity|]. cbn [split_at app]. destruct (Nat.leb (utf8_len c) (S n)) eqn:Q; [|reflexivity].
  apply Nat.leb_le in Q. cbn [blen] in L. rewrite IH by lia. destruct (split_at (S n - utf8_len c) i) as [[a b]|]; reflexivity.
Qed.
Lemma prefix_easy a' b' a b : a' ++ b' = a ++ b -> (length a' <= length a)%nat -> Forall (fun c => easy c = true) a -> Forall (fun c => easy c = true) a'.
Proof.
  revert a. induction a' as [|c a' IH]; intros a E L F; [constructor|]. destruct a as [|y a]; [cbn in L; lia|].
  injection E as -> E. constructor; [exact (Forall_inv F)|]. apply (IH a E); [cbn in L; lia|exact (Forall_inv_tail F)].
Qed.
Definition word (t : str) : bool := forallb easy t && forallb (fun c => c <? 128) t.
Lemma word_blen t : word t = true -> blen t = length t.
Proof.
  unfold word. intros H. apply andb_true_iff in H. destruct H as [_ H]. induction t as [|c t IH]; [reflexivity|].
  cbn [forallb] in H. apply andb_true_iff in H. destruct H as [Hc H]. cbn [blen length]. unfold utf8_len. rewrite Hc, IH by exact H. reflexivity.
Qed.
Lemma tnc_core d t i x : word t = true -> ends (S d) i ->
  compare_no_case (i ++ x) t = compare_no_case i t /\ compare_no_case i t <> CmpIncomplete /\
  (compare_no_case i t = CmpOk -> split_at (blen t) (i ++ x) = option_map (fun '(a, b) => (a, b ++ x)) (split_at (blen t) i) /\
    forall a b, split_at (blen t) i = Some (a, b) -> ends (S d) b /\ suffix b i).
Proof.
  intros W D. pose proof (word_blen t W) as B. unfold word in W. apply andb_true_iff in W. destruct W as [W _]. unfold compare_no_case.
  destruct (zip_same i t) eqn:Z; [|rewrite (zip_false i t x Z); repeat split; discriminate].
  destruct (zip_true d t W i x D Z) as (-> & a & b & E & La & Fa).
  assert (L : (blen t <= blen i)%nat) by (rewrite B, E, <- La, blen_app; pose proof (blen_ge a); lia).
  rewrite (proj2 (Nat.leb_le _ _) L). rewrite (proj2 (Nat.leb_le (blen t) (blen (i ++ x)))) by (rewrite blen_app; lia).
  split; [reflexivity|]. split; [discriminate|]. intros _. split; [now apply split_at_more|]. intros a' b' S. apply split_at_app in S. destruct S as [S1 S2].
  split; [|now exists a']. rewrite S1 in D. apply (ends_skip _ a'); [|exact D].
  apply (prefix_easy a' b' a b); [now rewrite <- S1|pose proof (blen_ge a'); lia|exact Fa].
Qed.
Lemma loc_tnc t : word t = true -> loc (tag_no_case t).
Proof.
  intros W d i x D. destruct (tnc_core d t i x W D) as (E & _ & R). unfold tag_no_case. rewrite E. destruct (compare_no_case i t); try (split; [reflexivity|discriminate]).
  destruct (R eq_refl) as [-> K]. destruct (split_at (blen t) i) as [[a b]|]; cbn [option_map]; (split; [reflexivity|]); try discriminate.
  intros r a' X. injection X as <- <-. eauto.
Qed.
Lemma loc_tncs t : word t = true -> loc (tag_no_case_streaming t).
Proof.
  intros W d i x D. destruct (tnc_core d t i x W D) as (E & _ & R). unfold tag_no_case_streaming. rewrite E. destruct (compare_no_case i t); try (split; [reflexivity|discriminate]).
  destruct (R eq_refl) as [-> K]. destruct (split_at (blen t) i) as [[a b]|]; cbn [option_map]; (split; [reflexivity|]); try discriminate.
  intros r a' X. injection X as <- <-. eauto.
Qed.
Lemma span_loc f d i x : (forall c, f c = true -> easy c = true) -> ends (S d) i -> span f (i ++ x) = (fst (span f i), snd (span f i) ++ x) /\
  ends (S d) (snd (span f i)) /\ suffix (snd (span f i)) i.
Proof.
  intros F. revert x. induction i as [|c i IH]; intros x D; [destruct (ends_cons _ _ D) as (? & ? & X); discriminate|].
  cbn [span app]. destruct (f c) eqn:Q; [|split; [reflexivity|]; split; [exact D|apply suffix_refl]].
  destruct (IH x (ends_tail _ _ _ (F c Q) D)) as (E & R & [u S]). rewrite E. destruct (span f i) as [a b]. cbn [fst snd] in *. split; [reflexivity|]. split; [exact R|].
  exists (c :: u). cbn. now f_equal.
Qed.
Lemma loc_take1 k f : existsb f [34; 35; 39; 92; 123; 125] = false -> loc (take1 k f).
Proof.
  intros F d i x D. destruct (span_loc f d i x (easy_by f F) D) as (E & R & S). unfold take1. rewrite E. destruct (span f i) as [[|c a] b]; cbn [fst snd] in *; (split; [reflexivity|]); try discriminate.
  intros r a' X. injection X as <- <-. auto.
Qed.
Lemma loc_take_while f : existsb f [34; 35; 39; 92; 123; 125] = false -> loc (take_while f).
Proof.
  intros F d i x D. destruct (span_loc f d i x (easy_by f F) D) as (E & R & S). unfold take_while. rewrite E. destruct (span f i) as [a b]; cbn [fst snd] in *; (split; [reflexivity|]).
  intros r a' X. injection X as <- <-. auto.
Qed.
Lemma span_n_loc f d n i x : (forall c, f c = true -> easy c = true) -> ends (S d) i -> span_n n f (i ++ x) = (fst (span_n n f i), snd (span_n n f i) ++ x) /\
  ends (S d) (snd (span_n n f i)) /\ suffix (snd (span_n n f i)) i.
Proof.
  intros F. revert n x. induction i as [|c i IH]; intros n x D; [destruct (ends_cons _ _ D) as (? & ? & X); discriminate|].
  destruct n as [|n]; [split; [reflexivity|]; split; [exact D|apply suffix_refl]|]. cbn [span_n app]. destruct (f c) eqn:Q; [|split; [reflexivity|]; split; [exact D|apply suffix_refl]].
  destruct (IH n x (ends_tail _ _ _ (F c Q) D)) as (E & R & [u S]). rewrite E. destruct (span_n n f i) as [a b]. cbn [fst snd] in *. split; [reflexivity|]. split; [exact R|].
  exists (c :: u). cbn. now f_equal.
Qed.
Lemma loc_take_while_m_n m n f : existsb f [34; 35; 39; 92; 123; 125] = false -> loc (take_while_m_n m n f).
Proof.
  intros F d i x D. destruct (span_n_loc f d n i x (easy_by f F) D) as (E & R & S). unfold take_while_m_n. rewrite E. destruct (span_n n f i) as [a b]; cbn [fst snd] in *.
  destruct (Nat.leb m (length a)); (split; [reflexivity|]); try discriminate. intros r a' X. injection X as <- <-. auto.
Qed.
