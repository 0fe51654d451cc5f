(** The number of calls is bounded by a power of a polynomial in the length, with the number of
    opening brackets in the exponent: the combinators. *)
From Verif Require Import LGood2 MQuery LDepth LDepth2.
From Verif Require Export LCost SpecDepth.
Notation length := List.length (only parsing).
Open Scope N_scope.
Open Scope list_scope.

(** [c] times the [k]-th power of the length plus two, times [B] *)
Definition bound (c k : N) (n : nat) (B : N) : N := c * (N.of_nat n + 2) ^ k * B.
Lemma pow_le k k' n : k <= k' -> (N.of_nat n + 2) ^ k <= (N.of_nat n + 2) ^ k'.
Proof. intros H. apply N.pow_le_mono_r; lia. Qed.
Lemma bound_mono c c' k k' n B B' : c <= c' -> k <= k' -> B <= B' -> bound c k n B <= bound c' k' n B'.
Proof. intros C K D. unfold bound. apply N.mul_le_mono; [apply N.mul_le_mono; [exact C|now apply pow_le]|exact D]. Qed.
Lemma bound_add c1 c2 k1 k2 n B : bound c1 k1 n B + bound c2 k2 n B <= bound (c1 + c2) (N.max k1 k2) n B.
Proof.
  etransitivity; [apply N.add_le_mono; apply (bound_mono _ _ _ (N.max k1 k2) n B B (N.le_refl _)); lia|].
  unfold bound. rewrite !N.mul_add_distr_r. reflexivity.
Qed.
Lemma bound_loop c k n B : (N.of_nat n + 2) * bound c k n B = bound c (k + 1) n B.
Proof. unfold bound. rewrite N.pow_add_r, N.pow_1_r. lia. Qed.
Lemma loop_le l n c k B : (l <= n)%nat -> (N.of_nat l + 1) * bound c k n B <= bound c (k + 1) n B.
Proof. intros H. rewrite <- bound_loop. apply N.mul_le_mono_r. lia. Qed.

Definition cb {A} (m n : nat) (B : N) (b : bool) (c k : N) (p : cparser A) : Prop := forall i,
  (openings i < m)%nat -> (length i <= n)%nat -> snd (p i) <= bound c k n B /\
  forall r a, fst (p i) = Ok r a -> suffix r i /\ (b = true -> (openings r < openings i)%nat).

Lemma cb_good {A} m n B b c d (p : parser A) : good b c d p -> cb m n B false 0 0 (lift p).
Proof.
  intros H i _ _. cbn [lift fst snd]. split; [apply N.le_0_l|]. intros r a E. pose proof (good_elim _ _ _ _ H i) as O.
  rewrite E in O. destruct O as [O _]. now split.
Qed.
Lemma cb_ag {A} m n B b (p : parser A) : ag m b p p -> cb m n B b 0 0 (lift p).
Proof. intros H i Hi _. cbn [lift fst snd]. split; [apply N.le_0_l|]. exact (proj2 (H i Hi)). Qed.
Lemma cb_mono {A} m m' n B b c k (p : cparser A) : cb m n B b c k p -> (m' <= m)%nat -> cb m' n B b c k p.
Proof. intros H L i Hi Hn. apply H; lia. Qed.
Lemma cb_weaken {A} m n B b c k (p : cparser A) : cb m n B b c k p -> cb m n B false c k p.
Proof.
  intros H i Hi Hn. destruct (H i Hi Hn) as [E O]. split; [exact E|]. intros r a R.
  destruct (O r a R) as [S _]. split; [exact S | discriminate].
Qed.
Lemma cb_more {A} m n B b c k c' k' B' (p : cparser A) : cb m n B b c k p -> c <= c' -> k <= k' -> B <= B' -> cb m n B' b c' k' p.
Proof. intros H C K D i Hi Hn. destruct (H i Hi Hn) as [E O]. split; [|exact O]. etransitivity; [exact E|now apply bound_mono]. Qed.

Lemma cb_pair {A C} m n B b1 b2 c1 c2 k1 k2 (p : cparser A) (q : cparser C) :
  cb m n B b1 c1 k1 p -> cb (if b1 then pred m else m) n B b2 c2 k2 q ->
  cb m n B (b1 || b2) (c1 + c2) (N.max k1 k2) (t_pair p q).
Proof.
  intros Hp Hq i Hi Hn. pose proof (bound_add c1 c2 k1 k2 n B) as A0. unfold t_pair. destruct (Hp i Hi Hn) as [E O].
  destruct (p i) as [[i1 a | e] x]; cbn [fst snd] in *; [|split; [lia|discriminate]].
  destruct (O _ _ eq_refl) as [S L]. pose proof (openings_suffix _ _ S) as M. pose proof (suffix_length _ _ S) as Ln.
  assert (Hi1 : (openings i1 < if b1 then pred m else m)%nat).
  { destruct b1; [specialize (L eq_refl); lia | lia]. }
  destruct (Hq i1 Hi1 ltac:(lia)) as [E' O']. destruct (q i1) as [[i2 y | e] z]; cbn [fst snd] in *; [|split; [lia|discriminate]].
  split; [lia|]. intros r v R. injection R as <- <-.
  destruct (O' _ _ eq_refl) as [S' L']. pose proof (openings_suffix _ _ S') as M'.
  split; [exact (suffix_trans _ _ _ S' S)|]. intros Hb. apply orb_true_iff in Hb.
  destruct Hb as [Hb | Hb]; [specialize (L Hb) | specialize (L' Hb)]; lia.
Qed.
Lemma cb_map {A C} m n B b c k (p : cparser A) (f : A -> C) : cb m n B b c k p -> cb m n B b c k (t_map p f).
Proof.
  intros H i Hi Hn. unfold t_map. destruct (H i Hi Hn) as [E O]. destruct (p i) as [[r a | e] x]; cbn [fst snd] in *; split; try exact E; [|discriminate].
  intros r' a' R. injection R as <- <-. exact (O _ _ eq_refl).
Qed.
Lemma cb_preceded {A C} m n B b1 b2 c1 c2 k1 k2 (p : cparser A) (q : cparser C) :
  cb m n B b1 c1 k1 p -> cb (if b1 then pred m else m) n B b2 c2 k2 q -> cb m n B (b1 || b2) (c1 + c2) (N.max k1 k2) (t_preceded p q).
Proof. intros. apply cb_map. now apply cb_pair. Qed.
Lemma cb_terminated {A C} m n B b1 b2 c1 c2 k1 k2 (p : cparser A) (q : cparser C) :
  cb m n B b1 c1 k1 p -> cb (if b1 then pred m else m) n B b2 c2 k2 q -> cb m n B (b1 || b2) (c1 + c2) (N.max k1 k2) (t_terminated p q).
Proof. intros. apply cb_map. now apply cb_pair. Qed.
Lemma cb_alt_one {A} m n B b c k (p : cparser A) : cb m n B b c k p -> cb m n B false c k (t_alt [p]).
Proof. intros H. apply (cb_weaken _ _ _ b). exact H. Qed.
Lemma cb_alt_cons {A} m n B b b' c1 c2 k1 k2 (p q : cparser A) ps :
  cb m n B b c1 k1 p -> cb m n B b' c2 k2 (t_alt (q :: ps)) -> cb m n B false (c1 + c2) (N.max k1 k2) (t_alt (p :: q :: ps)).
Proof.
  intros Hp Hq i Hi Hn. pose proof (bound_add c1 c2 k1 k2 n B) as A0.
  change (t_alt (p :: q :: ps) i) with
    (match p i with (Err (Error _ _), x) => let (y, z) := t_alt (q :: ps) i in (y, x + z) | r => r end).
  destruct (Hp i Hi Hn) as [E O]. destruct (Hq i Hi Hn) as [E' O'].
  destruct (p i) as [[r a | []] x]; cbn [fst snd] in *; try (split; [lia | discriminate]).
  - split; [lia|]. intros r' a' R. injection R as <- <-. destruct (O _ _ eq_refl). now split.
  - destruct (t_alt (q :: ps) i) as [y z]; cbn [fst snd] in *. split; [lia|]. intros r' a' R. destruct (O' _ _ R). now split.
Qed.
Lemma cb_opt {A} m n B b c k (p : cparser A) : cb m n B b c k p -> cb m n B false c k (t_opt p).
Proof.
  intros H i Hi Hn. unfold t_opt. destruct (H i Hi Hn) as [E O].
  destruct (p i) as [[r a | []] x]; cbn [fst snd] in *; split; try exact E; intros r' a' R; try discriminate; injection R as <- <-.
  - destruct (O _ _ eq_refl). now split.
  - split; [apply suffix_refl | discriminate].
Qed.
Lemma shorter r i : suffix r i -> str_eqb r i = false -> (length r < length i)%nat.
Proof.
  intros [t ->] H. destruct t as [|c t]; [|cbn [app List.length]; rewrite app_length; lia].
  cbn [app] in H. exfalso. assert (X : str_eqb r r = true) by now apply str_eqb_eq. congruence.
Qed.
Lemma step_le x l1 l X Y : x <= X -> Y <= (N.of_nat l1 + 1) * X -> (l1 < l)%nat -> x + Y <= (N.of_nat l + 1) * X.
Proof.
  intros A0 A1 A2. assert (N.of_nat l1 + 1 <= N.of_nat l) by lia. assert ((N.of_nat l1 + 1) * X <= N.of_nat l * X) by now apply N.mul_le_mono_r.
  rewrite N.mul_add_distr_r, N.mul_1_l. lia.
Qed.
Lemma one_le l X : X <= (N.of_nat l + 1) * X.
Proof. rewrite <- (N.mul_1_l X) at 1. apply N.mul_le_mono_r. lia. Qed.
Lemma cb_many0_loop {A} m n B b c k (p : cparser A) : cb m n B b c k p -> forall f i, (openings i < m)%nat -> (length i <= n)%nat ->
  snd (t_many0_loop f p i) <= (N.of_nat (length i) + 1) * bound c k n B /\ forall r a, fst (t_many0_loop f p i) = Ok r a -> suffix r i.
Proof.
  intros H. induction f as [|f IH]; intros i Hi Hn; cbn [t_many0_loop]; [split; [apply N.le_0_l|discriminate]|].
  destruct (H i Hi Hn) as [E O]. pose proof (one_le (length i) (bound c k n B)) as Q.
  destruct (p i) as [[i1 a | []] x]; cbn [fst snd] in *; try (split; [lia | discriminate]).
  - destruct (O _ _ eq_refl) as [S _]. destruct (str_eqb i1 i) eqn:Z; [split; [cbn [snd]; lia|discriminate]|].
    pose proof (shorter _ _ S Z) as L. pose proof (openings_suffix _ _ S) as M. destruct (IH i1 ltac:(lia) ltac:(lia)) as [E' O'].
    pose proof (step_le _ _ _ _ _ E E' L) as Q'.
    destruct (t_many0_loop f p i1) as [[r l | e] y]; cbn [fst snd] in *; (split; [exact Q'|]); [|discriminate].
    intros r' a' R. injection R as <- <-. exact (suffix_trans _ _ _ (O' _ _ eq_refl) S).
  - split; [lia|]. intros r' a' R. injection R as <- <-. apply suffix_refl.
Qed.
Lemma cb_many0 {A} m n B b c k (p : cparser A) : cb m n B b c k p -> cb m n B false c (k + 1) (t_many0 p).
Proof.
  intros H i Hi Hn. unfold t_many0. destruct (cb_many0_loop _ _ _ _ _ _ _ H (S (length i)) i Hi Hn) as [E O].
  split; [etransitivity; [exact E|now apply loop_le]|]. intros r a R. split; [exact (O _ _ R)|discriminate].
Qed.
Lemma cb_many1_loop {A} m n B b c k (p : cparser A) : cb m n B b c k p -> forall f i, (openings i < m)%nat -> (length i <= n)%nat ->
  snd (t_many1_loop f p i) <= (N.of_nat (length i) + 1) * bound c k n B /\ forall r a, fst (t_many1_loop f p i) = Ok r a -> suffix r i.
Proof.
  intros H. induction f as [|f IH]; intros i Hi Hn; cbn [t_many1_loop]; [split; [apply N.le_0_l|discriminate]|].
  destruct (H i Hi Hn) as [E O]. pose proof (one_le (length i) (bound c k n B)) as Q.
  destruct (p i) as [[i1 a | []] x]; cbn [fst snd] in *; try (split; [lia | discriminate]).
  - destruct (O _ _ eq_refl) as [S _]. destruct (str_eqb i1 i) eqn:Z; [split; [cbn [snd]; lia|discriminate]|].
    pose proof (shorter _ _ S Z) as L. pose proof (openings_suffix _ _ S) as M. destruct (IH i1 ltac:(lia) ltac:(lia)) as [E' O'].
    pose proof (step_le _ _ _ _ _ E E' L) as Q'.
    destruct (t_many1_loop f p i1) as [[r l | e] y]; cbn [fst snd] in *; (split; [exact Q'|]); [|discriminate].
    intros r' a' R. injection R as <- <-. exact (suffix_trans _ _ _ (O' _ _ eq_refl) S).
  - split; [lia|]. intros r' a' R. injection R as <- <-. apply suffix_refl.
Qed.
Lemma cb_many1 {A} m n B b c k (p : cparser A) : cb m n B b c k p -> cb m n B false c (k + 1) (t_many1 p).
Proof.
  intros H i Hi Hn. unfold t_many1. destruct (H i Hi Hn) as [E O]. rewrite <- bound_loop.
  assert (Q : bound c k n B + (N.of_nat n + 1) * bound c k n B = (N.of_nat n + 2) * bound c k n B) by lia.
  destruct (p i) as [[i1 a | e] x]; cbn [fst snd] in *; [|split; [lia | discriminate]].
  destruct (O _ _ eq_refl) as [S _]. pose proof (openings_suffix _ _ S) as M. pose proof (suffix_length _ _ S) as L.
  destruct (cb_many1_loop _ _ _ _ _ _ _ H (Datatypes.S (length i1)) i1 ltac:(lia) ltac:(lia)) as [E' O'].
  assert (Q' : (N.of_nat (length i1) + 1) * bound c k n B <= (N.of_nat n + 1) * bound c k n B) by (apply N.mul_le_mono_r; lia).
  destruct (t_many1_loop (Datatypes.S (length i1)) p i1) as [[r l | e] y]; cbn [fst snd] in *; (split; [lia|]); [|discriminate].
  intros r' a' R. injection R as <- <-. split; [exact (suffix_trans _ _ _ (O' _ _ eq_refl) S)|discriminate].
Qed.
Lemma cb_sep_loop {A C} m n B b b' c1 c2 k1 k2 (s : cparser C) (p : cparser A) : cb m n B b c1 k1 s -> cb m n B b' c2 k2 p ->
  forall f i, (openings i < m)%nat -> (length i <= n)%nat ->
  snd (t_sep_loop f s p i) <= (N.of_nat (length i) + 1) * bound (c1 + c2) (N.max k1 k2) n B /\ forall r a, fst (t_sep_loop f s p i) = Ok r a -> suffix r i.
Proof.
  intros Hs H. pose proof (bound_add c1 c2 k1 k2 n B) as A0.
  induction f as [|f IH]; intros i Hi Hn; cbn [t_sep_loop]; [split; [apply N.le_0_l|discriminate]|].
  destruct (Hs i Hi Hn) as [E O]. pose proof (one_le (length i) (bound (c1 + c2) (N.max k1 k2) n B)) as Q.
  destruct (s i) as [[i1 a | []] x]; cbn [fst snd] in *; try (split; [lia | discriminate]).
  2:{ split; [lia|]. intros r' a' R. injection R as <- <-. apply suffix_refl. }
  destruct (O _ _ eq_refl) as [S _]. destruct (str_eqb i1 i) eqn:Z; [split; [cbn [snd]; lia|discriminate]|].
  pose proof (shorter _ _ S Z) as L. pose proof (openings_suffix _ _ S) as M. destruct (H i1 ltac:(lia) ltac:(lia)) as [E1 O1].
  destruct (p i1) as [[i2 a2 | []] y]; cbn [fst snd] in *; try (split; [lia | discriminate]).
  2:{ split; [lia|]. intros r' a' R. injection R as <- <-. apply suffix_refl. }
  destruct (O1 _ _ eq_refl) as [S1 _]. destruct (str_eqb i2 i) eqn:Z1; [split; [cbn [snd]; lia|discriminate]|].
  pose proof (suffix_length _ _ S1) as L1. pose proof (openings_suffix _ _ S1) as M1.
  destruct (IH i2 ltac:(lia) ltac:(lia)) as [E' O'].
  assert (E2 : x + y <= bound (c1 + c2) (N.max k1 k2) n B) by lia.
  pose proof (step_le _ _ (length i) _ _ E2 E' ltac:(lia)) as Q'.
  destruct (t_sep_loop f s p i2) as [[r l | e] z]; cbn [fst snd] in *; (split; [exact Q'|]); [|discriminate].
  intros r' a' R. injection R as <- <-. exact (suffix_trans _ _ _ (O' _ _ eq_refl) (suffix_trans _ _ _ S1 S)).
Qed.
Lemma cb_sepl {A C} m n B b b' c1 c2 k1 k2 (s : cparser C) (p : cparser A) : cb m n B b c1 k1 s -> cb m n B b' c2 k2 p ->
  cb m n B false (c1 + c2) (N.max k1 k2 + 1) (t_separated_list s p).
Proof.
  intros Hs H i Hi Hn. pose proof (bound_add c1 c2 k1 k2 n B) as A0. unfold t_separated_list. destruct (H i Hi Hn) as [E O].
  pose proof (loop_le (length i) n (c1 + c2) (N.max k1 k2) B Hn) as T. pose proof (one_le (length i) (bound (c1 + c2) (N.max k1 k2) n B)) as Q.
  destruct (p i) as [[i1 a | []] x]; cbn [fst snd] in *; try (split; [lia | discriminate]).
  2:{ split; [lia|]. intros r' a' R. injection R as <- <-. split; [apply suffix_refl|discriminate]. }
  destruct (O _ _ eq_refl) as [S _]. destruct (str_eqb i1 i) eqn:Z; [split; [cbn [snd]; lia|discriminate]|].
  pose proof (shorter _ _ S Z) as L. pose proof (openings_suffix _ _ S) as M.
  destruct (cb_sep_loop _ _ _ _ _ _ _ _ _ _ _ Hs H (Datatypes.S (length i1)) i1 ltac:(lia) ltac:(lia)) as [E' O'].
  assert (E2 : x <= bound (c1 + c2) (N.max k1 k2) n B) by lia. pose proof (step_le _ _ (length i) _ _ E2 E' L) as Q'.
  destruct (t_sep_loop (Datatypes.S (length i1)) s p i1) as [[r l | e] y]; cbn [fst snd] in *; (split; [lia|]); [|discriminate].
  intros r' a' R. injection R as <- <-. split; [exact (suffix_trans _ _ _ (O' _ _ eq_refl) S)|discriminate].
Qed.
Lemma cb_sepne {A C} m n B b b' c1 c2 k1 k2 (s : cparser C) (p : cparser A) : cb m n B b c1 k1 s -> cb m n B b' c2 k2 p ->
  cb m n B false (c1 + c2) (N.max k1 k2 + 1) (t_separated_nonempty_list s p).
Proof.
  intros Hs H i Hi Hn. pose proof (bound_add c1 c2 k1 k2 n B) as A0. unfold t_separated_nonempty_list. destruct (H i Hi Hn) as [E O].
  pose proof (loop_le (length i) n (c1 + c2) (N.max k1 k2) B Hn) as T. pose proof (one_le (length i) (bound (c1 + c2) (N.max k1 k2) n B)) as Q.
  destruct (p i) as [[i1 a | e] x]; cbn [fst snd] in *; try (split; [lia | discriminate]).
  destruct (O _ _ eq_refl) as [S _]. destruct (str_eqb i1 i) eqn:Z; [split; [cbn [snd]; lia|discriminate]|].
  pose proof (shorter _ _ S Z) as L. pose proof (openings_suffix _ _ S) as M.
  destruct (cb_sep_loop _ _ _ _ _ _ _ _ _ _ _ Hs H (Datatypes.S (length i1)) i1 ltac:(lia) ltac:(lia)) as [E' O'].
  assert (E2 : x <= bound (c1 + c2) (N.max k1 k2) n B) by lia. pose proof (step_le _ _ (length i) _ _ E2 E' L) as Q'.
  destruct (t_sep_loop (Datatypes.S (length i1)) s p i1) as [[r l | e] y]; cbn [fst snd] in *; (split; [lia|]); [|discriminate].
  intros r' a' R. injection R as <- <-. split; [exact (suffix_trans _ _ _ (O' _ _ eq_refl) S)|discriminate].
Qed.
Lemma cb_tick {A} m n B b c k (p : cparser A) : 1 <= B -> cb m n B b c k p -> cb m n B b (c + 1) k (tick p).
Proof.
  intros HB H i Hi Hn. unfold tick. destruct (H i Hi Hn) as [E O]. destruct (p i) as [x y]. cbn [fst snd] in *. split; [|exact O].
  unfold bound in *. rewrite !N.mul_add_distr_r, N.mul_1_l. apply N.add_le_mono; [exact E|].
  assert (1 <= (N.of_nat n + 2) ^ k) by (rewrite <- (N.pow_1_l k); apply N.pow_le_mono_l; lia). nia.
Qed.
