(** [MTerminals.round_f64] rounds as [SpecF64.rounds] asks, and [rounds] fixes the number. *)
From Verif Require Import SpecF64 MTerminals.
From Coq Require Import Lia Lqa QArith Qabs Qpower.
Open Scope Z_scope.

(** ** Integers: numbers with a mantissa below 2H and an exponent in 0..F, by their integer values *)
Definition flt (H F m f : Z) : Prop := 0 <= m < 2 * H /\ 0 <= f <= F /\ (H <= m \/ f = 0).
Lemma pow_step f g : 0 <= f -> f < g -> 2 * 2 ^ f <= 2 ^ g.
Proof. intros A B. rewrite <- Z.pow_succ_r by assumption. apply Z.pow_le_mono_r; lia. Qed.
Lemma pow_pos f : 0 <= f -> 0 < 2 ^ f.
Proof. intros. apply Z.pow_pos_nonneg; lia. Qed.
Lemma below H m f m' f' : 0 < H -> 0 <= f -> f < f' -> 0 <= m < 2 * H -> H <= m' -> m * 2 ^ f < m' * 2 ^ f'.
Proof.
  intros A B C D E. pose proof (pow_step f f' B C). pose proof (pow_pos f B).
  apply Z.lt_le_trans with (2 * H * 2 ^ f); [apply Z.mul_lt_mono_pos_r; lia|].
  apply Z.le_trans with (H * 2 ^ f'); [nia|]. apply Z.mul_le_mono_nonneg_r; lia.
Qed.
(** no number lies strictly between two neighbours *)
Lemma no_gap H F m0 f0 m f : 0 < H -> 0 <= f0 -> (H <= m0 \/ f0 = 0) -> flt H F m f ->
  m * 2 ^ f <= m0 * 2 ^ f0 \/ (m0 + 1) * 2 ^ f0 <= m * 2 ^ f.
Proof.
  intros A B C (D & E & G). destruct (Z_lt_le_dec f f0) as [L|L].
  - left. destruct C as [C| ->]; [|lia]. apply Z.lt_le_incl, (below H); lia.
  - replace f with ((f - f0) + f0) by lia. rewrite Z.pow_add_r by lia. pose proof (pow_pos f0 B).
    rewrite Z.mul_assoc. set (k := m * 2 ^ (f - f0)). destruct (Z_le_gt_dec k m0); [left|right]; apply Z.mul_le_mono_nonneg_r; lia.
Qed.
Lemma flt_unique H F m f m' f' : 0 < H -> flt H F m f -> flt H F m' f' -> m * 2 ^ f = m' * 2 ^ f' -> m = m' /\ f = f'.
Proof.
  intros A (D & E & G) (D' & E' & G') X. destruct (Z.lt_trichotomy f f') as [L|[-> |L]].
  - assert (m * 2 ^ f < m' * 2 ^ f') by (apply (below H); lia). lia.
  - split; [|reflexivity]. pose proof (pow_pos f' (proj1 E')). apply Z.mul_cancel_r in X; lia.
  - assert (m' * 2 ^ f' < m * 2 ^ f) by (apply (below H); lia). lia.
Qed.
(** [(m, f)] is nearest to X/q, ties to even *)
Definition nearest (H F X q m f : Z) : Prop := flt H F m f /\ forall m' f', flt H F m' f' ->
  Z.abs (X - m * 2 ^ f * q) <= Z.abs (X - m' * 2 ^ f' * q) /\
  (Z.abs (X - m * 2 ^ f * q) = Z.abs (X - m' * 2 ^ f' * q) -> (m', f') = (m, f) \/ Z.even m = true).
Lemma nearest_le H F X q m f m' f' : 0 < q -> 0 < H -> Z.even H = true -> nearest H F X q m f -> nearest H F X q m' f' ->
  m * 2 ^ f < m' * 2 ^ f' -> False.
Proof.
  intros Q A Ev [N1 N2] [N1' N2'] L.
  pose proof (N2 _ _ N1') as [P1 P2]. pose proof (N2' _ _ N1) as [P3 P4].
  assert (Eq : Z.abs (X - m * 2 ^ f * q) = Z.abs (X - m' * 2 ^ f' * q)) by lia.
  assert (Em : Z.even m = true). { destruct (P2 Eq) as [Y|Y]; [injection Y as -> ->; lia|exact Y]. }
  assert (Em' : Z.even m' = true). { destruct (P4 (eq_sym Eq)) as [Y|Y]; [injection Y as -> ->; lia|exact Y]. }
  assert (Lq : m * 2 ^ f * q < m' * 2 ^ f' * q) by (apply Z.mul_lt_mono_pos_r; lia).
  assert (S : m + 1 < 2 * H).
  { destruct N1 as ((? & ?) & _). destruct (Z.eq_dec (m + 1) (2 * H)) as [Y|]; [|lia].
    assert (m = 2 * (H - 1) + 1) by lia. subst m. rewrite Z.even_add, Z.even_mul in Em. discriminate. }
  assert (FS : flt H F (m + 1) f) by (destruct N1 as (? & ? & ?); repeat split; lia).
  destruct (no_gap H F m f m' f' A (proj1 (proj1 (proj2 N1))) (proj2 (proj2 N1)) N1') as [Y|Y]; [lia|].
  destruct (Z.eq_dec ((m + 1) * 2 ^ f) (m' * 2 ^ f')) as [Y'|Y'].
  - apply flt_unique with (H := H) (F := F) in Y' as [<- <-]; auto. rewrite Z.even_add, Em in Em'. discriminate.
  - pose proof (N2 _ _ FS) as [P5 _]. pose proof (pow_pos f (proj1 (proj1 (proj2 N1)))).
    assert ((m + 1) * 2 ^ f * q < m' * 2 ^ f' * q) by (apply Z.mul_lt_mono_pos_r; lia).
    assert (m * 2 ^ f * q < (m + 1) * 2 ^ f * q) by (apply Z.mul_lt_mono_pos_r; lia). lia.
Qed.
Lemma nearest_unique H F X q m f m' f' : 0 < q -> 0 < H -> Z.even H = true -> nearest H F X q m f -> nearest H F X q m' f' ->
  m = m' /\ f = f'.
Proof.
  intros Q A Ev N N'. destruct (Z.lt_trichotomy (m * 2 ^ f) (m' * 2 ^ f')) as [L|[L|L]].
  - destruct (nearest_le H F X q m f m' f'); assumption.
  - apply (flt_unique H F); auto; apply N || apply N'.
  - destruct (nearest_le H F X q m' f' m f); assumption.
Qed.
(** rounding the quotient *)
Definition up (r d m : Z) : bool := negb ((2 * r <? d) || ((2 * r =? d) && Z.even m)).
Lemma up_spec r d m : (up r d m = true /\ (d < 2 * r \/ (2 * r = d /\ Z.even m = false))) \/
                      (up r d m = false /\ (2 * r < d \/ (2 * r = d /\ Z.even m = true))).
Proof.
  unfold up. destruct (Z.ltb_spec (2 * r) d); [right; split; [reflexivity|lia]|]. cbn [orb].
  destruct (Z.eqb_spec (2 * r) d); cbn [andb negb]; [|left; split; [reflexivity|lia]].
  destruct (Z.even m); [right|left]; auto.
Qed.
Definition bump (H m f : Z) : Z * Z := if m =? 2 * H then (H, f + 1) else (m, f).
Lemma bump_value H m f : 0 <= f -> let '(m', f') := bump H m f in m' * 2 ^ f' = m * 2 ^ f.
Proof.
  intros B. unfold bump. destruct (Z.eqb_spec m (2 * H)) as [-> |]; [|reflexivity].
  rewrite Z.pow_add_r by lia. change (2 ^ 1) with 2. lia.
Qed.
Lemma round_nearest H F X q f m0 r0 m f' :
  0 < H -> Z.even H = true -> 0 < q -> 0 <= f -> 0 <= m0 < 2 * H -> (H <= m0 \/ f = 0) ->
  X = m0 * (2 ^ f * q) + r0 -> 0 <= r0 < 2 ^ f * q ->
  bump H (if up r0 (2 ^ f * q) m0 then m0 + 1 else m0) f = (m, f') -> f' <= F -> nearest H F X q m f'.
Proof.
  intros A Ev Q B M C EX R0 Eb LF.
  set (u := up r0 (2 ^ f * q) m0) in *. set (m1 := if u then m0 + 1 else m0) in *.
  assert (V : m * 2 ^ f' = m1 * 2 ^ f). { pose proof (bump_value H m1 f B) as Y. rewrite Eb in Y. exact Y. }
  assert (FM : flt H F m f').
  { revert Eb. unfold bump. destruct (Z.eqb_spec m1 (2 * H)) as [Y|Y]; intros X'; injection X' as <- <-.
    - repeat split; lia.
    - assert (m0 <= m1 <= m0 + 1) by (unfold m1; destruct u; lia). repeat split; lia. }
  assert (Even : m = m1 \/ Z.even m = true). { revert Eb. unfold bump. destruct (m1 =? 2 * H); intros X'; injection X' as <- <-; auto. }
  split; [exact FM|]. intros m' g' F'. rewrite V.
  assert (Tie : (m', g') = (m, f') \/ m' * 2 ^ g' <> m1 * 2 ^ f).
  { destruct (Z.eq_dec (m' * 2 ^ g') (m1 * 2 ^ f)) as [Y|Y]; [left|right; exact Y]. rewrite <- V in Y.
    apply (flt_unique H F) in Y as [-> ->]; auto. }
  set (v := m' * 2 ^ g') in *. set (D := 2 ^ f * q) in *.
  assert (G : v * q <= m0 * D \/ (m0 + 1) * D <= v * q).
  { pose proof (no_gap H F m0 f m' g' A B C F') as Y. fold v in Y. unfold D. rewrite !Z.mul_assoc.
    destruct Y as [Y|Y]; [left|right]; apply Z.mul_le_mono_nonneg_r; lia. }
  assert (W : v <> m1 * 2 ^ f -> v * q <> m1 * D) by (unfold D; rewrite Z.mul_assoc; intros Y Z; apply Z.mul_cancel_r in Z; lia).
  replace (m1 * 2 ^ f * q) with (m1 * D) by (unfold D; ring).
  assert (Hm : m1 * D = m0 * D + (if u then D else 0)) by (unfold m1; destruct u; ring).
  assert (Ed : (m0 + 1) * D = m0 * D + D) by ring. rewrite Ed in G.
  pose proof (up_spec r0 D m0) as U. fold u in U.
  split.
  - destruct U as [[E U]|[E U]]; rewrite E in *; lia.
  - intros Eq. destruct Tie as [Y|Y]; [left; exact Y|]. specialize (W Y). right.
    destruct Even as [-> |E']; [|exact E'].
    destruct U as [[E U]|[E U]]; unfold m1; rewrite E in *.
    + rewrite Z.even_add. destruct U as [U|[_ ->]]; [lia|reflexivity].
    + destruct U as [U|[_ U]]; [lia|exact U].
Qed.
(** overflow *)
Lemma round_overflow H F X q f m0 r0 m f' :
  0 < H -> Z.even H = true -> 0 < q -> 0 <= f -> 0 <= F -> 0 <= m0 < 2 * H -> (H <= m0 \/ f = 0) ->
  X = m0 * (2 ^ f * q) + r0 -> 0 <= r0 < 2 ^ f * q ->
  bump H (if up r0 (2 ^ f * q) m0 then m0 + 1 else m0) f = (m, f') ->
  (F < f' <-> (4 * H - 1) * 2 ^ F * q <= 2 * X).
Proof.
  intros A Ev Q B BF M C EX R0 Eb.
  set (u := up r0 (2 ^ f * q) m0) in *. pose proof (up_spec r0 (2 ^ f * q) m0) as U. fold u in U.
  pose proof (pow_pos F BF). pose proof (pow_pos f B).
  destruct (Z.lt_trichotomy f F) as [L|[L|L]].
  - assert (2 * X < (4 * H - 1) * 2 ^ F * q).
    { pose proof (pow_step f F B L). assert (2 * (2 ^ f * q) <= 2 ^ F * q) by nia. set (D := 2 ^ f * q) in *.
      replace ((4 * H - 1) * 2 ^ F * q) with ((4 * H - 1) * (2 ^ F * q)) by ring. set (G := 2 ^ F * q) in *.
      assert (X < 2 * H * D) by nia. nia. }
    assert (f' <= F). { revert Eb. unfold bump. destruct (_ =? _); intros Y; injection Y as <- <-; lia. }
    lia.
  - subst F. replace ((4 * H - 1) * 2 ^ f * q) with ((4 * H - 1) * (2 ^ f * q)) by ring. set (D := 2 ^ f * q) in *.
    revert Eb. unfold bump. destruct (Z.eqb_spec (if u then m0 + 1 else m0) (2 * H)) as [Y|Y]; intros Y'; injection Y' as <- <-.
    + destruct U as [[E U]|[E U]]; rewrite E in Y; [|lia]. assert (m0 = 2 * H - 1) by lia. subst m0. nia.
    + split; [lia|]. intros Z. exfalso.
      assert (m0 = 2 * H - 1) by nia. subst m0.
      assert (O : Z.even (2 * H - 1) = false) by (rewrite Z.even_sub, Z.even_mul; reflexivity).
      destruct U as [[E U]|[E U]]; rewrite E in Y; [lia|]. rewrite O in U. destruct U as [U|[_ U]]; [nia|discriminate].
  - assert (F < f'). { revert Eb. unfold bump. destruct (_ =? _); intros Y; injection Y as <- <-; lia. }
    split; [|lia]. intros _. destruct C as [C| ->]; [|lia].
    pose proof (pow_step F f BF L). assert (2 * (2 ^ F * q) <= 2 ^ f * q) by nia. set (D := 2 ^ f * q) in *.
    replace ((4 * H - 1) * 2 ^ F * q) with ((4 * H - 1) * (2 ^ F * q)) by ring. set (G := 2 ^ F * q) in *. nia.
Qed.

(** ** The exponent *)
Definition lead (p q : Z) : Z :=
  let l := Z.log2 p - Z.log2 q in if p * 2 ^ Z.max 0 (- l) <? q * 2 ^ Z.max 0 l then l - 1 else l.
Lemma scale_lt p q l K : 0 <= K -> 0 <= l + K ->
  (p * 2 ^ Z.max 0 (- l) < q * 2 ^ Z.max 0 l <-> p * 2 ^ K < q * 2 ^ (l + K)).
Proof.
  intros A B. set (a := K - Z.max 0 (- l)). assert (0 <= a) by lia.
  replace K with (Z.max 0 (- l) + a) at 1 by lia. replace (l + K) with (Z.max 0 l + a) by lia.
  rewrite !Z.pow_add_r, !Z.mul_assoc by lia. apply Z.mul_lt_mono_pos_r. now apply pow_pos.
Qed.
Lemma lead_spec p q K : 0 < p -> 0 < q -> Z.log2 q + 1 <= K ->
  q * 2 ^ (lead p q + K) <= p * 2 ^ K < q * 2 ^ (lead p q + 1 + K).
Proof.
  intros P Q HK. pose proof (Z.log2_spec p P) as [P1 P2]. pose proof (Z.log2_spec q Q) as [Q1 Q2].
  pose proof (Z.log2_nonneg p). pose proof (Z.log2_nonneg q).
  unfold lead. set (a := Z.log2 p) in *. set (b := Z.log2 q) in *. pose proof (pow_pos K ltac:(lia)) as PK.
  pose proof (scale_lt p q (a - b) K ltac:(lia) ltac:(lia)) as S.
  destruct (Z.ltb_spec (p * 2 ^ Z.max 0 (- (a - b))) (q * 2 ^ Z.max 0 (a - b))) as [L|L].
  - apply S in L. replace (a - b - 1 + 1 + K) with (a - b + K) by lia. split; [|exact L].
    pose proof (pow_pos (a - b - 1 + K) ltac:(lia)).
    assert (X1 : q * 2 ^ (a - b - 1 + K) <= 2 ^ Z.succ b * 2 ^ (a - b - 1 + K)) by (apply Z.mul_le_mono_nonneg_r; lia).
    rewrite <- (Z.pow_add_r 2 (Z.succ b)) in X1 by lia. replace (Z.succ b + (a - b - 1 + K)) with (a + K) in X1 by lia.
    rewrite (Z.pow_add_r 2 a K) in X1 by lia. assert (2 ^ a * 2 ^ K <= p * 2 ^ K) by (apply Z.mul_le_mono_nonneg_r; lia). lia.
  - split; [apply Z.nlt_ge; rewrite <- S; lia|].
    pose proof (pow_pos (a - b + 1 + K) ltac:(lia)).
    assert (X1 : p * 2 ^ K < 2 ^ Z.succ a * 2 ^ K) by (apply Z.mul_lt_mono_pos_r; lia).
    rewrite <- Z.pow_add_r in X1 by lia.
    assert (X2 : 2 ^ b * 2 ^ (a - b + 1 + K) <= q * 2 ^ (a - b + 1 + K)) by (apply Z.mul_le_mono_nonneg_r; lia).
    rewrite <- (Z.pow_add_r 2 b) in X2 by lia. replace (b + (a - b + 1 + K)) with (Z.succ a + K) in X2 by lia. lia.
Qed.
(** the quotient has 53 bits, or fewer at the least exponent; [T] = 1074, [h] = 52 *)
Lemma quotient_bits T h p q : 0 <= T -> 0 <= h -> 0 < p -> 0 < q ->
  let f := Z.max (lead p q - h) (- T) + T in
  let D := 2 ^ f * q in let X := p * 2 ^ T in
  0 <= X / D < 2 * 2 ^ h /\ (2 ^ h <= X / D \/ f = 0).
Proof.
  intros HT Hh P Q f D X. set (K := T + Z.log2 q + 1 + Z.abs (lead p q) + h). pose proof (Z.log2_nonneg q).
  pose proof (lead_spec p q K P Q ltac:(lia)) as [L1 L2]. set (l := lead p q) in *.
  assert (Hf : 0 <= f) by (unfold f; lia). assert (HD : 0 < D) by (unfold D; apply Z.mul_pos_pos; [now apply pow_pos|lia]).
  assert (HX : 0 <= X) by (unfold X; apply Z.mul_nonneg_nonneg; [lia|apply Z.lt_le_incl; now apply pow_pos]).
  pose proof (pow_pos (K - T) ltac:(lia)) as PK.
  assert (EX : X * 2 ^ (K - T) = p * 2 ^ K).
  { unfold X. rewrite <- Z.mul_assoc, <- Z.pow_add_r by lia. do 2 f_equal. lia. }
  assert (ED : forall n, 0 <= n -> 2 ^ n * D * 2 ^ (K - T) = q * 2 ^ (f + n + (K - T))).
  { intros n Hn. unfold D. rewrite !Z.pow_add_r by lia. ring. }
  split; [split|].
  - apply Z.div_pos; assumption.
  - apply Z.div_lt_upper_bound; [exact HD|]. rewrite <- Z.pow_succ_r by assumption. rewrite Z.mul_comm.
    apply Z.mul_lt_mono_pos_r with (p := 2 ^ (K - T)); [exact PK|]. rewrite EX, ED by lia.
    apply Z.lt_le_trans with (1 := L2). apply Z.mul_le_mono_nonneg_l; [lia|]. apply Z.pow_le_mono_r; lia.
  - destruct (Z_lt_le_dec (- T) (l - h)) as [G|G]; [left|right; lia].
    apply Z.div_le_lower_bound; [exact HD|]. rewrite Z.mul_comm.
    apply Z.mul_le_mono_pos_r with (p := 2 ^ (K - T)); [exact PK|]. rewrite EX, ED by lia.
    replace (f + h + (K - T)) with (l + K) by lia. exact L1.
Qed.
(** the code divides smaller numbers; scaling both changes nothing *)
Lemma scaled_division T e p q : 0 <= T -> - T <= e -> 0 < q ->
  let n := p * 2 ^ Z.max 0 (- e) in let d := q * 2 ^ Z.max 0 e in
  let D := 2 ^ (e + T) * q in let X := p * 2 ^ T in
  n / d = X / D /\ (forall m, up (n mod d) d m = up (X mod D) D m).
Proof.
  intros HT He Q n d D X. set (a := T - Z.max 0 (- e)). assert (Ha : 0 <= a) by lia. pose proof (pow_pos a Ha) as Pa.
  assert (Hd : 0 < d) by (unfold d; apply Z.mul_pos_pos; [lia|apply pow_pos; lia]).
  assert (EX : X = n * 2 ^ a) by (unfold X, n; rewrite <- Z.mul_assoc, <- Z.pow_add_r by lia; do 2 f_equal; lia).
  assert (ED : D = d * 2 ^ a).
  { unfold D, d. rewrite Z.mul_comm, <- Z.mul_assoc, <- Z.pow_add_r by lia. do 2 f_equal. lia. }
  rewrite EX, ED. split; [symmetry; apply Z.div_mul_cancel_r; lia|]. intros m. rewrite Zmult_mod_distr_r.
  set (r := n mod d). unfold up.
  assert (E1 : (2 * (r * 2 ^ a) <? d * 2 ^ a) = (2 * r <? d)).
  { apply eq_true_iff_eq. rewrite !Z.ltb_lt, Z.mul_assoc. symmetry. now apply Z.mul_lt_mono_pos_r. }
  assert (E2 : (2 * (r * 2 ^ a) =? d * 2 ^ a) = (2 * r =? d)).
  { apply eq_true_iff_eq. rewrite !Z.eqb_eq, Z.mul_assoc. apply Z.mul_cancel_r. lia. }
  now rewrite E1, E2.
Qed.
Definition bits : Z := 2 ^ 52.
Lemma bits_pos : 0 < bits. Proof. reflexivity. Qed.
Lemma bits_even : Z.even bits = true. Proof. reflexivity. Qed.
(** the code, on integers: mantissa and exponent before the test for overflow *)
Definition round_z (T p q : Z) : Z * Z :=
  let f := Z.max (lead p q - 52) (- T) + T in
  let D := 2 ^ f * q in let X := p * 2 ^ T in
  bump bits (if up (X mod D) D (X / D) then X / D + 1 else X / D) f.
Lemma round_f64_eq neg p q : 0 < p -> 0 < q ->
  round_f64 neg p q = let '(m, f) := round_z 1074 p q in if 2045 <? f then Infinite neg else Finite neg (Z.to_N m) (f - 1074).
Proof.
  intros P Q. unfold round_f64. destruct (Z.eqb_spec p 0) as [E0|_]; [lia|]. fold (lead p q).
  unfold round_z. set (e := Z.max (lead p q - 52) (-1074)). change (Z.max (lead p q - 52) (- (1074))) with e.
  pose proof (scaled_division 1074 e p q ltac:(lia) ltac:(unfold e; lia) Q) as [E1 E2].
  cbv zeta. generalize dependent (2 ^ 1074). intros B E1 E2.
  set (n := p * 2 ^ Z.max 0 (- e)) in *. set (d := q * 2 ^ Z.max 0 e) in *. set (X := p * B) in *. set (D := 2 ^ (e + 1074) * q) in *.
  rewrite <- E1. rewrite <- (E2 (n / d)). set (m0 := n / d). set (r := n mod d). unfold up.
  set (b := (2 * r <? d) || (2 * r =? d) && Z.even m0). unfold bump. change (2 * bits) with (2 ^ 53). change bits with (2 ^ 52).
  destruct b; cbn [negb]; (destruct (_ =? 2 ^ 53); cbn [fst snd];
    [replace (e + 1074 + 1 - 1074) with (e + 1) by lia; replace (2045 <? e + 1074 + 1) with (971 <? e + 1) by (apply eq_true_iff_eq; rewrite !Z.ltb_lt; lia); reflexivity
    |replace (e + 1074 - 1074) with e by lia; replace (2045 <? e + 1074) with (971 <? e) by (apply eq_true_iff_eq; rewrite !Z.ltb_lt; lia); reflexivity]).
Qed.
Lemma round_z_spec T F p q m f : 0 <= T -> 0 <= F -> 0 < p -> 0 < q -> round_z T p q = (m, f) ->
  (F < f <-> (4 * bits - 1) * 2 ^ F * q <= 2 * (p * 2 ^ T)) /\ (f <= F -> nearest bits F (p * 2 ^ T) q m f).
Proof.
  intros HT HF P Q. unfold round_z. cbv zeta.
  pose proof (quotient_bits T 52 p q HT ltac:(lia) P Q) as B. cbv zeta in B.
  assert (Hf : 0 <= Z.max (lead p q - 52) (- T) + T) by lia.
  set (f0 := Z.max (lead p q - 52) (- T) + T) in *. set (D := 2 ^ f0 * q) in *.
  assert (HD : 0 < D) by (unfold D; apply Z.mul_pos_pos; [now apply pow_pos|lia]).
  set (X := p * 2 ^ T) in *. destruct B as [B1 B2]. change (2 ^ 52) with bits in *.
  assert (EX : X = X / D * D + X mod D) by (rewrite Z.mul_comm; apply Z.div_mod; lia).
  pose proof (Z.mod_pos_bound X D HD) as R. intros E. split.
  - apply (round_overflow bits F X q f0 (X / D) (X mod D) m f); auto; reflexivity.
  - intros LF. apply (round_nearest bits F X q f0 (X / D) (X mod D)); auto; reflexivity.
Qed.

(** ** Fractions *)
Lemma mag_scaled T m e : 0 <= T -> 0 <= e + T -> (magnitude m e == inject_Z (Z.of_N m * 2 ^ (e + T)) / inject_Z (2 ^ T))%Q.
Proof.
  intros HT He. unfold magnitude. rewrite inject_Z_mult, !Zpower_Qpower by assumption.
  change (inject_Z 2) with 2%Q. rewrite Qpower_plus by discriminate.
  assert (N : ~ (2 ^ T == 0)%Q) by (apply Qpower_not_0; discriminate).
  generalize dependent (2 ^ T)%Q. generalize (2 ^ e)%Q. intros a b N. now field.
Qed.
Lemma inject_pos z : 0 < z -> (0 < inject_Z z)%Q.
Proof. intros. change 0%Q with (inject_Z 0). now rewrite <- Zlt_Qlt. Qed.
Lemma abs_scaled T p q M : 0 < q -> 0 < T ->
  (Qabs (inject_Z p / inject_Z q - inject_Z M / inject_Z T) == inject_Z (Z.abs (p * T - M * q)) / inject_Z (q * T))%Q.
Proof.
  intros Hq HT. pose proof (inject_pos q Hq) as A. pose proof (inject_pos T HT) as B.
  assert (E : (inject_Z p / inject_Z q - inject_Z M / inject_Z T == inject_Z (p * T - M * q) / inject_Z (q * T))%Q).
  { unfold Z.sub. rewrite inject_Z_plus, inject_Z_opp, !inject_Z_mult. field. split; intros Z; [rewrite Z in B|rewrite Z in A]; now apply Qlt_irrefl in A || now apply Qlt_irrefl in B. }
  rewrite E. unfold Qdiv. rewrite Qabs_Qmult. apply Qmult_comp.
  - unfold Qabs, inject_Z. reflexivity.
  - rewrite Qabs_pos; [reflexivity|]. apply Qinv_le_0_compat, Qlt_le_weak, inject_pos. now apply Z.mul_pos_pos.
Qed.
Lemma div_le a b d : 0 < d -> (inject_Z a / inject_Z d <= inject_Z b / inject_Z d)%Q <-> a <= b.
Proof.
  intros H. pose proof (inject_pos d H) as A. unfold Qdiv. rewrite Qmult_le_r; [rewrite Zle_Qle; reflexivity|].
  now apply Qinv_lt_0_compat.
Qed.
Lemma div_eq a b d : 0 < d -> (inject_Z a / inject_Z d == inject_Z b / inject_Z d)%Q <-> a = b.
Proof.
  intros H. split; [|now intros ->]. intros E.
  assert (a <= b) by (apply (div_le a b d H); rewrite E; apply Qle_refl).
  assert (b <= a) by (apply (div_le b a d H); rewrite E; apply Qle_refl). lia.
Qed.
Lemma div_le2 a b c d : 0 < b -> 0 < d -> (inject_Z a / inject_Z b <= inject_Z c / inject_Z d)%Q <-> a * d <= c * b.
Proof.
  intros B D. pose proof (inject_pos b B). pose proof (inject_pos d D).
  assert (E1 : (inject_Z a / inject_Z b == inject_Z (a * d) / inject_Z (b * d))%Q) by (rewrite !inject_Z_mult; field; split; intros Z; rewrite Z in *; discriminate).
  assert (E2 : (inject_Z c / inject_Z d == inject_Z (c * b) / inject_Z (b * d))%Q) by (rewrite !inject_Z_mult; field; split; intros Z; rewrite Z in *; discriminate).
  rewrite E1, E2. apply div_le. now apply Z.mul_pos_pos.
Qed.

Lemma binary64_flt m e : binary64 m e <-> flt bits 2045 (Z.of_N m) (e + 1074).
Proof.
  unfold binary64, flt. change (2 * bits) with (Z.of_N (2 ^ 53)). change bits with (Z.of_N (2 ^ 52)).
  generalize (2 ^ 53)%N (2 ^ 52)%N. lia.
Qed.
Lemma flt_binary64 m f : flt bits 2045 m f -> binary64 (Z.to_N m) (f - 1074).
Proof. intros H. apply binary64_flt. rewrite Z2N.id by apply H. now replace (f - 1074 + 1074) with f by lia. Qed.
Definition top (q : Z) : Z := (4 * bits - 1) * 2 ^ 2045 * q.
Lemma top_eq : (2 ^ 1024 - 2 ^ 970) * 2 ^ 1075 = (4 * bits - 1) * 2 ^ 2045.
Proof. vm_compute. reflexivity. Qed.
Lemma overflow_iff p q : 0 < q -> ((overflow <= inject_Z p / inject_Z q)%Q <-> top q <= 2 * (p * 2 ^ 1074)).
Proof.
  intros Q. unfold overflow, top. rewrite <- top_eq.
  assert (E : (inject_Z (2 ^ 1024 - 2 ^ 970) == inject_Z (2 ^ 1024 - 2 ^ 970) / inject_Z 1)%Q) by (change (inject_Z 1) with 1%Q; field).
  rewrite E, div_le2 by (assumption || reflexivity).
  replace (2 * (p * 2 ^ 1074)) with (p * 2 ^ 1075) by (change 1075 with (Z.succ 1074); rewrite Z.pow_succ_r by discriminate; ring).
  assert (P : 0 < 2 ^ 1075) by now apply pow_pos. generalize dependent (2 ^ 1075). generalize (2 ^ 1024 - 2 ^ 970). intros a b P.
  rewrite Z.mul_1_r, <- Z.mul_assoc, (Z.mul_comm b q), Z.mul_assoc. now apply Z.mul_le_mono_pos_r.
Qed.
Lemma distance p q m e : 0 < q -> -1074 <= e ->
  (Qabs (inject_Z p / inject_Z q - magnitude m e) ==
   inject_Z (Z.abs (p * 2 ^ 1074 - Z.of_N m * 2 ^ (e + 1074) * q)) / inject_Z (q * 2 ^ 1074))%Q.
Proof.
  intros Q E. rewrite (mag_scaled 1074) by lia. apply abs_scaled; [exact Q|now apply pow_pos].
Qed.
Lemma rounds_finite p q s m e : 0 < q -> (rounds (inject_Z p / inject_Z q) (Finite s m e) <->
  2 * (p * 2 ^ 1074) < top q /\ nearest bits 2045 (p * 2 ^ 1074) q (Z.of_N m) (e + 1074)).
Proof.
  intros Q. unfold rounds. assert (QT : 0 < q * 2 ^ 1074) by (apply Z.mul_pos_pos; [exact Q|now apply pow_pos]).
  assert (O : (inject_Z p / inject_Z q < overflow)%Q <-> 2 * (p * 2 ^ 1074) < top q).
  { pose proof (overflow_iff p q Q) as X. rewrite Z.lt_nge, <- X. split; [apply Qlt_not_le|apply Qnot_le_lt]. }
  rewrite O. unfold nearest. rewrite <- binary64_flt.
  split; intros (H1 & H2 & H3); (split; [exact H1|split; [exact H2|]]).
  - intros m' f' F'. pose proof (flt_binary64 m' f' F') as B. destruct (H3 _ _ B) as [A1 A2].
    rewrite !distance in A1, A2 by (assumption || apply H2 || apply B).
    rewrite Z2N.id in A1, A2 by apply F'. replace (f' - 1074 + 1074) with f' in A1, A2 by lia.
    rewrite div_le in A1 by exact QT. rewrite div_eq in A2 by exact QT. split; [exact A1|]. intros Y.
    destruct (A2 Y) as [Z|Z]; [left|right].
    + injection Z as <- <-. rewrite Z2N.id by apply F'. f_equal. lia.
    + destruct m; [reflexivity|destruct p0; exact Z].
  - intros m' e' B. pose proof (proj1 (binary64_flt m' e') B) as F'. destruct (H3 _ _ F') as [A1 A2].
    rewrite !distance by (assumption || apply H2 || apply B). rewrite div_le, div_eq by exact QT.
    split; [exact A1|]. intros Y. destruct (A2 Y) as [Z|Z]; [left|right].
    + injection Z as Z1 Z2. apply N2Z.inj in Z1. subst m'. f_equal. lia.
    + destruct m; [reflexivity|destruct p0; exact Z].
Qed.
Lemma rounds_infinite p q s : 0 < q -> (rounds (inject_Z p / inject_Z q) (Infinite s) <-> top q <= 2 * (p * 2 ^ 1074)).
Proof. intros Q. exact (overflow_iff p q Q). Qed.
Lemma round_negative s p q : negative (round_f64 s p q) = s.
Proof.
  unfold round_f64. destruct (p =? 0); [reflexivity|]. cbv zeta. destruct (if _ =? 2 ^ 53 then _ else _) as [m e]. now destruct (971 <? e).
Qed.
Lemma round_ok s p q : 0 <= p -> 0 < q -> rounds (inject_Z p / inject_Z q) (round_f64 s p q).
Proof.
  intros P Q. destruct (Z.eq_dec p 0) as [-> |N].
  - change (round_f64 s 0 q) with (Finite s 0 (-1074)). apply rounds_finite; [exact Q|]. unfold top. rewrite Z.mul_0_l, Z.mul_0_r. split.
    + apply Z.mul_pos_pos; [|exact Q]. apply Z.mul_pos_pos; [reflexivity|now apply pow_pos].
    + cbn [Z.of_N]. split; [repeat split; try discriminate; now right|]. intros m' f' F'. rewrite !Z.mul_0_l.
      split; [change (Z.abs (0 - 0)) with 0; apply Z.abs_nonneg|]. intros _. now right.
  - rewrite round_f64_eq by lia. destruct (round_z 1074 p q) as [m f] eqn:E.
    apply (round_z_spec 1074 2045) in E as [E1 E2]; try lia. destruct (Z.ltb_spec 2045 f) as [L|L].
    + apply rounds_infinite; [exact Q|]. now apply E1.
    + apply rounds_finite; [exact Q|]. split; [apply Z.nle_gt; unfold top; rewrite <- E1; lia|].
      specialize (E2 L). rewrite Z2N.id by apply E2. now replace (f - 1074 + 1074) with f by lia.
Qed.
Lemma rounds_unique p q v v' : 0 < q -> rounds (inject_Z p / inject_Z q) v -> rounds (inject_Z p / inject_Z q) v' ->
  negative v = negative v' -> v = v'.
Proof.
  intros Q. destruct v as [s m e|s], v' as [s' m' e'|s']; cbn [negative]; intros H H' <-;
    try apply rounds_finite in H; try apply rounds_infinite in H; try apply rounds_finite in H'; try apply rounds_infinite in H'; auto.
  - destruct H as [_ H], H' as [_ H']. destruct (nearest_unique bits 2045 _ q _ _ _ _ Q bits_pos bits_even H H') as [A B].
    apply N2Z.inj in A. f_equal; [exact A|lia].
  - lia.
  - lia.
Qed.
Lemma rounds_iff s p q v : 0 <= p -> 0 < q -> (round_f64 s p q = v <-> negative v = s /\ rounds (inject_Z p / inject_Z q) v).
Proof.
  intros P Q. split.
  - intros <-. split; [apply round_negative|now apply round_ok].
  - intros [<- R]. apply (rounds_unique p q); auto; [now apply round_ok|apply round_negative].
Qed.
Lemma rounds_eq x y v : (x == y)%Q -> rounds x v -> rounds y v.
Proof.
  intros E. destruct v as [s m e|s]; cbn [rounds]; [|now rewrite E].
  intros (H1 & H2 & H3). split; [now rewrite <- E|]. split; [exact H2|]. intros m' e' B. rewrite <- E. now apply H3.
Qed.
(** a fraction that is a binary64 number is not changed *)
Lemma rounds_exact p q s m e v : 0 <= p -> 0 < q -> binary64 m e -> (inject_Z p / inject_Z q == magnitude m e)%Q ->
  rounds (inject_Z p / inject_Z q) v -> negative v = s -> v = Finite s m e.
Proof.
  intros P Q B E R <-. destruct v as [s m' e'|s]; cbn [rounds negative] in *.
  - destruct R as (R1 & R2 & R3). pose proof (proj1 (binary64_flt m e) B) as F1. pose proof (proj1 (binary64_flt m' e') R2) as F2.
    destruct (R3 m e B) as [R4 _]. rewrite E in R4 at 2. unfold Qminus in R4 at 2. rewrite Qplus_opp_r in R4. change (Qabs 0) with 0%Q in R4.
    assert (Z : (inject_Z p / inject_Z q == magnitude m' e')%Q).
    { assert (Y : (Qabs (inject_Z p / inject_Z q - magnitude m' e') == 0)%Q) by (apply Qle_antisym; [exact R4|apply Qabs_nonneg]).
      rewrite distance in Y by (exact Q || apply R2).
      assert (Y' : (inject_Z (Z.abs (p * 2 ^ 1074 - Z.of_N m' * 2 ^ (e' + 1074) * q)) / inject_Z (q * 2 ^ 1074) == inject_Z 0 / inject_Z (q * 2 ^ 1074))%Q) by (rewrite Y; reflexivity).
      apply div_eq in Y'; [|apply Z.mul_pos_pos; [exact Q|now apply pow_pos]].
      rewrite (mag_scaled 1074) by (try apply R2; destruct R2 as (_ & ? & _); lia). apply Z.abs_0_iff in Y'.
      assert (inject_Z p / inject_Z q <= inject_Z (Z.of_N m' * 2 ^ (e' + 1074)) / inject_Z (2 ^ 1074))%Q by (apply div_le2; [exact Q|now apply pow_pos|lia]).
      assert (inject_Z (Z.of_N m' * 2 ^ (e' + 1074)) / inject_Z (2 ^ 1074) <= inject_Z p / inject_Z q)%Q by (apply div_le2; [now apply pow_pos|exact Q|lia]).
      now apply Qle_antisym. }
    rewrite E in Z. rewrite !(mag_scaled 1074) in Z by (destruct R2 as (_ & ? & _), B as (_ & ? & _); lia).
    apply div_eq in Z; [|now apply pow_pos]. apply (flt_unique bits 2045) in Z as [Z1 Z2]; auto using bits_pos.
    apply N2Z.inj in Z1. f_equal; [now rewrite Z1|lia].
  - exfalso. apply overflow_iff in R; [|exact Q]. rewrite (mag_scaled 1074) in E by (destruct B as (_ & ? & _); lia).
    assert (Y : p * 2 ^ 1074 <= Z.of_N m * 2 ^ (e + 1074) * q) by (apply div_le2; [exact Q|now apply pow_pos|rewrite E; apply Qle_refl]).
    apply binary64_flt in B. destruct B as (B1 & B2 & B3). unfold top in R.
    pose proof (Z.pow_le_mono_r 2 (e + 1074) 2045 ltac:(lia) ltac:(lia)) as M. pose proof (pow_pos 2045 ltac:(lia)) as P5.
    pose proof (pow_pos (e + 1074) ltac:(lia)) as P6.
    assert (Z.of_N m * 2 ^ (e + 1074) <= (2 * bits - 1) * 2 ^ 2045) by (apply Z.mul_le_mono_nonneg; lia).
    generalize dependent (2 ^ 2045). generalize dependent (2 ^ (e + 1074)). generalize dependent (2 ^ 1074). intros.
    assert (Z.of_N m * z0 * q <= (2 * bits - 1) * z1 * q) by (apply Z.mul_le_mono_nonneg_r; lia).
    pose proof bits_pos. nia.
Qed.
(** half of the distance between neighbours bounds the error *)
Lemma half_gap H F X q m f : 0 < q -> 1 < H -> 0 <= F -> nearest H F X q m f -> 0 <= X -> 2 * X < (4 * H - 1) * 2 ^ F * q ->
  2 * Z.abs (X - m * 2 ^ f * q) <= 2 ^ f * q.
Proof.
  intros Q A HF [(M & E & G) N] X0 XO. pose proof (pow_pos f (proj1 E)) as Pf.
  assert (Near : forall m' f', flt H F m' f' -> Z.abs (X - m * 2 ^ f * q) <= Z.abs (X - m' * 2 ^ f' * q)) by (intros m' f' Y; exact (proj1 (N m' f' Y))).
  clear N. replace (m * 2 ^ f * q) with (m * (2 ^ f * q)) in * by ring. assert (PD : 0 < 2 ^ f * q) by now apply Z.mul_pos_pos.
  destruct (Z_lt_le_dec X (m * (2 ^ f * q))) as [L|L].
  - destruct (Z.eq_dec m 0) as [-> |M0]; [lia|]. destruct (Z_le_gt_dec H (m - 1)) as [C|C].
    + specialize (Near (m - 1) f ltac:(repeat split; lia)). replace ((m - 1) * 2 ^ f * q) with (m * (2 ^ f * q) - 2 ^ f * q) in Near by ring. lia.
    + destruct G as [G| ->].
      * destruct (Z.eq_dec f 0) as [-> |F0].
        -- specialize (Near (m - 1) 0 ltac:(repeat split; lia)). replace ((m - 1) * 2 ^ 0 * q) with (m * (2 ^ 0 * q) - 2 ^ 0 * q) in Near by ring. lia.
        -- assert (m = H) by lia. subst m. specialize (Near (2 * H - 1) (f - 1) ltac:(repeat split; lia)).
           assert (P : 2 ^ f = 2 * 2 ^ (f - 1)) by (rewrite <- Z.pow_succ_r by lia; f_equal; lia). rewrite P in *.
           replace ((2 * H - 1) * 2 ^ (f - 1) * q) with (H * (2 * 2 ^ (f - 1) * q) - 2 ^ (f - 1) * q) in Near by ring.
           set (d := 2 ^ (f - 1)) in *. replace (2 * d * q) with (2 * (d * q)) in * by ring. lia.
      * specialize (Near (m - 1) 0 ltac:(repeat split; lia)). replace ((m - 1) * 2 ^ 0 * q) with (m * (2 ^ 0 * q) - 2 ^ 0 * q) in Near by ring. lia.
  - destruct (Z_lt_le_dec (m + 1) (2 * H)) as [C|C].
    + specialize (Near (m + 1) f ltac:(repeat split; lia)). replace ((m + 1) * 2 ^ f * q) with (m * (2 ^ f * q) + 2 ^ f * q) in Near by ring. lia.
    + assert (m = 2 * H - 1) by lia. subst m. destruct (Z.eq_dec f F) as [-> |FF].
      * rewrite <- Z.mul_assoc in XO. lia.
      * specialize (Near H (f + 1) ltac:(repeat split; lia)). rewrite Z.pow_add_r in Near by lia. change (2 ^ 1) with 2 in Near.
        replace (H * (2 ^ f * 2) * q) with ((2 * H - 1) * (2 ^ f * q) + 2 ^ f * q) in Near by ring. lia.
Qed.
Lemma rounds_error p q s m e : 0 <= p -> 0 < q -> rounds (inject_Z p / inject_Z q) (Finite s m e) ->
  (Qabs (inject_Z p / inject_Z q - magnitude m e) <= 2 ^ (e - 1))%Q.
Proof.
  intros P Q R. pose proof (proj1 (proj2 R)) as B. apply rounds_finite in R as [R1 R2]; [|exact Q].
  pose proof (pow_pos 1074 ltac:(lia)) as PT.
  apply half_gap in R2; [|exact Q|reflexivity|lia| |exact R1].
  - rewrite distance by (exact Q || apply B). destruct B as (_ & B & _).
    assert (E : (2 ^ (e - 1) == inject_Z (2 ^ (e + 1074)) / inject_Z (2 ^ 1075))%Q).
    { rewrite !Zpower_Qpower by lia. change (inject_Z 2) with 2%Q. unfold Qdiv. rewrite <- Qpower_opp, <- Qpower_plus by discriminate.
      now replace (e + 1074 + - (1075)) with (e - 1) by lia. }
    rewrite E. apply div_le2; [now apply Z.mul_pos_pos|now apply pow_pos|].
    change 1075 with (Z.succ 1074). rewrite Z.pow_succ_r by lia.
    set (T := 2 ^ 1074) in *. set (d := Z.abs _) in *. set (U := 2 ^ (e + 1074)) in *. nia.
  - apply Z.mul_nonneg_nonneg; lia.
Qed.
