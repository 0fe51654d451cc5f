(** Changing the case of letters: the relation between the two texts and the combinators of nom. *)
From Verif Require Export SpecCase Nom.
Notation length := List.length (only parsing).
Open Scope N_scope.
Open Scope list_scope.

(** ** Characters *)
Lemma alike_refl c : alike c c. Proof. now left. Qed.
Lemma alike_cases c d : alike c d -> c = d \/ exists k, (k < 26)%nat /\ (c = 65 + N.of_nat k /\ d = 97 + N.of_nat k \/ d = 65 + N.of_nat k /\ c = 97 + N.of_nat k).
Proof.
  intros [->|[[[A B] ->]|[[A B] ->]]]; [now left|right|right].
  - exists (N.to_nat (c - 65)). rewrite N2Nat.id. split; [lia|left; lia].
  - exists (N.to_nat (d - 65)). rewrite N2Nat.id. split; [lia|right; lia].
Qed.
(** a function of characters that does not see the case of letters *)
Definition blind {B} (f : N -> B) : Prop := forall c d, alike c d -> f c = f d.
Definition blind_b (f : N -> bool) : bool :=
  forallb (fun k => Bool.eqb (f (65 + N.of_nat k)) (f (97 + N.of_nat k))) (List.seq 0 26).
Lemma blind_ok f : blind_b f = true -> blind f.
Proof.
  intros H c d A. apply alike_cases in A as [->|(k & K & A)]; [reflexivity|].
  unfold blind_b in H. rewrite forallb_forall in H. specialize (H k ltac:(apply in_seq; lia)).
  apply Bool.eqb_prop in H. destruct A as [[-> ->]|[-> ->]]; [exact H|now symmetry].
Qed.
Lemma alike_low c d : alike c d -> to_lower c = to_lower d.
Proof.
  intros A. apply alike_cases in A as [->|(k & K & A)]; [reflexivity|].
  assert (H : to_lower (65 + N.of_nat k) = to_lower (97 + N.of_nat k)).
  { do 26 (destruct k as [|k]; [reflexivity|]). lia. }
  destruct A as [[-> ->]|[-> ->]]; congruence.
Qed.
Lemma alike_len c d : alike c d -> utf8_len c = utf8_len d.
Proof.
  intros A. apply alike_cases in A as [->|(k & K & A)]; [reflexivity|].
  assert (H : utf8_len (65 + N.of_nat k) = utf8_len (97 + N.of_nat k)).
  { do 26 (destruct k as [|k]; [reflexivity|]). lia. }
  destruct A as [[-> ->]|[-> ->]]; congruence.
Qed.
Lemma alike_word c d : alike c d -> wordish c = wordish d.
Proof. apply blind_ok. reflexivity. Qed.
(** characters that are not letters are not changed *)
Definition fixed (c : N) : bool := negb (((65 <=? c) && (c <=? 90)) || ((97 <=? c) && (c <=? 122))).
Lemma alike_fixed c d : alike c d -> fixed c = true -> c = d.
Proof.
  intros [->|[[[A B] ->]|[[A B] ->]]] H; [reflexivity| |]; exfalso; unfold fixed in H.
  - rewrite (proj2 (N.leb_le 65 c) A), (proj2 (N.leb_le c 90) B) in H. discriminate.
  - assert (X : 97 <= d + 32) by lia. assert (Y : d + 32 <= 122) by lia.
    rewrite (proj2 (N.leb_le _ _) X), (proj2 (N.leb_le _ _) Y), orb_true_r in H. discriminate.
Qed.
Lemma alike_sym c d : alike c d -> alike d c.
Proof. intros [->|[[A ->]|[A ->]]]; [now left|right; right|right; left]; auto. Qed.
Lemma alike_eqb k c d : alike c d -> fixed k = true -> (c =? k) = (d =? k).
Proof.
  intros A K. destruct (N.eqb_spec c k) as [->|X].
  - rewrite (alike_fixed k d A K). symmetry. apply N.eqb_refl.
  - symmetry. apply N.eqb_neq. intros ->. apply alike_sym in A. now rewrite (alike_fixed k c A K) in X.
Qed.

(** ** Texts *)
Definition head_eq (i j : str) : Prop := match i, j with x :: _, y :: _ => x = y | _, _ => True end.
Definition headok (i j : str) : Prop :=
  match i, j with x :: i', y :: _ => x = y \/ ~ letter_a x \/ starts_word i' = true | _, _ => True end.
Fixpoint same (i j : str) : Prop :=
  match i, j with
  | [], [] => True
  | c :: i', d :: j' => alike c d /\ (c = 92 -> head_eq i' j') /\ (wordish c = false -> headok i' j') /\ same i' j'
  | _, _ => False
  end.
Lemma recased_same i : forall p j, recased p i j -> same i j.
Proof.
  induction i as [|c i IH]; intros p [|d j]; cbn; auto. intros (A & B & R). split; [exact A|]. split; [|split].
  - intros ->. destruct i as [|x i], j as [|y j]; cbn; auto. cbn in R. destruct R as (_ & R & _).
    destruct (N.eq_dec x y) as [E|E]; [exact E|]. destruct (R E) as [X _]. now destruct X.
  - intros W. destruct i as [|x i], j as [|y j]; cbn; auto. cbn in R. destruct R as (_ & R & _).
    destruct (N.eq_dec x y) as [E|E]; [now left|]. right. destruct (R E) as [_ X].
    destruct (N.eq_dec x 97) as [X1|X1], (N.eq_dec x 65) as [X2|X2]; try (left; intros [?|?]; contradiction); right;
      (destruct X as [X|X]; [first [now left|now right]|rewrite W in X; discriminate|exact X]).
  - eapply IH, R.
Qed.
Lemma recased_headok i j p : ends_word p = false -> recased p i j -> headok i j.
Proof.
  intros W. destruct i as [|x i], j as [|y j]; cbn; auto. intros (_ & R & _).
  destruct (N.eq_dec x y) as [E|E]; [now left|]. right. destruct (R E) as [_ X].
  destruct (N.eq_dec x 97) as [X1|X1], (N.eq_dec x 65) as [X2|X2]; try (left; intros [?|?]; contradiction); right;
    (destruct X as [X|X]; [first [now left|now right]|rewrite W in X; discriminate|exact X]).
Qed.
Lemma same_length i : forall j, same i j -> length i = length j.
Proof. induction i as [|c i IH]; intros [|d j]; cbn; auto; try contradiction. intros (_ & _ & _ & R). f_equal. auto. Qed.
Lemma same_app u : forall u' r r', length u = length u' -> same (u ++ r) (u' ++ r') -> same r r' /\ Forall2 alike u u'.
Proof.
  induction u as [|c u IH]; intros [|d u'] r r' L; try discriminate; cbn; intros H.
  - now split.
  - destruct H as (A & _ & _ & H). injection L as L. destruct (IH _ _ _ L H) as [X Y]. split; [exact X|now constructor].
Qed.
Lemma same_starts i j : same i j -> starts_word i = starts_word j.
Proof. destruct i, j; cbn; try tauto. intros (A & _). now apply alike_word. Qed.

(** ** Outcomes *)
Definition kind (e : err) : nat :=
  match e with Error _ _ => 0 | Failure _ _ => 1 | Incomplete => 2 | Panic => 3 | OutOfFuel => 4 end%nat.
Definition rel {A} (po : bool) (V : A -> A -> Prop) (i j : str) (x y : res A) : Prop :=
  x = Err OutOfFuel \/ y = Err OutOfFuel \/
  match x, y with
  | Ok r a, Ok r' a' =>
      same r r' /\ (po = true -> headok r r') /\ V a a' /\ exists u u', i = u ++ r /\ j = u' ++ r' /\ length u = length u'
  | Err e, Err e' => kind e = kind e'
  | _, _ => False
  end.
(** [cs pr po V p]: on two such texts [p] gives the same verdict, reads the same length, and values related by [V];
    [pr], [po]: the texts before and after do not start with a changed single letter [a] *)
Definition cs {A} (pr po : bool) (V : A -> A -> Prop) (p : parser A) : Prop :=
  forall i j, same i j -> (pr = true -> headok i j) -> rel po V i j (p i) (p j).
Definition any {A} (_ _ : A) : Prop := True.
Definition both {A B} (V : A -> A -> Prop) (W : B -> B -> Prop) (x y : A * B) : Prop := V (fst x) (fst y) /\ W (snd x) (snd y).
Definition mayb {A} (V : A -> A -> Prop) (x y : option A) : Prop :=
  match x, y with Some a, Some b => V a b | None, None => True | _, _ => False end.

Lemma rel_weaken {A} po po' (V W : A -> A -> Prop) i j x y : (po' = true -> po = true) -> (forall a b, V a b -> W a b) -> rel po V i j x y -> rel po' W i j x y.
Proof.
  intros P H [X|[X|X]]; [now left|now right; left|right; right]. destruct x, y; auto. destruct X as (S & Q & X & Y). auto.
Qed.
Lemma cs_weaken {A} pr pr' po po' (V W : A -> A -> Prop) p : (pr = true -> pr' = true) -> (po' = true -> po = true) ->
  (forall a b, V a b -> W a b) -> cs pr po V p -> cs pr' po' W p.
Proof. intros P Q H C i j S Hd. eapply rel_weaken; [exact Q|exact H|]. apply C; auto. Qed.
Lemma cs_any {A} pr po V (p : parser A) : cs pr po V p -> cs pr po any p.
Proof. apply cs_weaken; auto. intros; exact I. Qed.
Lemma rel_ok {A} po (V : A -> A -> Prop) i j r r' (a a' : A) u u' : same i j -> i = u ++ r -> j = u' ++ r' -> length u = length u' -> (po = true -> headok r r') -> V a a' ->
  rel po V i j (Ok r a) (Ok r' a').
Proof.
  intros S E E' L P H. right; right. subst i j. destruct (same_app _ _ _ _ L S) as [X _]. split; [exact X|split; [exact P|split; [exact H|]]]. now exists u, u'.
Qed.
Lemma rel_stay {A} po (V : A -> A -> Prop) i j (a a' : A) : same i j -> (po = true -> headok i j) -> V a a' -> rel po V i j (Ok i a) (Ok j a').
Proof. intros S P H. apply (rel_ok po V i j i j a a' [] []); auto. Qed.
Lemma rel_err {A} po (V : A -> A -> Prop) i j e e' : kind e = kind e' -> rel po V i j (Err e) (Err e').
Proof. intros H. now right; right. Qed.

(** the three cases of an outcome *)
Ltac fuel_out := first [left; reflexivity|right; left; reflexivity].
Ltac outcome H x y :=
  let X := fresh "X" in
  destruct H as [X|[X|X]];
  [rewrite X; cbv beta iota; left; reflexivity|rewrite X; cbv beta iota; right; left; reflexivity|];
  destruct x as [?r ?a|?e] eqn:?E1, y as [?r' ?a'|?e'] eqn:?E2; try contradiction.
Ltac kinds X := repeat match goal with e : err |- _ => destruct e end; try discriminate X.

Lemma cs_pair {A B} a b c V W (p : parser A) (q : parser B) : cs a b V p -> cs b c W q -> cs a c (both V W) (pair p q).
Proof.
  intros P Q i j S Hd. unfold pair. specialize (P i j S Hd). outcome P (p i) (p j).
  - destruct X as (S1 & H1 & X1 & u & u' & -> & -> & L). specialize (Q _ _ S1 H1). outcome Q (q r) (q r').
    + destruct X as (S2 & H2 & X2 & v & v' & -> & -> & L2). right; right. split; [exact S2|]. split; [exact H2|]. split; [now split|].
      exists (u ++ v), (u' ++ v'). rewrite !app_assoc, !app_length. auto.
    + right; right. exact X.
  - right; right. exact X.
Qed.
Lemma cs_map {A B} a b V (W : B -> B -> Prop) (p : parser A) f : cs a b V p -> (forall x y, V x y -> W (f x) (f y)) -> cs a b W (Nom.map p f).
Proof.
  intros P F i j S Hd. unfold Nom.map. specialize (P i j S Hd). outcome P (p i) (p j).
  - destruct X as (S1 & H1 & X1 & X). right; right. auto.
  - right; right. exact X.
Qed.
Lemma cs_preceded {A B} a b c V W (p : parser A) (q : parser B) : cs a b V p -> cs b c W q -> cs a c W (preceded p q).
Proof. intros P Q. eapply cs_map; [eapply cs_pair; eassumption|]. now intros x y [_ H]. Qed.
Lemma cs_terminated {A B} a b c V W (p : parser A) (q : parser B) : cs a b V p -> cs b c W q -> cs a c V (terminated p q).
Proof. intros P Q. eapply cs_map; [eapply cs_pair; eassumption|]. now intros x y [H _]. Qed.
Lemma cs_alt_nil {A} a b (V : A -> A -> Prop) : cs a b V (alt []).
Proof. intros i j S Hd. now apply rel_err. Qed.
Lemma cs_alt {A} a b V (p : parser A) ps : cs a b V p -> cs a b V (alt ps) -> cs a b V (alt (p :: ps)).
Proof.
  intros P Q i j S Hd. specialize (P i j S Hd). destruct ps as [|q ps]; [exact P|]. specialize (Q i j S Hd).
  change (alt (p :: q :: ps)) with (fun i => match p i with Err (Error _ _) => alt (q :: ps) i | r => r end). cbv beta.
  outcome P (p i) (p j).
  - right; right. exact X.
  - kinds X; first [exact Q|now apply rel_err].
Qed.
Lemma cs_opt {A} a b V (p : parser A) : (b = true -> a = true) -> cs a b V p -> cs a b (mayb V) (opt p).
Proof.
  intros L P i j S Hd. unfold opt. specialize (P i j S Hd). outcome P (p i) (p j).
  - right; right. exact X.
  - kinds X; first [now apply rel_err|apply rel_stay; [exact S|auto|exact I]].
Qed.
Lemma cs_cut {A} a b V (p : parser A) : cs a b V p -> cs a b V (cut p).
Proof.
  intros P i j S Hd. unfold cut. specialize (P i j S Hd). outcome P (p i) (p j).
  - right; right. exact X.
  - kinds X; now apply rel_err.
Qed.
Lemma cs_map_res {A B} a b V (W : B -> B -> Prop) (p : parser A) f : cs a b V p -> (forall x y, V x y -> mayb W (f x) (f y)) -> cs a b W (map_res p f).
Proof.
  intros P F i j S Hd. unfold map_res. specialize (P i j S Hd). outcome P (p i) (p j).
  - destruct X as (S1 & H1 & X1 & X). specialize (F _ _ X1). destruct (f a0), (f a'); try contradiction; [right; right; auto|now apply rel_err].
  - right; right. exact X.
Qed.
Lemma firstn_front {X} (u r : list X) : firstn (length (u ++ r) - length r) (u ++ r) = u.
Proof. rewrite app_length. replace (length u + length r - length r)%nat with (length u) by lia. rewrite firstn_app, Nat.sub_diag, firstn_all. cbn. apply app_nil_r. Qed.
Lemma cs_recognize {A} a b V (p : parser A) : cs a b V p -> cs a b (Forall2 alike) (recognize p).
Proof.
  intros P i j S Hd. unfold recognize. specialize (P i j S Hd). outcome P (p i) (p j).
  - destruct X as (S1 & H1 & X1 & u & u' & -> & -> & L). right; right. split; [exact S1|]. split; [exact H1|]. rewrite !firstn_front.
    split; [now apply (same_app u u' r r')|now exists u, u'].
  - right; right. exact X.
Qed.

Lemma str_eqb_iff x : forall y, str_eqb x y = true <-> x = y.
Proof.
  induction x as [|c x IH]; intros [|d y]; cbn; try (split; congruence). rewrite andb_true_iff, N.eqb_eq, IH. split; [intros [-> ->]|intros E; injection E]; auto.
Qed.
Lemma str_eqb_len (u u' r r' : str) : length u = length u' -> str_eqb r (u ++ r) = str_eqb r' (u' ++ r').
Proof.
  intros L. destruct u as [|c u], u' as [|c' u']; try discriminate.
  - cbn. rewrite (proj2 (str_eqb_iff r r) eq_refl). symmetry. now apply str_eqb_iff.
  - assert (X : forall (c : N) u r, str_eqb r ((c :: u) ++ r) = false).
    { intros k v w. destruct (str_eqb w ((k :: v) ++ w)) eqn:E; [|reflexivity]. apply str_eqb_iff in E. apply (f_equal (@List.length N)) in E.
      cbn in E. rewrite app_length in E. lia. }
    now rewrite !X.
Qed.
Lemma rel_cons {A B} b (W : B -> B -> Prop) u u' r r' (x : A) x' (f : A -> list B -> list B) l l' :
  length u = length u' -> (forall m m', Forall2 W m m' -> Forall2 W (f x m) (f x' m')) -> rel b (Forall2 W) r r' l l' ->
  rel b (Forall2 W) (u ++ r) (u' ++ r') (match l with Ok r l => Ok r (f x l) | Err e => Err e end) (match l' with Ok r l => Ok r (f x' l) | Err e => Err e end).
Proof.
  intros L F H. outcome H l l'.
  - destruct X as (S2 & H2 & X2 & v & v' & -> & -> & L2). right; right. split; [exact S2|]. split; [exact H2|]. split; [auto|].
    exists (u ++ v), (u' ++ v'). rewrite !app_assoc, !app_length. auto.
  - right; right. exact X.
Qed.
Lemma many0_cs {A} a V (p : parser A) n : cs a a V p -> cs a a (Forall2 V) (many0_loop n p).
Proof.
  intros P. induction n as [|n IH]; intros i j S Hd; [now left|]. cbn [many0_loop]. pose proof (P i j S Hd) as H. outcome H (p i) (p j).
  - destruct X as (S1 & H1 & X1 & u & u' & -> & -> & L). rewrite (str_eqb_len u u' r r' L). destruct (str_eqb r' (u' ++ r')); [now apply rel_err|].
    eapply (rel_cons a V u u' r r' a0 a' cons); [exact L| |apply IH; auto]. intros. now constructor.
  - kinds X; first [now apply rel_err|apply rel_stay; [exact S|auto|constructor]].
Qed.
Lemma cs_many0 {A} a V (p : parser A) : cs a a V p -> cs a a (Forall2 V) (many0 p).
Proof. intros P i j S Hd. unfold many0. rewrite (same_length i j S). exact (many0_cs a V p _ P i j S Hd). Qed.
Lemma many1_cs {A} a V (p : parser A) n : cs a a V p -> cs a a (Forall2 V) (many1_loop n p).
Proof.
  intros P. induction n as [|n IH]; intros i j S Hd; [now left|]. cbn [many1_loop]. pose proof (P i j S Hd) as H. outcome H (p i) (p j).
  - destruct X as (S1 & H1 & X1 & u & u' & -> & -> & L). rewrite (str_eqb_len u u' r r' L). destruct (str_eqb r' (u' ++ r')); [now apply rel_err|].
    eapply (rel_cons a V u u' r r' a0 a' cons); [exact L| |apply IH; auto]. intros. now constructor.
  - kinds X; first [now apply rel_err|apply rel_stay; [exact S|auto|constructor]].
Qed.
(** the first element may be read in another state than the others *)
Lemma cs_many1 {A} a b V (p : parser A) : cs a b V p -> cs b b V p -> cs a b (Forall2 V) (many1 p).
Proof.
  intros P P2 i j S Hd. unfold many1. pose proof (P i j S Hd) as H. outcome H (p i) (p j).
  - destruct X as (S1 & H1 & X1 & u & u' & -> & -> & L). rewrite (same_length r r' S1).
    eapply (rel_cons b V u u' r r' a0 a' cons); [exact L| |apply many1_cs; auto]. intros. now constructor.
  - right; right. exact X.
Qed.
Lemma sep_cs {A B} a b V W (s : parser B) (p : parser A) n : cs b a W s -> cs a b V p -> cs b b (Forall2 V) (sep_loop n s p).
Proof.
  intros Q P. induction n as [|n IH]; intros i j S Hd; [now left|]. cbn [sep_loop]. pose proof (Q i j S Hd) as H. outcome H (s i) (s j).
  - destruct X as (S1 & H1 & X1 & u & u' & -> & -> & L). rewrite (str_eqb_len u u' r r' L). destruct (str_eqb r' (u' ++ r')); [now apply rel_err|].
    pose proof (P _ _ S1 H1) as H. outcome H (p r) (p r').
    + destruct X as (S2 & H2 & X2 & v & v' & -> & -> & L2).
      rewrite !app_assoc, (str_eqb_len (u ++ v) (u' ++ v') r0 r'0) by (rewrite !app_length; lia).
      destruct (str_eqb r'0 ((u' ++ v') ++ r'0)); [now apply rel_err|].
      eapply (rel_cons b V _ _ _ _ a1 a'0 cons); [rewrite !app_length; lia| |apply IH; auto]. intros. now constructor.
    + kinds X; first [now apply rel_err|apply rel_stay; [exact S|auto|constructor]].
  - kinds X; first [now apply rel_err|apply rel_stay; [exact S|auto|constructor]].
Qed.
Lemma cs_sep1 {A B} a b V W (s : parser B) (p : parser A) : cs b a W s -> cs a b V p -> cs a b (Forall2 V) (separated_nonempty_list s p).
Proof.
  intros Q P i j S Hd. unfold separated_nonempty_list. pose proof (P i j S Hd) as H. outcome H (p i) (p j).
  - destruct X as (S1 & H1 & X1 & u & u' & -> & -> & L). rewrite (str_eqb_len u u' r r' L). destruct (str_eqb r' (u' ++ r')); [now apply rel_err|].
    rewrite (same_length r r' S1).
    eapply (rel_cons b V u u' r r' a0 a' cons); [exact L| |eapply sep_cs; eauto]. intros. now constructor.
  - right; right. exact X.
Qed.
Lemma cs_sep0 {A B} a V W (s : parser B) (p : parser A) : cs a a W s -> cs a a V p -> cs a a (Forall2 V) (separated_list s p).
Proof.
  intros Q P i j S Hd. unfold separated_list. pose proof (P i j S Hd) as H. outcome H (p i) (p j).
  - destruct X as (S1 & H1 & X1 & u & u' & -> & -> & L). rewrite (str_eqb_len u u' r r' L). destruct (str_eqb r' (u' ++ r')); [now apply rel_err|].
    rewrite (same_length r r' S1).
    eapply (rel_cons a V u u' r r' a0 a' cons); [exact L| |eapply sep_cs; eauto]. intros. now constructor.
  - kinds X; first [now apply rel_err|apply rel_stay; [exact S|auto|constructor]].
Qed.
Lemma cs_iter {A} a b V (body : parser A -> parser A) n : (forall p, cs a b V p -> cs a b V (body p)) -> cs a b V (iter n body).
Proof. intros B. induction n as [|n IH]; [intros i j S Hd; now left|]. exact (B _ IH). Qed.
Lemma cs_fixp {A} a b V (body : parser A -> parser A) : (forall p, cs a b V p -> cs a b V (body p)) -> cs a b V (fixp body).
Proof. intros B i j S Hd. unfold fixp. rewrite (same_length i j S). exact (cs_iter a b V body _ B i j S Hd). Qed.

(** ** Single characters and runs of characters *)
Lemma rel_one {A} po (V : A -> A -> Prop) c d i j (x y : A) : same (c :: i) (d :: j) -> (po = true -> wordish c = false) -> V x y -> rel po V (c :: i) (d :: j) (Ok i x) (Ok j y).
Proof.
  intros S P H. apply (rel_ok po V _ _ i j x y [c] [d]); auto. intros E. cbn in S. destruct S as (_ & _ & S & _). auto.
Qed.
Definition quiet (c : N) : bool := fixed c && negb (wordish c).
Lemma quiet_fixed c : quiet c = true -> fixed c = true. Proof. unfold quiet. now destruct (fixed c). Qed.
Lemma quiet_word c : quiet c = true -> wordish c = false. Proof. unfold quiet. now destruct (fixed c), (wordish c). Qed.
Lemma cs_chr a c : quiet c = true -> cs a true eq (chr c).
Proof.
  intros Q [|x i] [|y j] S Hd; try contradiction; cbn [chr]; [now apply rel_err|].
  destruct S as (A & S). rewrite (alike_eqb c x y A (quiet_fixed c Q)). destruct (N.eqb_spec y c) as [->|N]; [|now apply rel_err].
  apply rel_one; [now split| |reflexivity]. intros _. rewrite (alike_word x c A). now apply quiet_word.
Qed.
Lemma cs_one_of a b cs0 : blind_b (contains cs0) = true -> (b = true -> forallb quiet cs0 = true) -> cs a b alike (one_of cs0).
Proof.
  intros B Q [|x i] [|y j] S Hd; try contradiction; cbn [one_of]; [now apply rel_err|].
  pose proof S as (A & _). rewrite (blind_ok _ B x y A). destruct (contains cs0 y) eqn:E; [|now apply rel_err].
  apply rel_one; [exact S| |exact A]. intros T. specialize (Q T). rewrite forallb_forall in Q. unfold contains in E. apply existsb_exists in E as (z & Z & E).
  apply N.eqb_eq in E. subst z. rewrite (alike_word x y A). now apply quiet_word, Q.
Qed.
Lemma cs_none_of a cs0 : blind_b (contains cs0) = true -> cs a false alike (none_of cs0).
Proof.
  intros B [|x i] [|y j] S Hd; try contradiction; cbn [none_of]; [now apply rel_err|].
  pose proof S as (A & _). rewrite (blind_ok _ B x y A). destruct (contains cs0 y) eqn:E; [now apply rel_err|].
  apply rel_one; [exact S|discriminate|exact A].
Qed.
Lemma span_same f : blind f -> forall i j, same i j -> exists u u' r r', span f i = (u, r) /\ span f j = (u', r') /\ i = u ++ r /\ j = u' ++ r' /\ length u = length u' /\ Forall2 alike u u'.
Proof.
  intros B. induction i as [|c i IH]; intros [|d j]; try contradiction; intros S.
  - now exists [], [], [], [].
  - pose proof S as (A & _ & _ & S'). cbn. rewrite (B c d A). destruct (f d).
    + destruct (IH j S') as (u & u' & r & r' & E & E' & -> & -> & L & F). rewrite E, E'. exists (c :: u), (d :: u'), r, r'. cbn. repeat split; auto.
    + now exists [], [], (c :: i), (d :: j).
Qed.
Lemma cs_take_while a f : blind_b f = true -> cs a false (Forall2 alike) (take_while f).
Proof.
  intros B i j S Hd. unfold take_while. destruct (span_same f (blind_ok f B) i j S) as (u & u' & r & r' & E & E' & -> & -> & L & F). rewrite E, E'.
  apply (rel_ok false _ _ _ r r' u u' u u'); auto. discriminate.
Qed.
Lemma cs_take1 a k f : blind_b f = true -> cs a false (Forall2 alike) (take1 k f).
Proof.
  intros B i j S Hd. unfold take1. destruct (span_same f (blind_ok f B) i j S) as (u & u' & r & r' & E & E' & -> & -> & L & F). rewrite E, E'.
  destruct u, u'; try discriminate; [now apply rel_err|]. apply (rel_ok false _ _ _ r r' _ _ (n :: u) (n0 :: u')); auto. discriminate.
Qed.
Lemma span_n_same f n : blind f -> forall i j, same i j -> exists u u' r r', span_n n f i = (u, r) /\ span_n n f j = (u', r') /\ i = u ++ r /\ j = u' ++ r' /\ length u = length u' /\ Forall2 alike u u'.
Proof.
  intros B. induction n as [|n IH]; intros i j S; [exists [], [], i, j; cbn; repeat split; auto|].
  destruct i as [|c i], j as [|d j]; try contradiction.
  - now exists [], [], [], [].
  - pose proof S as (A & _ & _ & S'). cbn. rewrite (B c d A). destruct (f d).
    + destruct (IH _ _ S') as (u & u' & r & r' & E & E' & -> & -> & L & F). rewrite E, E'. exists (c :: u), (d :: u'), r, r'. cbn. repeat split; auto.
    + now exists [], [], (c :: i), (d :: j).
Qed.
Lemma cs_take_mn a m n f : blind_b f = true -> cs a false (Forall2 alike) (take_while_m_n m n f).
Proof.
  intros B i j S Hd. unfold take_while_m_n. destruct (span_n_same f n (blind_ok f B) i j S) as (u & u' & r & r' & E & E' & -> & -> & L & F). rewrite E, E', L.
  destruct (Nat.leb m (length u')); [|now apply rel_err]. apply (rel_ok false _ _ _ r r' u u' u u'); auto. discriminate.
Qed.

(** ** Fixed texts *)
Lemma strip_same t : forallb fixed t = true -> forall i j, same i j ->
  match strip_prefix t i, strip_prefix t j with Some r, Some r' => i = t ++ r /\ j = t ++ r' | None, None => True | _, _ => False end.
Proof.
  induction t as [|c t IH]; intros F i j S; [now split|]. apply andb_true_iff in F as [F1 F].
  destruct i as [|x i], j as [|y j]; try contradiction; [exact I|]. destruct S as (A & _ & _ & S). cbn. rewrite !(N.eqb_sym c), (alike_eqb c x y A F1).
  destruct (N.eqb_spec y c) as [->|N]; [|exact I]. specialize (IH F i j S). destruct (strip_prefix t i), (strip_prefix t j); auto.
  destruct IH as [-> ->]. split; [|reflexivity]. apply alike_sym in A. now rewrite (alike_fixed c x A F1).
Qed.
Lemma cs_tag a b t : forallb fixed t = true -> (b = true -> match rev t with c :: _ => quiet c = true | [] => False end) -> cs a b eq (tag t).
Proof.
  intros F Q i j S Hd. unfold tag. pose proof (strip_same t F i j S) as H. destruct (strip_prefix t i) as [r|], (strip_prefix t j) as [r'|]; try contradiction; [|now apply rel_err].
  destruct H as [-> ->]. apply (rel_ok b _ _ _ r r' t t t t); auto. intros E. specialize (Q E).
  destruct (rev t) as [|c t'] eqn:R; [contradiction|]. apply (f_equal (@rev N)) in R. rewrite rev_involutive in R. cbn in R. subst t.
  rewrite <- !app_assoc in S. apply same_app in S as [S _]; [|reflexivity]. destruct S as (_ & _ & S & _). now apply S, quiet_word.
Qed.
Lemma zip_same_cs t : forall i j, same i j -> zip_same i t = zip_same j t.
Proof.
  induction t as [|c t IH]; intros i j S; [now destruct i, j|]. destruct i as [|x i], j as [|y j]; try contradiction; [reflexivity|].
  destruct S as (A & _ & _ & S). cbn. now rewrite (alike_low x y A), (IH i j S).
Qed.
Lemma blen_same i : forall j, same i j -> blen i = blen j.
Proof. induction i as [|c i IH]; intros [|d j]; try contradiction; [reflexivity|]. intros (A & _ & _ & S). cbn. now rewrite (alike_len c d A), (IH j S). Qed.
Lemma split_same i : forall n j, same i j ->
  match split_at n i, split_at n j with Some (u, r), Some (u', r') => i = u ++ r /\ j = u' ++ r' /\ length u = length u' | None, None => True | _, _ => False end.
Proof.
  induction i as [|c i IH]; intros n [|d j]; try contradiction; intros S.
  - destruct n; cbn; auto.
  - destruct n as [|n]; [cbn; auto|]. destruct S as (A & _ & _ & S). cbn [split_at]. rewrite (alike_len c d A).
    destruct (Nat.leb (utf8_len d) (Datatypes.S n)); [|exact I]. specialize (IH (Datatypes.S n - utf8_len d)%nat j S).
    destruct (split_at _ i) as [[u r]|], (split_at _ j) as [[u' r']|]; auto. destruct IH as (-> & -> & L). cbn. auto.
Qed.
Lemma cs_tnc a t : cs a false any (tag_no_case t).
Proof.
  intros i j S Hd. unfold tag_no_case, compare_no_case. rewrite (zip_same_cs t i j S), (blen_same i j S).
  destruct (zip_same j t); [|now apply rel_err]. destruct (Nat.leb (blen t) (blen j)); [|now apply rel_err].
  pose proof (split_same i (blen t) j S) as H. destruct (split_at (blen t) i) as [[u r]|], (split_at (blen t) j) as [[u' r']|]; try contradiction; [|now apply rel_err].
  destruct H as (-> & -> & L). apply (rel_ok false _ _ _ r r' u u' u u'); auto; [discriminate|exact I].
Qed.
Lemma cs_tnc_s a t : cs a false any (tag_no_case_streaming t).
Proof.
  intros i j S Hd. unfold tag_no_case_streaming, compare_no_case. rewrite (zip_same_cs t i j S), (blen_same i j S).
  destruct (zip_same j t); [|now apply rel_err]. destruct (Nat.leb (blen t) (blen j)); [|now apply rel_err].
  pose proof (split_same i (blen t) j S) as H. destruct (split_at (blen t) i) as [[u r]|], (split_at (blen t) j) as [[u' r']|]; try contradiction; [|now apply rel_err].
  destruct H as (-> & -> & L). apply (rel_ok false _ _ _ r r' u u' u u'); auto; [discriminate|exact I].
Qed.
