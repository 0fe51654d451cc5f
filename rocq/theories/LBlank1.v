(** Changing blanks: the relation between the two texts and the combinators of nom. *)
From Verif Require Export LRecase1 SpecBlank LTok.
Notation length := List.length (only parsing).
Open Scope N_scope.
Open Scope list_scope.

(** ** Squeezing *)
Definition sqz (h : bool) (i : str) : str := squeeze_from h false i.
Fixpoint after (h : bool) (u : str) : bool := match u with [] => h | c :: r => after (hash h c) r end.
Fixpoint endgap (h g : bool) (u : str) : bool := match u with [] => g | c :: r => endgap (hash h c) (gap h c) r end.
Lemma gap_32 h : gap h 32 = true. Proof. reflexivity. Qed.
Lemma gap_hash h c : gap h c = true -> hash h c = h.
Proof.
  unfold gap, hash. destruct (N.eqb_spec c 32) as [->|]; [reflexivity|]. destruct (N.eqb_spec c 9) as [->|]; [reflexivity|]. cbn. rewrite andb_true_iff. intros [A B].
  destruct (N.eqb_spec c 35) as [->|]; [discriminate|]. rewrite B. now destruct h.
Qed.
Lemma squeeze_end u : forall h g, endgap h g (squeeze_from h g u) = endgap h g u /\ after h (squeeze_from h g u) = after h u.
Proof.
  induction u as [|c u IH]; intros h g; [auto|]. cbn [squeeze_from endgap after]. destruct (gap h c) eqn:E.
  - rewrite (gap_hash h c E). destruct g; [apply IH|]. cbn [app endgap after]. rewrite gap_32, (gap_hash h 32 (gap_32 h)). apply IH.
  - cbn [endgap after]. rewrite E. apply IH.
Qed.
Lemma squeeze_app u : forall h g v, squeeze_from h g (u ++ v) = squeeze_from h g u ++ squeeze_from (after h u) (endgap h g u) v.
Proof.
  induction u as [|c u IH]; intros h g v; [reflexivity|]. cbn [app squeeze_from endgap after]. destruct (gap h c) eqn:E; rewrite IH; [rewrite (gap_hash h c E); now rewrite <- app_assoc|reflexivity].
Qed.
Lemma squeeze_endgap h g u u' : squeeze_from h g u = squeeze_from h g u' -> endgap h g u = endgap h g u'.
Proof. intros E. rewrite <- (proj1 (squeeze_end u h g)), <- (proj1 (squeeze_end u' h g)). now rewrite E. Qed.
Lemma sqz_after h u u' : sqz h u = sqz h u' -> after h u = after h u'.
Proof. intros E. rewrite <- (proj2 (squeeze_end u h false)), <- (proj2 (squeeze_end u' h false)). unfold sqz in E. now rewrite E. Qed.
Lemma after_app u : forall h v, after h (u ++ v) = after (after h u) v.
Proof. induction u as [|c u IH]; intros h v; [reflexivity|]. cbn. apply IH. Qed.
Lemma squeeze_true h v : squeeze_from h true v = match squeeze_from h false v with c :: l => if c =? 32 then l else c :: l | [] => [] end.
Proof.
  destruct v as [|c v]; [reflexivity|]. cbn. destruct (gap h c) eqn:E; [reflexivity|]. destruct (N.eqb_spec c 32) as [->|]; [now rewrite gap_32 in E|reflexivity].
Qed.
Lemma squeeze_cat h u u' v v' : sqz h u = sqz h u' -> sqz (after h u) v = sqz (after h u) v' -> sqz h (u ++ v) = sqz h (u' ++ v').
Proof.
  intros A B. rewrite (sqz_after h u u' A) in B. pose proof (sqz_after h u u' A) as C. unfold sqz in *.
  rewrite !squeeze_app, A, (squeeze_endgap h false u u' A), C. f_equal. destruct (endgap h false u'); [|exact B]. now rewrite !squeeze_true, B.
Qed.
Lemma squeeze_empty h u : sqz h u = [] -> u = [].
Proof. destruct u as [|c u]; [reflexivity|]. unfold sqz. cbn. destruct (gap h c); discriminate. Qed.
Lemma squeeze_in c i : gap false c = false -> forall h g, In c (squeeze_from h g i) <-> In c i.
Proof.
  intros G. assert (G' : forall h, gap h c = false) by (intros []; [revert G; unfold gap; destruct (c =? 32), (c =? 9); cbn; auto|exact G]).
  induction i as [|d i IH]; intros h g; [reflexivity|]. cbn [squeeze_from]. destruct (gap h d) eqn:E.
  - rewrite in_app_iff, (IH h true). cbn. split.
    + intros [H|H]; [|now right]. destruct g; [contradiction|]. destruct H as [<-|[]]. now rewrite gap_32 in G.
    + intros [<-|H]; [rewrite G' in E; discriminate|now right].
  - cbn. now rewrite (IH (hash h d) false).
Qed.
Lemma gap_more h c : gap false c = false -> gap h c = false.
Proof. unfold gap. destruct (c =? 32), (c =? 9), h; cbn; auto. Qed.
Lemma gap_less h c : gap h c = true -> gap false c = true.
Proof. unfold gap. destruct (c =? 32), (c =? 9), h; cbn; auto. discriminate. Qed.
Lemma flat_squeeze u : forall h a b, (a = true -> b = true) -> flat_from b (squeeze_from h a u) = flat_from b u.
Proof.
  induction u as [|c u IH]; intros h a b H; [reflexivity|]. cbn [squeeze_from flat_from]. destruct (gap h c) eqn:E.
  - rewrite (gap_less h c E). destruct a.
    + rewrite (H eq_refl). cbn [app]. apply IH. auto.
    + cbn [app flat_from]. rewrite gap_32. f_equal. apply IH. auto.
  - cbn [flat_from]. destruct (gap false c) eqn:E2; [f_equal|f_equal]; apply IH; discriminate.
Qed.
Lemma sqz_flat h u u' : sqz h u = sqz h u' -> flat u = flat u'.
Proof. unfold sqz, flat. intros E. rewrite <- (flat_squeeze u h false false), <- (flat_squeeze u' h false false), E; auto. Qed.

(** ** Texts *)
(** [q]: there are no quotes *)
Definition sam (q h : bool) (i j : str) : Prop := sqz h i = sqz h j /\ (q = true -> ~ In 34 i /\ ~ In 39 i).
Definition nogap (h : bool) (i : str) : Prop := match i with c :: _ => gap h c = false | [] => True end.
Lemma sam_tail q h k u u' i j : sam q h (u ++ i) (u' ++ j) -> sqz k i = sqz k j -> sam q k i j.
Proof.
  intros (_ & B) E. split; [exact E|].
  intros H. destruct (B H) as [X Y]. split; intros I; [apply X|apply Y]; apply in_or_app; now right.
Qed.
Lemma run_split h i : exists b r, i = b ++ r /\ forallb (gap h) b = true /\ nogap h r.
Proof.
  induction i as [|c i (b & r & -> & B & R)]; [now exists [], []|]. destruct (gap h c) eqn:E.
  - exists (c :: b), r. cbn. now rewrite E, B.
  - exists [], (c :: b ++ r). now cbn.
Qed.
Lemma run_after h b : forallb (gap h) b = true -> after h b = h.
Proof. induction b as [|c b IH]; [reflexivity|]. cbn. rewrite andb_true_iff. intros [A B]. rewrite (gap_hash h c A). auto. Qed.
Lemma squeeze_run h b r : forallb (gap h) b = true -> squeeze_from h true (b ++ r) = squeeze_from h true r.
Proof. induction b as [|c b IH]; [reflexivity|]. cbn. rewrite andb_true_iff. intros [A B]. rewrite A. cbn. auto. Qed.
Lemma squeeze_nogap h r : nogap h r -> squeeze_from h true r = squeeze_from h false r.
Proof. destruct r as [|c r]; [reflexivity|]. cbn. intros ->. reflexivity. Qed.
Lemma squeeze_gaps h b b' : forallb (gap h) b = true -> forallb (gap h) b' = true -> b <> [] -> b' <> [] -> sqz h b = sqz h b'.
Proof.
  intros B B' N N'. destruct b as [|c b], b' as [|d b']; try contradiction. unfold sqz. cbn in B, B' |- *. apply andb_true_iff in B as [-> B], B' as [-> B'].
  rewrite <- (app_nil_r b), <- (app_nil_r b'), !squeeze_run by assumption. reflexivity.
Qed.
Inductive split2 (q h : bool) : str -> str -> Prop :=
| s2_nil : split2 q h [] []
| s2_char c i j : gap h c = false -> sam q (hash h c) i j -> split2 q h (c :: i) (c :: j)
| s2_gap b b' i j : b <> [] -> b' <> [] -> forallb (gap h) b = true -> forallb (gap h) b' = true -> nogap h i -> nogap h j -> sam q h i j -> split2 q h (b ++ i) (b' ++ j).
Lemma sam_split q h i j : sam q h i j -> split2 q h i j.
Proof.
  intros S. pose proof S as (E & _). unfold sqz in E. destruct i as [|c i].
  - cbn in E. symmetry in E. apply (squeeze_empty h) in E. subst j. constructor.
  - destruct j as [|d j]; [now apply (squeeze_empty h) in E|]. cbn in E. destruct (gap h c) eqn:C, (gap h d) eqn:D.
    + destruct (run_split h i) as (b & r & -> & B & R), (run_split h j) as (b' & r' & -> & B' & R').
      apply (s2_gap q h (c :: b) (d :: b') r r'); auto; try discriminate; [cbn; now rewrite C|cbn; now rewrite D|].
      apply (sam_tail q h h (c :: b) (d :: b')); [exact S|]. injection E as E. rewrite !squeeze_run in E by assumption.
      unfold sqz. now rewrite !squeeze_nogap in E.
    + injection E as <- E. now rewrite gap_32 in D.
    + injection E as -> E. now rewrite gap_32 in C.
    + injection E as <- E. apply s2_char; [exact C|]. now apply (sam_tail q h _ [c] [c]).
Qed.

(** ** Outcomes *)
(** [t]: the texts read are equal *)
Definition brel {A} (m h t : bool) (V : A -> A -> Prop) (i j : str) (x y : res A) : Prop :=
  x = Err OutOfFuel \/ y = Err OutOfFuel \/
  match x, y with
  | Ok r a, Ok r' a' =>
      V a a' /\ exists u u', i = u ++ r /\ j = u' ++ r' /\ sqz h u = sqz h u' /\ (t = true -> u = u') /\ sam m (after h u) r r'
  | Err e, Err e' => kind e = kind e'
  | _, _ => False
  end.
(** [bs2 m t V p q]: on two such texts [p] and [q] give the same verdict, read texts that differ in blanks only, and give
    values related by [V] *)
Definition bs2 {A} (m t : bool) (V : A -> A -> Prop) (p q : parser A) : Prop :=
  forall h i j, sam m h i j -> brel m h t V i j (p i) (q j).
Notation bs m t V p := (bs2 m t V p p) (only parsing).

Lemma brel_weaken {A} m h t t' (V W : A -> A -> Prop) i j x y : (t' = true -> t = true) -> (forall a b, V a b -> W a b) -> brel m h t V i j x y -> brel m h t' W i j x y.
Proof.
  intros P H [X|[X|X]]; [now left|now right; left|right; right]. destruct x, y; auto. destruct X as (Y & u & u' & E & E' & Q & T & S). split; [auto|]. exists u, u'. auto 8.
Qed.
Lemma bs_weaken {A} m t t' (V W : A -> A -> Prop) p q : (t' = true -> t = true) -> (forall a b, V a b -> W a b) -> bs2 m t V p q -> bs2 m t' W p q.
Proof. intros P H C h i j S. eapply brel_weaken; [exact P|exact H|]. now apply C. Qed.
Lemma bs_any {A} m t V (p q : parser A) : bs2 m t V p q -> bs2 m t any p q.
Proof. apply bs_weaken; auto. intros; exact I. Qed.
Lemma bs_txt {A} m t (V W : A -> A -> Prop) (p q : parser A) : (forall a b, V a b -> W a b) -> bs2 m t V p q -> bs2 m t W p q.
Proof. apply bs_weaken; auto. Qed.
Lemma bs_false {A} m t (V : A -> A -> Prop) (p q : parser A) : bs2 m true V p q -> bs2 m t V p q.
Proof. apply bs_weaken; auto. Qed.
Lemma brel_ok {A} m h t (V : A -> A -> Prop) i j r r' (a a' : A) u u' : sam m h i j -> i = u ++ r -> j = u' ++ r' -> sqz h u = sqz h u' -> (t = true -> u = u') -> sqz (after h u) r = sqz (after h u) r' -> V a a' ->
  brel m h t V i j (Ok r a) (Ok r' a').
Proof.
  intros S E E' L P R H. right; right. split; [exact H|]. exists u, u'. split; [exact E|]. split; [exact E'|]. split; [exact L|]. split; [exact P|]. subst i j. now apply (sam_tail m h (after h u) u u').
Qed.
Lemma brel_stay {A} m h t (V : A -> A -> Prop) i j (a a' : A) : sam m h i j -> V a a' -> brel m h t V i j (Ok i a) (Ok j a').
Proof. intros S H. apply (brel_ok m h t V i j i j a a' [] []); auto. apply S. Qed.
Lemma brel_err {A} m h t (V : A -> A -> Prop) i j e e' : kind e = kind e' -> brel m h t V i j (Err e) (Err e').
Proof. intros H. now right; right. Qed.
Lemma brel_step {A} m h t (V : A -> A -> Prop) u u' r r' r2 r2' (a a' : A) v v' : sqz h u = sqz h u' -> (t = true -> u = u') ->
  r = v ++ r2 -> r' = v' ++ r2' -> sqz (after h u) v = sqz (after h u) v' -> (t = true -> v = v') -> sam m (after (after h u) v) r2 r2' -> V a a' ->
  brel m h t V (u ++ r) (u' ++ r') (Ok r2 a) (Ok r2' a').
Proof.
  intros E T -> -> E2 T2 S H. right; right. split; [exact H|]. exists (u ++ v), (u' ++ v'). rewrite !app_assoc. split; [reflexivity|]. split; [reflexivity|].
  split; [now apply squeeze_cat|]. split; [|now rewrite after_app]. intros Q. now rewrite T, T2.
Qed.

Ltac boutcome H x y :=
  let X := fresh "X" in
  destruct H as [X|[X|X]];
  [rewrite X; cbv beta iota; left; reflexivity|rewrite X; cbv beta iota; right; left; reflexivity|];
  destruct x as [?r ?a|?e] eqn:?E1, y as [?r' ?a'|?e'] eqn:?E2; try contradiction.

Lemma bs_pair {A B} m t V W (p p' : parser A) (q q' : parser B) : bs2 m t V p p' -> bs2 m t W q q' -> bs2 m t (both V W) (pair p q) (pair p' q').
Proof.
  intros P Q h i j S. unfold pair. specialize (P h i j S). boutcome P (p i) (p' j).
  - destruct X as (X1 & u & u' & -> & -> & E & T & S1). specialize (Q _ _ _ S1). boutcome Q (q r) (q' r').
    + destruct X as (X2 & v & v' & Ev & Ev' & Ew & T2 & S2). eapply brel_step; [exact E|exact T|exact Ev|exact Ev'|exact Ew|exact T2|exact S2|now split].
    + right; right. exact X.
  - right; right. exact X.
Qed.
Lemma bs_map {A B} m t V (W : B -> B -> Prop) (p p' : parser A) f : bs2 m t V p p' -> (forall x y, V x y -> W (f x) (f y)) -> bs2 m t W (Nom.map p f) (Nom.map p' f).
Proof.
  intros P F h i j S. unfold Nom.map. specialize (P h i j S). boutcome P (p i) (p' j).
  - destruct X as (X1 & X). right; right. auto.
  - right; right. exact X.
Qed.
Lemma bs_preceded {A B} m t V W (p p' : parser A) (q q' : parser B) : bs2 m t V p p' -> bs2 m t W q q' -> bs2 m t W (preceded p q) (preceded p' q').
Proof. intros P Q. eapply bs_map; [eapply bs_pair; eassumption|]. now intros x y [_ H]. Qed.
Lemma bs_terminated {A B} m t V W (p p' : parser A) (q q' : parser B) : bs2 m t V p p' -> bs2 m t W q q' -> bs2 m t V (terminated p q) (terminated p' q').
Proof. intros P Q. eapply bs_map; [eapply bs_pair; eassumption|]. now intros x y [H _]. Qed.
Lemma bs_alt_nil {A} m t (V : A -> A -> Prop) : bs2 m t V (alt []) (alt []).
Proof. intros h i j S. now apply brel_err. Qed.
Lemma bs_alt {A} m t V (p p' : parser A) ps ps' : length ps = length ps' -> bs2 m t V p p' -> bs2 m t V (alt ps) (alt ps') -> bs2 m t V (alt (p :: ps)) (alt (p' :: ps')).
Proof.
  intros L P Q h i j S. specialize (P h i j S). destruct ps as [|q ps], ps' as [|q' ps']; try discriminate; [exact P|]. specialize (Q h i j S).
  change (alt (p :: q :: ps)) with (fun i => match p i with Err (Error _ _) => alt (q :: ps) i | r => r end).
  change (alt (p' :: q' :: ps')) with (fun i => match p' i with Err (Error _ _) => alt (q' :: ps') i | r => r end). cbv beta.
  boutcome P (p i) (p' j).
  - right; right. exact X.
  - kinds X; first [exact Q|now apply brel_err].
Qed.
Lemma bs_opt {A} m t V (p p' : parser A) : bs2 m t V p p' -> bs2 m t (mayb V) (opt p) (opt p').
Proof.
  intros P h i j S. unfold opt. specialize (P h i j S). boutcome P (p i) (p' j).
  - right; right. exact X.
  - kinds X; first [now apply brel_err|apply brel_stay; [exact S|exact I]].
Qed.
Lemma bs_cut {A} m t V (p p' : parser A) : bs2 m t V p p' -> bs2 m t V (cut p) (cut p').
Proof.
  intros P h i j S. unfold cut. specialize (P h i j S). boutcome P (p i) (p' j).
  - right; right. exact X.
  - kinds X; now apply brel_err.
Qed.
Lemma bs_map_res {A B} m t V (W : B -> B -> Prop) (p p' : parser A) f : bs2 m t V p p' -> (forall x y, V x y -> mayb W (f x) (f y)) -> bs2 m t W (map_res p f) (map_res p' f).
Proof.
  intros P F h i j S. unfold map_res. specialize (P h i j S). boutcome P (p i) (p' j).
  - destruct X as (X1 & X). specialize (F _ _ X1). destruct (f a), (f a'); try contradiction; [right; right; auto|now apply brel_err].
  - right; right. exact X.
Qed.
Lemma bs_recognize {A} m t V (p p' : parser A) : bs2 m t V p p' -> bs2 m t (fun u u' => flat u = flat u' /\ (t = true -> u = u')) (recognize p) (recognize p').
Proof.
  intros P h i j S. unfold recognize. specialize (P h i j S). boutcome P (p i) (p' j).
  - destruct X as (X1 & u & u' & -> & -> & E & T & S1). right; right. rewrite !firstn_front. split; [split; [now apply (sqz_flat h)|exact T]|]. exists u, u'. auto.
  - right; right. exact X.
Qed.
Lemma bs_recognize_eq {A} m V (p p' : parser A) : bs2 m true V p p' -> bs2 m true eq (recognize p) (recognize p').
Proof. intros P. eapply bs_txt; [|eapply bs_recognize, P]. intros x y [_ H]. auto. Qed.

Lemma sqz_nil h u : sqz h u = sqz h [] -> u = [].
Proof. apply squeeze_empty. Qed.
Lemma read_none h u u' r r' : sqz h u = sqz h u' -> str_eqb r (u ++ r) = str_eqb r' (u' ++ r').
Proof.
  intros E. assert (X : forall (c : N) u r, str_eqb r ((c :: u) ++ r) = false).
  { intros k v w. destruct (str_eqb w ((k :: v) ++ w)) eqn:Q; [|reflexivity]. apply str_eqb_iff in Q. apply (f_equal (@List.length N)) in Q. cbn in Q. rewrite app_length in Q. lia. }
  destruct u as [|c u], u' as [|c' u'].
  - cbn. rewrite (proj2 (str_eqb_iff r r) eq_refl). symmetry. now apply str_eqb_iff.
  - symmetry in E. now apply squeeze_empty in E.
  - now apply squeeze_empty in E.
  - now rewrite !X.
Qed.
Lemma brel_cons {A B} m h t (W : B -> B -> Prop) u u' r r' (x : A) x' (f : A -> list B -> list B) l l' :
  sqz h u = sqz h u' -> (t = true -> u = u') -> (forall k k', Forall2 W k k' -> Forall2 W (f x k) (f x' k')) -> brel m (after h u) t (Forall2 W) r r' l l' ->
  brel m h t (Forall2 W) (u ++ r) (u' ++ r') (match l with Ok r l => Ok r (f x l) | Err e => Err e end) (match l' with Ok r l => Ok r (f x' l) | Err e => Err e end).
Proof.
  intros L T F H. boutcome H l l'.
  - destruct X as (X2 & v & v' & Ev & Ev' & E & T2 & S2). eapply brel_step; [exact L|exact T|exact Ev|exact Ev'|exact E|exact T2|exact S2|auto].
  - right; right. exact X.
Qed.
Lemma many0_bs {A} m t V (p p' : parser A) n : forall k, bs2 m t V p p' -> bs2 m t (Forall2 V) (many0_loop n p) (many0_loop k p').
Proof.
  induction n as [|n IH]; intros [|k] P h i j S; [now left|now left|now right; left|]. cbn [many0_loop]. pose proof (P h i j S) as H. boutcome H (p i) (p' j).
  - destruct X as (X1 & u & u' & -> & -> & E & T & S1). rewrite (read_none h u u' r r' E). destruct (str_eqb r' (u' ++ r')); [now apply brel_err|].
    eapply (brel_cons m h t V u u' r r' a a' cons); [exact E|exact T| |apply IH; auto]. intros. now constructor.
  - kinds X; first [now apply brel_err|apply brel_stay; [exact S|constructor]].
Qed.
Lemma bs_many0 {A} m t V (p p' : parser A) : bs2 m t V p p' -> bs2 m t (Forall2 V) (many0 p) (many0 p').
Proof. intros P h i j S. unfold many0. now apply many0_bs. Qed.
Lemma many1_bs {A} m t V (p p' : parser A) n : forall k, bs2 m t V p p' -> bs2 m t (Forall2 V) (many1_loop n p) (many1_loop k p').
Proof.
  induction n as [|n IH]; intros [|k] P h i j S; [now left|now left|now right; left|]. cbn [many1_loop]. pose proof (P h i j S) as H. boutcome H (p i) (p' j).
  - destruct X as (X1 & u & u' & -> & -> & E & T & S1). rewrite (read_none h u u' r r' E). destruct (str_eqb r' (u' ++ r')); [now apply brel_err|].
    eapply (brel_cons m h t V u u' r r' a a' cons); [exact E|exact T| |apply IH; auto]. intros. now constructor.
  - kinds X; first [now apply brel_err|apply brel_stay; [exact S|constructor]].
Qed.
Lemma bs_many1 {A} m t V (p p' : parser A) : bs2 m t V p p' -> bs2 m t (Forall2 V) (many1 p) (many1 p').
Proof.
  intros P h i j S. unfold many1. pose proof (P h i j S) as H. boutcome H (p i) (p' j).
  - destruct X as (X1 & u & u' & -> & -> & E & T & S1).
    eapply (brel_cons m h t V u u' r r' a a' cons); [exact E|exact T| |apply many1_bs; auto]. intros. now constructor.
  - right; right. exact X.
Qed.
Lemma sep_bs {A B} m t V W (s s' : parser B) (p p' : parser A) n : forall k, bs2 m t W s s' -> bs2 m t V p p' -> bs2 m t (Forall2 V) (sep_loop n s p) (sep_loop k s' p').
Proof.
  induction n as [|n IH]; intros [|k] Q P h i j S; [now left|now left|now right; left|]. cbn [sep_loop]. pose proof (Q h i j S) as H. boutcome H (s i) (s' j).
  - destruct X as (X1 & u & u' & -> & -> & E & T & S1). rewrite (read_none h u u' r r' E). destruct (str_eqb r' (u' ++ r')); [now apply brel_err|].
    pose proof (P _ _ _ S1) as H. boutcome H (p r) (p' r').
    + destruct X as (X2 & v & v' & -> & -> & Ew & T2 & S2).
      assert (EE : sqz h (u ++ v) = sqz h (u' ++ v')) by now apply squeeze_cat.
      rewrite !app_assoc, (read_none h (u ++ v) (u' ++ v') r0 r'0 EE).
      destruct (str_eqb r'0 ((u' ++ v') ++ r'0)); [now apply brel_err|].
      eapply (brel_cons m h t V _ _ _ _ a0 a'0 cons); [exact EE|intros Z; now rewrite T, T2| |apply IH; auto; now rewrite after_app]. intros. now constructor.
    + kinds X; first [now apply brel_err|apply brel_stay; [exact S|constructor]].
  - kinds X; first [now apply brel_err|apply brel_stay; [exact S|constructor]].
Qed.
Lemma bs_sep1 {A B} m t V W (s s' : parser B) (p p' : parser A) : bs2 m t W s s' -> bs2 m t V p p' -> bs2 m t (Forall2 V) (separated_nonempty_list s p) (separated_nonempty_list s' p').
Proof.
  intros Q P h i j S. unfold separated_nonempty_list. pose proof (P h i j S) as H. boutcome H (p i) (p' j).
  - destruct X as (X1 & u & u' & -> & -> & E & T & S1). rewrite (read_none h u u' r r' E). destruct (str_eqb r' (u' ++ r')); [now apply brel_err|].
    eapply (brel_cons m h t V u u' r r' a a' cons); [exact E|exact T| |eapply sep_bs; eauto]. intros. now constructor.
  - right; right. exact X.
Qed.
Lemma bs_sep0 {A B} m t V W (s s' : parser B) (p p' : parser A) : bs2 m t W s s' -> bs2 m t V p p' -> bs2 m t (Forall2 V) (separated_list s p) (separated_list s' p').
Proof.
  intros Q P h i j S. unfold separated_list. pose proof (P h i j S) as H. boutcome H (p i) (p' j).
  - destruct X as (X1 & u & u' & -> & -> & E & T & S1). rewrite (read_none h u u' r r' E). destruct (str_eqb r' (u' ++ r')); [now apply brel_err|].
    eapply (brel_cons m h t V u u' r r' a a' cons); [exact E|exact T| |eapply sep_bs; eauto]. intros. now constructor.
  - kinds X; first [now apply brel_err|apply brel_stay; [exact S|constructor]].
Qed.
Lemma bs_iter {A} m t V (body body' : parser A -> parser A) n : forall k, (forall p q, bs2 m t V p q -> bs2 m t V (body p) (body' q)) -> bs2 m t V (iter n body) (iter k body').
Proof. induction n as [|n IH]; intros [|k] B; [intros h i j S; now left|intros h i j S; now left|intros h i j S; now right; left|]. exact (B _ _ (IH k B)). Qed.
Lemma bs_fixp {A} m t V (body body' : parser A -> parser A) : (forall p q, bs2 m t V p q -> bs2 m t V (body p) (body' q)) -> bs2 m t V (fixp body) (fixp body').
Proof. intros B h i j S. unfold fixp. now apply bs_iter. Qed.

(** ** Characters and texts without blanks *)
Definition tight (c : N) : bool := negb (gap false c).
Lemma tight_gap c b nl : tight c = true -> gap nl b = true -> b =? c = false.
Proof.
  unfold tight. destruct (gap false c) eqn:E; [discriminate|]. intros _ B. destruct (N.eqb_spec b c) as [->|]; [|reflexivity]. rewrite (gap_more nl c E) in B. discriminate.
Qed.
Ltac halves S :=
  let Q := fresh in pose proof (sam_split _ _ _ _ S) as Q; inversion Q as [Q1 Q2|?c ?i ?j ?G ?S' Q1 Q2|?b ?b' ?i ?j ?Nb ?Nb' ?Gb ?Gb' ?Ni ?Nj ?S' Q1 Q2]; clear Q; subst.
Lemma bs_chr m t c : tight c = true -> bs m t eq (chr c).
Proof.
  intros T h i j S. halves S.
  - now apply brel_err.
  - cbn [chr]. destruct (c0 =? c); [|now apply brel_err]. apply (brel_ok m h t _ _ _ i0 j0 c c [c0] [c0]); auto. apply S'.
  - destruct b as [|x b], b' as [|y b']; try contradiction. cbn in Gb, Gb'. apply andb_true_iff in Gb as [Gb _], Gb' as [Gb' _].
    cbn [app chr]. rewrite (tight_gap c x _ T Gb), (tight_gap c y _ T Gb'). now apply brel_err.
Qed.
Lemma contains_tight cs0 b nl : forallb tight cs0 = true -> gap nl b = true -> contains cs0 b = false.
Proof.
  intros T B. unfold contains. destruct (existsb _ cs0) eqn:E; [|reflexivity]. apply existsb_exists in E as (x & I & E). rewrite forallb_forall in T.
  rewrite N.eqb_sym, (tight_gap x b nl (T x I) B) in E || rewrite (tight_gap x b nl (T x I) B) in E. discriminate.
Qed.
Lemma bs_one_of m t cs0 : forallb tight cs0 = true -> bs m t eq (one_of cs0).
Proof.
  intros T h i j S. halves S.
  - now apply brel_err.
  - cbn [one_of]. destruct (contains cs0 c); [|now apply brel_err]. apply (brel_ok m h t _ _ _ i0 j0 c c [c] [c]); auto. apply S'.
  - destruct b as [|x b], b' as [|y b']; try contradiction. cbn in Gb, Gb'. apply andb_true_iff in Gb as [Gb _], Gb' as [Gb' _].
    cbn [app one_of]. rewrite (contains_tight cs0 x _ T Gb), (contains_tight cs0 y _ T Gb'). now apply brel_err.
Qed.
(** a class without blanks *)
Definition tight_class (f : N -> bool) : bool := forallb (fun c => negb (f c)) [32; 9; 10; 13].
Lemma gap_cases nl c : gap nl c = true -> In c [32; 9; 10; 13].
Proof.
  unfold gap, line_end. rewrite !orb_true_iff, andb_true_iff, orb_true_iff, !N.eqb_eq. intros [[->| ->]|[_ [->| ->]]]; cbn; auto.
Qed.
Lemma class_gap f nl c : tight_class f = true -> gap nl c = true -> f c = false.
Proof. intros T G. apply gap_cases in G. unfold tight_class in T. rewrite forallb_forall in T. specialize (T c G). now destruct (f c). Qed.
Lemma span_bs m f : tight_class f = true -> forall i h j, sam m h i j -> exists u r r', span f i = (u, r) /\ span f j = (u, r') /\ i = u ++ r /\ j = u ++ r' /\ sam m (after h u) r r'.
Proof.
  intros T i. remember (length i) as n eqn:L. assert (LE : (length i <= n)%nat) by lia. clear L. revert i LE. induction n as [|n IH]; intros i L h j S.
  - destruct i; [|cbn in L; lia]. apply proj1 in S as S0. symmetry in S0. apply squeeze_empty in S0. subst j. exists [], [], []. auto.
  - halves S.
    + exists [], [], []. auto.
    + cbn. cbn in L. destruct (f c) eqn:E; [|exists [], (c :: i0), (c :: j0); auto].
      destruct (IH i0 ltac:(lia) _ j0 S') as (u & r & r' & E1 & E2 & -> & -> & SS). rewrite E1, E2. exists (c :: u), r, r'. auto.
    + destruct b as [|x b], b' as [|y b']; try contradiction. cbn in Gb, Gb'. apply andb_true_iff in Gb as [Gb _], Gb' as [Gb' _].
      cbn. rewrite (class_gap f _ x T Gb), (class_gap f _ y T Gb'). exists [], (x :: b ++ i0), (y :: b' ++ j0). auto.
Qed.
Lemma bs_take_while m t f : tight_class f = true -> bs m t eq (take_while f).
Proof.
  intros T h i j S. unfold take_while. destruct (span_bs m f T i h j S) as (u & r & r' & -> & -> & E & E' & SS).
  apply (brel_ok m h t _ _ _ r r' u u u u); auto. apply SS.
Qed.
Lemma bs_take1 m t k f : tight_class f = true -> bs m t eq (take1 k f).
Proof.
  intros T h i j S. unfold take1. destruct (span_bs m f T i h j S) as (u & r & r' & -> & -> & E & E' & SS).
  destruct u as [|c u]; [now apply brel_err|]. apply (brel_ok m h t _ _ _ r r' _ _ (c :: u) (c :: u)); auto. apply SS.
Qed.
Lemma span_n_bs m f n : tight_class f = true -> forall i h j, sam m h i j -> exists u r r', span_n n f i = (u, r) /\ span_n n f j = (u, r') /\ i = u ++ r /\ j = u ++ r' /\ sam m (after h u) r r'.
Proof.
  intros T. induction n as [|n IH]; intros i h j S; [exists [], i, j; auto|]. halves S.
  - exists [], [], []. auto.
  - cbn. destruct (f c) eqn:E; [|exists [], (c :: i0), (c :: j0); auto].
    destruct (IH i0 _ j0 S') as (u & r & r' & E1 & E2 & -> & -> & SS). rewrite E1, E2. exists (c :: u), r, r'. auto.
  - destruct b as [|x b], b' as [|y b']; try contradiction. cbn in Gb, Gb'. apply andb_true_iff in Gb as [Gb _], Gb' as [Gb' _].
    cbn. rewrite (class_gap f _ x T Gb), (class_gap f _ y T Gb'). exists [], (x :: b ++ i0), (y :: b' ++ j0). auto.
Qed.
Lemma bs_take_mn m t k n f : tight_class f = true -> bs m t eq (take_while_m_n k n f).
Proof.
  intros T h i j S. unfold take_while_m_n. destruct (span_n_bs m f n T i h j S) as (u & r & r' & -> & -> & E & E' & SS).
  destruct (Nat.leb k (length u)); [|now apply brel_err]. apply (brel_ok m h t _ _ _ r r' u u u u); auto. apply SS.
Qed.
Lemma strip_bs m x : forallb tight x = true -> forall h i j, sam m h i j ->
  match strip_prefix x i, strip_prefix x j with Some r, Some r' => i = x ++ r /\ j = x ++ r' /\ sam m (after h x) r r' | None, None => True | _, _ => False end.
Proof.
  induction x as [|c x IH]; intros F h i j S; [now split|]. apply andb_true_iff in F as [F1 F]. halves S.
  - exact I.
  - cbn. destruct (N.eqb_spec c c0) as [->|N]; [|exact I]. specialize (IH F _ i0 j0 S'). destruct (strip_prefix x i0), (strip_prefix x j0); auto. destruct IH as (-> & -> & SS). auto.
  - destruct b as [|y b], b' as [|z b']; try contradiction. cbn in Gb, Gb'. apply andb_true_iff in Gb as [Gb _], Gb' as [Gb' _].
    cbn. rewrite !(N.eqb_sym c), (tight_gap c y _ F1 Gb), (tight_gap c z _ F1 Gb'). exact I.
Qed.
Lemma bs_tag m t x : forallb tight x = true -> bs m t eq (tag x).
Proof.
  intros F h i j S. unfold tag. pose proof (strip_bs m x F h i j S) as H. destruct (strip_prefix x i) as [r|], (strip_prefix x j) as [r'|]; try contradiction; [|now apply brel_err].
  destruct H as (-> & -> & SS). apply (brel_ok m h t _ _ _ r r' x x x x); auto. apply SS.
Qed.

(** ** Blanks *)
Notation lend := line_end.
Lemma lend_in c : lend c = true <-> In c [10; 13].
Proof. unfold line_end. rewrite orb_true_iff, !N.eqb_eq. cbn. intuition congruence. Qed.
Lemma no_nl_all u : no_nl u <-> forall c, In c u -> lend c = false.
Proof.
  unfold no_nl. rewrite Forall_forall. split; intros H c I; specialize (H c I).
  - unfold line_end. destruct H as [A B]. apply N.eqb_neq in A, B. now rewrite A, B.
  - unfold line_end in H. apply orb_false_iff in H as [A B]. now rewrite N.eqb_neq in A, B.
Qed.
Lemma first_same (f : N -> bool) : forall u u' c c' (r r' : str), u ++ c :: r = u' ++ c' :: r' -> (forall x, In x u -> f x = false) -> (forall x, In x u' -> f x = false) -> f c = true -> f c' = true ->
  u = u' /\ c = c' /\ r = r'.
Proof.
  induction u as [|x u IH]; intros [|y u'] c c' r r' E A B C D; cbn in E.
  - now injection E.
  - injection E as -> _. rewrite (B y (or_introl eq_refl)) in C. discriminate.
  - injection E as <- _. rewrite (A x (or_introl eq_refl)) in D. discriminate.
  - injection E as <- E. destruct (IH u' c c' r r' E) as (-> & -> & ->); auto; intros z I; [apply A|apply B]; now right.
Qed.
Lemma after_line u : no_nl u -> after true u = true.
Proof.
  rewrite no_nl_all. induction u as [|c u IH]; [reflexivity|]. intros H. cbn. replace (hash true c) with true; [apply IH; intros d I; apply H; now right|].
  unfold hash. rewrite (H c (or_introl eq_refl)). now destruct (c =? 35).
Qed.
Lemma lend_gap c : lend c = true -> gap true c = false.
Proof. rewrite lend_in. cbn. intros [<-|[<-|[]]]; reflexivity. Qed.
Lemma lend_hash c : lend c = true -> hash true c = false.
Proof. rewrite lend_in. cbn. intros [<-|[<-|[]]]; reflexivity. Qed.
Lemma squeeze_at g u c r : no_nl u -> lend c = true -> squeeze_from true g (u ++ c :: r) = squeeze_from true g u ++ c :: squeeze_from false false r.
Proof. intros H G. rewrite squeeze_app, (after_line u H). f_equal. cbn. now rewrite (lend_gap c G), (lend_hash c G). Qed.
Lemma squeeze_no_nl u : no_nl u -> forall g c, In c (squeeze_from true g u) -> lend c = false.
Proof.
  rewrite no_nl_all. induction u as [|d u IH]; intros H g c I; [contradiction|]. cbn in I. destruct (gap true d) eqn:E.
  - apply in_app_or in I as [I|I].
    + destruct g; [contradiction|]. destruct I as [<-|[]]. reflexivity.
    + eapply IH; [|exact I]. intros x X. apply H. now right.
  - destruct I as [<-|I]; [apply H; now left|]. replace (hash true d) with true in I; [eapply IH; [|exact I]; intros x X; apply H; now right|].
    unfold hash. rewrite (H d (or_introl eq_refl)). now destruct (d =? 35).
Qed.
Lemma no_nl_squeeze u u' : squeeze_from true false u = squeeze_from true false u' -> no_nl u -> no_nl u'.
Proof.
  intros E H. destruct (no_nl_dec u') as [D|(bd & k & t & -> & Hb & Hk)]; [exact D|]. apply lend_in in Hk. rewrite squeeze_at in E by assumption.
  pose proof (squeeze_no_nl u H false k) as X. rewrite E, Hk in X. discriminate X. apply in_or_app. right. now left.
Qed.
Lemma blank_app_gaps b t : forallb (fun c => contains [32; 9; 10; 13] c) b = true -> blank t -> blank (b ++ t).
Proof. induction b as [|c b IH]; [auto|]. cbn [forallb app]. rewrite andb_true_iff. intros [A B] T. apply blank_space; [|auto]. unfold contains in A. apply existsb_exists in A as (x & I & X). apply N.eqb_eq in X. now subst. Qed.
Lemma gaps_blank nl b t : forallb (gap nl) b = true -> blank t -> blank (b ++ t).
Proof. induction b as [|c b IH]; [auto|]. cbn [forallb app]. rewrite andb_true_iff. intros [A B] T. apply blank_space; [|auto]. now apply gap_cases in A. Qed.

Lemma blank_sam m : forall n h i j, (length i <= n)%nat -> sam m h i j -> exists b r b' r', i = b ++ r /\ j = b' ++ r' /\ blank b /\ blank b' /\ solid r /\ solid r' /\ sqz h b = sqz h b' /\ sam m (after h b) r r'.
Proof.
  induction n as [|n IH]; intros h i j L S.
  - destruct i; [|cbn in L; lia]. pose proof S as (S0 & _). symmetry in S0. apply squeeze_empty in S0. subst j. exists [], [], [], []. repeat split; auto; constructor.
  - pose proof S as S00. halves S.
    + exists [], [], [], []. repeat split; auto; constructor.
    + cbn in L. destruct (in_dec N.eq_dec c [32; 9; 10; 13]) as [I|NI].
      * destruct (IH _ i0 j0 ltac:(lia) S') as (b & r & b' & r' & -> & -> & B & B' & R & R' & Q & SS). exists (c :: b), r, (c :: b'), r'.
        split; [reflexivity|]. split; [reflexivity|]. split; [now apply blank_space|]. split; [now apply blank_space|]. split; [exact R|]. split; [exact R'|]. split; [|exact SS].
        now apply (squeeze_cat h [c] [c]).
      * destruct (N.eq_dec c 35) as [->|N35].
        -- destruct S' as (E & X2). unfold sqz in E. change (hash h 35) with true in E. destruct (no_nl_dec i0) as [H|(bd & k & t & -> & Hb & Hk)].
           ++ exists [], (35 :: i0), [], (35 :: j0). split; [reflexivity|]. split; [reflexivity|]. split; [constructor|]. split; [constructor|].
              split; [now split; [|intros _]|]. split; [|split; [reflexivity|exact S00]]. split; [cbn; intuition discriminate|]. intros _. now apply (no_nl_squeeze i0).
           ++ destruct (no_nl_dec j0) as [H|(bd' & k' & t' & -> & Hb' & Hk')].
              { symmetry in E. pose proof (no_nl_squeeze _ _ E H) as H'. rewrite no_nl_all in H'. specialize (H' k). rewrite (proj2 (lend_in k) Hk) in H'. discriminate H'. apply in_or_app. right. now left. }
              rewrite !squeeze_at in E by (assumption || now apply lend_in).
              destruct (first_same lend _ _ _ _ _ _ E (squeeze_no_nl bd Hb false) (squeeze_no_nl bd' Hb' false) (proj2 (lend_in _) Hk) (proj2 (lend_in _) Hk')) as (E1 & <- & E2).
              assert (ST : sam m false t t').
              { apply (sam_tail m h false (35 :: bd ++ [k]) (35 :: bd' ++ [k])); [|exact E2]. cbn. rewrite <- !app_assoc. exact S00. }
              rewrite app_length in L. cbn in L. destruct (IH _ t t' ltac:(lia) ST) as (b & r & b' & r' & -> & -> & B & B' & R & R' & Q & SS).
              exists (35 :: bd ++ k :: b), r, (35 :: bd' ++ k :: b'), r'. cbn [app]. rewrite <- !app_assoc. split; [reflexivity|]. split; [reflexivity|].
              split; [now apply blank_comment|]. split; [now apply blank_comment|]. split; [exact R|]. split; [exact R'|]. 
              assert (AF : after h (35 :: bd ++ [k]) = false) by (cbn [after]; change (hash h 35) with true; rewrite after_app, (after_line bd Hb); cbn; apply lend_hash; now apply lend_in).
              split; [|replace (35 :: bd ++ k :: b) with ((35 :: bd ++ [k]) ++ b) by (cbn; now rewrite <- app_assoc); now rewrite after_app, AF].
              replace (35 :: bd ++ k :: b) with ((35 :: bd ++ [k]) ++ b) by (cbn; now rewrite <- app_assoc). replace (35 :: bd' ++ k :: b') with ((35 :: bd' ++ [k]) ++ b') by (cbn; now rewrite <- app_assoc).
              apply squeeze_cat; [|now rewrite AF]. apply (squeeze_cat h [35] [35]); [reflexivity|]. change (after h [35]) with true. now apply (squeeze_cat true).
        -- exists [], (c :: i0), [], (c :: j0). split; [reflexivity|]. split; [reflexivity|]. split; [constructor|]. split; [constructor|].
           assert (NI' : ~ In c [32; 9; 10; 13; 35]) by (cbn in NI |- *; intuition congruence).
           split; [now apply solid_first|]. split; [now apply solid_first|]. split; [reflexivity|exact S00].
    + assert (LB : (0 < length b)%nat) by (destruct b; [contradiction|cbn; lia]). rewrite app_length in L.
      destruct (IH _ i0 j0 ltac:(lia) S') as (b1 & r & b1' & r' & -> & -> & B & B' & R & R' & Q & SS). exists (b ++ b1), r, (b' ++ b1'), r'. rewrite <- !app_assoc.
      split; [reflexivity|]. split; [reflexivity|]. split; [eapply gaps_blank; eassumption|]. split; [eapply gaps_blank; eassumption|]. split; [exact R|]. split; [exact R'|]. rewrite after_app, (run_after h b Gb). split; [|exact SS].
      apply squeeze_cat; [now apply squeeze_gaps|]. now rewrite (run_after h b Gb).
Qed.
Lemma bs_sp m : bs m false any sp.
Proof.
  intros h i j S. destruct (blank_sam m _ h i j (le_n _) S) as (b & r & b' & r' & -> & -> & B & B' & R & R' & Q & SS). rewrite (sp_ok b r B R), (sp_ok b' r' B' R').
  apply (brel_ok m h false _ _ _ r r' _ _ b b'); auto; [discriminate|apply SS|exact I].
Qed.
Lemma bs_sp1 m : bs m false any sp1.
Proof.
  intros h i j S. destruct (blank_sam m _ h i j (le_n _) S) as (b & r & b' & r' & -> & -> & B & B' & R & R' & Q & SS). destruct b as [|c b].
  - symmetry in Q. apply squeeze_empty in Q. subst b'. destruct (sp1_fails r R) as (p & k & E), (sp1_fails r' R') as (p' & k' & E'). cbn [app]. rewrite E, E'. now apply brel_err.
  - assert (N' : b' <> []) by (intros ->; now apply squeeze_empty in Q). rewrite (sp1_ok (c :: b) r), (sp1_ok b' r'); auto; [|now split|now split].
    apply (brel_ok m h false _ _ _ r r' _ _ (c :: b) b'); auto; [discriminate|apply SS|exact I].
Qed.

(** ** Keywords *)
Lemma sam_front m : forall n h i j, (length i <= n)%nat -> sam m h i j -> exists x y y', i = x ++ y /\ j = x ++ y' /\ sam m (after h x) y y' /\
  (y = [] /\ y' = [] \/ exists b b' r r', y = b :: r /\ y' = b' :: r' /\ gap (after h x) b = true /\ gap (after h x) b' = true).
Proof.
  induction n as [|n IH]; intros h i j L S.
  - destruct i; [|cbn in L; lia]. pose proof S as (S0 & _). symmetry in S0. apply squeeze_empty in S0. subst j. exists [], [], []. auto 6.
  - pose proof S as S00. halves S.
    + exists [], [], []. auto 6.
    + cbn in L. destruct (IH _ i0 j0 ltac:(lia) S') as (x & y & y' & -> & -> & SS & Y). exists (c :: x), y, y'. auto.
    + destruct b as [|c b], b' as [|d b']; try contradiction. exists [], ((c :: b) ++ i0), ((d :: b') ++ j0). split; [reflexivity|]. split; [reflexivity|]. split; [exact S00|]. right.
      cbn in Gb, Gb'. apply andb_true_iff in Gb as [Gb _], Gb' as [Gb' _]. cbn. eauto 8.
Qed.
Definition keyw (t : str) : bool := forallb (fun c => tight (to_lower c) && Nat.eqb (utf8_len c) 1) t.
Lemma gap_lower nl c : gap nl c = true -> to_lower c = c.
Proof. intros G. apply gap_cases in G. cbn in G. destruct G as [<-|[<-|[<-|[<-|[]]]]]; reflexivity. Qed.
Lemma zip_front nl b r : forall x t, keyw t = true -> gap nl b = true -> zip_same (x ++ b :: r) t = Nat.leb (length t) (length x) && zip_same x t.
Proof.
  induction x as [|c x IH]; intros [|d t] K G; cbn [app zip_same List.length Nat.leb]; try reflexivity.
  - cbn in K. apply andb_true_iff in K as [K _]. apply andb_true_iff in K as [K _]. rewrite (gap_lower nl b G), (tight_gap _ b nl K G). reflexivity.
  - cbn in K. apply andb_true_iff in K as [_ K]. rewrite IH by assumption. destruct (to_lower c =? to_lower d), (Nat.leb (length t) (length x)); reflexivity.
Qed.
Lemma keyw_len t : keyw t = true -> blen t = length t.
Proof. induction t as [|c t IH]; [reflexivity|]. cbn. rewrite !andb_true_iff. intros [[_ A] B]. apply Nat.eqb_eq in A. rewrite A, IH by assumption. reflexivity. Qed.
Lemma blen_app x y : blen (x ++ y) = (blen x + blen y)%nat.
Proof. induction x as [|c x IH]; [reflexivity|]. cbn. rewrite IH. lia. Qed.
Lemma blen_ge x : (length x <= blen x)%nat.
Proof. induction x as [|c x IH]; [cbn; lia|]. cbn. pose proof (utf8_len_pos c). lia. Qed.
Lemma split_front : forall x n y, (n <= blen x)%nat -> split_at n (x ++ y) = match split_at n x with Some (a, b) => Some (a, b ++ y) | None => None end.
Proof.
  induction x as [|c x IH]; intros [|n] y L; [destruct y; reflexivity|cbn in L; lia|reflexivity|]. cbn [app split_at]. destruct (Nat.leb (utf8_len c) (S n)) eqn:E; [|reflexivity].
  cbn in L. apply Nat.leb_le in E. rewrite IH by (pose proof (utf8_len_pos c); lia). destruct (split_at _ x) as [[a b]|]; reflexivity.
Qed.
Lemma tnc_front m h t i j : keyw t = true -> sam m h i j ->
  compare_no_case i t = compare_no_case j t /\
  (compare_no_case i t = CmpOk -> match split_at (blen t) i, split_at (blen t) j with Some (u, r), Some (u', r') => u = u' /\ i = u ++ r /\ j = u ++ r' /\ sam m (after h u) r r' | None, None => True | _, _ => False end).
Proof.
  intros K S. destruct (sam_front m _ h i j (le_n _) S) as (x & y & y' & -> & -> & SS & Y).
  assert (Z : zip_same (x ++ y) t = true -> (length t <= length x)%nat \/ y = [] /\ y' = []).
  { intros Z. destruct Y as [Y|(b & b' & r & r' & -> & -> & G & G')]; [now right|left]. rewrite (zip_front (after h x)) in Z by assumption. apply andb_true_iff in Z as [Z _]. now apply Nat.leb_le. }
  assert (E : zip_same (x ++ y) t = zip_same (x ++ y') t).
  { destruct Y as [[-> ->]|(b & b' & r & r' & -> & -> & G & G')]; [reflexivity|]. now rewrite !(zip_front (after h x)). }
  unfold compare_no_case. rewrite <- E. destruct (zip_same (x ++ y) t) eqn:ZZ; [|split; [reflexivity|discriminate]].
  destruct (Z eq_refl) as [L|[-> ->]].
  - rewrite !blen_app, (keyw_len t K). pose proof (blen_ge x). rewrite !(proj2 (Nat.leb_le _ _)) by lia. split; [reflexivity|]. intros _.
    rewrite !split_front by lia. destruct (split_at (length t) x) as [[a b]|] eqn:SP; [|exact I]. apply split_at_app in SP as [-> _].
    rewrite <- !app_assoc in *. split; [reflexivity|]. split; [reflexivity|]. split; [reflexivity|].
    apply (sam_tail m h _ a a); [exact S|]. apply squeeze_cat; [reflexivity|]. rewrite <- after_app. apply SS.
  - split; [reflexivity|]. rewrite app_nil_r in *. intros _. destruct (split_at (blen t) x) as [[a b]|] eqn:SP; [|exact I]. apply split_at_app in SP as [-> _].
    split; [reflexivity|]. split; [reflexivity|]. split; [reflexivity|]. now apply (sam_tail m h _ a a).
Qed.
Lemma bs_tnc m t x : keyw x = true -> bs m t eq (tag_no_case x).
Proof.
  intros K h i j S. destruct (tnc_front m h x i j K S) as [E H]. unfold tag_no_case. rewrite <- E. destruct (compare_no_case i x); try now apply brel_err.
  specialize (H eq_refl). destruct (split_at (blen x) i) as [[u r]|], (split_at (blen x) j) as [[u' r']|]; try contradiction; [|now apply brel_err].
  destruct H as (<- & E1 & E2 & SS). apply (brel_ok m h t _ _ _ r r' u u u u); auto. apply SS.
Qed.
Lemma bs_tnc_s m t x : keyw x = true -> bs m t eq (tag_no_case_streaming x).
Proof.
  intros K h i j S. destruct (tnc_front m h x i j K S) as [E H]. unfold tag_no_case_streaming. rewrite <- E. destruct (compare_no_case i x); try now apply brel_err.
  specialize (H eq_refl). destruct (split_at (blen x) i) as [[u r]|], (split_at (blen x) j) as [[u' r']|]; try contradiction; [|now apply brel_err].
  destruct H as (<- & E1 & E2 & SS). apply (brel_ok m h t _ _ _ r r' u u u u); auto. apply SS.
Qed.
