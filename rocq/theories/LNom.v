(** Structural invariants of the combinators: remainders and error locations are suffixes, loops
    never run out of fuel, and two parsers that agree on shorter texts give combinators that agree.
    [sim n b c d p q]: on every text shorter than [n], [p] and [q] give the same answer, and that
    answer is well-formed ([ok_res]). *)
From Verif Require Export Nom.
Notation length := List.length (only parsing).
Open Scope N_scope.
Open Scope list_scope.

Definition suffix (r i : str) : Prop := exists t, i = t ++ r.

Lemma suffix_refl i : suffix i i. Proof. exists []; reflexivity. Qed.
Lemma suffix_trans a b c : suffix a b -> suffix b c -> suffix a c.
Proof. intros [t ->] [u ->]. exists (u ++ t). now rewrite app_assoc. Qed.
Lemma suffix_cons c r i : suffix r i -> suffix r (c :: i).
Proof. intros [t ->]. now exists (c :: t). Qed.
Lemma suffix_nil i : suffix [] i. Proof. exists i. now rewrite app_nil_r. Qed.
Lemma suffix_length r i : suffix r i -> (length r <= length i)%nat.
Proof. intros [t ->]. rewrite app_length. lia. Qed.
Lemma suffix_same_length r i : suffix r i -> length r = length i -> r = i.
Proof.
  intros [t ->] H. rewrite app_length in H. destruct t; [reflexivity | simpl in H; lia].
Qed.
Lemma suffix_firstn r i : suffix r i -> i = firstn (length i - length r) i ++ r.
Proof.
  intros [t ->]. rewrite app_length.
  replace (length t + length r - length r)%nat with (length t + 0)%nat by lia.
  rewrite firstn_app_2. simpl. now rewrite app_nil_r.
Qed.

Lemma str_eqb_eq a b : str_eqb a b = true <-> a = b.
Proof.
  revert b; induction a as [|x a IH]; intros [|y b]; simpl; split; try discriminate; auto.
  - rewrite andb_true_iff, N.eqb_eq, IH. intros [-> ->]; reflexivity.
  - intros [= -> ->]. rewrite N.eqb_refl. simpl. now apply IH.
Qed.
Lemma str_eqb_refl a : str_eqb a a = true.
Proof. now apply str_eqb_eq. Qed.
Lemma str_eqb_neq a b : str_eqb a b = false <-> a <> b.
Proof. rewrite <- not_true_iff_false, str_eqb_eq. reflexivity. Qed.

Lemma suffix_neq_length r i : suffix r i -> str_eqb r i = false -> (length r < length i)%nat.
Proof.
  intros S E. pose proof (suffix_length _ _ S).
  apply str_eqb_neq in E.
  assert (length r <> length i) by (intro; apply E; now apply suffix_same_length). lia.
Qed.

(** A blank character: what [one_of] accepts in [sp] and the end of [new_line]. *)
Definition blank_char (c : char) : Prop := c = 32 \/ c = 9 \/ c = 10 \/ c = 13.

(** The text contains U+212A, or a non-ASCII character right after a blank character. *)
Definition panicky (i : str) : Prop :=
  exists u c v, i = u ++ c :: v /\
    (c = 0x212A \/ (128 <= c /\ exists u' b, u = u' ++ [b] /\ blank_char b)).

(** The text contains an opening bracket or brace. *)
Definition has_open (i : str) : Prop := In 40 i \/ In 123 i.

Lemma panicky_suffix r i : suffix r i -> panicky r -> panicky i.
Proof.
  intros [t ->] (u & c & v & -> & H). exists (t ++ u), c, v. split; [now rewrite app_assoc|].
  destruct H as [H | [H (u' & b & -> & Hb)]]; [now left|].
  right; split; [assumption|]. exists (t ++ u'), b. now rewrite app_assoc.
Qed.
Lemma has_open_suffix r i : suffix r i -> has_open r -> has_open i.
Proof. intros [t ->] [H | H]; [left | right]; apply in_or_app; now right. Qed.

(** When Incomplete is possible: never, only on a text with an opening bracket, on any text. *)
Inductive inc := INever | IOpen | IAny.
Definition imax (a b : inc) : inc :=
  match a, b with
  | IAny, _ | _, IAny => IAny
  | IOpen, _ | _, IOpen => IOpen
  | INever, INever => INever
  end.
Definition ile (a b : inc) : bool :=
  match a, b with
  | INever, _ | IOpen, IOpen | IOpen, IAny | IAny, IAny => true
  | _, _ => false
  end.
Definition iopen (a : inc) : inc := match a with INever => INever | _ => IOpen end.
Definition inc_ok (c : inc) (i : str) : Prop :=
  match c with INever => False | IOpen => has_open i | IAny => True end.

Lemma inc_ok_le a b i : ile a b = true -> inc_ok a i -> inc_ok b i.
Proof. destruct a, b; simpl; try discriminate; tauto. Qed.
Lemma ile_max_l a b : ile a (imax a b) = true.
Proof. destruct a, b; reflexivity. Qed.
Lemma ile_max_r a b : ile b (imax a b) = true.
Proof. destruct a, b; reflexivity. Qed.
Lemma ile_refl a : ile a a = true.
Proof. destruct a; reflexivity. Qed.

(** [b]: a success consumes text; [c]: when Incomplete is possible; [d]: a panic is possible (then
    the text is [panicky]). *)
Definition ok_res {A} (b : bool) (c : inc) (d : bool) (i : str) (r : res A) : Prop :=
  match r with
  | Ok r _ => suffix r i /\ (b = true -> (length r < length i)%nat)
  | Err (Error p _) | Err (Failure p _) => suffix p i
  | Err Incomplete => inc_ok c i
  | Err Panic => d = true /\ panicky i
  | Err OutOfFuel => False
  end.

Definition sim {A} (n : nat) (b : bool) (c : inc) (d : bool) (p q : parser A) : Prop :=
  forall i, (length i < n)%nat -> p i = q i /\ ok_res b c d i (p i).

Definition good {A} (b : bool) (c : inc) (d : bool) (p : parser A) : Prop := forall n, sim n b c d p p.

Lemma good_intro {A} b c d (p : parser A) : (forall i, ok_res b c d i (p i)) -> good b c d p.
Proof. intros H n i _. split; auto. Qed.
Lemma good_elim {A} b c d (p : parser A) : good b c d p -> forall i, ok_res b c d i (p i).
Proof. intros H i. destruct (H (S (length i)) i); auto with arith. Qed.

Lemma ok_res_weaken {A} b b' c c' d d' i (r : res A) :
  ok_res b c d i r -> (b' = true -> b = true) -> ile c c' = true ->
  (d = true -> d' = true) -> ok_res b' c' d' i r.
Proof. destruct r as [r a | [] ]; simpl; try tauto. intros; eapply inc_ok_le; eauto. Qed.

Lemma sim_weaken {A} n b c d b' c' d' (p q : parser A) :
  sim n b c d p q -> implb b' b = true -> ile c c' = true -> implb d d' = true ->
  sim n b' c' d' p q.
Proof.
  intros H Hb Hc Hd i Hi. destruct (H i Hi) as [E O]; split; [assumption|].
  apply (ok_res_weaken _ _ _ _ _ _ _ _ O); [|assumption|];
    destruct b, b', d, d'; simpl in *; auto; discriminate.
Qed.
Lemma sim_mono {A} m n b c d (p q : parser A) : sim n b c d p q -> (m <= n)%nat -> sim m b c d p q.
Proof. intros H L i Hi. apply H. lia. Qed.

(** A result of a parser run on a suffix of [i] seen as an answer on [i]. *)
Lemma ok_res_suffix_err {A B} b c d b' i i1 e :
  suffix i1 i -> ok_res b c d i1 (@Err A e) -> ok_res b' c d i (@Err B e).
Proof.
  intros S. destruct e; simpl; intros O.
  - eapply suffix_trans; eauto.
  - eapply suffix_trans; eauto.
  - destruct c; simpl in *; try tauto. eapply has_open_suffix; eauto.
  - destruct O as [O1 O]; split; auto. eapply panicky_suffix; eauto.
  - assumption.
Qed.

Lemma ok_res_err_weaken {A B} b c d b' c' d' i e :
  ok_res b c d i (@Err A e) -> ile c c' = true -> (d = true -> d' = true) ->
  ok_res b' c' d' i (@Err B e).
Proof. destruct e; simpl; try tauto. intros; eapply inc_ok_le; eauto. Qed.

Ltac bool_crush :=
  repeat match goal with
         | b : bool |- _ => destruct b
         end; auto using ile_max_l, ile_max_r, ile_refl;
  simpl in *; try tauto; try congruence; try discriminate.

(** ** sequence *)
Lemma sim_pair {A B} n b1 c1 d1 b2 c2 d2 (p p' : parser A) (q q' : parser B) :
  sim n b1 c1 d1 p p' -> sim (if b1 then pred n else n) b2 c2 d2 q q' ->
  sim n (b1 || b2) (imax c1 c2) (d1 || d2) (pair p q) (pair p' q').
Proof.
  intros Hp Hq i Hi. unfold pair. destruct (Hp i Hi) as [E O]. rewrite <- E.
  destruct (p i) as [i1 a | e].
  - destruct O as [S L].
    assert (Hi1 : (length i1 < if b1 then pred n else n)%nat).
    { apply suffix_length in S. destruct b1; [specialize (L eq_refl)|]; lia. }
    destruct (Hq i1 Hi1) as [E' O']. rewrite <- E'. split; [reflexivity|].
    destruct (q i1) as [i2 x | e].
    + destruct O' as [S' L']. split; [eapply suffix_trans; eauto|].
      intros Hb. apply orb_true_iff in Hb. apply suffix_length in S, S'.
      destruct Hb as [-> | ->]; [specialize (L eq_refl) | specialize (L' eq_refl)]; lia.
    + apply (ok_res_suffix_err (A:=B) b2 _ _ _ i i1 e S). apply (ok_res_err_weaken _ _ _ _ _ _ _ _ O'); bool_crush.
  - split; [reflexivity|]. apply (ok_res_err_weaken _ _ _ _ _ _ _ _ O); bool_crush.
Qed.

Lemma sim_map {A B} n b c d (p p' : parser A) (f : A -> B) :
  sim n b c d p p' -> sim n b c d (map p f) (map p' f).
Proof.
  intros H i Hi. unfold map. destruct (H i Hi) as [E O]. rewrite <- E. split; [reflexivity|].
  destruct (p i) as [r a | []]; exact O.
Qed.

Lemma sim_preceded {A B} n b1 c1 d1 b2 c2 d2 (p p' : parser A) (q q' : parser B) :
  sim n b1 c1 d1 p p' -> sim (if b1 then pred n else n) b2 c2 d2 q q' ->
  sim n (b1 || b2) (imax c1 c2) (d1 || d2) (preceded p q) (preceded p' q').
Proof. intros. apply sim_map. now apply sim_pair. Qed.
Lemma sim_terminated {A B} n b1 c1 d1 b2 c2 d2 (p p' : parser A) (q q' : parser B) :
  sim n b1 c1 d1 p p' -> sim (if b1 then pred n else n) b2 c2 d2 q q' ->
  sim n (b1 || b2) (imax c1 c2) (d1 || d2) (terminated p q) (terminated p' q').
Proof. intros. apply sim_map. now apply sim_pair. Qed.
Lemma sim_delimited {A B C} n b1 c1 d1 b2 c2 d2 b3 c3 d3
  (p p' : parser A) (q q' : parser B) (r r' : parser C) :
  sim n b1 c1 d1 p p' -> sim (if b1 then pred n else n) b2 c2 d2 q q' ->
  sim (if b2 then pred (if b1 then pred n else n) else (if b1 then pred n else n)) b3 c3 d3 r r' ->
  sim n (b1 || (b2 || b3)) (imax c1 (imax c2 c3)) (d1 || (d2 || d3))
    (delimited p q r) (delimited p' q' r').
Proof. intros. apply sim_preceded; [assumption|]. now apply sim_terminated. Qed.
Lemma sim_separated_pair {A B C} n b1 c1 d1 b2 c2 d2 b3 c3 d3
  (p p' : parser A) (q q' : parser B) (r r' : parser C) :
  sim n b1 c1 d1 p p' -> sim (if b1 then pred n else n) b2 c2 d2 q q' ->
  sim (if b2 then pred (if b1 then pred n else n) else (if b1 then pred n else n)) b3 c3 d3 r r' ->
  sim n (b1 || (b2 || b3)) (imax c1 (imax c2 c3)) (d1 || (d2 || d3))
    (separated_pair p q r) (separated_pair p' q' r').
Proof. intros. apply sim_pair; [assumption|]. now apply sim_preceded. Qed.
Lemma sim_tuple3 {A B C} n b1 c1 d1 b2 c2 d2 b3 c3 d3
  (p p' : parser A) (q q' : parser B) (r r' : parser C) :
  sim n b1 c1 d1 p p' -> sim (if b1 then pred n else n) b2 c2 d2 q q' ->
  sim (if b2 then pred (if b1 then pred n else n) else (if b1 then pred n else n)) b3 c3 d3 r r' ->
  sim n (b1 || (b2 || b3)) (imax c1 (imax c2 c3)) (d1 || (d2 || d3))
    (tuple3 p q r) (tuple3 p' q' r').
Proof. intros. apply sim_pair; [assumption|]. now apply sim_pair. Qed.

(** An opening bracket accounts for any later Incomplete. *)
Lemma ok_res_open {A} b c d i (r : res A) : has_open i -> ok_res b c d i r -> ok_res b (iopen c) d i r.
Proof. destruct r as [? ? | []]; simpl; try tauto. destruct c; simpl; tauto. Qed.

Lemma sim_open {A B} n o d (q q' : parser B) b2 c2 (k : char * B -> A) :
  (o = 40 \/ o = 123) ->
  sim (pred n) b2 c2 d q q' ->
  sim n true (iopen c2) d (map (pair (chr o) q) k) (map (pair (chr o) q') k).
Proof.
  intros Ho H. apply sim_map. intros i Hi. unfold pair, chr.
  destruct i as [|x i]; [split; [reflexivity | apply suffix_refl]|].
  destruct (x =? o) eqn:Ex; [|split; [reflexivity | apply suffix_refl]].
  apply N.eqb_eq in Ex. subst x.
  assert (Hi' : (length i < pred n)%nat) by (simpl in Hi; lia).
  destruct (H i Hi') as [E O]. rewrite <- E.
  assert (Hop : has_open (o :: i)) by (destruct Ho; subst; [left | right]; now left).
  assert (S : suffix i (o :: i)) by (apply suffix_cons, suffix_refl).
  split; [reflexivity|]. apply ok_res_open; [assumption|].
  destruct (q i) as [r a | e].
  - destruct O as [S' L']. split; [eapply suffix_trans; eauto|].
    intros _. apply suffix_length in S'. simpl. lia.
  - eapply ok_res_suffix_err; eauto.
Qed.

(** ** branch, combinator *)
Lemma alt_cons {A} (p : parser A) ps i : ps <> [] ->
  alt (p :: ps) i = match p i with Err (Error _ _) => alt ps i | r => r end.
Proof. destruct ps; [congruence | reflexivity]. Qed.

Lemma sim_alt_one {A} n b c d (p p' : parser A) : sim n b c d p p' -> sim n b c d (alt [p]) (alt [p']).
Proof. exact (fun H => H). Qed.
Lemma sim_alt_cons {A} n b1 c1 d1 b2 c2 d2 (p p' q q' : parser A) ps ps' :
  sim n b1 c1 d1 p p' -> sim n b2 c2 d2 (alt (q :: ps)) (alt (q' :: ps')) ->
  sim n (b1 && b2) (imax c1 c2) (d1 || d2) (alt (p :: q :: ps)) (alt (p' :: q' :: ps')).
Proof.
  intros Hp Hq i Hi. rewrite (alt_cons p), (alt_cons p') by discriminate.
  destruct (Hp i Hi) as [E O]. rewrite <- E.
  assert (O' : ok_res (b1 && b2) (imax c1 c2) (d1 || d2) i (p i)).
  { eapply ok_res_weaken; [exact O| | |]; bool_crush. }
  destruct (p i) as [r a | [] ]; try (split; [reflexivity | exact O']).
  destruct (Hq i Hi) as [E2 O2]. split; [exact E2|].
  eapply ok_res_weaken; [exact O2| | |]; bool_crush.
Qed.

Lemma sim_opt {A} n b c d (p p' : parser A) : sim n b c d p p' -> sim n false c d (opt p) (opt p').
Proof.
  intros H i Hi. unfold opt. destruct (H i Hi) as [E O]. rewrite <- E. split; [reflexivity|].
  destruct (p i) as [r a | []]; simpl in *; try tauto.
  - split; [tauto | discriminate].
  - split; [apply suffix_refl | discriminate].
Qed.

Lemma sim_cut {A} n b c d (p p' : parser A) : sim n b c d p p' -> sim n b c d (cut p) (cut p').
Proof.
  intros H i Hi. unfold cut. destruct (H i Hi) as [E O]. rewrite <- E. split; [reflexivity|].
  destruct (p i) as [r a | []]; simpl in *; tauto.
Qed.

Lemma sim_map_res {A B} n b c d (p p' : parser A) (f : A -> option B) :
  sim n b c d p p' -> sim n b c d (map_res p f) (map_res p' f).
Proof.
  intros H i Hi. unfold map_res. destruct (H i Hi) as [E O]. rewrite <- E. split; [reflexivity|].
  destruct (p i) as [r a | []]; simpl in *; try tauto.
  destruct (f a); simpl; [tauto | apply suffix_refl].
Qed.

Lemma sim_recognize {A} n b c d (p p' : parser A) :
  sim n b c d p p' -> sim n b c d (recognize p) (recognize p').
Proof.
  intros H i Hi. unfold recognize. destruct (H i Hi) as [E O]. rewrite <- E. split; [reflexivity|].
  destruct (p i) as [r a | []]; exact O.
Qed.

(** ** bytes, character *)
Lemma strip_prefix_some t i r : strip_prefix t i = Some r <-> i = t ++ r.
Proof.
  revert i; induction t as [|a t IH]; intros [|x i]; simpl; split; intros H; try congruence.
  - destruct (a =? x) eqn:E; [|discriminate]. apply N.eqb_eq in E. subst. f_equal. now apply IH.
  - injection H as -> ->. rewrite N.eqb_refl. now apply IH.
Qed.

Lemma good_tag t : good (negb (Nat.eqb (length t) 0)) INever false (tag t).
Proof.
  apply good_intro. intros i. unfold tag. destruct (strip_prefix t i) as [r|] eqn:E.
  - apply strip_prefix_some in E. subst i. split; [now exists t|].
    rewrite app_length. destruct t; simpl; [discriminate | intros _; lia].
  - apply suffix_refl.
Qed.

Lemma split_at_app n i a b : split_at n i = Some (a, b) -> i = a ++ b /\ blen a = n.
Proof.
  revert n a b; induction i as [|c i IH]; intros n a b.
  - destruct n; simpl; [intros [= <- <-]; auto | discriminate].
  - destruct n as [|n]; [intros [= <- <-]; auto|].
    cbn [split_at]. destruct (Nat.leb (utf8_len c) (S n)) eqn:L; [|discriminate].
    destruct (split_at (S n - utf8_len c) i) as [[a' b']|] eqn:E; [|discriminate].
    intros [= <- <-]. apply IH in E. destruct E as [-> E].
    split; [reflexivity|]. cbn [blen]. rewrite E. apply Nat.leb_le in L. lia.
Qed.

Lemma utf8_len_pos c : (1 <= utf8_len c <= 4)%nat.
Proof. unfold utf8_len. repeat (destruct (_ <? _)); lia. Qed.

Definition is_ascii (i : str) : Prop := Forall (fun c => c < 128) i.

Lemma blen_ascii i : is_ascii i -> blen i = length i.
Proof.
  induction 1 as [|c i H _ IH]; simpl; [reflexivity|]. rewrite IH.
  unfold utf8_len. apply N.ltb_lt in H. now rewrite H.
Qed.

(** On a text without U+212A, a character that lower-cases to an ASCII one is ASCII, so the byte
    split of [tag_no_case] falls on a boundary. *)
Lemma split_at_zip t i : is_ascii t -> zip_same i t = true -> (length t <= length i)%nat ->
  ~ In 0x212A i -> exists a b, split_at (length t) i = Some (a, b) /\ length a = length t.
Proof.
  intros Ht. revert i. induction Ht as [|c t Hc Ht IH]; intros [|x i] Z L K; simpl in *; try lia.
  - exists [], []; auto.
  - now exists [], (x :: i).
  - apply andb_true_iff in Z. destruct Z as [Zx Z]. apply N.eqb_eq in Zx.
    assert (Hx : x < 128).
    { unfold to_lower in Zx.
      destruct ((65 <=? x) && (x <=? 90)) eqn:Ux.
      { apply andb_true_iff in Ux. destruct Ux as [_ Ux]. apply N.leb_le in Ux. lia. }
      destruct (x =? 0x212A) eqn:Kx.
      { apply N.eqb_eq in Kx. subst. tauto. }
      destruct ((65 <=? c) && (c <=? 90)) eqn:Uc.
      { apply andb_true_iff in Uc. destruct Uc as [_ Uc]. apply N.leb_le in Uc. lia. }
      destruct (c =? 0x212A) eqn:Kc; [apply N.eqb_eq in Kc; lia | lia]. }
    assert (U : utf8_len x = 1%nat). { unfold utf8_len. apply N.ltb_lt in Hx. now rewrite Hx. }
    rewrite U. cbn [Nat.leb Nat.sub]. try rewrite Nat.sub_0_r.
    destruct (IH i Z ltac:(lia) ltac:(tauto)) as (a & b & E & La).
    rewrite E.
    exists (x :: a), b. split; [reflexivity | simpl; lia].
Qed.

Lemma in_kelvin_panicky i : In 0x212A i -> panicky i.
Proof. intros H. apply in_split in H. destruct H as (u & v & ->). exists u, 0x212A, v. auto. Qed.

Lemma zip_no_kelvin_length i t : is_ascii t -> zip_same i t = true -> (length t <= blen i)%nat ->
  ~ In 0x212A i -> (length t <= length i)%nat.
Proof.
  intros Ht. revert i. induction Ht as [|c t Hc Ht IH]; intros [|x i] Z L K; simpl in *; try lia.
  apply andb_true_iff in Z. destruct Z as [Zx Z].
  assert (Hx : x < 128).
  { apply N.eqb_eq in Zx. unfold to_lower in Zx.
    destruct ((65 <=? x) && (x <=? 90)) eqn:Ux.
    { apply andb_true_iff in Ux. destruct Ux as [_ Ux]. apply N.leb_le in Ux. lia. }
    destruct (x =? 0x212A) eqn:Kx.
    { apply N.eqb_eq in Kx. subst. tauto. }
    destruct ((65 <=? c) && (c <=? 90)) eqn:Uc.
    { apply andb_true_iff in Uc. destruct Uc as [_ Uc]. apply N.leb_le in Uc. lia. }
    destruct (c =? 0x212A) eqn:Kc; [apply N.eqb_eq in Kc; lia | lia]. }
  assert (U : utf8_len x = 1%nat). { unfold utf8_len. apply N.ltb_lt in Hx. now rewrite Hx. }
  rewrite U in L. specialize (IH i Z ltac:(lia) ltac:(tauto)). lia.
Qed.

Definition ascii_b (t : str) : bool := forallb (fun c => c <? 128) t.
Lemma ascii_b_spec t : ascii_b t = true -> is_ascii t.
Proof.
  unfold ascii_b, is_ascii. rewrite forallb_forall, Forall_forall.
  intros H x Hx. apply N.ltb_lt. auto.
Qed.

(** The byte split of [tag_no_case] can only fall inside a character if the text has U+212A; which
    tags can make it happen is decided by [kelvin_free]. *)
Definition kelvin_free (t : str) : bool := forallb (fun c => negb (to_lower c =? 107)) t.

Lemma zip_same_kelvin_free t i : kelvin_free t = true -> is_ascii t -> zip_same i t = true ->
  (length t <= blen i)%nat -> exists a b, split_at (length t) i = Some (a, b).
Proof.
  intros K Ht. revert i K. induction Ht as [|c t Hc Ht IH]; intros [|x i] K Z L; simpl in *; try lia.
  - exists [], []; auto.
  - now exists [], (x :: i).
  - apply andb_true_iff in K, Z. destruct K as [Kc K], Z as [Zx Z].
    assert (Hx : x < 128).
    { apply N.eqb_eq in Zx. unfold to_lower in Zx at 1.
      destruct ((65 <=? x) && (x <=? 90)) eqn:Ux.
      { apply andb_true_iff in Ux. destruct Ux as [_ Ux]. apply N.leb_le in Ux. lia. }
      destruct (x =? 0x212A) eqn:Kx.
      { rewrite <- Zx in Kc. discriminate. }
      unfold to_lower in Zx.
      destruct ((65 <=? c) && (c <=? 90)) eqn:Uc.
      { apply andb_true_iff in Uc. destruct Uc as [_ Uc]. apply N.leb_le in Uc. lia. }
      destruct (c =? 0x212A) eqn:Kc'; [apply N.eqb_eq in Kc'; lia | lia]. }
    assert (U : utf8_len x = 1%nat). { unfold utf8_len. apply N.ltb_lt in Hx. now rewrite Hx. }
    rewrite U in *. cbn [Nat.leb Nat.sub]. try rewrite Nat.sub_0_r.
    destruct (IH i K Z ltac:(lia)) as (a & b & E). rewrite E. now eexists _, _.
Qed.

Lemma tag_no_case_ok t i c : ascii_b t = true ->
  ok_res (negb (Nat.eqb (length t) 0)) c (negb (kelvin_free t)) i
    match split_at (blen t) i with Some (a, b) => Ok b a | None => Err Panic end
  \/ zip_same i t = false \/ (blen i < blen t)%nat.
Proof.
  intros Ha%ascii_b_spec. rewrite (blen_ascii t Ha).
  destruct (zip_same i t) eqn:Z; [|tauto].
  destruct (Nat.leb (length t) (blen i)) eqn:L;
    [apply Nat.leb_le in L | apply Nat.leb_gt in L; tauto].
  left. destruct (split_at (length t) i) as [[a b]|] eqn:E.
  - apply split_at_app in E. destruct E as [-> E]. split; [now exists a|].
    rewrite app_length. intros H. destruct a; simpl in *; [|lia].
    destruct t; simpl in *; discriminate.
  - simpl. destruct (kelvin_free t) eqn:K.
    + destruct (zip_same_kelvin_free t i K Ha Z L) as (a & b & E'). congruence.
    + split; [reflexivity|]. apply in_kelvin_panicky.
      destruct (in_dec N.eq_dec 0x212A i) as [|Hn]; [assumption|exfalso].
      pose proof (zip_no_kelvin_length i t Ha Z L Hn) as L'.
      destruct (split_at_zip t i Ha Z L' Hn) as (a & b & E' & _). congruence.
Qed.

Lemma good_tag_no_case t : ascii_b t = true ->
  good (negb (Nat.eqb (length t) 0)) INever (negb (kelvin_free t)) (tag_no_case t).
Proof.
  intros Ha. apply good_intro. intros i. unfold tag_no_case, compare_no_case.
  destruct (tag_no_case_ok t i INever Ha) as [H | [H | H]].
  - destruct (zip_same i t); [|apply suffix_refl].
    destruct (Nat.leb (blen t) (blen i)); [exact H | apply suffix_refl].
  - rewrite H. apply suffix_refl.
  - apply Nat.leb_gt in H. rewrite H. destruct (zip_same i t); apply suffix_refl.
Qed.

Lemma good_tag_no_case_streaming t : ascii_b t = true ->
  good (negb (Nat.eqb (length t) 0)) IAny (negb (kelvin_free t)) (tag_no_case_streaming t).
Proof.
  intros Ha. apply good_intro. intros i. unfold tag_no_case_streaming, compare_no_case.
  destruct (tag_no_case_ok t i IAny Ha) as [H | [H | H]].
  - destruct (zip_same i t); [|apply suffix_refl].
    destruct (Nat.leb (blen t) (blen i)); [exact H | simpl; auto].
  - rewrite H. apply suffix_refl.
  - apply Nat.leb_gt in H. rewrite H. destruct (zip_same i t); simpl; auto using suffix_refl.
Qed.

Lemma ok_res_step {A} b c d x i (a : A) : ok_res b c d (x :: i) (Ok i a).
Proof. split; [apply suffix_cons, suffix_refl | simpl; lia]. Qed.

Lemma good_chr x : good true INever false (chr x).
Proof.
  apply good_intro. intros [|y i]; [apply suffix_refl|]. unfold chr.
  destruct (y =? x); [apply ok_res_step | apply suffix_refl].
Qed.
Lemma good_one_of cs : good true INever false (one_of cs).
Proof.
  apply good_intro. intros [|y i]; [apply suffix_refl|]. unfold one_of.
  destruct (contains cs y); [apply ok_res_step | apply suffix_refl].
Qed.
Lemma good_none_of cs : good true INever false (none_of cs).
Proof.
  apply good_intro. intros [|y i]; [apply suffix_refl|]. unfold none_of.
  destruct (contains cs y); [apply suffix_refl | apply ok_res_step].
Qed.

Lemma span_app f i : i = fst (span f i) ++ snd (span f i).
Proof.
  induction i as [|c i IH]; simpl; [reflexivity|].
  destruct (f c); [|reflexivity]. destruct (span f i); simpl in *. now rewrite <- IH.
Qed.
Lemma span_n_app n f i : i = fst (span_n n f i) ++ snd (span_n n f i).
Proof.
  revert i; induction n as [|n IH]; intros [|c i]; simpl; try reflexivity.
  destruct (f c); [|reflexivity]. specialize (IH i). destruct (span_n n f i); simpl in *.
  now rewrite <- IH.
Qed.

Lemma good_take_while f : good false INever false (take_while f).
Proof.
  apply good_intro. intros i. unfold take_while. pose proof (span_app f i) as E.
  destruct (span f i) as [a b]. simpl in E. subst i. split; [now exists a | discriminate].
Qed.
Lemma good_take1 k f : good true INever false (take1 k f).
Proof.
  apply good_intro. intros i. unfold take1. pose proof (span_app f i) as E.
  destruct (span f i) as [[|x a] b]; simpl in E; subst i; [apply suffix_refl|].
  split; [now exists (x :: a) | intros _; simpl; rewrite app_length; lia].
Qed.
Lemma good_take_while_m_n m n f : good (negb (Nat.eqb m 0)) INever false (take_while_m_n m n f).
Proof.
  apply good_intro. intros i. unfold take_while_m_n. pose proof (span_n_app n f i) as E.
  destruct (span_n n f i) as [a b]. simpl in E. subst i.
  destruct (Nat.leb m (length a)) eqn:L; [|apply suffix_refl].
  split; [now exists a|]. apply Nat.leb_le in L. intros H.
  destruct (Nat.eqb_spec m 0); [discriminate|]. rewrite app_length. lia.
Qed.

(** ** escaped *)
Lemma escaped_loop_ok {A B} (p : parser A) (q : parser B) ctrl :
  good true INever false p -> good true INever false q ->
  forall n i0 i, (length i < n)%nat -> suffix i i0 ->
  ok_res false INever false i0 (escaped_loop n p ctrl q i0 i).
Proof.
  intros Hp Hq. induction n as [|n IH]; intros i0 i Hn S; [lia|].
  cbn [escaped_loop]. destruct i as [|c i1].
  { split; [apply suffix_nil | discriminate]. }
  pose proof (good_elim _ _ _ _ Hp (c :: i1)) as O.
  destruct (p (c :: i1)) as [i2 a | []]; simpl in O; try tauto.
  - destruct O as [S2 L2]. specialize (L2 eq_refl).
    destruct i2 as [|c2 i2]; [split; [apply suffix_nil | discriminate]|].
    apply IH; [simpl in *; lia | eapply suffix_trans; eauto].
  - destruct (c =? ctrl).
    + destruct i1 as [|c1 i1]; [apply suffix_refl|].
      pose proof (good_elim _ _ _ _ Hq (c1 :: i1)) as O'.
      assert (S1 : suffix (c1 :: i1) i0).
      { eapply suffix_trans; [|exact S]. apply suffix_cons, suffix_refl. }
      destruct (q (c1 :: i1)) as [i2 a | []]; simpl in O'; try tauto.
      * destruct O' as [S2 L2]. specialize (L2 eq_refl).
        destruct i2 as [|c2 i2]; [split; [apply suffix_nil | discriminate]|].
        apply IH; [simpl in *; lia | eapply suffix_trans; eauto].
      * eapply suffix_trans; eauto.
      * eapply suffix_trans; eauto.
      * destruct O'. discriminate.
    + destruct (Nat.eqb _ _); [apply suffix_refl | split; [exact S | discriminate]].
  - eapply suffix_trans; eauto.
  - destruct O. discriminate.
Qed.
Lemma good_escaped {A B} (p : parser A) (q : parser B) ctrl :
  good true INever false p -> good true INever false q -> good false INever false (escaped p ctrl q).
Proof.
  intros Hp Hq. apply good_intro. intros i. unfold escaped.
  apply escaped_loop_ok; auto using suffix_refl.
Qed.

(** ** multi *)
Lemma many0_loop_sim {A} b c d (p p' : parser A) N :
  sim N b c d p p' ->
  forall m m' i, (length i < N)%nat -> (length i < m)%nat -> (length i < m')%nat ->
  many0_loop m p i = many0_loop m' p' i /\ ok_res false c d i (many0_loop m p i).
Proof.
  intros H. induction m as [|m IH]; intros [|m'] i HN Hm Hm'; try lia.
  cbn [many0_loop]. destruct (H i HN) as [E O]. rewrite <- E.
  destruct (p i) as [i1 a | []]; simpl in O; try (split; [reflexivity | exact O]).
  - destruct O as [S L]. destruct (str_eqb i1 i) eqn:Eq; [split; [reflexivity | apply suffix_refl]|].
    pose proof (suffix_neq_length _ _ S Eq) as L1.
    destruct (IH m' i1 ltac:(lia) ltac:(lia) ltac:(lia)) as [E1 O1]. rewrite <- E1.
    split; [reflexivity|]. destruct (many0_loop m p i1) as [r l | e].
    + split; [eapply suffix_trans; [apply O1 | exact S] | discriminate].
    + eapply ok_res_suffix_err; eauto.
  - split; [reflexivity|]. split; [apply suffix_refl | discriminate].
Qed.
Lemma sim_many0 {A} n b c d (p p' : parser A) :
  sim n b c d p p' -> sim n false c d (many0 p) (many0 p').
Proof. intros H i Hi. unfold many0. eapply many0_loop_sim; eauto. Qed.

Lemma many1_loop_sim {A} b c d (p p' : parser A) N :
  sim N b c d p p' ->
  forall m m' i, (length i < N)%nat -> (length i < m)%nat -> (length i < m')%nat ->
  many1_loop m p i = many1_loop m' p' i /\ ok_res false c d i (many1_loop m p i).
Proof.
  intros H. induction m as [|m IH]; intros [|m'] i HN Hm Hm'; try lia.
  cbn [many1_loop]. destruct (H i HN) as [E O]. rewrite <- E.
  destruct (p i) as [i1 a | []]; simpl in O; try (split; [reflexivity | exact O]).
  - destruct O as [S L]. destruct (str_eqb i1 i) eqn:Eq; [split; [reflexivity | apply suffix_refl]|].
    pose proof (suffix_neq_length _ _ S Eq) as L1.
    destruct (IH m' i1 ltac:(lia) ltac:(lia) ltac:(lia)) as [E1 O1]. rewrite <- E1.
    split; [reflexivity|]. destruct (many1_loop m p i1) as [r l | e].
    + split; [eapply suffix_trans; [apply O1 | exact S] | discriminate].
    + eapply ok_res_suffix_err; eauto.
  - split; [reflexivity|]. split; [apply suffix_refl | discriminate].
Qed.
Lemma sim_many1 {A} n b c d (p p' : parser A) :
  sim n b c d p p' -> sim n b c d (many1 p) (many1 p').
Proof.
  intros H i Hi. unfold many1. destruct (H i Hi) as [E O]. rewrite <- E.
  destruct (p i) as [i1 a | []]; simpl in O; try (split; [reflexivity | exact O]).
  destruct O as [S L]. pose proof (suffix_length _ _ S) as L1.
  destruct (many1_loop_sim b c d p p' n H (Datatypes.S (length i1)) (Datatypes.S (length i1)) i1
              ltac:(lia) ltac:(lia) ltac:(lia)) as [E1 O1].
  rewrite <- E1. split; [reflexivity|].
  destruct (many1_loop _ p i1) as [r l | e].
  - destruct O1 as [S1 _]. split; [eapply suffix_trans; eauto|].
    intros Hb. specialize (L Hb). apply suffix_length in S1. lia.
  - eapply ok_res_suffix_err; eauto.
Qed.

Lemma sep_loop_sim {A B} b1 c1 d1 b2 c2 d2 (s s' : parser B) (p p' : parser A) N :
  sim N b1 c1 d1 s s' -> sim N b2 c2 d2 p p' ->
  forall m m' i, (length i < N)%nat -> (length i < m)%nat -> (length i < m')%nat ->
  sep_loop m s p i = sep_loop m' s' p' i /\
  ok_res false (imax c1 c2) (d1 || d2) i (sep_loop m s p i).
Proof.
  intros Hs Hp. induction m as [|m IH]; intros [|m'] i HN Hm Hm'; try lia.
  cbn [sep_loop]. destruct (Hs i HN) as [E O]. rewrite <- E.
  assert (W : ok_res b1 (imax c1 c2) (d1 || d2) i (s i)).
  { eapply ok_res_weaken; [exact O| | |]; bool_crush. }
  destruct (s i) as [i1 x | []]; simpl in W; try (split; [reflexivity | exact W]).
  - destruct W as [S L]. destruct (str_eqb i1 i) eqn:Eq; [split; [reflexivity | exact S]|].
    pose proof (suffix_neq_length _ _ S Eq) as L1.
    destruct (Hp i1 ltac:(lia)) as [E1 O1]. rewrite <- E1.
    assert (W1 : ok_res b2 (imax c1 c2) (d1 || d2) i1 (p i1)).
    { eapply ok_res_weaken; [exact O1| | |]; bool_crush. }
    assert (K : forall e, p i1 = Err e -> ok_res false (imax c1 c2) (d1 || d2) i (@Err (list A) e)).
    { intros e Ee. rewrite Ee in W1. eapply ok_res_suffix_err; [exact S | exact W1]. }
    destruct (p i1) as [i2 a | []]; simpl in W1;
      try (split; [reflexivity|]; exact (K _ eq_refl)).
    + destruct W1 as [S2 _]. pose proof (suffix_length _ _ S2) as L2.
      assert (S3 : suffix i2 i) by (eapply suffix_trans; eauto).
      destruct (str_eqb i2 i) eqn:Eq2; [split; [reflexivity | exact S3]|].
      destruct (IH m' i2 ltac:(lia) ltac:(lia) ltac:(lia)) as [E3 O3]. rewrite <- E3.
      split; [reflexivity|]. destruct (sep_loop m s p i2) as [r l | e].
      * split; [eapply suffix_trans; [apply O3 | exact S3] | discriminate].
      * eapply ok_res_suffix_err; eauto.
    + split; [reflexivity|]. split; [apply suffix_refl | discriminate].
  - split; [reflexivity|]. split; [apply suffix_refl | discriminate].
Qed.

Lemma sim_separated_nonempty_list {A B} n b1 c1 d1 b2 c2 d2 (s s' : parser B) (p p' : parser A) :
  sim n b1 c1 d1 s s' -> sim n b2 c2 d2 p p' ->
  sim n true (imax c1 c2) (d1 || d2) (separated_nonempty_list s p) (separated_nonempty_list s' p').
Proof.
  intros Hs Hp i Hi. unfold separated_nonempty_list. destruct (Hp i Hi) as [E O]. rewrite <- E.
  assert (W : ok_res b2 (imax c1 c2) (d1 || d2) i (p i)).
  { eapply ok_res_weaken; [exact O| | |]; bool_crush. }
  destruct (p i) as [i1 a | e].
  - destruct W as [S L]. destruct (str_eqb i1 i) eqn:Eq; [split; [reflexivity | exact S]|].
    pose proof (suffix_neq_length _ _ S Eq) as L1.
    destruct (sep_loop_sim _ _ _ _ _ _ s s' p p' n Hs Hp (Datatypes.S (length i1))
                (Datatypes.S (length i1)) i1 ltac:(lia) ltac:(lia) ltac:(lia)) as [E3 O3].
    rewrite <- E3. split; [reflexivity|]. destruct (sep_loop _ s p i1) as [r l | e].
    + destruct O3 as [S3 _]. split; [eapply suffix_trans; eauto|].
      apply suffix_length in S3. lia.
    + eapply ok_res_suffix_err; eauto.
  - split; [reflexivity|]. destruct e; exact W.
Qed.

Lemma sim_separated_list {A B} n b1 c1 d1 b2 c2 d2 (s s' : parser B) (p p' : parser A) :
  sim n b1 c1 d1 s s' -> sim n b2 c2 d2 p p' ->
  sim n false (imax c1 c2) (d1 || d2) (separated_list s p) (separated_list s' p').
Proof.
  intros Hs Hp i Hi.
  pose proof (sim_separated_nonempty_list n b1 c1 d1 b2 c2 d2 s s' p p' Hs Hp i Hi) as [E O].
  unfold separated_list, separated_nonempty_list in *.
  destruct (Hp i Hi) as [Ep Op]. rewrite <- Ep in *. clear Ep.
  destruct (p i) as [i1 a | []];
    try (split; [exact E|]; eapply ok_res_weaken; [exact O| | |]; bool_crush).
  split; [reflexivity|]. split; [apply suffix_refl | discriminate].
Qed.

(** ** Recursion *)
Lemma iter_sim {A} b c d (body : parser A -> parser A) :
  (forall n e e', sim n b c d e e' -> sim (S n) b c d (body e) (body e')) ->
  forall n k k', (n <= k)%nat -> (n <= k')%nat -> sim n b c d (iter k body) (iter k' body).
Proof.
  intros G. induction n as [|n IH]; intros k k' Hk Hk'; [intros i Hi; lia|].
  destruct k as [|k]; [lia|]. destruct k' as [|k']; [lia|].
  apply (G n (iter k body) (iter k' body)). apply IH; lia.
Qed.

Lemma fixp_sim_iter {A} b c d (body : parser A -> parser A) :
  (forall n e e', sim n b c d e e' -> sim (S n) b c d (body e) (body e')) ->
  forall n k, (n <= k)%nat -> sim n b c d (fixp body) (iter k body).
Proof.
  intros G n k Hk i Hi. unfold fixp.
  apply (iter_sim b c d body G (Datatypes.S (length i)) (Datatypes.S (length i)) k); lia.
Qed.

Lemma good_fixp {A} b c d (body : parser A -> parser A) :
  (forall n e e', sim n b c d e e' -> sim (S n) b c d (body e) (body e')) -> good b c d (fixp body).
Proof.
  intros G n i Hi. split; [reflexivity|].
  apply (fixp_sim_iter b c d body G (Datatypes.S (length i)) (Datatypes.S (length i))); lia.
Qed.

(** The recursive equation of the Rust function. *)
Lemma fixp_eq {A} b c d (body : parser A -> parser A) :
  (forall n e e', sim n b c d e e' -> sim (S n) b c d (body e) (body e')) ->
  forall i, fixp body i = body (fixp body) i.
Proof.
  intros G i. unfold fixp at 1. cbn [iter].
  assert (H : sim (length i) b c d (iter (length i) body) (fixp body)).
  { intros j Hj.
    destruct (fixp_sim_iter b c d body G (length i) (length i) (le_n _) j Hj) as [E O].
    rewrite <- E. split; [reflexivity | exact O]. }
  apply G in H. destruct (H i ltac:(lia)) as [E _]. exact E.
Qed.

(** Two related recursive functions. *)
Lemma fixp_sim2 {A} b c d (body body' : parser A -> parser A) n :
  (forall m e e', (m < n)%nat -> sim m b c d e e' -> sim (S m) b c d (body e) (body' e')) ->
  sim n b c d (fixp body) (fixp body').
Proof.
  intros G.
  assert (H : forall m k k', (m <= n)%nat -> (m <= k)%nat -> (m <= k')%nat ->
                sim m b c d (iter k body) (iter k' body')).
  { induction m as [|m IH]; intros k k' Hm Hk Hk'; [intros i Hi; lia|].
    destruct k as [|k]; [lia|]. destruct k' as [|k']; [lia|].
    apply (G m (iter k body) (iter k' body')); [lia|]. apply IH; lia. }
  intros i Hi. unfold fixp. apply (H (Datatypes.S (length i))); lia.
Qed.
