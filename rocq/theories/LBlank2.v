(** Changing blanks: the relation between the trees, and the parsers of terminals. *)
From Verif Require Export LBlank1 LRecase2.
Notation length := List.length (only parsing).
Open Scope N_scope.
Open Scope list_scope.

(** ** Trees *)
Definition leaf_sp (m : bool) (x y : leaf) : Prop :=
  match x, y with Name k s, Name k' t => k = k' /\ flat s = flat t /\ (m = true -> s = t) | _, _ => x = y end.
Definition tsp (m : bool) {A} (L : nat -> A -> list leaf) (a a' : A) : Prop :=
  (forall n, Forall2 (leaf_sp m) (L n a) (L n a')) /\ ((forall n, L n a = L n a') -> a = a').
Lemma leaf_sp_refl m x : leaf_sp m x x.
Proof. destruct x; cbn; auto. Qed.
Lemma leaves_sp_refl m l : Forall2 (leaf_sp m) l l.
Proof. induction l; constructor; auto. apply leaf_sp_refl. Qed.
Lemma tb_refl {A} m (L : nat -> A -> list leaf) a : tsp m L a a.
Proof. split; auto. intros. apply leaves_sp_refl. Qed.
Lemma tb_eq {A} m (L : nat -> A -> list leaf) a b : a = b -> tsp m L a b.
Proof. intros ->. apply tb_refl. Qed.
Lemma tb_1 {A B} m (f : A -> B) L1 L a a' : (forall n x, L n (f x) = L1 n x) -> tsp m L1 a a' -> tsp m L (f a) (f a').
Proof. intros E [F Q]. split; [intros n; rewrite !E; apply F|]. intros H. f_equal. apply Q. intros n. now rewrite <- !E. Qed.
Lemma tb_2 {A1 A2 B} m (f : A1 -> A2 -> B) L1 L2 L a a' b b' : (forall n x y, L n (f x y) = L1 n x ++ L2 n y) ->
  tsp m L1 a a' -> tsp m L2 b b' -> tsp m L (f a b) (f a' b').
Proof.
  intros E [F Q] [F2 Q2]. split.
  - intros n; rewrite !E. apply Forall2_app; auto.
  - intros H. assert (X : forall n, L1 n a = L1 n a' /\ L2 n b = L2 n b').
    { intros n. eapply app_split; [apply F|]. now rewrite <- !E. }
    rewrite (Q (fun n => proj1 (X n))), (Q2 (fun n => proj2 (X n))). reflexivity.
Qed.
Lemma tb_3 {A1 A2 A3 B} m (f : A1 -> A2 -> A3 -> B) L1 L2 L3 L a a' b b' c c' : (forall n x y z, L n (f x y z) = L1 n x ++ L2 n y ++ L3 n z) ->
  tsp m L1 a a' -> tsp m L2 b b' -> tsp m L3 c c' -> tsp m L (f a b c) (f a' b' c').
Proof.
  intros E H1 H2 H3.
  apply (tb_2 m (fun x (yz : A2 * A3) => f x (fst yz) (snd yz)) L1 (fun n yz => L2 n (fst yz) ++ L3 n (snd yz)) L a a' (b, c) (b', c')); auto.
  now apply (tb_2 m (fun y z => (y, z)) L2 L3).
Qed.
Lemma tb_4 {A1 A2 A3 A4 B} m (f : A1 -> A2 -> A3 -> A4 -> B) L1 L2 L3 L4 L a a' b b' c c' d d' :
  (forall n x y z t, L n (f x y z t) = L1 n x ++ L2 n y ++ L3 n z ++ L4 n t) ->
  tsp m L1 a a' -> tsp m L2 b b' -> tsp m L3 c c' -> tsp m L4 d d' -> tsp m L (f a b c d) (f a' b' c' d').
Proof.
  intros E H1 H2 H3 H4.
  apply (tb_2 m (fun x (yz : A2 * A3 * A4) => f x (fst (fst yz)) (snd (fst yz)) (snd yz)) L1
           (fun n yz => L2 n (fst (fst yz)) ++ L3 n (snd (fst yz)) ++ L4 n (snd yz)) L a a' (b, c, d) (b', c', d')); auto.
  now apply (tb_3 m (fun y z t => (y, z, t)) L2 L3 L4).
Qed.
Lemma tb_may {A} m (L : nat -> A -> list leaf) o o' : mayb (tsp m L) o o' -> tsp m (fun n => of_opt (L n)) o o'.
Proof. destruct o, o'; try contradiction; intros H; [now apply (tb_1 m Some L)|apply tb_refl]. Qed.
Lemma tb_list {A} m (L : nat -> A -> list leaf) l l' : Forall2 (tsp m L) l l' -> tsp m (fun n => flat_map (L n)) l l'.
Proof. intros F. induction F as [|x y l l' H F IH]; [apply tb_refl|]. now apply (tb_2 m (@cons A) L (fun n => flat_map (L n))). Qed.
Lemma tb_name k m s t : flat s = flat t -> (m = true -> s = t) -> tsp m (fun _ => name k) s t.
Proof.
  intros H K. split.
  - intros n. constructor; [now split|constructor].
  - intros E. specialize (E O). now injection E.
Qed.
(** the leaves one level down *)
Lemma tb_knot {A B} m (f : A -> B) L1 L a a' : (forall x, L O x = []) -> (forall n x, L (S n) (f x) = L1 n x) -> tsp m L1 a a' -> tsp m L (f a) (f a').
Proof.
  intros Z E [F Q]. split.
  - intros [|n]; [rewrite !Z; constructor|]. rewrite !E. apply F.
  - intros H. f_equal. apply Q. intros n. now rewrite <- !E.
Qed.
Notation tls m L := (tsp m (fun _ : nat => L)) (only parsing).
Notation txs k m := (tsp m (fun _ : nat => name k)) (only parsing).

Ltac prepb :=
  repeat match goal with
         | H : _ /\ _ |- _ => destruct H
         | H : both _ _ ?x ?y |- _ => destruct H as [? ?]; destruct x, y; cbn [fst snd] in *
         | H : mayb (tsp _ _) _ _ |- _ => apply tb_may in H
         | H : Forall2 (tsp _ _) _ _ |- _ => apply tb_list in H
         | H : @eq bool _ _ |- _ => progress subst
         | H : @eq NumericLiteral _ _ |- _ => progress subst
         | H : any _ _ |- _ => clear H
         end.
Ltac vb :=
  intros; prepb;
  first
    [ exact I
    | assumption
    | apply tb_refl
    | reflexivity
    | match goal with H : tsp ?m ?L1 ?a ?b |- tsp _ _ (?f ?a) (?f ?b) => apply (tb_1 m f L1); [intros; reflexivity|exact H] end
    | match goal with H1 : tsp ?m ?L1 ?a ?a', H2 : tsp _ ?L2 ?b ?b' |- tsp _ _ (?f ?a ?b) (?f ?a' ?b') =>
        apply (tb_2 m f L1 L2); [intros; reflexivity|exact H1|exact H2] end
    | match goal with H1 : tsp ?m ?L1 ?a ?a', H2 : tsp _ ?L2 ?b ?b', H3 : tsp _ ?L3 ?c ?c' |- tsp _ _ (?f ?a ?b ?c) (?f ?a' ?b' ?c') =>
        apply (tb_3 m f L1 L2 L3); [intros; reflexivity|exact H1|exact H2|exact H3] end
    | match goal with H1 : tsp ?m ?L1 ?a ?a', H2 : tsp _ ?L2 ?b ?b', H3 : tsp _ ?L3 ?c ?c', H4 : tsp _ ?L4 ?d ?d' |- tsp _ _ (?f ?a ?b ?c ?d) (?f ?a' ?b' ?c' ?d') =>
        apply (tb_4 m f L1 L2 L3 L4); [intros; reflexivity|exact H1|exact H2|exact H3|exact H4] end ].

(** ** The driver *)
Create HintDb bs discriminated.
Ltac leaf_bs := first
  [ apply bs_sp | apply bs_sp1
  | apply bs_chr; reflexivity | apply bs_tag; reflexivity
  | apply bs_tnc; first [reflexivity|assumption] | apply bs_tnc_s; first [reflexivity|assumption]
  | apply bs_take_while; reflexivity | apply bs_take1; reflexivity | apply bs_take_mn; reflexivity
  | apply bs_one_of; reflexivity
  | assumption
  | solve [eauto 2 with bs nocore] ].
Ltac gb :=
  lazymatch goal with
  | |- bs2 _ _ _ (pair _ _) _ => eapply bs_pair; [gb|gb]
  | |- bs2 _ _ _ (separated_pair _ _ _) _ => unfold separated_pair; gb
  | |- bs2 _ _ _ (tuple3 _ _ _) _ => unfold tuple3; gb
  | |- bs2 _ _ _ (tuple4 _ _ _ _) _ => unfold tuple4; gb
  | |- bs2 _ _ _ (tuple5 _ _ _ _ _) _ => unfold tuple5; gb
  | |- bs2 _ _ _ (Nom.map _ _) _ => eapply bs_map; [gb|try solve [vb]]
  | |- bs2 _ _ _ (preceded _ _) _ => eapply bs_preceded; [gb|gb]
  | |- bs2 _ _ _ (terminated _ _) _ => eapply bs_terminated; [gb|gb]
  | |- bs2 _ _ _ (delimited _ _ _) _ => unfold delimited; gb
  | |- bs2 _ _ _ (bracketted _) _ => unfold bracketted; gb
  | |- bs2 _ _ _ (preceded_tag _ _) _ => unfold preceded_tag; gb
  | |- bs2 _ _ _ (preceded_tag1 _ _) _ => unfold preceded_tag1; gb
  | |- bs2 _ _ _ (preceded_bracketted _ _) _ => unfold preceded_bracketted; gb
  | |- bs2 _ _ _ (sp_enc _) _ => unfold sp_enc; gb
  | |- bs2 _ _ _ (sp_enc1 _) _ => unfold sp_enc1; gb
  | |- bs2 _ _ _ (sp_sep _ _) _ => unfold sp_sep; gb
  | |- bs2 _ _ _ (sp_sep1 _ _) _ => unfold sp_sep1; gb
  | |- bs2 _ _ _ (opt _) _ => eapply bs_opt; gb
  | |- bs2 _ _ _ (cut _) _ => eapply bs_cut; gb
  | |- bs2 _ true _ (recognize _) _ => eapply bs_recognize_eq; gb
  | |- bs2 _ _ _ (recognize _) _ => first [leaf_bs | eapply bs_recognize; gb]
  | |- bs2 _ _ _ (many0 _) _ => eapply bs_many0; gb
  | |- bs2 _ _ _ (many1 _) _ => eapply bs_many1; gb
  | |- bs2 _ _ _ (separated_list _ _) _ => eapply bs_sep0; [gb|gb]
  | |- bs2 _ _ _ (separated_nonempty_list _ _) _ => eapply bs_sep1; [gb|gb]
  | |- bs2 _ _ _ (alt []) _ => apply bs_alt_nil
  | |- bs2 _ _ _ (alt _) _ => apply bs_alt; [reflexivity|gb|gb]
  | |- bs2 _ _ _ _ _ => first [leaf_bs | idtac]
  end.

(** ** String literals *)
Section Escaped.
Context (m : bool) (s1 s2 : str) (H1 : tight_class (contains s1) = true) (H2 : tight_class (contains s2) = true).
Local Notation loop := (fun n i0 => escaped_loop n (none_of s1) 92 (one_of s2) i0).
Lemma loop_end n (i0 i : str) : exists k, match i with [] => Ok [] i0 | _ => loop n i0 i end = loop k i0 i.
Proof. destruct i; [now exists 1%nat|now exists n]. Qed.
Lemma loop_gaps h i0 i : forall b n, forallb (gap h) b = true -> loop n i0 (b ++ i) = Err OutOfFuel \/ exists k, loop n i0 (b ++ i) = loop k i0 i.
Proof.
  induction b as [|c b IH]; intros n G; [right; now exists n|]. destruct n as [|n]; [now left|]. cbn in G. apply andb_true_iff in G as [G1 G].
  cbn [app escaped_loop none_of]. rewrite (class_gap _ _ c H1 G1). destruct (loop_end n i0 (b ++ i)) as [k E]. cbv beta in E. rewrite E. now apply IH.
Qed.
Lemma loop_bs h i0 j0 : sam m h i0 j0 -> forall l n k u u' i j, (length i <= l)%nat -> i0 = u ++ i -> j0 = u' ++ j -> sqz h u = sqz h u' -> sam m (after h u) i j ->
  brel m h false (fun x y => flat x = flat y) i0 j0 (loop n i0 i) (loop k j0 j).
Proof.
  intros S0. induction l as [|l IH]; intros n k u u' i j L E E' Q S.
  - destruct i; [|cbn in L; lia]. pose proof S as (S1 & _). symmetry in S1. apply squeeze_empty in S1. subst j. rewrite app_nil_r in *. subst u u'.
    destruct n as [|n]; [now left|]. destruct k as [|k]; [now right; left|]. cbn [escaped_loop].
    apply (brel_ok m h false _ _ _ [] [] _ _ i0 j0); auto; [now rewrite app_nil_r|now rewrite app_nil_r|discriminate|now apply (sqz_flat h)].
  - halves S.
    + destruct n as [|n]; [now left|]. destruct k as [|k]; [now right; left|]. cbn [escaped_loop].
      apply (brel_ok m h false _ _ _ [] [] _ _ u u'); auto; [discriminate|]. rewrite !app_nil_r. now apply (sqz_flat h).
    + destruct n as [|n]; [now left|]. destruct k as [|k]; [now right; left|]. cbn in L. cbn [escaped_loop none_of]. destruct (contains s1 c) eqn:C.
      * destruct (N.eqb_spec c 92) as [->|N].
        -- halves S'.
           ++ now apply brel_err.
           ++ cbn [one_of]. destruct (contains s2 c); [|now apply brel_err].
              destruct (loop_end n (u ++ 92 :: c :: i) i) as [n' ->]. destruct (loop_end k (u' ++ 92 :: c :: j) j) as [k' ->].
              apply (IH n' k' (u ++ [92; c]) (u' ++ [92; c])); [cbn in L; lia|now rewrite <- app_assoc|now rewrite <- app_assoc|now apply squeeze_cat|now rewrite after_app].
           ++ destruct b as [|x b], b' as [|y b']; try contradiction. cbn in Gb, Gb'. apply andb_true_iff in Gb as [Gb _], Gb' as [Gb' _].
              cbn [app one_of]. rewrite (class_gap _ _ x H2 Gb), (class_gap _ _ y H2 Gb'). now apply brel_err.
        -- assert (X : forall (v : str) w, Nat.eqb (length (v ++ w)) (length w) = match v with [] => true | _ => false end).
           { intros v w. rewrite app_length. destruct v; [apply Nat.eqb_refl|]. apply Nat.eqb_neq. cbn. lia. }
           rewrite !X, !firstn_front. destruct u as [|y u], u' as [|z u']; [now apply brel_err|symmetry in Q; now apply squeeze_empty in Q|now apply squeeze_empty in Q|].
           apply (brel_ok m h false _ _ _ (c :: i1) (c :: j1) _ _ (y :: u) (z :: u')); auto; [discriminate|now apply (squeeze_cat _ [c] [c]); [|apply S']|now apply (sqz_flat h)].
      * destruct (loop_end n (u ++ c :: i1) i1) as [n' ->]. destruct (loop_end k (u' ++ c :: j1) j1) as [k' ->].
        apply (IH n' k' (u ++ [c]) (u' ++ [c])); [lia|now rewrite <- app_assoc|now rewrite <- app_assoc|now apply squeeze_cat|now rewrite after_app].
    + assert (LB : (0 < length b)%nat) by (destruct b; [contradiction|cbn; lia]). rewrite app_length in L.
      destruct (loop_gaps (after h u) (u ++ b ++ i1) i1 b n Gb) as [X|[n' X]]; [now left|]. destruct (loop_gaps (after h u) (u' ++ b' ++ j1) j1 b' k Gb') as [Y|[k' Y]]; [now right; left|]. cbv beta in X, Y. rewrite X, Y.
      apply (IH n' k' (u ++ b) (u' ++ b')); [lia|now rewrite <- app_assoc|now rewrite <- app_assoc| |now rewrite after_app, (run_after _ b Gb)]. apply squeeze_cat; [exact Q|]. now apply squeeze_gaps.
Qed.
Lemma bs_escaped : bs m false (fun x y => flat x = flat y) (escaped (none_of s1) 92 (one_of s2)).
Proof. intros h i j S. unfold escaped. now apply (loop_bs h i j S (length i) _ _ [] [] i j). Qed.
End Escaped.
Lemma bs_string_literal m : bs m false (txs KString m) string_literal.
Proof.
  assert (D : m = true \/ m = false) by (destruct m; auto). destruct D as [M|M].
  - intros h i j S. assert (X : forall i, ~ In 34 i -> ~ In 39 i -> exists p k, string_literal i = Err (Error p k)).
    { intros k A B. assert (T1 : tag (s_ "'") k = Err (Error k KTag)).
      { destruct k as [|c k]; [reflexivity|]. unfold tag. change (strip_prefix (s_ "'") (c :: k)) with (if 39 =? c then Some k else None). destruct (N.eqb_spec 39 c) as [<-|_]; [destruct B; now left|reflexivity]. }
      assert (T2 : tag (s_ """") k = Err (Error k KTag)).
      { destruct k as [|c k]; [reflexivity|]. unfold tag. change (strip_prefix (s_ """") (c :: k)) with (if 34 =? c then Some k else None). destruct (N.eqb_spec 34 c) as [<-|_]; [destruct A; now left|reflexivity]. }
      exists k, KTag. unfold string_literal, delimited, preceded, terminated, Nom.map, alt, pair. rewrite T1, T2. reflexivity. }
    destruct S as (E & Q). destruct (Q M) as [A B].
    destruct (X i A B) as (p & k & ->). destruct (X j) as (p' & k' & ->); [| |now apply brel_err].
    + intros I. apply A. apply (squeeze_in 34 i) with (h := h) (g := false); [reflexivity|]. unfold sqz in E. rewrite E. apply squeeze_in; [reflexivity|exact I].
    + intros I. apply B. apply (squeeze_in 39 i) with (h := h) (g := false); [reflexivity|]. unfold sqz in E. rewrite E. apply squeeze_in; [reflexivity|exact I].
  - eapply (bs_txt m false (fun x y => flat x = flat y)); [intros x y H; apply tb_name; [exact H|congruence]|].
    unfold string_literal, delimited. apply bs_alt; [reflexivity| |apply bs_alt; [reflexivity| |apply bs_alt_nil]].
    + eapply bs_preceded; [gb|]. eapply bs_terminated; [apply bs_escaped; reflexivity|gb].
    + eapply bs_preceded; [gb|]. eapply bs_terminated; [apply bs_escaped; reflexivity|gb].
Qed.
Global Hint Resolve bs_string_literal : bs.

(** ** Names *)
Lemma bs_nm k m t p : bs m true eq p -> bs m t (txs k m) p.
Proof. intros H. apply bs_false. eapply bs_txt; [|exact H]. intros x y ->. apply tb_refl. Qed.
Lemma bs_language_tag m t : bs m t (txs KLang m) language_tag.
Proof. apply bs_nm. unfold language_tag, alpha1, alphanumeric1. gb. Qed.
Global Hint Resolve bs_language_tag : bs.
Lemma bs_pn_chars_tail m t : bs m t (eq) pn_chars_tail.
Proof. apply bs_false. unfold pn_chars_tail, take_while1, pn_chars1, take_while1. gb. Qed.
Global Hint Resolve bs_pn_chars_tail : bs.
Lemma bs_plx m t : bs m t (eq) plx.
Proof. apply bs_false.
  unfold plx, hex_primary. gb.
Qed.
Global Hint Resolve bs_plx : bs.

Lemma bs_pn_chars_u_one m t : bs m t (eq) pn_chars_u_one.
Proof. apply bs_false. unfold pn_chars_u_one, pn_chars_base_one. gb. Qed.
Global Hint Resolve bs_pn_chars_u_one : bs.
Lemma bs_pn_local m t : bs m t (txs KLocal m) pn_local.
Proof. apply bs_nm. unfold pn_local, take_while1. gb. Qed.
Global Hint Resolve bs_pn_local : bs.
Lemma bs_pn_prefix m t : bs m t (txs KPrefix m) pn_prefix.
Proof. apply bs_nm. unfold pn_prefix, pn_chars_base_one. gb. Qed.
Global Hint Resolve bs_pn_prefix : bs.
Lemma bs_pname_ns m : bs m false (mayb (txs KPrefix m)) pname_ns.
Proof. unfold pname_ns. gb. Qed.
Global Hint Resolve bs_pname_ns : bs.
Lemma bs_pname_ln m : bs m false (both (mayb (txs KPrefix m)) (txs KLocal m)) pname_ln.
Proof. unfold pname_ln. gb. Qed.
Global Hint Resolve bs_pname_ln : bs.
Lemma bs_prefixed_name m : bs m false (tls m leaves_prefixed) prefixed_name.
Proof. unfold prefixed_name. gb. Qed.
Global Hint Resolve bs_prefixed_name : bs.
Lemma bs_iri_ref m t : bs m t (txs KIri m) iri_ref.
Proof. apply bs_nm. unfold iri_ref. gb. Qed.
Global Hint Resolve bs_iri_ref : bs.
Lemma bs_iri m : bs m false (tls m leaves_iri) iri.
Proof. unfold iri. gb. Qed.
Global Hint Resolve bs_iri : bs.
Lemma bs_named_iri m : bs m false (tls m leaves_iri) named_iri.
Proof. unfold named_iri. gb. Qed.
Global Hint Resolve bs_named_iri : bs.
Lemma bs_don m : bs m false (tls m leaves_don) default_or_named_iri.
Proof. unfold default_or_named_iri. gb. Qed.
Global Hint Resolve bs_don : bs.
Lemma bs_base_decl m : bs m false (txs KIri m) base_decl.
Proof. unfold base_decl. gb. Qed.
Global Hint Resolve bs_base_decl : bs.
Lemma bs_prefix_decl m : bs m false (tls m leaves_pdecl) prefix_decl.
Proof. unfold prefix_decl. gb. Qed.
Global Hint Resolve bs_prefix_decl : bs.
Lemma bs_prologue m : bs m false (tls m leaves_prologue) prologue.
Proof. unfold prologue. eapply bs_map; [eapply (bs_sep0 m false (tls m leaves_decl)); [gb|]|vb]. gb. Qed.
Global Hint Resolve bs_prologue : bs.
Lemma bs_descriptor m : bs m false (mayb (tls m leaves_descriptor)) (opt (alt [ Nom.map language_tag LangTag; Nom.map (preceded (tag (s_ "^^")) iri) DescIri ])).
Proof. gb. Qed.
Global Hint Resolve bs_descriptor : bs.
Lemma bs_rdf_literal m : bs m false (tls m leaves_literal) rdf_literal.
Proof. unfold rdf_literal. eapply bs_map; [eapply bs_pair; [gb|apply bs_descriptor]|vb]. Qed.
Global Hint Resolve bs_rdf_literal : bs.
Lemma bs_anon m : bs m false any anon.
Proof. unfold anon. gb. Qed.
Lemma bs_nil m : bs m false any nil_.
Proof. unfold nil_. gb. Qed.
Global Hint Resolve bs_anon bs_nil : bs.
Lemma bs_silent m t : bs m t eq silent. Proof. unfold silent. gb. Qed.
Lemma bs_distinct m t : bs m t eq distinct. Proof. unfold distinct. gb. Qed.
Lemma bs_boolean m t : bs m t eq boolean. Proof. unfold boolean. gb. Qed.
Global Hint Resolve bs_silent bs_distinct bs_boolean : bs.
Lemma bs_opt_silent m : bs m false eq opt_silent.
Proof. unfold opt_silent. eapply bs_map; [gb|]. intros [x|] [y|]; cbn; try contradiction; congruence. Qed.
Lemma bs_opt_distinct m : bs m false eq opt_distinct.
Proof. unfold opt_distinct. eapply bs_map; [gb|]. intros [x|] [y|]; cbn; try contradiction; congruence. Qed.
Global Hint Resolve bs_opt_silent bs_opt_distinct : bs.

(** ** Numbers *)
Lemma bs_parse {B} m t (p : parser str) (f : str -> option B) : bs m true eq p -> bs m t eq (map_res p f).
Proof. intros H. apply bs_false. eapply bs_map_res; [exact H|]. intros x y ->. destruct (f y); cbn; auto. Qed.
Lemma bs_opt_sign m t : bs m t (mayb eq) opt_sign.
Proof. unfold opt_sign. gb. Qed.
Global Hint Resolve bs_opt_sign : bs.
Lemma bs_exponent m t : bs m t eq exponent.
Proof. unfold exponent, digit1. eapply bs_preceded; [gb|]. apply bs_parse. gb. Qed.
Global Hint Resolve bs_exponent : bs.
Lemma bs_float m : bs m true eq recognize_sparql_float.
Proof.
  unfold recognize_sparql_float, digit1. eapply bs_recognize_eq. eapply bs_pair; [gb|]. apply (bs_alt m true any); [reflexivity| |apply bs_alt; [reflexivity| |apply bs_alt_nil]].
  - eapply (bs_map m true _ any); [gb|vb].
  - eapply (bs_map m true _ any); [gb|vb].
Qed.
Lemma bs_decimal m t : bs m t eq sparql_decimal.
Proof.
  apply bs_false. intros h i j S. unfold sparql_decimal. pose proof (bs_float m h i j S) as H. boutcome H (recognize_sparql_float i) (recognize_sparql_float j).
  - destruct X as (-> & X). destruct (parse_decimal a'); [right; right; auto|now apply brel_err].
  - right; right. exact X.
Qed.
Global Hint Resolve bs_decimal : bs.
Lemma bs_double m t : bs m t (both eq (mayb eq)) sparql_double.
Proof. unfold sparql_double. gb. Qed.
Lemma bs_int m t : bs m t eq sparql_int.
Proof.
  apply bs_false. intros h i j S. unfold sparql_int, digit1.
  assert (H : bs m true eq (recognize (pair opt_sign (take1 KDigit char_is_dec_digit)))) by gb. specialize (H h i j S).
  boutcome H (recognize (pair opt_sign (take1 KDigit char_is_dec_digit)) i) (recognize (pair opt_sign (take1 KDigit char_is_dec_digit)) j).
  - destruct X as (-> & u & u' & Ei & Ej & Q & T & S1).
    assert (D : match r with c :: _ => contains (s_ ".eE") c | [] => false end = match r' with c :: _ => contains (s_ ".eE") c | [] => false end).
    { pose proof S1 as S2. halves S2; auto. destruct b as [|x b], b' as [|y b']; try contradiction. cbn in Gb, Gb'. apply andb_true_iff in Gb as [Gb _], Gb' as [Gb' _]. cbn [app].
      now rewrite (class_gap (contains (s_ ".eE")) _ x eq_refl Gb), (class_gap (contains (s_ ".eE")) _ y eq_refl Gb'). }
    rewrite D. destruct (match r' with c :: _ => contains (s_ ".eE") c | [] => false end); [now apply brel_err|].
    destruct (parse_i64 a'); [|now apply brel_err]. right; right. split; [reflexivity|]. exists u, u'. auto 6.
  - right; right. exact X.
Qed.
Global Hint Resolve bs_int bs_double : bs.
Lemma bs_numeric m : bs m false eq numeric_literal.
Proof.
  unfold numeric_literal. apply bs_alt; [reflexivity| |apply bs_alt; [reflexivity| |apply bs_alt_nil]].
  - eapply bs_map; [gb|]. congruence.
  - eapply bs_map; [gb|]. intros [q e] [q' e'] [H K]. cbn in *. apply may_eq in K. congruence.
Qed.
Global Hint Resolve bs_numeric : bs.

(** ** Variables and terms *)
Lemma bs_var_name m t : bs m t (txs KVar m) var_name.
Proof. apply bs_nm. unfold var_name. gb. Qed.
Global Hint Resolve bs_var_name : bs.
Lemma bs_var m : bs m false (tls m leaves_var) var.
Proof. unfold var. gb. Qed.
Global Hint Resolve bs_var : bs.
Lemma bs_var_or_iri m : bs m false (tls m leaves_voi) var_or_iri.
Proof. unfold var_or_iri. gb. Qed.
Global Hint Resolve bs_var_or_iri : bs.
Lemma bs_verb m : bs m false (tls m leaves_verb) verb.
Proof. unfold verb. gb. Qed.
Global Hint Resolve bs_verb : bs.
Lemma bs_targets m : bs m false (tls m leaves_targets) var_or_iris_or_all.
Proof. unfold var_or_iris_or_all. gb. Qed.
Global Hint Resolve bs_targets : bs.
Lemma bs_label_head m t : bs m t any (alt [pn_chars_u_one; take_while_m_n 1 1 (fun c => is_digit (as_u8 c))]).
Proof. apply bs_false. eapply bs_any. gb. Qed.
Global Hint Resolve bs_label_head : bs.
Lemma bs_label m t : bs m t (txs KLabel m) (recognize (pair (alt [pn_chars_u_one; take_while_m_n 1 1 (fun c => is_digit (as_u8 c))]) pn_chars_tail)).
Proof. apply bs_nm. gb. Qed.
Global Hint Resolve bs_label : bs.
Lemma bs_blank_node m : bs m false (tls m leaves_blank_node) blank_node.
Proof. unfold blank_node. gb. Qed.
Global Hint Resolve bs_blank_node : bs.
Lemma bs_graph_term m : bs m false (tls m leaves_term) graph_term.
Proof. unfold graph_term. gb. Qed.
Global Hint Resolve bs_graph_term : bs.
Lemma bs_var_or_term m : bs m false (tls m leaves_vot) var_or_term.
Proof. unfold var_or_term. gb. Qed.
Global Hint Resolve bs_var_or_term : bs.
Lemma bs_graph_ref m : bs m false (tls m leaves_iri) graph_ref.
Proof. unfold graph_ref. gb. Qed.
Global Hint Resolve bs_graph_ref : bs.
Lemma bs_god m : bs m false (tls m leaves_god) graph_or_default.
Proof. unfold graph_or_default. gb. Qed.
Lemma bs_gra m : bs m false (tls m leaves_gra) graph_ref_all.
Proof. unfold graph_ref_all. gb. Qed.
Global Hint Resolve bs_god bs_gra : bs.
Lemma bs_iri_or_a m : bs m false (tls m leaves_iri_or_a) iri_or_a.
Proof. unfold iri_or_a. gb. Qed.
Global Hint Resolve bs_iri_or_a : bs.
Lemma bs_caret m : bs m false (tls m leaves_caret) iri_or_a_or_caret.
Proof. unfold iri_or_a_or_caret. gb. Qed.
Global Hint Resolve bs_caret : bs.

(** ** Data blocks and clauses *)
Lemma bs_data_set m : bs m false (tls m leaves_don) data_set_clause.
Proof. unfold data_set_clause. gb. Qed.
Global Hint Resolve bs_data_set : bs.
Lemma bs_value m : bs m false (tls m leaves_value) datablock_value.
Proof. unfold datablock_value. gb. Qed.
Global Hint Resolve bs_value : bs.
Lemma bs_one_var m : bs m false (tls m leaves_one_var) inline_data_one_var.
Proof. unfold inline_data_one_var. gb. Qed.
Lemma tb_lists {A} m (L : nat -> A -> list leaf) l l' : Forall2 (Forall2 (tsp m L)) l l' -> tsp m (fun n => flat_map (flat_map (L n))) l l'.
Proof. intros F. apply (tb_list m (fun n => flat_map (L n))). induction F; constructor; auto. now apply tb_list. Qed.
Lemma bs_full m : bs m false (tls m leaves_full) inline_data_full.
Proof.
  unfold inline_data_full. gb. intros [x1 x2] [y1 y2] [H K]. cbn [fst snd] in *. apply tb_lists in K. vb.
Qed.
Global Hint Resolve bs_one_var bs_full : bs.
Lemma bs_datablock m : bs m false (tls m leaves_datablock) datablock.
Proof. unfold datablock. gb. Qed.
Global Hint Resolve bs_datablock : bs.
Lemma bs_inline_data m : bs m false (tls m leaves_datablock) inline_data.
Proof. unfold inline_data. gb. Qed.
Lemma bs_values m : bs m false (mayb (tls m leaves_datablock)) values_clause.
Proof. unfold values_clause. gb. Qed.
Global Hint Resolve bs_inline_data bs_values : bs.
Lemma bs_limit m : bs m false eq limit_clause.
Proof. unfold limit_clause, int_clause, take_while1. eapply (bs_map_res m false eq); [gb|]. intros x y ->. destruct (parse_u64 y); cbn; auto. Qed.
Lemma bs_offset m : bs m false eq offset_clause.
Proof. unfold offset_clause, int_clause, take_while1. eapply (bs_map_res m false eq); [gb|]. intros x y ->. destruct (parse_u64 y); cbn; auto. Qed.
Global Hint Resolve bs_limit bs_offset : bs.
Lemma bs_limit_offset m : bs m false (tls m leaves_limit_offset) limit_offset_clause.
Proof.
  unfold limit_offset_clause. apply bs_alt; [reflexivity| |apply bs_alt; [reflexivity| |apply bs_alt_nil]].
  - eapply bs_map; [gb|]. intros [q e] [q' e'] [H K]. cbn in *. apply may_eq in K. subst. apply tb_refl.
  - eapply bs_map; [gb|]. intros [q e] [q' e'] [H K]. cbn in *. apply may_eq in K. subst. apply tb_refl.
Qed.
Global Hint Resolve bs_limit_offset : bs.
Lemma bs_using m : bs m false (tls m leaves_don) using_clause.
Proof. unfold using_clause. gb. Qed.
Global Hint Resolve bs_using : bs.
Lemma bs_path_mod m t : bs m t eq path_mod.
Proof.
  apply bs_false. intros h i j S. halves S.
  - now apply brel_err.
  - unfold path_mod. cbn [split_at]. destruct (Nat.leb (utf8_len c) 1) eqn:L; [|now apply brel_err].
    assert (Z : (1 - utf8_len c = 0)%nat) by (pose proof (utf8_len_pos c); lia). rewrite Z.
    assert (SZ : forall r, split_at 0 r = Some ([], r)) by (intros []; reflexivity). rewrite !SZ. cbv beta iota. destruct (path_mod_from_str [c]); [|now apply brel_err]. apply (brel_ok m h true _ _ _ i0 j0 _ _ [c] [c]); auto. apply S'.
  - assert (X : forall c b r, gap h c = true -> path_mod ((c :: b) ++ r) = Err (Error (c :: b ++ r) KChar)).
    { intros c d r G. apply gap_cases in G. cbn in G. destruct G as [<-|[<-|[<-|[<-|[]]]]]; destruct d, r; reflexivity. }
    destruct b as [|x b], b' as [|y b']; try contradiction. cbn in Gb, Gb'. apply andb_true_iff in Gb as [Gb _], Gb' as [Gb' _]. rewrite !X by assumption. now apply brel_err.
Qed.
Global Hint Resolve bs_path_mod : bs.
