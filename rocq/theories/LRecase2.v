(** Changing the case of letters: the relation between the trees, and the parsers of terminals. *)
From Verif Require Export LRecase1 MTerminals.
Notation length := List.length (only parsing).
Open Scope N_scope.
Open Scope list_scope.

(** ** Trees *)
Lemma leaf_alike_refl x : leaf_alike x x.
Proof. destruct x; cbn; auto. split; [reflexivity|]. induction s; constructor; auto. now left. Qed.
Lemma leaves_alike_refl l : Forall2 leaf_alike l l.
Proof. induction l; constructor; auto. apply leaf_alike_refl. Qed.
Lemma ta_refl {A} (L : nat -> A -> list leaf) a : tree_alike L a a.
Proof. split; auto. intros. apply leaves_alike_refl. Qed.
Lemma ta_eq {A} (L : nat -> A -> list leaf) a b : a = b -> tree_alike L a b.
Proof. intros ->. apply ta_refl. Qed.
Lemma app_split {X} (R : X -> X -> Prop) a b a' b' : Forall2 R a a' -> a ++ b = a' ++ b' -> a = a' /\ b = b'.
Proof.
  intros F. induction F as [|x y l l' H F IH]; cbn; [auto|]. intros E. injection E as -> E. destruct (IH E) as [-> ->]. auto.
Qed.
Lemma ta_1 {A B} (f : A -> B) L1 L a a' : (forall n x, L n (f x) = L1 n x) -> tree_alike L1 a a' -> tree_alike L (f a) (f a').
Proof. intros E [F Q]. split; [intros n; rewrite !E; apply F|]. intros H. f_equal. apply Q. intros n. now rewrite <- !E. Qed.
Lemma ta_2 {A1 A2 B} (f : A1 -> A2 -> B) L1 L2 L a a' b b' : (forall n x y, L n (f x y) = L1 n x ++ L2 n y) ->
  tree_alike L1 a a' -> tree_alike L2 b b' -> tree_alike L (f a b) (f a' b').
Proof.
  intros E [F Q] [F2 Q2]. split.
  - intros n; rewrite !E. apply Forall2_app; auto.
  - intros H. assert (X : forall n, L1 n a = L1 n a' /\ L2 n b = L2 n b').
    { intros n. eapply app_split; [apply F|]. now rewrite <- !E. }
    rewrite (Q (fun n => proj1 (X n))), (Q2 (fun n => proj2 (X n))). reflexivity.
Qed.
Lemma ta_3 {A1 A2 A3 B} (f : A1 -> A2 -> A3 -> B) L1 L2 L3 L a a' b b' c c' : (forall n x y z, L n (f x y z) = L1 n x ++ L2 n y ++ L3 n z) ->
  tree_alike L1 a a' -> tree_alike L2 b b' -> tree_alike L3 c c' -> tree_alike L (f a b c) (f a' b' c').
Proof.
  intros E H1 H2 H3.
  apply (ta_2 (fun x (yz : A2 * A3) => f x (fst yz) (snd yz)) L1 (fun n yz => L2 n (fst yz) ++ L3 n (snd yz)) L a a' (b, c) (b', c')); auto.
  now apply (ta_2 (fun y z => (y, z)) L2 L3).
Qed.
Lemma ta_4 {A1 A2 A3 A4 B} (f : A1 -> A2 -> A3 -> A4 -> B) L1 L2 L3 L4 L a a' b b' c c' d d' :
  (forall n x y z t, L n (f x y z t) = L1 n x ++ L2 n y ++ L3 n z ++ L4 n t) ->
  tree_alike L1 a a' -> tree_alike L2 b b' -> tree_alike L3 c c' -> tree_alike L4 d d' -> tree_alike L (f a b c d) (f a' b' c' d').
Proof.
  intros E H1 H2 H3 H4.
  apply (ta_2 (fun x (yz : A2 * A3 * A4) => f x (fst (fst yz)) (snd (fst yz)) (snd yz)) L1
           (fun n yz => L2 n (fst (fst yz)) ++ L3 n (snd (fst yz)) ++ L4 n (snd yz)) L a a' (b, c, d) (b', c', d')); auto.
  now apply (ta_3 (fun y z t => (y, z, t)) L2 L3 L4).
Qed.
Lemma ta_may {A} (L : nat -> A -> list leaf) o o' : mayb (tree_alike L) o o' -> tree_alike (fun n => of_opt (L n)) o o'.
Proof. destruct o, o'; try contradiction; intros H; [now apply (ta_1 Some L)|apply ta_refl]. Qed.
Lemma ta_list {A} (L : nat -> A -> list leaf) l l' : Forall2 (tree_alike L) l l' -> tree_alike (fun n => flat_map (L n)) l l'.
Proof. intros F. induction F as [|x y l l' H F IH]; [apply ta_refl|]. now apply (ta_2 (@cons A) L (fun n => flat_map (L n))). Qed.
Lemma ta_name k s t : Forall2 alike s t -> tree_alike (fun _ => name k) s t.
Proof.
  intros H. split.
  - intros n. constructor; [now split|constructor].
  - intros E. specialize (E O). now injection E.
Qed.
(** the leaves one level down *)
Lemma ta_knot {A B} (f : A -> B) L1 L a a' : (forall x, L O x = []) -> (forall n x, L (S n) (f x) = L1 n x) -> tree_alike L1 a a' -> tree_alike L (f a) (f a').
Proof.
  intros Z E [F Q]. split.
  - intros [|n]; [rewrite !Z; constructor|]. rewrite !E. apply F.
  - intros H. f_equal. apply Q. intros n. now rewrite <- !E.
Qed.
Notation tla L := (tree_alike (fun _ : nat => L)) (only parsing).
Notation txt k := (tree_alike (fun _ : nat => name k)) (only parsing).
Lemma may_mono {A} (V W : A -> A -> Prop) x y : (forall a b, V a b -> W a b) -> mayb V x y -> mayb W x y.
Proof. destruct x, y; cbn; auto. Qed.

Ltac prep :=
  repeat match goal with
         | H : _ /\ _ |- _ => destruct H
         | H : both _ _ ?x ?y |- _ => destruct H as [? ?]; destruct x, y; cbn [fst snd] in *
         | H : mayb (tree_alike _) _ _ |- _ => apply ta_may in H
         | H : Forall2 (tree_alike _) _ _ |- _ => apply ta_list in H
         | H : Forall2 alike _ _ |- _ => apply (ta_name KLabel) in H
         | H : @eq bool _ _ |- _ => progress subst
         | H : @eq NumericLiteral _ _ |- _ => progress subst
         | H : any _ _ |- _ => clear H
         end.
Ltac knot := fail.
Ltac vl :=
  intros; prep;
  first
    [ exact I
    | assumption
    | apply ta_refl
    | reflexivity
    | match goal with H : tree_alike ?L1 ?a ?b |- tree_alike _ (?f ?a) (?f ?b) => apply (ta_1 f L1); [intros; reflexivity|exact H] end
    | match goal with H1 : tree_alike ?L1 ?a ?a', H2 : tree_alike ?L2 ?b ?b' |- tree_alike _ (?f ?a ?b) (?f ?a' ?b') =>
        apply (ta_2 f L1 L2); [intros; reflexivity|exact H1|exact H2] end
    | match goal with H1 : tree_alike ?L1 ?a ?a', H2 : tree_alike ?L2 ?b ?b', H3 : tree_alike ?L3 ?c ?c' |- tree_alike _ (?f ?a ?b ?c) (?f ?a' ?b' ?c') =>
        apply (ta_3 f L1 L2 L3); [intros; reflexivity|exact H1|exact H2|exact H3] end
    | match goal with H1 : tree_alike ?L1 ?a ?a', H2 : tree_alike ?L2 ?b ?b', H3 : tree_alike ?L3 ?c ?c', H4 : tree_alike ?L4 ?d ?d' |- tree_alike _ (?f ?a ?b ?c ?d) (?f ?a' ?b' ?c' ?d') =>
        apply (ta_4 f L1 L2 L3 L4); [intros; reflexivity|exact H1|exact H2|exact H3|exact H4] end ].

(** ** The driver *)
Create HintDb cs discriminated.
Lemma cs_pre {A} a b V (p : parser A) : cs false b V p -> cs a b V p.
Proof. apply cs_weaken; auto. discriminate. Qed.
Lemma cs_post {A} a b V (p : parser A) : cs a b V p -> cs a false V p.
Proof. apply cs_weaken; auto. discriminate. Qed.
Lemma cs_pre_post {A} a b V (p : parser A) : cs false b V p -> cs a false V p.
Proof. apply cs_weaken; auto; discriminate. Qed.
Lemma cs_many0' {A} a V (p : parser A) : cs false false V p -> cs a false (Forall2 V) (many0 p).
Proof. intros H. apply cs_pre. now apply cs_many0. Qed.
Lemma cs_many1' {A} a V (p : parser A) : cs false false V p -> cs a false (Forall2 V) (many1 p).
Proof. intros H. apply cs_pre. now apply cs_many1. Qed.
Lemma cs_opt' {A} a V (p : parser A) : cs a false V p -> cs a false (mayb V) (opt p).
Proof. apply cs_opt. discriminate. Qed.
Lemma cs_sep0' {A B} a V W (s : parser B) (p : parser A) : cs false false W s -> cs false false V p -> cs a false (Forall2 V) (separated_list s p).
Proof. intros H K. apply cs_pre. eapply cs_sep0; eassumption. Qed.
Lemma cs_sep1' {A B} a V W (s : parser B) (p : parser A) : cs false false W s -> cs false false V p -> cs a false (Forall2 V) (separated_nonempty_list s p).
Proof. intros H K. apply cs_pre. eapply cs_sep1; eassumption. Qed.

(** ** Blanks *)
Lemma cs_new_line a : cs a true any new_line.
Proof.
  unfold new_line. eapply cs_any, cs_recognize. eapply (cs_pair a false true).
  - eapply cs_opt'. eapply (cs_preceded a true false); [now apply cs_chr|]. apply cs_many0'. now apply cs_none_of.
  - apply cs_one_of; auto.
Qed.
Lemma cs_sp_unit a : cs a true any (alt [recognize (one_of [32; 9]); new_line]).
Proof.
  apply cs_alt; [|apply cs_alt; [apply cs_new_line|apply cs_alt_nil]]. eapply cs_any, cs_recognize, cs_one_of; reflexivity.
Qed.
Lemma cs_sp a : cs a a any sp.
Proof.
  unfold sp. eapply cs_any, cs_recognize. apply cs_many0. eapply (cs_weaken a a true a any any); [| | |apply (cs_sp_unit a)]; auto.
Qed.
Lemma cs_sp1 a : cs a true any sp1.
Proof. unfold sp1. eapply cs_any, cs_recognize. apply cs_many1; apply cs_sp_unit. Qed.

Ltac known b := lazymatch b with true => idtac | false => idtac | _ => is_var b end.
Ltac default_false b := tryif is_evar b then (let e := constr:(eq_refl : b = false) in idtac) else idtac.
Ltac closes := first [reflexivity|discriminate|intros; reflexivity].
Ltac leaf_cs := first
  [ apply cs_sp | apply cs_sp1 | apply cs_new_line
  | apply cs_chr; reflexivity
  | apply (cs_tag _ true); [reflexivity|intros; reflexivity] | apply (cs_tag _ false); [reflexivity|discriminate]
  | apply cs_tnc | apply cs_tnc_s
  | apply cs_take_while; reflexivity | apply cs_take1; reflexivity | apply cs_take_mn; reflexivity
  | apply (cs_one_of _ true); [reflexivity|intros; reflexivity] | apply (cs_one_of _ false); [reflexivity|discriminate] | apply cs_none_of; reflexivity
  | solve [eauto 2 with cs nocore] ].
(** [b] is left open when the state after the parser is whatever it can be *)
Ltac at_false b := tryif is_evar b then unify b false else idtac.
Ltac go :=
  lazymatch goal with
  | |- cs ?a ?b ?V (pair _ _) => eapply cs_pair; [go|go]
  | |- cs ?a ?b ?V (separated_pair _ _ _) => unfold separated_pair; go
  | |- cs ?a ?b ?V (tuple3 _ _ _) => unfold tuple3; go
  | |- cs ?a ?b ?V (tuple4 _ _ _ _) => unfold tuple4; go
  | |- cs ?a ?b ?V (tuple5 _ _ _ _ _) => unfold tuple5; go
  | |- cs ?a ?b ?V (Nom.map _ _) => eapply cs_map; [go|try solve [vl]]
  | |- cs ?a ?b ?V (preceded _ _) => eapply cs_preceded; [go|go]
  | |- cs ?a ?b ?V (terminated _ _) => eapply cs_terminated; [go|go]
  | |- cs ?a ?b ?V (delimited _ _ _) => unfold delimited; go
  | |- cs ?a ?b ?V (bracketted _) => unfold bracketted; go
  | |- cs ?a ?b ?V (preceded_tag _ _) => unfold preceded_tag; go
  | |- cs ?a ?b ?V (preceded_tag1 _ _) => unfold preceded_tag1; go
  | |- cs ?a ?b ?V (preceded_bracketted _ _) => unfold preceded_bracketted; go
  | |- cs ?a ?b ?V (sp_enc _) => unfold sp_enc; go
  | |- cs ?a ?b ?V (sp_enc1 _) => unfold sp_enc1; go
  | |- cs ?a ?b ?V (sp_sep _ _) => unfold sp_sep; go
  | |- cs ?a ?b ?V (sp_sep1 _ _) => unfold sp_sep1; go
  | |- cs ?a ?b ?V (opt _) => at_false b; eapply cs_opt'; go
  | |- cs ?a ?b ?V (cut _) => eapply cs_cut; go
  | |- cs ?a ?b ?V (recognize _) => eapply cs_recognize; go
  | |- cs ?a ?b ?V (many0 _) => at_false b; eapply cs_many0'; go
  | |- cs ?a ?b ?V (many1 _) => at_false b; eapply cs_many1'; go
  | |- cs ?a ?b ?V (separated_list _ _) => at_false b; eapply cs_sep0'; go
  | |- cs ?a ?b ?V (separated_nonempty_list _ _) => at_false b; eapply cs_sep1'; go
  | |- cs ?a ?b ?V (alt []) => apply cs_alt_nil
  | |- cs ?a ?b ?V (alt _) => at_false b; apply cs_alt; [go|go]
  | |- cs ?a ?b ?V _ => first [leaf_cs | eapply cs_post; leaf_cs | eapply cs_pre; leaf_cs | eapply cs_pre_post; leaf_cs | idtac]
  end.

(** ** Literals and names *)
Lemma cs_escaped a ctrl s1 s2 : blind_b (contains s1) = true -> ctrl = 92 -> cs a false (Forall2 alike) (escaped (none_of s1) ctrl (one_of s2)).
Proof.
  intros B -> i0 j0 S0 Hd. clear Hd. unfold escaped. rewrite (same_length i0 j0 S0).
  assert (X : forall n u u' i j, i0 = u ++ i -> j0 = u' ++ j -> length u = length u' ->
              rel false (Forall2 alike) i0 j0 (escaped_loop n (none_of s1) 92 (one_of s2) i0 i) (escaped_loop n (none_of s1) 92 (one_of s2) j0 j)).
  { induction n as [|n IH]; intros u u' i j E E' L; [now left|].
    assert (SS : same i j /\ Forall2 alike u u') by (apply same_app; [exact L|now subst]). destruct SS as [S F].
    assert (W : forall v v', i0 = u ++ v -> j0 = u' ++ v' -> v = [] -> v' = [] -> rel false (Forall2 alike) i0 j0 (Ok [] i0) (Ok [] j0)).
    { intros v v' A A' -> ->. apply (rel_ok false _ _ _ [] [] _ _ u u'); [exact S0|exact A|exact A'|exact L|discriminate|]. rewrite A, A', !app_nil_r. exact F. }
    assert (T : forall c d i j, i0 = u ++ c :: i -> j0 = u' ++ d :: j -> same (c :: i) (d :: j) ->
                rel false (Forall2 alike) i0 j0 (match i with [] => Ok [] i0 | _ => escaped_loop n (none_of s1) 92 (one_of s2) i0 i end)
                  (match j with [] => Ok [] j0 | _ => escaped_loop n (none_of s1) 92 (one_of s2) j0 j end)).
    { intros c d i1 j1 A A' S1. destruct S1 as (AL & _ & _ & S1). destruct i1 as [|x i1], j1 as [|y j1]; try contradiction.
      - apply (rel_ok false _ _ _ [] [] _ _ (u ++ [c]) (u' ++ [d])); [exact S0|rewrite A; now rewrite app_nil_r|rewrite A'; now rewrite app_nil_r|rewrite !app_length; cbn; lia|discriminate|].
        rewrite A, A'. apply Forall2_app; auto.
      - apply (IH (u ++ [c]) (u' ++ [d])); [rewrite A, <- app_assoc; reflexivity|rewrite A', <- app_assoc; reflexivity|rewrite !app_length; cbn; lia]. }
    destruct i as [|c i], j as [|d j]; try contradiction; cbn [escaped_loop].
    - now apply (W [] []).
    - pose proof S as (AL & HE & _ & S'). cbn [none_of]. rewrite (blind_ok _ B c d AL). destruct (contains s1 d) eqn:C1.
      + rewrite (alike_eqb 92 c d AL eq_refl). destruct (N.eqb_spec d 92) as [->|N].
        * assert (c = 92) by (symmetry; apply alike_fixed; [now apply alike_sym|reflexivity]). subst c.
          destruct i as [|x i], j as [|y j]; try contradiction; [now apply rel_err|]. specialize (HE eq_refl). cbn in HE. subst y.
          cbn [one_of]. destruct (contains s2 x); [|now apply rel_err].
          destruct S' as (_ & _ & _ & S''). destruct i as [|y i], j as [|z j]; try contradiction.
          -- apply (rel_ok false _ _ _ [] [] _ _ (u ++ [92; x]) (u' ++ [92; x])); [exact S0|now rewrite app_nil_r|now rewrite app_nil_r|rewrite !app_length; cbn; lia|discriminate|].
             rewrite E, E'. apply Forall2_app; auto. repeat constructor; apply alike_refl.
          -- apply (IH (u ++ [92; x]) (u' ++ [92; x])); [rewrite E, <- app_assoc; reflexivity|rewrite E', <- app_assoc; reflexivity|rewrite !app_length; cbn; lia].
        * rewrite (same_length i0 j0 S0), (same_length (c :: i) (d :: j) S). destruct (Nat.eqb _ _); [now apply rel_err|].
          apply (rel_ok false _ _ _ (c :: i) (d :: j) _ _ u u'); [exact S0|exact E|exact E'|exact L|discriminate|]. rewrite E, E'.
          rewrite <- (same_length (c :: i) (d :: j) S).
          replace (length (u' ++ d :: j) - length (c :: i))%nat with (length u' + 0)%nat by (rewrite app_length, (same_length (c :: i) (d :: j) S); lia).
          rewrite firstn_app_2. cbn [firstn]. rewrite app_nil_r.
          replace (length u' + 0)%nat with (length u + 0)%nat by lia. rewrite firstn_app_2. cbn [firstn]. now rewrite app_nil_r.
      + now apply (T c d). }
  now apply (X _ [] [] i0 j0).
Qed.
Lemma cs_txt {A} a b (p : parser A) (V W : A -> A -> Prop) : (forall x y, V x y -> W x y) -> cs a b V p -> cs a b W p.
Proof. intros H. apply cs_weaken; auto. Qed.
Lemma cs_name k a b p : cs a b (Forall2 alike) p -> cs a b (txt k) p.
Proof. apply cs_txt. exact (ta_name k). Qed.
Lemma cs_string_literal a : cs a false (txt KString) string_literal.
Proof.
  apply cs_name. unfold string_literal. apply cs_alt; [|apply cs_alt; [|apply cs_alt_nil]].
  - eapply cs_preceded; [go|]. eapply cs_terminated; [now apply cs_escaped|go].
  - eapply cs_preceded; [go|]. eapply cs_terminated; [now apply cs_escaped|go].
Qed.
Global Hint Resolve cs_string_literal : cs.
Lemma cs_language_tag a : cs a false (txt KLang) language_tag.
Proof. apply cs_name. unfold language_tag, alpha1, alphanumeric1. go. Qed.
Global Hint Resolve cs_language_tag : cs.
Lemma cs_pn_chars_tail a : cs a false (Forall2 alike) pn_chars_tail.
Proof. unfold pn_chars_tail, take_while1, pn_chars1, take_while1. go. Qed.
Global Hint Resolve cs_pn_chars_tail : cs.
Lemma cs_plx a : cs a false (Forall2 alike) plx.
Proof.
  unfold plx, hex_primary. eapply cs_recognize. go.
Qed.
Global Hint Resolve cs_plx : cs.

Lemma cs_pn_chars_u_one a : cs a false (Forall2 alike) pn_chars_u_one.
Proof.
  unfold pn_chars_u_one, pn_chars_base_one. apply cs_alt; [go|apply cs_alt; [|apply cs_alt_nil]].
  eapply (cs_txt _ _ _ eq); [|go]. intros x y ->. clear. induction y; constructor; auto. apply alike_refl.
Qed.
Global Hint Resolve cs_pn_chars_u_one : cs.
Lemma alike_list_refl l : Forall2 alike l l. Proof. induction l; constructor; auto. apply alike_refl. Qed.
Lemma cs_tag_txt a b t : forallb fixed t = true -> (b = true -> match rev t with c :: _ => quiet c = true | [] => False end) -> cs a b (Forall2 alike) (tag t).
Proof. intros F Q. eapply (cs_txt _ _ _ eq); [|now apply cs_tag]. intros x y ->. apply alike_list_refl. Qed.
Lemma cs_pn_local a : cs a false (txt KLocal) pn_local.
Proof.
  apply cs_name. unfold pn_local, take_while1. eapply cs_recognize. eapply (cs_pair _ false).
  - repeat (apply cs_alt; [first [apply cs_tag_txt; [reflexivity|discriminate]|go]|]). apply cs_alt_nil.
  - go.
Qed.
Global Hint Resolve cs_pn_local : cs.
Lemma cs_pn_prefix a : cs a false (txt KPrefix) pn_prefix.
Proof. apply cs_name. unfold pn_prefix, pn_chars_base_one. go. Qed.
Global Hint Resolve cs_pn_prefix : cs.
Lemma cs_pname_ns a : cs a true (mayb (txt KPrefix)) pname_ns.
Proof. unfold pname_ns. go. Qed.
Global Hint Resolve cs_pname_ns : cs.
Lemma cs_pname_ln a : cs a false (both (mayb (txt KPrefix)) (txt KLocal)) pname_ln.
Proof. unfold pname_ln. go. Qed.
Global Hint Resolve cs_pname_ln : cs.
Lemma cs_prefixed_name a : cs a false (tla leaves_prefixed) prefixed_name.
Proof. unfold prefixed_name. go. Qed.
Global Hint Resolve cs_prefixed_name : cs.
Lemma cs_iri_ref a : cs a true (txt KIri) iri_ref.
Proof. apply cs_name. unfold iri_ref. go. Qed.
Global Hint Resolve cs_iri_ref : cs.
Lemma cs_iri a : cs a false (tla leaves_iri) iri.
Proof. unfold iri. go. Qed.
Global Hint Resolve cs_iri : cs.
Lemma cs_named_iri a : cs a false (tla leaves_iri) named_iri.
Proof. unfold named_iri. go. Qed.
Global Hint Resolve cs_named_iri : cs.
Lemma cs_don a : cs a false (tla leaves_don) default_or_named_iri.
Proof. unfold default_or_named_iri. go. Qed.
Global Hint Resolve cs_don : cs.
Lemma cs_base_decl a : cs a true (txt KIri) base_decl.
Proof. unfold base_decl. go. Qed.
Global Hint Resolve cs_base_decl : cs.
Definition leaves_pdecl (d : PrefixDecl) : list leaf := match d with MkPrefixDecl p s => of_opt (name KPrefix) p ++ name KIri s end.
Lemma cs_prefix_decl a : cs a true (tla leaves_pdecl) prefix_decl.
Proof. unfold prefix_decl. go. Qed.
Global Hint Resolve cs_prefix_decl : cs.
Lemma cs_prologue a : cs a false (tla leaves_prologue) prologue.
Proof.
  unfold prologue. eapply cs_map; [eapply (cs_sep0' _ (tla leaves_decl)); [go|]|vl]. go.
Qed.
Global Hint Resolve cs_prologue : cs.
Lemma cs_descriptor a : cs a false (mayb (tla leaves_descriptor)) (opt (alt [ Nom.map language_tag LangTag; Nom.map (preceded (tag (s_ "^^")) iri) DescIri ])).
Proof. go. Qed.
Global Hint Resolve cs_descriptor : cs.
Lemma cs_rdf_literal a : cs a false (tla leaves_literal) rdf_literal.
Proof. unfold rdf_literal. eapply cs_map; [eapply cs_pair; [go|apply cs_descriptor]|vl]. Qed.
Global Hint Resolve cs_rdf_literal : cs.
Lemma cs_anon a : cs a true any anon.
Proof. unfold anon. go. Qed.
Lemma cs_nil a : cs a true any nil_.
Proof. unfold nil_. go. Qed.
Global Hint Resolve cs_anon cs_nil : cs.
Lemma cs_silent a : cs a false eq silent. Proof. unfold silent. go. Qed.
Lemma cs_distinct a : cs a false eq distinct. Proof. unfold distinct. go. Qed.
Lemma cs_boolean a : cs a false eq boolean. Proof. unfold boolean. go. Qed.
Global Hint Resolve cs_silent cs_distinct cs_boolean : cs.
Lemma cs_opt_silent a : cs a false eq opt_silent.
Proof. unfold opt_silent. eapply cs_map; [go|]. intros [x|] [y|]; cbn; try contradiction; congruence. Qed.
Lemma cs_opt_distinct a : cs a false eq opt_distinct.
Proof. unfold opt_distinct. eapply cs_map; [go|]. intros [x|] [y|]; cbn; try contradiction; congruence. Qed.
Global Hint Resolve cs_opt_silent cs_opt_distinct : cs.

(** ** Numbers *)
Lemma alike_all_fixed u u' : Forall2 alike u u' -> forallb fixed u = true -> u = u'.
Proof.
  intros F. induction F as [|x y l l' H F IH]; [reflexivity|]. cbn. rewrite andb_true_iff. intros [A B]. f_equal; [now apply alike_fixed|auto].
Qed.
Lemma alike_list_sym u u' : Forall2 alike u u' -> Forall2 alike u' u.
Proof. intros F. induction F; constructor; auto. now apply alike_sym. Qed.
Lemma parse_alike {B} (f : str -> option B) u u' : (forall x q, f x = Some q -> forallb fixed x = true) -> Forall2 alike u u' -> mayb eq (f u) (f u').
Proof.
  intros H F. destruct (f u) as [q|] eqn:E.
  - rewrite <- (alike_all_fixed u u' F (H _ _ E)), E. reflexivity.
  - destruct (f u') as [q|] eqn:E'; [|exact I]. rewrite (alike_all_fixed u' u (alike_list_sym _ _ F) (H _ _ E')) in E'. congruence.
Qed.
Lemma digit_fixed c : is_digit c = true -> fixed c = true.
Proof.
  unfold is_digit, fixed. rewrite andb_true_iff, !N.leb_le. intros [A B].
  destruct (N.leb_spec 65 c); [lia|]. destruct (N.leb_spec 97 c); [lia|]. reflexivity.
Qed.
Lemma digits_fixed l : forallb is_digit l = true -> forallb fixed l = true.
Proof. rewrite !forallb_forall. intros H x I. apply digit_fixed. auto. Qed.
Lemma all_digits_fixed l : all_digits l = true -> forallb fixed l = true.
Proof. destruct l; [reflexivity|]. apply digits_fixed. Qed.
Lemma signed_fixed x q : parse_signed x = Some q -> forallb fixed x = true.
Proof.
  destruct x as [|c x]; [discriminate|]. unfold parse_signed.
  destruct (N.eqb_spec c (c_ "+")) as [->|N1].
  - destruct (all_digits x) eqn:E; [|discriminate]. intros _. apply all_digits_fixed in E. exact E.
  - destruct (N.eqb_spec c (c_ "-")) as [->|N2].
    + destruct (all_digits x) eqn:E; [|discriminate]. intros _. apply all_digits_fixed in E. exact E.
    + destruct (all_digits (c :: x)) eqn:E; [|discriminate]. intros _. now apply all_digits_fixed.
Qed.
Lemma i64_fixed x q : parse_i64 x = Some q -> forallb fixed x = true.
Proof. unfold parse_i64. destruct (parse_signed x) eqn:E; [|discriminate]. intros _. eapply signed_fixed, E. Qed.
Lemma u64_fixed x q : parse_u64 x = Some q -> forallb fixed x = true.
Proof.
  destruct x as [|c x]; [discriminate|]. unfold parse_u64. destruct (N.eqb_spec c (c_ "+")) as [->|N1].
  - destruct (all_digits x) eqn:E; [|discriminate]. intros _. apply all_digits_fixed in E. exact E.
  - destruct (all_digits (c :: x)) eqn:E; [|discriminate]. intros _. now apply all_digits_fixed.
Qed.
Lemma span_digits_fixed u : forall ip rest, span is_digit u = (ip, rest) -> u = ip ++ rest /\ forallb is_digit ip = true.
Proof.
  induction u as [|c u IH]; cbn; intros ip rest.
  - intros E. injection E as <- <-. auto.
  - destruct (is_digit c) eqn:D.
    + destruct (span is_digit u) as [a b] eqn:E. intros X. injection X as <- <-. destruct (IH _ _ eq_refl) as [-> Y]. cbn. now rewrite D.
    + intros E. injection E as <- <-. auto.
Qed.
Lemma decimal_fixed x q : parse_decimal x = Some q -> forallb fixed x = true.
Proof.
  assert (X : forall u neg, (let (ip, rest) := span is_digit u in
     let '(fp, ok) := match rest with [] => ([], true) | c :: f => (f, (c =? c_ ".") && forallb is_digit f) end in
     if ok && negb (Nat.eqb (List.length ip + List.length fp) 0) then
       Some (round_f64 neg (dval (ip ++ fp)) (10 ^ Z.of_nat (List.length fp))) else None) = Some q -> forallb fixed u = true).
  { intros u neg. destruct (span is_digit u) as [ip rest] eqn:E. apply span_digits_fixed in E as [-> D]. rewrite forallb_app, (digits_fixed _ D).
    destruct rest as [|c f]; [reflexivity|]. cbn [andb]. destruct (N.eqb_spec c (c_ ".")) as [->|N]; [|discriminate]. cbn [andb].
    destruct (forallb is_digit f) eqn:G; [|discriminate]. intros _. cbn. now rewrite (digits_fixed _ G). }
  unfold parse_decimal. destruct x as [|c x]; [reflexivity|]. destruct (N.eqb_spec c (c_ "+")) as [->|N1].
  - intros H. apply (X x false) in H. exact H.
  - destruct (N.eqb_spec c (c_ "-")) as [->|N2]; intros H; [apply (X x true) in H|apply (X (c :: x) false) in H]; exact H.
Qed.
Lemma cs_opt_sign a : cs a false any opt_sign.
Proof. unfold opt_sign. eapply cs_any. apply cs_opt' with (V := any). apply cs_alt; [eapply cs_any; go|apply cs_alt; [eapply cs_any; go|apply cs_alt_nil]]. Qed.
Global Hint Resolve cs_opt_sign : cs.
Lemma cs_chr_e a : cs a false any (alt [chr (c_ "e"); chr (c_ "E")]).
Proof.
  intros i j S Hd. destruct i as [|x i], j as [|y j]; try contradiction; [now apply rel_err|]. pose proof S as (A & _).
  assert (B : ((x =? c_ "e") || (x =? c_ "E")) = ((y =? c_ "e") || (y =? c_ "E"))).
  { exact (blind_ok (fun c => (c =? c_ "e") || (c =? c_ "E")) eq_refl x y A). }
  cbn [alt chr]. destruct (x =? c_ "e"), (x =? c_ "E"), (y =? c_ "e"), (y =? c_ "E"); try discriminate B;
    first [apply rel_one; [exact S|discriminate|exact I]|now apply rel_err].
Qed.
Global Hint Resolve cs_chr_e : cs.
Lemma cs_exponent a : cs a false eq exponent.
Proof.
  unfold exponent, digit1. eapply cs_preceded; [apply cs_chr_e|]. eapply (cs_map_res _ _ (Forall2 alike)); [go|].
  intros x y F. now apply parse_alike; [apply i64_fixed|].
Qed.
Global Hint Resolve cs_exponent : cs.
Lemma cs_float a : cs a false (Forall2 alike) recognize_sparql_float.
Proof.
  unfold recognize_sparql_float, digit1. eapply cs_recognize. eapply cs_pair; [go|]. apply cs_alt; [|apply cs_alt; [|apply cs_alt_nil]].
  - eapply (cs_map _ _ _ any); [go|vl].
  - eapply (cs_map _ _ _ any); [go|vl].
Qed.
Lemma cs_decimal a : cs a false eq sparql_decimal.
Proof.
  intros i j S Hd. unfold sparql_decimal. pose proof (cs_float a i j S Hd) as H. outcome H (recognize_sparql_float i) (recognize_sparql_float j).
  - destruct X as (S1 & H1 & X1 & X). pose proof (parse_alike parse_decimal _ _ decimal_fixed X1) as F.
    destruct (parse_decimal a0), (parse_decimal a'); try contradiction; [right; right; auto|now apply rel_err].
  - right; right. exact X.
Qed.
Global Hint Resolve cs_decimal : cs.
Lemma cs_double a : cs a false (both eq (mayb eq)) sparql_double.
Proof. unfold sparql_double. go. Qed.
Lemma cs_int a : cs a false eq sparql_int.
Proof.
  intros i j S Hd. unfold sparql_int, digit1.
  assert (H : rel false (Forall2 alike) i j (recognize (pair opt_sign (take1 KDigit char_is_dec_digit)) i) (recognize (pair opt_sign (take1 KDigit char_is_dec_digit)) j)).
  { revert i j S Hd. change (cs a false (Forall2 alike) (recognize (pair opt_sign (take1 KDigit char_is_dec_digit)))). go. }
  outcome H (recognize (pair opt_sign (take1 KDigit char_is_dec_digit)) i) (recognize (pair opt_sign (take1 KDigit char_is_dec_digit)) j).
  - destruct X as (S1 & H1 & X1 & X).
    assert (D : match r with c :: _ => contains (s_ ".eE") c | [] => false end = match r' with c :: _ => contains (s_ ".eE") c | [] => false end).
    { destruct r, r'; try contradiction; [reflexivity|]. destruct S1 as (A & _). now apply (blind_ok (contains (s_ ".eE")) eq_refl). }
    rewrite D. destruct (match r' with c :: _ => contains (s_ ".eE") c | [] => false end); [now apply rel_err|].
    pose proof (parse_alike parse_i64 _ _ i64_fixed X1) as F.
    destruct (parse_i64 a0), (parse_i64 a'); try contradiction; [right; right; auto|now apply rel_err].
  - right; right. exact X.
Qed.
Global Hint Resolve cs_int cs_double : cs.
Lemma may_eq {A} (x y : option A) : mayb eq x y -> x = y.
Proof. destruct x, y; cbn; try contradiction; congruence. Qed.
Lemma cs_numeric a : cs a false eq numeric_literal.
Proof.
  unfold numeric_literal. apply cs_alt; [|apply cs_alt; [|apply cs_alt_nil]].
  - eapply cs_map; [go|]. congruence.
  - eapply cs_map; [go|]. intros [m e] [m' e'] [H K]. cbn in *. apply may_eq in K. congruence.
Qed.
Global Hint Resolve cs_numeric : cs.

(** ** Variables and terms *)
Lemma cs_var_name a : cs a false (txt KVar) var_name.
Proof. apply cs_name. unfold var_name. go. Qed.
Global Hint Resolve cs_var_name : cs.
Lemma cs_var a : cs a false (tla leaves_var) var.
Proof. unfold var. go. Qed.
Global Hint Resolve cs_var : cs.
Lemma cs_var_or_iri a : cs a false (tla leaves_voi) var_or_iri.
Proof. unfold var_or_iri. go. Qed.
Global Hint Resolve cs_var_or_iri : cs.
Lemma cs_verb a : cs a false (tla leaves_verb) verb.
Proof. unfold verb. go. Qed.
Global Hint Resolve cs_verb : cs.
Lemma cs_targets a : cs a false (tla leaves_targets) var_or_iris_or_all.
Proof. unfold var_or_iris_or_all. go. Qed.
Global Hint Resolve cs_targets : cs.
Lemma cs_label_head a : cs a false any (alt [pn_chars_u_one; take_while_m_n 1 1 (fun c => is_digit (as_u8 c))]).
Proof. eapply cs_any. go. Qed.
Global Hint Resolve cs_label_head : cs.
Lemma cs_blank_node a : cs a false (tla leaves_blank_node) blank_node.
Proof. unfold blank_node. go. Qed.
Global Hint Resolve cs_blank_node : cs.
Lemma cs_graph_term a : cs a false (tla leaves_term) graph_term.
Proof. unfold graph_term. go. Qed.
Global Hint Resolve cs_graph_term : cs.
Lemma cs_var_or_term a : cs a false (tla leaves_vot) var_or_term.
Proof. unfold var_or_term. go. Qed.
Global Hint Resolve cs_var_or_term : cs.
Lemma cs_graph_ref a : cs a false (tla leaves_iri) graph_ref.
Proof. unfold graph_ref. go. Qed.
Global Hint Resolve cs_graph_ref : cs.
Lemma cs_god a : cs a false (tla leaves_god) graph_or_default.
Proof. unfold graph_or_default. go. Qed.
Lemma cs_gra a : cs a false (tla leaves_gra) graph_ref_all.
Proof. unfold graph_ref_all. go. Qed.
Global Hint Resolve cs_god cs_gra : cs.
Lemma cs_iri_or_a a : cs a false (tla leaves_iri_or_a) iri_or_a.
Proof. unfold iri_or_a. go. Qed.
Global Hint Resolve cs_iri_or_a : cs.
Lemma cs_caret a : cs a false (tla leaves_caret) iri_or_a_or_caret.
Proof. unfold iri_or_a_or_caret. go. Qed.
Global Hint Resolve cs_caret : cs.

(** ** Data blocks and clauses *)
Lemma cs_data_set a : cs a false (tla leaves_don) data_set_clause.
Proof. unfold data_set_clause. go. Qed.
Global Hint Resolve cs_data_set : cs.
Lemma cs_value a : cs a false (tla leaves_value) datablock_value.
Proof. unfold datablock_value. go. Qed.
Global Hint Resolve cs_value : cs.
Definition leaves_one_var (d : InlineDataOneVar) : list leaf := match d with MkInlineDataOneVar v vs => leaves_var v ++ flat_map leaves_value vs end.
Definition leaves_full (d : InlineDataFull) : list leaf := match d with MkInlineDataFull vs rows => flat_map leaves_var vs ++ flat_map (flat_map leaves_value) rows end.
Lemma cs_one_var a : cs a true (tla leaves_one_var) inline_data_one_var.
Proof. unfold inline_data_one_var. go. Qed.
Lemma ta_lists {A} (L : nat -> A -> list leaf) l l' : Forall2 (Forall2 (tree_alike L)) l l' -> tree_alike (fun n => flat_map (flat_map (L n))) l l'.
Proof. intros F. apply (ta_list (fun n => flat_map (L n))). induction F; constructor; auto. now apply ta_list. Qed.
Lemma cs_full a : cs a true (tla leaves_full) inline_data_full.
Proof.
  unfold inline_data_full. go. intros [x1 x2] [y1 y2] [H K]. cbn [fst snd] in *. apply ta_lists in K. vl.
Qed.
Global Hint Resolve cs_one_var cs_full : cs.
Lemma cs_datablock a : cs a false (tla leaves_datablock) datablock.
Proof. unfold datablock. go. Qed.
Global Hint Resolve cs_datablock : cs.
Lemma cs_inline_data a : cs a false (tla leaves_datablock) inline_data.
Proof. unfold inline_data. go. Qed.
Lemma cs_values a : cs a false (mayb (tla leaves_datablock)) values_clause.
Proof. unfold values_clause. go. Qed.
Global Hint Resolve cs_inline_data cs_values : cs.
Lemma cs_limit a t : cs a false eq (int_clause (tag_no_case t)).
Proof.
  unfold int_clause, take_while1. eapply (cs_map_res _ _ (Forall2 alike)); [go|]. intros x y F. now apply parse_alike; [apply u64_fixed|].
Qed.
Global Hint Resolve cs_limit : cs.
Lemma cs_limit_offset a : cs a false (tla leaves_limit_offset) limit_offset_clause.
Proof.
  unfold limit_offset_clause, limit_clause, offset_clause. apply cs_alt; [|apply cs_alt; [|apply cs_alt_nil]].
  - eapply cs_map; [go|]. intros [m e] [m' e'] [H K]. cbn in *. apply may_eq in K. subst. apply ta_refl.
  - eapply cs_map; [go|]. intros [m e] [m' e'] [H K]. cbn in *. apply may_eq in K. subst. apply ta_refl.
Qed.
Global Hint Resolve cs_limit_offset : cs.
Lemma cs_using a : cs a false (tla leaves_don) using_clause.
Proof. unfold using_clause. go. Qed.
Global Hint Resolve cs_using : cs.
Lemma str_eqb_alike t u u' : forallb fixed t = true -> Forall2 alike u u' -> str_eqb u t = str_eqb u' t.
Proof.
  intros T F. destruct (str_eqb u t) eqn:E.
  - apply str_eqb_iff in E. subst t. symmetry. apply str_eqb_iff. symmetry. now apply alike_all_fixed.
  - destruct (str_eqb u' t) eqn:E'; [|reflexivity]. apply str_eqb_iff in E'. subst t.
    rewrite (alike_all_fixed u' u (alike_list_sym _ _ F) T), (proj2 (str_eqb_iff u u) eq_refl) in E. discriminate.
Qed.
Lemma cs_path_mod a : cs a false eq path_mod.
Proof.
  intros i j S Hd. destruct i as [|x i], j as [|y j]; try contradiction; [now apply rel_err|]. unfold path_mod.
  pose proof (split_same (x :: i) 1%nat (y :: j) S) as H. destruct (split_at 1 (x :: i)) as [[u r]|], (split_at 1 (y :: j)) as [[u' r']|]; try contradiction; [|now apply rel_err].
  destruct H as (E & E' & L). rewrite E, E' in S. destruct (same_app _ _ _ _ L S) as [_ F].
  assert (M : path_mod_from_str u = path_mod_from_str u').
  { unfold path_mod_from_str. rewrite !(fun t T => str_eqb_alike t u u' T F) by reflexivity. reflexivity. }
  rewrite M. rewrite E, E'. destruct (path_mod_from_str u'); [|now apply rel_err]. apply (rel_ok false _ _ _ r r' _ _ u u'); auto. discriminate.
Qed.
Global Hint Resolve cs_path_mod : cs.
