(** Changing the case of letters: triples and property paths.

    The verb [a] of a property path is case-sensitive.  [tag_a] is that parser made to refuse an [a] with a letter,
    digit or underscore behind it; what is read by a property list does not change. *)
From Verif Require Export LRecase2 LTok MPath.
Notation length := List.length (only parsing).
Open Scope N_scope.
Open Scope list_scope.

(** ** Triples *)
Lemma cs_graph_node_body a gn : cs false false (tla leaves_node) gn -> cs a false (tla leaves_node) (graph_node_body gn).
Proof.
  intros H.
  assert (O : forall a, cs a false (tla leaves_objects) (object_list_of gn)) by (intros; unfold object_list_of; go).
  assert (P : forall a, cs a false (tla leaves_plist) (property_list_not_empty_of gn)).
  { intros b. unfold property_list_not_empty_of. eapply (cs_map _ _ (Forall2 (tla leaves_verb_list))); [|vl]. eapply cs_terminated; [|go]. eapply (cs_sep1' _ (tla leaves_verb_list)); [go|].
    eapply cs_map; [unfold separated_pair; eapply cs_pair; [go|eapply cs_preceded; [go|apply O]]|vl]. }
  unfold graph_node_body. apply cs_alt; [go|apply cs_alt; [|apply cs_alt_nil]]. eapply (cs_map _ _ (tla leaves_tnode)); [|vl].
  unfold triples_node_of. apply cs_alt; [|apply cs_alt; [|apply cs_alt_nil]].
  - eapply (cs_map _ _ (tla leaves_collection)); [unfold collection_of; go|vl].
  - eapply (cs_map _ _ (tla leaves_plist)); [|vl]. unfold blank_node_property_list_of, delimited. eapply cs_preceded; [go|]. eapply cs_terminated; [apply P|go].
Qed.
Lemma cs_graph_node a : cs a false (tla leaves_node) graph_node.
Proof. apply cs_pre. apply cs_fixp. intros p. apply cs_graph_node_body. Qed.
Global Hint Resolve cs_graph_node : cs.
Lemma cs_object_list a : cs a false (tla leaves_objects) object_list.
Proof. unfold object_list, object_list_of. go. Qed.
Global Hint Resolve cs_object_list : cs.
Lemma cs_verb_list a : cs a false (tla leaves_verb_list) (Nom.map (separated_pair verb sp object_list) (fun '(v, l) => MkVerbList v l)).
Proof. go. Qed.
Lemma cs_property_list a : cs a false (tla leaves_plist) property_list_not_empty.
Proof.
  unfold property_list_not_empty, property_list_not_empty_of. eapply (cs_map _ _ (Forall2 (tla leaves_verb_list))); [|vl]. eapply cs_terminated; [|go].
  eapply (cs_sep1' _ (tla leaves_verb_list)); [go|apply cs_verb_list].
Qed.
Global Hint Resolve cs_property_list : cs.
Lemma cs_collection a : cs a true (tla leaves_collection) collection.
Proof. unfold collection, collection_of. go. Qed.
Lemma cs_bnpl a : cs a true (tla leaves_plist) blank_node_property_list.
Proof. unfold blank_node_property_list, blank_node_property_list_of. change (property_list_not_empty_of graph_node) with property_list_not_empty. go. Qed.
Lemma cs_triples_node a : cs a true (tla leaves_tnode) triples_node.
Proof.
  unfold triples_node, triples_node_of. apply cs_alt; [|apply cs_alt; [|apply cs_alt_nil]].
  - eapply cs_map; [apply cs_collection|vl].
  - eapply cs_map; [apply cs_bnpl|vl].
Qed.
Global Hint Resolve cs_triples_node : cs.
Lemma cs_property_list_opt a : cs a false (mayb (tla leaves_plist)) property_list.
Proof. unfold property_list. go. Qed.
Global Hint Resolve cs_property_list_opt : cs.
Lemma cs_tss a : cs a false (tla leaves_tss) triples_same_subject.
Proof. unfold triples_same_subject. go. Qed.
Global Hint Resolve cs_tss : cs.
Lemma cs_template a : cs a false (tree_alike (fun _ => leaves_template)) triples_template.
Proof.
  unfold triples_template. eapply cs_terminated; [|go]. eapply (cs_txt _ _ _ (Forall2 (tla leaves_tss))); [|go].
  intros x y H. exact (ta_list (fun _ => leaves_tss) x y H).
Qed.
Global Hint Resolve cs_template : cs.
Definition leaves_cons_template (t : ConstructTemplate) : list leaf := match t with MkConstructTemplate l => flat_map leaves_tss l end.
Lemma cs_construct_template a : cs a true (tla leaves_cons_template) construct_template.
Proof. unfold construct_template. go. Qed.
Global Hint Resolve cs_construct_template : cs.

(** ** Property paths with a verb [a] that is a whole word *)
Definition tag_a : parser str := fun i =>
  match i with c :: r => if (c =? 97) && negb (starts_word r) then Ok r [97] else Err (Error i KTag) | [] => Err (Error i KTag) end.
Lemma cs_tag_a : cs true false eq tag_a.
Proof.
  intros [|x i] [|y j] S Hd; try contradiction; cbn [tag_a]; [now apply rel_err|]. pose proof S as (A & _ & _ & S').
  specialize (Hd eq_refl). cbn in Hd. rewrite <- (same_starts i j S'). destruct (starts_word i) eqn:W.
  - rewrite !andb_false_r. now apply rel_err.
  - assert (E : (x =? 97) = (y =? 97)).
    { destruct Hd as [->|[N|N]]; [reflexivity| |discriminate].
      destruct (N.eqb_spec x 97) as [->|X]; [exfalso; apply N; now left|]. symmetry. apply N.eqb_neq. intros ->. apply N.
      destruct A as [->|[[_ A]|[A _]]]; [now left|right; lia|destruct A; lia]. }
    rewrite E. destruct ((y =? 97) && negb false); [|now apply rel_err]. now apply rel_one.
Qed.
Definition bar : parser str := delimited sp (tag (s_ "|")) sp.
Section Variant.
  Context (pa : parser PathAlternative).
  Definition path_primary_w : parser PathPrimary :=
    alt [ Nom.map iri PpIri; Nom.map tag_a (fun _ => PpA); Nom.map (preceded (tag (s_ "!")) path_negated_property_set) PpNegated;
          Nom.map (delimited (tag (s_ "(")) pa (tag (s_ ")"))) PpPath ].
  Definition path_elt_w : parser PathElt := Nom.map (pair path_primary_w (opt (preceded sp1 path_mod))) (fun '(p, m) => MkPathElt p m).
  Definition path_elt_or_inverse_w : parser PathEltOrInverse :=
    alt [ Nom.map path_elt_w PeiPathElt; Nom.map (preceded (tag (s_ "^")) path_elt_w) PeiInverse ].
  Definition path_sequence_w : parser PathSequence := Nom.map (separated_nonempty_list bar path_elt_or_inverse_w) MkPathSequence.
  Definition path_alternative_w_body : parser PathAlternative := Nom.map (separated_nonempty_list bar path_sequence_w) MkPathAlternative.
End Variant.
Definition path_alternative_w : parser PathAlternative := fixp path_alternative_w_body.
Definition verb_path_w : parser VerbPathOrSimple := alt [ Nom.map path_alternative_w VpsPath; Nom.map var VpsSimple ].

Lemma cs_path_one a : cs a false (tla leaves_one) path_one_in_property_set.
Proof. unfold path_one_in_property_set. go. Qed.
Global Hint Resolve cs_path_one : cs.
Lemma cs_path_negated a : cs a true (tla leaves_negated) path_negated_property_set.
Proof. unfold path_negated_property_set. go. Qed.
Global Hint Resolve cs_path_negated : cs.
Lemma cs_bar a : cs a true any bar.
Proof. apply cs_any with (V := eq). unfold bar. go. Qed.
Lemma cs_path_mod_opt a : cs a false eq (opt (preceded sp1 path_mod)).
Proof. eapply (cs_txt _ _ _ (mayb eq)); [intros x y; apply may_eq|]. go. Qed.
Section VariantCs.
  Context (pa : parser PathAlternative) (HA : cs true false (tla leaves_path) pa).
  Lemma cs_primary_w : cs true false (tla leaves_path_primary) (path_primary_w pa).
  Proof using HA.
    unfold path_primary_w. apply cs_alt; [go|]. apply cs_alt; [|apply cs_alt; [go|apply cs_alt; [|apply cs_alt_nil]]].
    - eapply cs_map; [apply cs_tag_a|vl].
    - eapply (cs_map _ _ (tla leaves_path)); [|vl]. unfold delimited. eapply cs_preceded; [go|]. eapply cs_terminated; [exact HA|go].
  Qed.
  Lemma cs_elt_w : cs true false (tla leaves_elt) (path_elt_w pa).
  Proof using HA.
    unfold path_elt_w. eapply cs_map; [eapply cs_pair; [apply cs_primary_w|apply cs_path_mod_opt]|]. intros [p m] [p' m'] [H E]. cbn in *. subst m'.
    apply (ta_1 (fun p => MkPathElt p m) (fun _ => leaves_path_primary)); [reflexivity|exact H].
  Qed.
  Lemma cs_elt_or_inverse_w : cs true false (tla leaves_elt_or_inverse) (path_elt_or_inverse_w pa).
  Proof using HA.
    unfold path_elt_or_inverse_w. apply cs_alt; [|apply cs_alt; [|apply cs_alt_nil]].
    - eapply cs_map; [apply cs_elt_w|vl].
    - eapply cs_map; [eapply cs_preceded; [go|apply cs_elt_w]|vl].
  Qed.
  Lemma cs_sequence_w : cs true false (tla leaves_sequence) (path_sequence_w pa).
  Proof using HA. unfold path_sequence_w. eapply cs_map; [eapply cs_sep1; [apply cs_bar|apply cs_elt_or_inverse_w]|vl]. Qed.
  Lemma cs_alternative_w : cs true false (tla leaves_path) (path_alternative_w_body pa).
  Proof using HA. unfold path_alternative_w_body. eapply cs_map; [eapply cs_sep1; [apply cs_bar|apply cs_sequence_w]|vl]. Qed.
End VariantCs.
Lemma cs_path_w : cs true false (tla leaves_path) path_alternative_w.
Proof. apply cs_fixp. exact cs_alternative_w. Qed.
Lemma cs_verb_w : cs true false (tla leaves_verb_path) verb_path_w.
Proof. unfold verb_path_w. apply cs_alt; [eapply cs_map; [apply cs_path_w|vl]|]. go. Qed.

(** ** The two readings of a path on one text *)
Definition eqv {A} (x y : res A) : Prop :=
  x = Err OutOfFuel \/ match x, y with Ok r a, Ok r' a' => r = r' /\ a = a' | Err e, Err e' => kind e = kind e' | _, _ => False end.
Definition isE {A} (x : res A) : Prop := exists pos k, x = Err (Error pos k).
Lemma eqv_refl {A} (x : res A) : eqv x x. Proof. right. destruct x; auto. Qed.
Lemma word_solid r : starts_word r = true -> solid r /\ (forall c, wordish c = false -> forall r', r <> c :: r').
Proof.
  destruct r as [|c r]; [discriminate|]. cbn [starts_word]. intros W. split.
  - apply solid_first. intros I. cbn in I. destruct I as [<-|[<-|[<-|[<-|[<-|[]]]]]]; discriminate W.
  - intros d D r' E. injection E as -> _. congruence.
Qed.
Lemma tag1_fails c r : (forall r', r <> c :: r') -> fails (tag [c]) r.
Proof.
  intros H. unfold fails, tag. destruct r as [|d r]; cbn [strip_prefix]; [eauto|]. destruct (N.eqb_spec c d) as [->|N]; [now destruct (H r)|eauto].
Qed.
Lemma bar_word r : starts_word r = true -> fails bar r.
Proof.
  intros W. destruct (word_solid r W) as [S N]. unfold bar, delimited, preceded, Nom.map, pair, fails. rewrite (sp_nil r S).
  unfold terminated, Nom.map, pair. destruct (tag1_fails 124 r (N 124 eq_refl)) as (p & k & E). change (s_ "|") with [124]. rewrite E. eauto.
Qed.
Lemma bar_ok i r t : bar i = Ok r t -> exists b r1, i = b ++ 124 :: r1 /\ blank b /\ (length r < length i)%nat.
Proof.
  unfold bar, delimited, preceded, terminated, Nom.map, pair. destruct (sp i) as [r1 b|] eqn:E1; [|discriminate].
  destruct (tag (s_ "|") r1) as [r2 x|] eqn:E2; [|discriminate]. destruct (sp r2) as [r3 b2|] eqn:E3; [|discriminate]. intros E. injection E as -> _.
  apply sp_iff in E1 as (-> & B & _). apply sp_iff in E3 as (-> & _ & _). destruct r1 as [|c r1]; [discriminate|].
  unfold tag in E2. change (s_ "|") with [124] in E2. cbn [strip_prefix] in E2. destruct (N.eqb_spec 124 c) as [<-|]; [|discriminate]. injection E2 as -> _.
  exists b, (b2 ++ r). split; [reflexivity|]. split; [exact B|]. rewrite app_length. cbn [List.length]. rewrite app_length. lia.
Qed.
Lemma sp1_bar b r1 : blank b -> fails sp1 (b ++ 124 :: r1) \/ exists t, sp1 (b ++ 124 :: r1) = Ok (124 :: r1) t.
Proof.
  intros B. assert (S : solid (124 :: r1)) by (apply solid_first; cbn; intuition discriminate).
  destruct b as [|c b]; [left; now apply sp1_fails|right]. exists (c :: b). apply sp1_ok; [split; [exact B|discriminate]|exact S].
Qed.
Lemma close_bar b r1 : blank b -> fails (tag (s_ ")")) (b ++ 124 :: r1).
Proof.
  intros B. apply (tag1_fails 41). intros r' E. destruct b as [|c b]; [discriminate|]. cbn in E. injection E as -> _. inversion B as [|? ? I|]; subst; cbn in I; intuition discriminate.
Qed.

Lemma alt_cons {A} (p p2 : parser A) ps i : alt (p :: p2 :: ps) i = match p i with Err (Error _ _) => alt (p2 :: ps) i | r => r end.
Proof. reflexivity. Qed.
Section OneText.
  Context (pa pw : parser PathAlternative).
  (** the next separator can be read but the element behind it cannot *)
  Definition barred (r : str) : Prop := exists r1 t, bar r = Ok r1 t /\ fails (path_elt_or_inverse_w pw) r1.
  Definition dead {A} (i : str) (x y : res A) : Prop :=
    exists r a, x = Ok r a /\ starts_word r = true /\ (length r < length i)%nat /\
      ((exists i', i = 97 :: i' \/ i = 94 :: i') /\ fails (path_elt_or_inverse_w pw) i /\ isE y \/ exists r0 a0, y = Ok r0 a0 /\ (length r0 < length i)%nat /\ barred r0).
  Definition near {A} (i : str) (x y : res A) : Prop := eqv x y \/ dead i x y.
  (** what matters to the caller *)
  Definition near0 {A} (x y : res A) : Prop := eqv x y \/
    exists r a, x = Ok r a /\ starts_word r = true /\ (isE y \/ exists r0 a0, y = Ok r0 a0 /\ exists r1 t, bar r0 = Ok r1 t).
  Lemma near_near0 {A} i (x y : res A) : near i x y -> near0 x y.
  Proof.
    intros [E|(r & a & -> & W & _ & D)]; [now left|right]. exists r, a. repeat split; auto. destruct D as [(_ & _ & D)|(r0 & a0 & -> & _ & r1 & t & D & _)]; [now left|right].
    exists r0, a0. eauto.
  Qed.
  Context (HP : forall i, near0 (pa i) (pw i)).

  Lemma close_word r : starts_word r = true -> fails (tag (s_ ")")) r.
  Proof. intros W. destruct (word_solid r W) as [_ N]. apply (tag1_fails 41), N. reflexivity. Qed.
  Lemma barred_close r : (exists r1 t, bar r = Ok r1 t) -> fails (tag (s_ ")")) r.
  Proof. intros (r1 & t & E). apply bar_ok in E as (b & r2 & -> & B & _). now apply close_bar. Qed.
  Lemma primary_near i : eqv (path_primary_of pa i) (path_primary_w pw i) \/
    exists r, i = 97 :: r /\ starts_word r = true /\ path_primary_of pa i = Ok r PpA /\ isE (path_primary_w pw i).
  Proof using HP.
    unfold path_primary_of, path_primary_w. rewrite !alt_cons.
    destruct (Nom.map iri PpIri i) as [r a|[p k| | | |]]; try (left; apply eqv_refl).
    destruct i as [|c i]; [left; apply eqv_refl|]. destruct (N.eqb_spec c 97) as [->|NC].
    - assert (E1 : Nom.map (tag (s_ "a")) (fun _ => PpA) (97 :: i) = Ok i PpA) by reflexivity. rewrite E1.
      assert (E2 : Nom.map tag_a (fun _ => PpA) (97 :: i) = if starts_word i then Err (Error (97 :: i) KTag) else Ok i PpA).
      { unfold Nom.map, tag_a. rewrite N.eqb_refl. now destruct (starts_word i). }
      rewrite E2. destruct (starts_word i) eqn:W; [|left; apply eqv_refl]. right. exists i. repeat split; auto.
      unfold isE. do 2 eexists. reflexivity.
    - assert (E1 : exists p k, Nom.map (tag (s_ "a")) (fun _ => PpA) (c :: i) = Err (Error p k)).
      { destruct (tag1_fails 97 (c :: i)) as (p1 & k1 & E1); [congruence|]. exists p1, k1. unfold Nom.map. change (s_ "a") with [97]. now rewrite E1. }
      destruct E1 as (p1 & k1 & ->).
      assert (E2 : Nom.map tag_a (fun _ => PpA) (c :: i) = Err (Error (c :: i) KTag)).
      { unfold Nom.map, tag_a. now rewrite (proj2 (N.eqb_neq c 97) NC). }
      rewrite E2. destruct (Nom.map (preceded (tag (s_ "!")) path_negated_property_set) PpNegated (c :: i)) as [r a|[p2 k2| | | |]]; try (left; apply eqv_refl).
      cbn [alt]. unfold Nom.map, delimited, preceded, terminated, Nom.map, pair. destruct (tag (s_ "(") (c :: i)) as [r t|]; [|left; apply eqv_refl].
      destruct (HP r) as [E|D].
      + destruct E as [->|E]; [left; now left|]. destruct (pa r) as [r1 x|e], (pw r) as [r2 y|e']; try contradiction; [|left; now right].
        destruct E as [-> ->]. left. apply eqv_refl.
      + destruct D as (r1 & x & -> & W & D). destruct (close_word r1 W) as (p3 & k3 & ->). left. right.
        destruct D as [(p4 & k4 & ->)|(r0 & x0 & -> & B)]; [reflexivity|]. now destruct (barred_close r0 B) as (p4 & k4 & ->).
  Qed.
  Lemma mod_word r : starts_word r = true -> opt (preceded sp1 path_mod) r = Ok r None.
  Proof.
    intros W. destruct (word_solid r W) as [S _]. destruct (sp1_fails r S) as (p & k & E). unfold opt, preceded, Nom.map, pair. now rewrite E.
  Qed.
  Lemma elt_near i : eqv (path_elt_of pa i) (path_elt_w pw i) \/
    exists r a, i = 97 :: r /\ starts_word r = true /\ path_elt_of pa i = Ok r a /\ isE (path_elt_w pw i).
  Proof using HP.
    unfold path_elt_of, path_elt_w, Nom.map, pair. destruct (primary_near i) as [E|(r & -> & W & -> & (p & k & ->))].
    - destruct E as [->|E]; [left; now left|]. destruct (path_primary_of pa i) as [r a|], (path_primary_w pw i) as [r' a'|]; try contradiction; [|left; now right].
      destruct E as [-> ->]. left. apply eqv_refl.
    - right. rewrite (mod_word r W). exists r, (MkPathElt PpA None). repeat split; auto. now exists p, k.
  Qed.
  Lemma eoi_near i : eqv (path_elt_or_inverse_of pa i) (path_elt_or_inverse_w pw i) \/
    exists r a, (i = 97 :: r \/ i = 94 :: 97 :: r) /\ starts_word r = true /\ path_elt_or_inverse_of pa i = Ok r a /\ isE (path_elt_or_inverse_w pw i).
  Proof using HP.
    unfold path_elt_or_inverse_of, path_elt_or_inverse_w. rewrite !alt_cons.
    assert (M1 : Nom.map (path_elt_of pa) PeiPathElt i = match path_elt_of pa i with Ok r a => Ok r (PeiPathElt a) | Err e => Err e end) by reflexivity.
    assert (M2 : Nom.map (path_elt_w pw) PeiPathElt i = match path_elt_w pw i with Ok r a => Ok r (PeiPathElt a) | Err e => Err e end) by reflexivity.
    rewrite M1, M2. clear M1 M2. destruct (elt_near i) as [E|(r & a & -> & W & -> & (p & k & ->))].
    - destruct E as [->|E]; [left; now left|].
      destruct (path_elt_of pa i) as [r a|e], (path_elt_w pw i) as [r' a'|e']; try contradiction.
      + destruct E as [-> ->]. left. apply eqv_refl.
      + destruct e, e'; try discriminate E; try (left; now right).
        cbn [alt]. unfold Nom.map, preceded, Nom.map, pair. destruct i as [|c i]; [left; apply eqv_refl|]. destruct (N.eqb_spec c 94) as [->|N].
        * change (tag (s_ "^") (94 :: i)) with (Ok i (s_ "^")). cbv iota beta. destruct (elt_near i) as [E2|(r & a & -> & W & -> & (p & k2 & ->))].
          -- destruct E2 as [->|E2]; [left; now left|]. destruct (path_elt_of pa i) as [r a|], (path_elt_w pw i) as [r' a'|]; try contradiction; [|left; now right].
             destruct E2 as [-> ->]. left. apply eqv_refl.
          -- right. exists r, (PeiInverse a). repeat split; auto. now exists p, k2.
        * assert (E1 : fails (tag (s_ "^")) (c :: i)) by (apply (tag1_fails 94); congruence). destruct E1 as (p1 & k1 & ->). left. now right.
    - right. exists r, (PeiPathElt a). repeat split; auto. unfold isE. do 2 eexists. reflexivity.
  Qed.
  Lemma eoi_dead i r a : (i = 97 :: r \/ i = 94 :: 97 :: r) -> starts_word r = true -> path_elt_or_inverse_of pa i = Ok r a -> isE (path_elt_or_inverse_w pw i) ->
    dead i (path_elt_or_inverse_of pa i) (path_elt_or_inverse_w pw i).
  Proof.
    intros I W E F. exists r, a. repeat split; auto; [destruct I as [-> | ->]; cbn; lia|]. left. split; [destruct I as [-> | ->]; eauto|]. split; exact F.
  Qed.
  Lemma eoi_near' i : near i (path_elt_or_inverse_of pa i) (path_elt_or_inverse_w pw i).
  Proof using HP. destruct (eoi_near i) as [E|(r & a & I & W & E & F)]; [now left|right]. now apply (eoi_dead i r a). Qed.

  (** lists of elements *)
  Definition short {A} (p : parser A) : Prop := forall i r a, p i = Ok r a -> exists u, i = u ++ r.
  Lemma short_le {A} (p : parser A) i r a : short p -> p i = Ok r a -> (length r <= length i)%nat.
  Proof. intros H E. destruct (H _ _ _ E) as [u ->]. rewrite app_length. lia. Qed.
  Section Lists.
    Context {A} (p q : parser A) (Hn : forall i, near i (p i) (q i)) (Hs : short q) (Hq : forall i, fails (path_elt_or_inverse_w pw) i -> fails q i).
    Lemma str_eqb_short (r i : str) : (length r < length i)%nat -> str_eqb r i = false.
    Proof. intros L. destruct (str_eqb r i) eqn:E; [|reflexivity]. apply str_eqb_iff in E. subst. lia. Qed.
    (** in the middle of a list the shorter reading is never an error *)
    Definition dead2 {B} (i : str) (x y : res B) : Prop :=
      exists r a, x = Ok r a /\ starts_word r = true /\ (length r < length i)%nat /\ exists r0 a0, y = Ok r0 a0 /\ (length r0 <= length i)%nat /\ barred r0.
    Lemma loop_word n r : starts_word r = true -> sep_loop n bar p r = Err OutOfFuel \/ sep_loop n bar p r = Ok r [].
    Proof. intros W. destruct n as [|n]; [now left|right]. cbn [sep_loop]. destruct (bar_word r W) as (p1 & k & ->). reflexivity. Qed.
    Lemma loop_barred n r : barred r -> sep_loop (S n) bar q r = Ok r [].
    Proof using Hq.
      intros (r1 & t & E & F). cbn [sep_loop]. rewrite E. apply bar_ok in E as (_ & _ & _ & _ & L). rewrite (str_eqb_short r1 r L).
      destruct (Hq r1 F) as (p1 & k & ->). reflexivity.
    Qed.
    Lemma loop_near n : forall i, eqv (sep_loop n bar p i) (sep_loop n bar q i) \/ dead2 i (sep_loop n bar p i) (sep_loop n bar q i).
    Proof using Hn Hs Hq.
      induction n as [|n IH]; intros i; [left; now left|]. cbn [sep_loop]. destruct (bar i) as [r1 t|e] eqn:EB; [|left; apply eqv_refl].
      pose proof EB as EB'. apply bar_ok in EB' as (_ & _ & _ & _ & L). rewrite (str_eqb_short r1 i L). destruct (Hn r1) as [E|D].
      - destruct E as [->|E]; [left; now left|]. destruct (p r1) as [r2 a|e] eqn:EP, (q r1) as [r3 a'|e'] eqn:EQ; try contradiction.
        + destruct E as [-> ->]. pose proof (short_le q _ _ _ Hs EQ) as L2. rewrite (str_eqb_short r3 i) by lia.
          destruct (IH r3) as [E|(r & l & -> & W & LW & r0 & l0 & -> & L0 & B)].
          * destruct E as [->|E]; [left; now left|]. destruct (sep_loop n bar p r3) as [r4 l|], (sep_loop n bar q r3) as [r5 l'|]; try contradiction; [|left; now right].
            destruct E as [-> ->]. left. apply eqv_refl.
          * right. exists r, (a' :: l). repeat split; auto; [lia|]. exists r0, (a' :: l0). repeat split; auto. lia.
        + destruct e, e'; try discriminate E; left; first [apply eqv_refl|now right].
      - destruct D as (r & a & -> & W & L2 & D). rewrite (str_eqb_short r i) by lia. destruct (loop_word n r W) as [EL|EL]; rewrite EL; [left; now left|].
        destruct D as [(_ & F & p1 & k & EQ)|(r0 & a0 & EQ & L0 & B)].
        + rewrite EQ. right. exists r, [a]. repeat split; auto; [lia|]. exists i, []. repeat split; auto. now exists r1, t.
        + rewrite EQ. pose proof (short_le q _ _ _ Hs EQ) as L3. rewrite (str_eqb_short r0 i) by lia.
          destruct n as [|n]; [discriminate|]. rewrite (loop_barred n r0 B). right. exists r, [a]. repeat split; auto; [lia|]. exists r0, [a0]. repeat split; auto. lia.
    Qed.
    Lemma sep1_near i : near i (separated_nonempty_list bar p i) (separated_nonempty_list bar q i).
    Proof using Hn Hs Hq.
      unfold separated_nonempty_list. destruct (Hn i) as [E|D].
      - destruct E as [->|E]; [left; now left|]. destruct (p i) as [r a|] eqn:EP, (q i) as [r' a'|] eqn:EQ; try contradiction; [|left; now right].
        destruct E as [-> ->]. destruct (str_eqb r' i) eqn:ES; [left; apply eqv_refl|].
        destruct (loop_near (S (length r')) r') as [E|(r & l & E1 & W & LW & r0 & l0 & E2 & L0 & B)].
        + destruct E as [->|E]; [left; now left|]. destruct (sep_loop (S (length r')) bar p r') as [r4 l|], (sep_loop (S (length r')) bar q r') as [r5 l'|]; try contradiction; [|left; now right].
          destruct E as [-> ->]. left. apply eqv_refl.
        + rewrite E1, E2. destruct (Hs _ _ _ EQ) as [u U]. assert (LI : (length r' < length i)%nat).
          { subst i. destruct u as [|c u]; [cbn in ES; now rewrite (proj2 (str_eqb_iff r' r') eq_refl) in ES|]. rewrite app_length. cbn. lia. }
          right. exists r, (a' :: l). repeat split; auto; [lia|]. right. exists r0, (a' :: l0). repeat split; auto. lia.
      - destruct D as (r & a & -> & W & L & D). rewrite (str_eqb_short r i L). destruct (loop_word (S (length r)) r W) as [E|E]; rewrite E; [left; now left|].
        right. exists r, [a]. repeat split; auto. destruct D as [(I & F & p1 & k & ->)|(r0 & a0 & EQ & L0 & B)].
        + left. repeat split; auto. now exists p1, k.
        + rewrite EQ, (str_eqb_short r0 i L0), (loop_barred (length r0) r0 B). right. exists r0, [a0]. auto.
    Qed.
  End Lists.
  Lemma near_map {A B} (f : A -> B) i (p q : parser A) : near i (p i) (q i) -> near i (Nom.map p f i) (Nom.map q f i).
  Proof.
    unfold Nom.map. intros [E|D].
    - destruct E as [->|E]; [left; now left|]. destruct (p i), (q i); try contradiction; left; right; [|exact E]. destruct E as [-> ->]. auto.
    - destruct D as (r & a & -> & W & L & D). right. exists r, (f a). repeat split; auto. destruct D as [(I & F & p1 & k & ->)|(r0 & a0 & -> & L0 & HB)].
      + left. repeat split; auto. now exists p1, k.
      + right. exists r0, (f a0). auto.
  Qed.
  Context (HA : cs true false (tla leaves_path) pw).
  Lemma same_refl i : same i i.
  Proof. induction i as [|c i IH]; cbn; auto. repeat split; auto; [apply alike_refl| |]; intros _; destruct i; cbn; auto. Qed.
  Lemma cs_short {A} V (p : parser A) : cs true false V p -> short p.
  Proof.
    intros H i r a E. assert (HD : headok i i) by (destruct i; cbn; auto). specialize (H i i (same_refl i) (fun _ => HD)). rewrite E in H.
    destruct H as [X|[X|(_ & _ & _ & u & _ & X & _)]]; [discriminate|discriminate|]. now exists u.
  Qed.
  Lemma sequence_near i : near i (path_sequence_of pa i) (path_sequence_w pw i).
  Proof using HP HA.
    unfold path_sequence_of, path_sequence_w. apply near_map. apply sep1_near; auto; [apply eoi_near'|]. eapply cs_short, cs_elt_or_inverse_w, HA.
  Qed.
  Lemma sequence_fails i : fails (path_elt_or_inverse_w pw) i -> fails (path_sequence_w pw) i.
  Proof. intros (p & k & E). unfold path_sequence_w, separated_nonempty_list, Nom.map, fails. rewrite E. eauto. Qed.
  Lemma alternative_near i : near i (path_alternative_body pa i) (path_alternative_w_body pw i).
  Proof using HP HA.
    unfold path_alternative_body, path_alternative_w_body. apply near_map. apply sep1_near; [apply sequence_near|eapply cs_short, cs_sequence_w, HA|apply sequence_fails].
  Qed.
End OneText.

Lemma iter_near n : forall i, near0 (iter n path_alternative_body i) (iter n path_alternative_w_body i).
Proof.
  induction n as [|n IH]; intros i; [left; now left|]. cbn [iter]. eapply near_near0, alternative_near; [exact IH|]. apply cs_iter, cs_alternative_w.
Qed.
Lemma iter_near' n i : near (iter n path_alternative_w_body) i (iter (S n) path_alternative_body i) (iter (S n) path_alternative_w_body i).
Proof. cbn [iter]. apply alternative_near; [apply iter_near|apply cs_iter, cs_alternative_w]. Qed.

(** ** Verbs of a property list *)
Definition guarded : parser VerbPathOrSimple := terminated verb_path_or_simple sp1.
Definition guarded_w : parser VerbPathOrSimple := terminated verb_path_w sp1.
Lemma term_eqv {A B} (p p' : parser A) (q : parser B) i : eqv (p i) (p' i) -> eqv (terminated p q i) (terminated p' q i).
Proof.
  unfold terminated, Nom.map, pair. intros [->|E]; [now left|]. destruct (p i), (p' i); try contradiction; [|now right]. destruct E as [-> ->]. apply eqv_refl.
Qed.
Lemma guarded_near i : eqv (guarded i) (guarded_w i) \/ isE (guarded i) /\ (isE (guarded_w i) \/ exists t v, guarded_w i = Ok (124 :: t) v).
Proof.
  assert (M1 : verb_path_or_simple i = match path_alternative i with Ok r a => Ok r (VpsPath a) | Err (Error _ _) => Nom.map var VpsSimple i | Err e => Err e end).
  { unfold verb_path_or_simple. rewrite alt_cons. unfold Nom.map at 1. now destruct (path_alternative i) as [|[]]. }
  assert (M2 : verb_path_w i = match path_alternative_w i with Ok r a => Ok r (VpsPath a) | Err (Error _ _) => Nom.map var VpsSimple i | Err e => Err e end).
  { unfold verb_path_w. rewrite alt_cons. unfold Nom.map at 1. now destruct (path_alternative_w i) as [|[]]. }
  pose proof (iter_near' (length i) i) as H. change (iter (S (length i)) path_alternative_body i) with (path_alternative i) in H.
  change (iter (S (length i)) path_alternative_w_body i) with (path_alternative_w i) in H. destruct H as [E|D].
  - left. apply term_eqv. rewrite M1, M2. destruct E as [->|E]; [now left|].
    destruct (path_alternative i) as [r a|e], (path_alternative_w i) as [r' a'|e']; try contradiction.
    + destruct E as [-> ->]. apply eqv_refl.
    + destruct e, e'; try discriminate E; first [apply eqv_refl|now right].
  - right. destruct D as (r & a & EP & W & _ & D). rewrite EP in M1. destruct (word_solid r W) as [SO _]. destruct (sp1_fails r SO) as (p1 & k1 & E1). split.
    + unfold guarded, terminated, Nom.map, pair, isE. rewrite M1, E1. eauto.
    + destruct D as [((i' & I) & _ & p2 & k2 & EQ)|(r0 & a0 & EQ & _ & r1 & t & EB & _)]; rewrite EQ in M2.
      * left. unfold guarded_w, terminated, Nom.map, pair, isE. rewrite M2. destruct I as [-> | ->]; do 2 eexists; reflexivity.
      * apply bar_ok in EB as (b & r2 & -> & B & _). unfold guarded_w, terminated, Nom.map, pair, isE. rewrite M2.
        destruct (sp1_bar b r2 B) as [(p3 & k3 & ->)|(x & ->)]; [left; eauto|right; eauto].
Qed.
Definition no_bar {A} (q : parser A) : Prop := forall t, isE (q (124 :: t)) \/ q (124 :: t) = Err OutOfFuel.
Lemma cs_guarded_w : cs true true (tla leaves_verb_path) guarded_w.
Proof. unfold guarded_w. eapply cs_terminated; [apply cs_verb_w|apply cs_sp1]. Qed.
Lemma cs_guard {A} W b (q : parser A) : cs true b W q -> no_bar q -> cs true b (both (tla leaves_verb_path) W) (pair guarded q).
Proof.
  intros Q NB i j S Hd. pose proof (cs_guarded_w i j S Hd) as H.
  assert (OF : forall i, guarded_w i = Err OutOfFuel -> guarded i = Err OutOfFuel).
  { intros k E. destruct (guarded_near k) as [[X|X]|(_ & [(p & e & X)|(t & v & X)])]; [exact X|rewrite E in X..]; try discriminate X.
    destruct (guarded k) as [|[]]; try contradiction; try discriminate X. reflexivity. }
  unfold pair at 1 2. destruct H as [H|[H|H]].
  - rewrite (OF _ H). now left.
  - rewrite (OF _ H). now right; left.
  - destruct (guarded_w i) as [r v|e] eqn:EI, (guarded_w j) as [r' v'|e'] eqn:EJ; try contradiction.
    + destruct H as (S1 & H1 & X1 & u & u' & -> & -> & L).
      assert (BB : (exists t, r = 124 :: t) \/ forall t, r <> 124 :: t).
      { destruct r as [|c r]; [right; discriminate|]. destruct (N.eq_dec c 124) as [->|N]; [left; eauto|right; congruence]. }
      destruct BB as [(t & ->)|NR].
      * destruct r' as [|c' t']; [contradiction|]. assert (c' = 124) by (symmetry; apply alike_fixed; [apply S1|reflexivity]). subst c'.
        assert (G : forall k t v, guarded_w k = Ok (124 :: t) v -> match guarded k with Ok i1 a => match q i1 with Ok i2 b => Ok i2 (a, b) | Err e => Err e end | Err e => Err e end = Err OutOfFuel \/
                    isE (match guarded k with Ok i1 a => match q i1 with Ok i2 b => Ok i2 (a, b) | Err e => Err e end | Err e => Err e end)).
        { intros k t0 v0 E. destruct (guarded_near k) as [[X|X]|((p & e & X) & _)].
          - rewrite X. now left.
          - rewrite E in X. destruct (guarded k) as [r1 v1|]; [|contradiction]. destruct X as [-> ->].
            destruct (NB t0) as [(p & e & Y)|Y]; rewrite Y; [right; now exists p, e|now left].
          - rewrite X. right. now exists p, e. }
        destruct (G _ _ _ EI) as [-> |(p & k & ->)]; [now left|]. destruct (G _ _ _ EJ) as [-> |(p' & k' & ->)]; [now right; left|]. now apply rel_err.
      * assert (NR' : forall t, r' <> 124 :: t).
        { intros t ->. destruct r as [|c r]; [contradiction|]. apply (NR r). f_equal. symmetry. apply alike_fixed; [|reflexivity]. apply alike_sym, S1. }
        assert (G : forall k r v, guarded_w k = Ok r v -> (forall t, r <> 124 :: t) -> guarded k = Err OutOfFuel \/ guarded k = Ok r v).
        { intros k r0 v0 E N0. destruct (guarded_near k) as [[X|X]|(_ & [(p & e & X)|(t & v1 & X)])]; [now left|rewrite E in X..].
          - destruct (guarded k); [|contradiction]. destruct X as [-> ->]. now right.
          - discriminate.
          - injection X as -> _. now destruct (N0 t). }
        destruct (G _ _ _ EI NR) as [-> | ->]; [now left|]. destruct (G _ _ _ EJ NR') as [-> | ->]; [now right; left|].
        specialize (Q _ _ S1 H1). outcome Q (q r) (q r').
        -- destruct X as (S2 & H2 & X2 & w & w' & -> & -> & L2). right; right. split; [exact S2|]. split; [exact H2|]. split; [now split|].
           exists (u ++ w), (u' ++ w'). rewrite !app_assoc, !app_length. auto.
        -- right; right. exact X.
    + assert (G : forall k e, guarded_w k = Err e -> guarded k = Err OutOfFuel \/ exists e0, guarded k = Err e0 /\ kind e0 = kind e).
      { intros k e0 E. destruct (guarded_near k) as [[X|X]|((p & e1 & X) & [(p2 & e2 & Y)|(t & v1 & Y)])]; [now left|rewrite E in X|rewrite E in Y..].
        - destruct (guarded k); [contradiction|]. right. eauto.
        - injection Y as ->. right. eauto.
        - discriminate. }
      destruct (G _ _ EI) as [-> |(e0 & -> & K)]; [now left|]. destruct (G _ _ EJ) as [-> |(e1 & -> & K')]; [now right; left|]. apply rel_err. congruence.
Qed.

(** ** Property lists and triples with paths *)
Lemma no_bar_sep {A B} (s : parser B) (p : parser A) : no_bar p -> no_bar (separated_nonempty_list s p).
Proof. intros H t. unfold separated_nonempty_list, isE. destruct (H t) as [(p1 & k & ->)| ->]; eauto. Qed.
Lemma no_bar_map {A B} (f : A -> B) (p : parser A) : no_bar p -> no_bar (Nom.map p f).
Proof. intros H t. unfold Nom.map, isE. destruct (H t) as [(p1 & k & ->)| ->]; eauto. Qed.
Lemma no_bar_node : no_bar graph_node.
Proof. intros t. left. unfold isE. do 2 eexists. reflexivity. Qed.
Lemma no_bar_node_path gn : no_bar (graph_node_path_body gn).
Proof. intros t. left. unfold isE. do 2 eexists. reflexivity. Qed.
Lemma pair_assoc {A B C} (p : parser A) (s : parser B) (q : parser C) i : separated_pair p s q i = pair (terminated p s) q i.
Proof.
  unfold separated_pair, preceded, terminated, Nom.map, pair. destruct (p i) as [r a|]; [|reflexivity]. destruct (s r) as [r1 b|]; [|reflexivity].
  now destruct (q r1).
Qed.
Lemma cs_ext {A} a b V (p q : parser A) : (forall i, p i = q i) -> cs a b V q -> cs a b V p.
Proof. intros E H i j S Hd. rewrite !E. now apply H. Qed.
Lemma map_ext' {A B} (p q : parser A) (f : A -> B) : (forall i, p i = q i) -> forall i, Nom.map p f i = Nom.map q f i.
Proof. intros E i. unfold Nom.map. now rewrite E. Qed.
Lemma cs_entry : cs true false (tla leaves_plpe) property_list_path_entry.
Proof.
  unfold property_list_path_entry. eapply cs_map.
  - eapply cs_ext; [intros i; apply pair_assoc|]. apply cs_guard; [apply cs_object_list|]. apply no_bar_map, no_bar_sep, no_bar_node.
  - vl.
Qed.
Lemma cs_semis : cs false true any (many1 (sp_enc (chr (c_ ";")))).
Proof. apply cs_any with (V := Forall2 eq). apply cs_many1; go. Qed.
Section PathNodes.
  Context (gnp : parser GraphNodePath) (HG : cs false false (tla leaves_node_path) gnp) (HB : no_bar gnp).
  Lemma cs_objects_path a : cs a false (tla leaves_objects_path) (object_list_path_of gnp).
  Proof using HG. unfold object_list_path_of. go. Qed.
  Lemma cs_plist_path : cs true false (tla leaves_plist_path) (property_list_path_not_empty_of gnp).
  Proof using HG HB.
    unfold property_list_path_not_empty_of, tuple3. eapply (cs_map _ _ (both (tla leaves_verb_path) (both (tla leaves_objects_path) (Forall2 (tla leaves_plpe))))); [|vl].
    apply cs_guard.
    - eapply (cs_pair _ false); [apply cs_objects_path|]. apply cs_many0. eapply cs_preceded; [apply cs_semis|apply cs_entry].
    - intros t. unfold pair, isE. destruct (no_bar_map MkObjectListPath _ (no_bar_sep (sp_enc (tag (s_ ";"))) gnp HB) t) as [(p & k & E)|E];
        unfold object_list_path_of; rewrite E; eauto.
  Qed.
  Lemma cs_bnpl_path a : cs a true (tla leaves_plist_path) (blank_node_property_list_path_of gnp).
  Proof using HG HB.
    unfold blank_node_property_list_path_of, delimited. eapply cs_preceded; [go|]. eapply cs_terminated; [apply cs_plist_path|go].
  Qed.
  Lemma cs_tnode_path a : cs a true (tla leaves_tnode_path) (triples_node_path_of gnp).
  Proof using HG HB.
    unfold triples_node_path_of. apply cs_alt; [|apply cs_alt; [|apply cs_alt_nil]].
    - eapply cs_map; [apply cs_bnpl_path|vl].
    - eapply (cs_map _ _ (Forall2 (tla leaves_node_path))); [|vl]. unfold delimited. eapply cs_preceded; [go|]. eapply cs_terminated; [|go]. apply cs_many1'. exact HG.
  Qed.
  Lemma cs_node_path_body a : cs a false (tla leaves_node_path) (graph_node_path_body gnp).
  Proof using HG HB.
    unfold graph_node_path_body. apply cs_alt; [go|]. apply cs_alt; [|apply cs_alt_nil]. eapply (cs_map _ _ (tla leaves_tnode_path)); [|vl].
    eapply cs_post, cs_tnode_path.
  Qed.
End PathNodes.
Lemma iter_node_path n : cs false false (tla leaves_node_path) (iter n graph_node_path_body) /\ no_bar (iter n graph_node_path_body).
Proof.
  induction n as [|n [IH1 IH2]].
  - split; [intros i j S Hd; now left|intros t; now right].
  - split; [now apply (cs_node_path_body _ IH1 IH2)|apply no_bar_node_path].
Qed.
Lemma cs_node_path a : cs a false (tla leaves_node_path) graph_node_path.
Proof.
  apply cs_pre. intros i j S Hd. unfold graph_node_path, fixp. rewrite (same_length i j S). exact (proj1 (iter_node_path _) i j S Hd).
Qed.
Lemma no_bar_path_node : no_bar graph_node_path.
Proof. intros t. exact (proj2 (iter_node_path (S (length (124 :: t)))) t). Qed.
Lemma cs_plist_path' : cs true false (tla leaves_plist_path) property_list_path_not_empty.
Proof. apply cs_plist_path; [apply cs_node_path|apply no_bar_path_node]. Qed.
Lemma cs_plist_path_opt : cs true false (mayb (tla leaves_plist_path)) property_list_path.
Proof. unfold property_list_path. apply cs_opt'. apply cs_plist_path'. Qed.
Lemma cs_triples_node_path a : cs a true (tla leaves_tnode_path) triples_node_path.
Proof. apply cs_tnode_path; [apply cs_node_path|apply no_bar_path_node]. Qed.
Lemma cs_tssp a : cs a false (tla leaves_tssp) triples_same_subject_path.
Proof.
  unfold triples_same_subject_path. apply cs_alt; [|apply cs_alt; [|apply cs_alt_nil]].
  - eapply cs_map; [unfold sp_sep1, separated_pair; eapply cs_pair; [go|eapply cs_preceded; [apply cs_sp1|apply cs_plist_path']]|vl].
  - eapply cs_map; [unfold sp_sep, separated_pair; eapply cs_pair; [apply cs_triples_node_path|eapply cs_preceded; [apply cs_sp|apply cs_plist_path_opt]]|vl].
Qed.
Global Hint Resolve cs_tssp : cs.
Lemma cs_block a : cs a false (tla leaves_block) triples_block.
Proof. unfold triples_block. go. Qed.
Global Hint Resolve cs_block : cs.
