(** Lists of predicates and objects in groups. *)
From Verif Require Import Layout.
From Verif Require Export LObj LNever.
From Verif Require Import LMods LC8 LPrint2 LTame0 LTmpl Nom.
Notation length := List.length (only parsing).
Open Scope N_scope.
Open Scope list_scope.

(** a group of one subject with its predicates *)
Definition one_subject (v : Var) (p : PropertyListPath) : GroupGraphPattern :=
  GgpSub (MkGroupGraphPatternSub (Some (MkTriplesBlock [TsspTerm (VotVar v) p])) []).
Lemma nxt_char (P : str -> Prop) b c x : blank b -> solid (c :: x) -> P (c :: x) -> nxt P (b ++ c :: x).
Proof. intros B S H. exists b, (c :: x). auto. Qed.
Lemma subject_read b v tv b1 p t b3 r : blank b -> W_var v tv (b1 ++ t ++ b3 ++ 125 :: r) -> blank1 b1 ->
  solid (t ++ b3 ++ 125 :: r) -> W_property_list_path p t (b3 ++ 125 :: r) -> blank b3 ->
  group_graph_pattern (123 :: b ++ tv ++ b1 ++ t ++ b3 ++ 125 :: r) = Ok r (one_subject v p).
Proof.
  intros B V B1 S P B3.
  replace (123 :: b ++ tv ++ b1 ++ t ++ b3 ++ 125 :: r) with ((123 :: b ++ (tv ++ b1 ++ t ++ b3) ++ [125]) ++ r)
    by (cbn [app]; rewrite <- !app_assoc; reflexivity).
  apply (rd_ggp (one_subject v p)). apply (W_ggp_intro (fun _ _ _ => False) (fun _ _ _ => False)); [intros ? ? ? []..|].
  assert (Sb : solid (125 :: r)) by now apply char_solid.
  pose proof (proj1 V) as RV.
  cbn [ggp_layout one_subject]. apply then_cons; [reflexivity|].
  apply then_app; [split; [exact B|]; rewrite <- !app_assoc; now apply (var_solid v)|].
  apply then_app; [|apply then_none; [split; [constructor|exact Sb]|reflexivity]]. cbn [app]. split.
  - cbn [W_group_sub optW sepW]. apply then_last; [|split; [reflexivity|now exists r]].
    replace (tv ++ b1 ++ t ++ b3) with ((tv ++ b1 ++ t) ++ b3) by now rewrite <- !app_assoc.
    apply then_app; [|split; assumption]. cbn [W_triples_block sep1W tailW]. apply then_last; [|split; [reflexivity|now apply nxt_char]].
    cbn [W_tssp]. apply then_app; [rewrite <- !app_assoc; exact V|]. apply then_app; [split; [exact B1|]; exact S|]. exact P.
  - apply nw_begins. rewrite <- !app_assoc. apply R_var_text in RV. destruct RV as (x & -> & _). apply LPrint5.nb_char; [reflexivity|destruct v; cbn; lia].
Qed.
Lemma pattern_no_char c x r p : c < 65 -> ggp_and_triples_of expression group_graph_pattern (c :: x) <> Ok r p.
Proof.
  intros C H. apply map_inv in H. destruct H as ([a d] & H & _). apply pair_inv in H. destruct H as (i1 & H & _).
  apply pattern_kind in H. unfold announces in H.
  destruct a; cbn [pattern_word] in H; try (apply says_begins in H; revert H; apply LPrint5.nb_char; [reflexivity|lia]).
  destruct H as (z & E). injection E as -> _. lia.
Qed.
(** after the predicates something that is neither a mark nor a pattern *)
Lemma subject_stuck b v tv b1 p t b3 c x r g : blank b -> W_var v tv (b1 ++ t ++ b3 ++ c :: x) -> blank1 b1 ->
  solid (t ++ b3 ++ c :: x) -> W_property_list_path p t (b3 ++ c :: x) -> blank b3 -> solid (c :: x) -> c < 65 -> c <> 46 ->
  group_graph_pattern (123 :: b ++ tv ++ b1 ++ t ++ b3 ++ c :: x) <> Ok r g.
Proof.
  intros B V B1 S P B3 Sc C N E.
  assert (X : triples_block (tv ++ b1 ++ t ++ b3 ++ c :: x) = Ok (b3 ++ c :: x) (MkTriplesBlock [TsspTerm (VotVar v) p])).
  { replace (tv ++ b1 ++ t ++ b3 ++ c :: x) with ((tv ++ b1 ++ t) ++ b3 ++ c :: x) by now rewrite <- !app_assoc.
    apply rd_triples_block. cbn [W_triples_block sep1W tailW]. apply then_last; [|split; [reflexivity|now apply nxt_char]].
    cbn [W_tssp]. apply then_app; [rewrite <- !app_assoc; exact V|]. now apply then_app; [split; [exact B1|]; exact S|]. }
  pose proof (proj1 V) as RV. apply R_var_text in RV. destruct RV as (u & -> & _). cbn [app] in *.
  apply group_start in E; [|exact B|destruct v; cbn; auto]. destruct E as (tb & j & l & k & b' & E & H & -> & B').
  rewrite X in E. injection E as <- <-. apply preceded_inv in H. destruct H as (i1 & d & H1 & H2).
  rewrite (sp_ok b3 (c :: x) B3 Sc) in H1. injection H1 as <- <-. apply sepl_inv in H2. destruct H2 as [[_ E]|(i2 & a & H2)].
  - assert (Z : c = 125) by (apply (blank_end [] c x b' 125 r); auto; [constructor|now apply char_solid]). lia.
  - revert H2. now apply pattern_no_char.
Qed.

(** ** One predicate *)
Lemma one_predicate p tp b2 o t j : W_verb_path p tp (b2 ++ t ++ j) -> blank1 b2 -> solid (t ++ j) -> W_object_list_path o t j -> nxt (not_first 59) j ->
  W_property_list_path (MkPropertyListPath p o []) (tp ++ b2 ++ t) j.
Proof.
  intros P B2 S O N. cbn [W_property_list_path manyW]. apply then_app; [rewrite <- !app_assoc; exact P|].
  apply then_app; [now split|]. apply then_last; [exact O|now split].
Qed.
Lemma objects_read b v tv b1 p tp b2 o t b3 r : blank b -> W_var v tv (b1 ++ tp ++ b2 ++ t ++ b3 ++ 125 :: r) -> blank1 b1 ->
  solid (tp ++ b2 ++ t ++ b3 ++ 125 :: r) -> W_verb_path p tp (b2 ++ t ++ b3 ++ 125 :: r) -> blank1 b2 -> solid (t ++ b3 ++ 125 :: r) ->
  W_object_list_path o t (b3 ++ 125 :: r) -> blank b3 ->
  group_graph_pattern (123 :: b ++ tv ++ b1 ++ tp ++ b2 ++ t ++ b3 ++ 125 :: r) = Ok r (one_subject v (MkPropertyListPath p o [])).
Proof.
  intros B V B1 S P B2 So O B3. pose proof (subject_read b v tv b1 (MkPropertyListPath p o []) (tp ++ b2 ++ t) b3 r) as X. rewrite <- !app_assoc in X.
  apply X; auto. apply one_predicate; auto. apply nxt_char; [exact B3|now apply char_solid|discriminate].
Qed.
Lemma objects_stuck b v tv b1 p tp b2 o t b3 c x r g : blank b -> W_var v tv (b1 ++ tp ++ b2 ++ t ++ b3 ++ c :: x) -> blank1 b1 ->
  solid (tp ++ b2 ++ t ++ b3 ++ c :: x) -> W_verb_path p tp (b2 ++ t ++ b3 ++ c :: x) -> blank1 b2 -> solid (t ++ b3 ++ c :: x) ->
  W_object_list_path o t (b3 ++ c :: x) -> blank b3 -> solid (c :: x) -> c < 65 -> c <> 46 -> c <> 59 ->
  group_graph_pattern (123 :: b ++ tv ++ b1 ++ tp ++ b2 ++ t ++ b3 ++ c :: x) <> Ok r g.
Proof.
  intros B V B1 S P B2 So O B3 Sc C N N'. pose proof (subject_stuck b v tv b1 (MkPropertyListPath p o []) (tp ++ b2 ++ t) b3 c x r g) as X. rewrite <- !app_assoc in X.
  apply X; auto. apply one_predicate; auto. apply nxt_char; auto.
Qed.
Lemma objects_comma b v tv b1 p tp b2 o t b3 x r g : blank b -> W_var v tv (b1 ++ tp ++ b2 ++ t ++ b3 ++ 44 :: x) -> blank1 b1 ->
  solid (tp ++ b2 ++ t ++ b3 ++ 44 :: x) -> W_verb_path p tp (b2 ++ t ++ b3 ++ 44 :: x) -> blank1 b2 -> solid (t ++ b3 ++ 44 :: x) ->
  W_object_list_path o t (b3 ++ 44 :: x) -> blank b3 ->
  group_graph_pattern (123 :: b ++ tv ++ b1 ++ tp ++ b2 ++ t ++ b3 ++ 44 :: x) <> Ok r g.
Proof. intros. eapply objects_stuck; eauto; [now apply char_solid|lia..]. Qed.

(** a second predicate and its object *)
Lemma second_stuck b v tv b1 p tp b2 o t b3 b4 q tq b5 c x r g : blank b ->
  W_var v tv (b1 ++ tp ++ b2 ++ t ++ b3 ++ 59 :: b4 ++ tq ++ b5 ++ c :: x) -> blank1 b1 ->
  solid (tp ++ b2 ++ t ++ b3 ++ 59 :: b4 ++ tq ++ b5 ++ c :: x) -> W_verb_path p tp (b2 ++ t ++ b3 ++ 59 :: b4 ++ tq ++ b5 ++ c :: x) -> blank1 b2 ->
  solid (t ++ b3 ++ 59 :: b4 ++ tq ++ b5 ++ c :: x) ->
  W_var_or_term o t (b3 ++ 59 :: b4 ++ tq ++ b5 ++ c :: x) -> blank b3 -> blank b4 -> solid (tq ++ b5 ++ c :: x) ->
  W_var_or_term q tq (b5 ++ c :: x) -> blank1 b5 -> solid (c :: x) -> c < 65 -> c <> 46 -> c <> 59 ->
  group_graph_pattern (123 :: b ++ tv ++ b1 ++ tp ++ b2 ++ t ++ b3 ++ 59 :: b4 ++ tq ++ b5 ++ c :: x) <> Ok r g.
Proof.
  intros B V B1 S P B2 So O B3 B4 Sq Q B5 Sc C N N'.
  pose proof (objects_stuck b v tv b1 p tp b2 (MkObjectListPath [GnpVarOrTerm o; GnpVarOrTerm q]) (t ++ b3 ++ 59 :: b4 ++ tq) b5 c x r g) as X.
  repeat rewrite <- app_assoc in X. cbn [app] in X. repeat rewrite <- app_assoc in X. apply X; auto; [|apply B5].
  cbn [W_object_list_path sep1W tailW W_graph_node_path].
  apply then_app; [cbn [app]; repeat rewrite <- app_assoc; cbn [app]; repeat rewrite <- app_assoc; exact O|].
  replace (b3 ++ 59 :: b4 ++ tq) with ((b3 ++ 59 :: b4) ++ tq) by (rewrite <- app_assoc; reflexivity).
  apply then_app.
  - apply then_app; [split; [exact B3|now apply char_solid]|]. apply then_cons; [reflexivity|]. split; [exact B4|exact Sq].
  - apply then_last; [exact Q|]. split; [reflexivity|]. left. apply nxt_char; auto. apply B5.
Qed.

(** ** Two semicolons *)
Lemma double_read b v tv b1 p tp b2 o t b3 b4 b5 e te b6 r : blank b ->
  W_var v tv (b1 ++ tp ++ b2 ++ t ++ b3 ++ 59 :: b4 ++ 59 :: b5 ++ te ++ b6 ++ 125 :: r) -> blank1 b1 ->
  solid (tp ++ b2 ++ t ++ b3 ++ 59 :: b4 ++ 59 :: b5 ++ te ++ b6 ++ 125 :: r) ->
  W_verb_path p tp (b2 ++ t ++ b3 ++ 59 :: b4 ++ 59 :: b5 ++ te ++ b6 ++ 125 :: r) -> blank1 b2 ->
  solid (t ++ b3 ++ 59 :: b4 ++ 59 :: b5 ++ te ++ b6 ++ 125 :: r) ->
  W_var_or_term o t (b3 ++ 59 :: b4 ++ 59 :: b5 ++ te ++ b6 ++ 125 :: r) -> blank b3 -> blank b4 -> blank b5 ->
  solid (te ++ b6 ++ 125 :: r) -> not_first 59 (te ++ b6 ++ 125 :: r) -> W_path_entry e te (b6 ++ 125 :: r) -> blank b6 ->
  group_graph_pattern (123 :: b ++ tv ++ b1 ++ tp ++ b2 ++ t ++ b3 ++ 59 :: b4 ++ 59 :: b5 ++ te ++ b6 ++ 125 :: r) =
    Ok r (one_subject v (MkPropertyListPath p (MkObjectListPath [GnpVarOrTerm o]) [e])).
Proof.
  intros B V B1 S P B2 So O B3 B4 B5 Se Ne E B6.
  assert (Sm : forall y, solid (59 :: y)) by (intros y; now apply char_solid).
  pose proof (subject_read b v tv b1 (MkPropertyListPath p (MkObjectListPath [GnpVarOrTerm o]) [e]) (tp ++ b2 ++ t ++ (b3 ++ 59 :: b4 ++ 59 :: b5) ++ te) b6 r) as X.
  repeat (rewrite <- app_assoc in X || cbn [app] in X). apply X; auto. clear X.
  cbn [W_property_list_path manyW].
  apply then_app; [repeat (rewrite <- app_assoc || cbn [app]); exact P|].
  apply then_app; [split; [exact B2|]; repeat (rewrite <- app_assoc || cbn [app]); exact So|].
  apply then_app.
  - cbn [W_object_list_path sep1W tailW W_graph_node_path]. apply then_last; [repeat (rewrite <- app_assoc || cbn [app]); exact O|].
    split; [reflexivity|]. right. exists (b3 ++ 59 :: b4), (59 :: b5 ++ te ++ b6 ++ 125 :: r).
    split; [repeat (rewrite <- app_assoc || cbn [app]); reflexivity|]. split; [|left; now eexists].
    apply then_app; [split; [exact B3|apply Sm]|]. apply then_cons; [reflexivity|]. split; [exact B4|apply Sm].
  - apply then_last; [|split; [reflexivity|apply nxt_char; [exact B6|now apply char_solid|discriminate]]].
    replace (b3 ++ 59 :: b4 ++ 59 :: b5 ++ te) with ((b3 ++ 59 :: b4 ++ 59 :: b5) ++ te) by (repeat (rewrite <- app_assoc || cbn [app]); reflexivity).
    apply then_app; [|exact E]. exists [tt]. cbn [manyW].
    replace (b3 ++ 59 :: b4 ++ 59 :: b5) with ((b3 ++ 59 :: b4) ++ 59 :: b5) by (repeat (rewrite <- app_assoc || cbn [app]); reflexivity).
    apply then_app.
    + apply then_app; [split; [exact B3|apply Sm]|]. apply then_cons; [reflexivity|]. split; [exact B4|apply Sm].
    + apply then_last; [|split; [reflexivity|exists [], (te ++ b6 ++ 125 :: r); repeat split; auto; constructor]].
      apply then_none; [split; [constructor|apply Sm]|]. apply then_cons; [reflexivity|]. now split.
Qed.

(** ** What stands before a further predicate *)
Lemma alt_each {A} (ps : list (parser A)) i : fails (alt ps) i -> forall p, In p ps -> fails p i.
Proof.
  induction ps as [|p ps IH]; intros F q I; [destruct I|]. destruct ps as [|p' ps].
  - destruct I as [<-|[]]. exact F.
  - destruct F as (x & k & F). rewrite alt_cons in F by discriminate. destruct (p i) as [|[]] eqn:E; try discriminate F.
    destruct I as [<-|I]; [unfold fails; eauto|]. apply IH; [unfold fails; eauto|exact I].
Qed.
Lemma map_soft {A B} (p : parser A) (f : A -> B) i : fails (map p f) i -> fails p i.
Proof. intros (x & k & F). apply map_err in F. unfold fails. eauto. Qed.
Lemma node_soft i : fails graph_node_path i -> fails var i /\ fails iri i /\ not_first 40 i.
Proof.
  intros F. unfold fails in F. rewrite graph_node_path_eq in F. change (fails (graph_node_path_body graph_node_path) i) in F.
  assert (V : fails var_or_term i) by (eapply map_soft, (alt_each _ _ F); left; reflexivity).
  assert (T : fails graph_term i) by (eapply map_soft, (alt_each _ _ V); right; left; reflexivity).
  repeat split.
  - eapply map_soft, (alt_each _ _ V). left. reflexivity.
  - eapply map_soft, (alt_each _ _ T). left. reflexivity.
  - apply nil_soft. eapply map_soft, (alt_each _ _ T). do 5 right. left. reflexivity.
Qed.
Lemma tag1_first (c : char) (s : str) i r x : tag (c :: s) i = Ok r x -> first c i.
Proof.
  intros H. destruct i as [|d i]; [exfalso; revert H; apply fails_not_ok, tag_fails_first; exact I|].
  destruct (N.eq_dec d c) as [->|N]; [now eexists|]. exfalso. revert H. apply fails_not_ok, tag_fails_first. exact N.
Qed.
Lemma verb_path_start i r v : verb_path_or_simple i = Ok r v -> fails graph_node_path i -> first 97 i \/ first 33 i \/ first 94 i.
Proof.
  intros H F. apply node_soft in F. destruct F as (Fv & Fi & Fp). apply alt_inv in H. destruct H as (p & [<-|[<-|[]]] & H); apply map_inv in H; destruct H as (y & H & _).
  2: { exfalso. revert H. now apply fails_not_ok. }
  rewrite path_alternative_eq in H. apply map_inv in H. destruct H as (l & H & _).
  apply sepne_iff in H; [|eapply gd_shrinks; intros k; sg|eapply gd_shrinks; intros k; sg]. destruct H as (i1 & a & l' & H & _).
  apply map_inv in H. destruct H as (l2 & H & _). apply sepne_iff in H; [|eapply gd_shrinks; intros k; sg|eapply gd_shrinks; intros k; sg].
  destruct H as (i2 & e & l3 & H & _). apply alt_inv in H. destruct H as (p & [<-|[<-|[]]] & H); apply map_inv in H; destruct H as (z & H & _).
  - apply map_inv in H. destruct H as ([x m] & H & _). apply pair_inv in H. destruct H as (i3 & H & _).
    apply alt_inv in H. destruct H as (p & [<-|[<-|[<-|[<-|[]]]]] & H); apply map_inv in H; destruct H as (w & H & _).
    + exfalso. revert H. now apply fails_not_ok.
    + left. now apply tag1_first in H.
    + right. left. apply preceded_inv in H. destruct H as (i4 & d & H & _). now apply tag1_first in H.
    + exfalso. apply delimited_inv in H. destruct H as (i4 & i5 & d & d' & H & _). apply tag1_first in H. destruct H as (u & ->). now apply Fp.
  - right. right. apply preceded_inv in H. destruct H as (i4 & d & H & _). now apply tag1_first in H.
Qed.
Lemma semi_mark i r a : sp_enc (chr (c_ ";")) i = Ok r a -> solid r /\ exists b c, i = b ++ 59 :: c ++ r /\ blank b /\ blank c.
Proof.
  intros H. assert (S : solid r).
  { apply delimited_inv in H. destruct H as (i1 & i2 & x & y & _ & _ & H). now apply sp_rest in H. }
  split; [exact S|]. apply sp_enc_inv in H. destruct H as (b & k & j & c & -> & Hb & E & -> & Hc). apply chr_inv in E. destruct E as [-> _]. eauto.
Qed.
Lemma predicate_start i r v o e es : property_list_path_not_empty i = Ok r (MkPropertyListPath v o (e :: es)) ->
  exists tv b0 t b1 b2 k, i = tv ++ b0 ++ t ++ b1 ++ 59 :: b2 ++ k /\ R_verb_path v tv /\ blank1 b0 /\ R_object_list_path o t /\ blank b1 /\ blank b2 /\
    (first 59 k \/ first 97 k \/ first 33 k \/ first 94 k).
Proof.
  intros H. apply map_inv in H. destruct H as ([v' [o' es']] & H & E). injection E as -> -> ->.
  apply pair_inv in H. destruct H as (j0 & H0 & H). apply pair_inv in H. destruct H as (j1 & H1 & H2).
  apply terminated_inv in H0. destruct H0 as (i0 & b0 & Hv & Hb). destruct (sd_verb_path_or_simple _ _ _ Hv) as (tv & -> & Rv).
  apply sp1_iff in Hb. destruct Hb as (-> & B0 & _). pose proof (sd_object_list_path _ _ _ H1) as (t & Et & Ro). subst j0.
  apply map_inv in H1. destruct H1 as (l & H1 & El). apply sepne_iff in H1; [|eapply (gd_shrinks false IAny true); mv|eapply (gd_shrinks true IAny true); mv].
  destruct H1 as (m1 & a & l' & _ & _ & M & ->). apply sep_ok_last in M.
  apply many0_iff in H2; [|eapply (gd_shrinks true IAny true); mv]. apply many_head in H2. destruct H2 as (m2 & H2). apply preceded_inv in H2. destruct H2 as (m3 & x & H2 & H3).
  apply many1_iff in H2; [|eapply (gd_shrinks true IAny true); mv]. destruct H2 as (m4 & y & l4 & H2 & M4 & _).
  apply semi_mark in H2. destruct H2 as (S4 & b1 & b2 & -> & B1 & B2).
  exists tv, b0, t, b1, b2, m4. repeat (split; [auto; fail|]).
  assert (T : sp_enc (tag (s_ ";")) (b1 ++ 59 :: b2 ++ m4) = Ok m4 [59]).
  { eapply delimited_ok; [apply sp_ok; [exact B1|now apply char_solid]|exact (tag_ok [59] (b2 ++ m4))|now apply sp_ok]. }
  assert (F : fails graph_node_path m4).
  { inversion M as [z Z|z z1 d Z N Z'|]; subst; [exfalso; exact (fails_not_ok _ _ _ _ Z T)|]. rewrite T in Z. injection Z as <- _. exact Z'. }
  inversion M4 as [z Z|z z1 r' d l5 Z N M5]; subst.
  - right. apply map_inv in H3. destruct H3 as ([w ol] & H3 & _). apply pair_inv in H3. destruct H3 as (i3 & H3 & _). exact (verb_path_start _ _ _ H3 F).
  - left. apply semi_mark in Z. destruct Z as (_ & b & c & -> & Hb & _). destruct b as [|d0 b]; [now eexists|].
    exfalso. pose proof (sp_ok (d0 :: b) (59 :: c ++ z1) Hb (char_solid 59 (c ++ z1) eq_refl)) as Q. rewrite sp_nil in Q by exact S4. discriminate Q.
Qed.
