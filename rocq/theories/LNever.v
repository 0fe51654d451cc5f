(** Trees that are never produced, and hard failures. *)
From Verif Require Export LC3.
Notation length := List.length (only parsing).
Open Scope N_scope.
Open Scope list_scope.

(** ** [cut]: an opening bracket that is not the empty one *)
Lemma cut_fails_hard {A} (p : parser A) i : fails p i -> exists x k, cut p i = Err (Failure x k).
Proof. intros (x & k & H). unfold cut. rewrite H. eauto. Qed.
Lemma cut_soft {A} (p : parser A) i : ~ fails (cut p) i.
Proof. intros (x & k & H). unfold cut in H. destruct (p i) as [|[]]; discriminate. Qed.
(** what follows an opening bracket, when it is not a blank and the closing one *)
Definition other (c : char) (i : str) : Prop := exists b r, i = b ++ r /\ blank b /\ solid r /\ not_first c r.
Lemma other_dec c i : negb (oneof [32; 9; 10; 13; 35] c) = true -> other c i \/ exists b r, i = b ++ c :: r /\ blank b.
Proof.
  intros N. destruct (blank_split i) as (b & r & -> & Hb & Hs). destruct r as [|x r].
  - left. exists b, []. split; [reflexivity|]. split; [assumption|]. split; [assumption|exact I].
  - destruct (N.eq_dec x c) as [->|D]; [right; exists b, r; auto|]. left. exists b, (x :: r). split; [reflexivity|]. split; [assumption|]. split; [assumption|exact D].
Qed.
Lemma closing_hard o c i : other c i -> exists x k, preceded (chr o) (cut (terminated sp (chr c))) (o :: i) = Err (Failure x k).
Proof.
  intros (b & r & -> & Hb & Hs & N). destruct (cut_fails_hard (terminated sp (chr c)) (b ++ r)) as (x & k & E).
  - eapply terminated_fails2; [now apply sp_ok|]. now apply chr_fails.
  - exists x, k. unfold preceded, map, pair. rewrite chr_ok, E. reflexivity.
Qed.
Lemma map_hard {A B} (p : parser A) (f : A -> B) i : (exists x k, p i = Err (Failure x k)) -> exists x k, map p f i = Err (Failure x k).
Proof. intros (x & k & H). unfold map. rewrite H. eauto. Qed.
Lemma alt_hard {A} (p : parser A) ps i : (exists x k, p i = Err (Failure x k)) -> exists x k, alt (p :: ps) i = Err (Failure x k).
Proof. intros (x & k & H). exists x, k. destruct ps; cbn [alt]; now rewrite H. Qed.
Lemma alt_hard_next {A} (p q : parser A) ps i : fails p i -> (exists x k, alt (q :: ps) i = Err (Failure x k)) ->
  exists x k, alt (p :: q :: ps) i = Err (Failure x k).
Proof. intros (x & k & H) (y & m & E). exists y, m. rewrite alt_cons by discriminate. now rewrite H. Qed.
Lemma vot_hard_paren i : other 41 i -> exists x k, var_or_term (40 :: i) = Err (Failure x k).
Proof.
  intros H. unfold var_or_term. apply alt_hard_next; [now apply map_fails, var_first|]. apply alt_hard, map_hard.
  unfold graph_term. apply alt_hard_next; [now apply map_fails, iri_fails_first|].
  apply alt_hard_next; [now apply map_fails, lit_first|]. apply alt_hard_next; [now apply map_fails, num_first_fails|].
  apply alt_hard_next; [now apply map_fails, boolean_first|]. apply alt_hard_next; [now apply map_fails, blank_node_first|].
  apply alt_hard, map_hard. now apply closing_hard.
Qed.
Lemma vot_hard_square i : other 93 i -> exists x k, var_or_term (91 :: i) = Err (Failure x k).
Proof.
  intros H. unfold var_or_term. apply alt_hard_next; [now apply map_fails, var_first|]. apply alt_hard, map_hard.
  unfold graph_term. apply alt_hard_next; [now apply map_fails, iri_fails_first|].
  apply alt_hard_next; [now apply map_fails, lit_first|]. apply alt_hard_next; [now apply map_fails, num_first_fails|].
  apply alt_hard_next; [now apply map_fails, boolean_first|].
  apply alt_hard, map_hard. unfold blank_node. apply alt_hard_next; [now apply map_fails, pair_fails1, tag_fails_first|].
  apply alt_hard, map_hard. now apply closing_hard.
Qed.
Lemma vot_nil b r : blank b -> var_or_term (40 :: b ++ 41 :: r) = Ok r (VotTerm GtNil).
Proof.
  intros Hb. change (40 :: b ++ 41 :: r) with ((40 :: b) ++ 41 :: r). replace ((40 :: b) ++ 41 :: r) with ((s_ "(" ++ b ++ s_ ")") ++ r).
  - apply rd_var_or_term. cbn [W_var_or_term W_graph_term]. exists (s_ "("), (b ++ s_ ")"). split; [reflexivity|]. split; [reflexivity|].
    exists b, (s_ ")"). split; [reflexivity|]. split; [assumption|reflexivity].
  - cbn. now rewrite <- app_assoc.
Qed.
Lemma vot_anon b r : blank b -> var_or_term (91 :: b ++ 93 :: r) = Ok r (VotTerm (GtBlankNode Anon)).
Proof.
  intros Hb. change (91 :: b ++ 93 :: r) with ((91 :: b) ++ 93 :: r). replace ((91 :: b) ++ 93 :: r) with ((s_ "[" ++ b ++ s_ "]") ++ r).
  - apply rd_var_or_term. cbn [W_var_or_term W_graph_term]. split; [|exact I]. exists (s_ "["), (b ++ s_ "]"). split; [reflexivity|]. split; [reflexivity|].
    exists b, (s_ "]"). split; [reflexivity|]. split; [assumption|reflexivity].
  - cbn. now rewrite <- app_assoc.
Qed.
(** at an opening bracket [var_or_term] decides *)
Lemma vot_bracket i : ~ (not_first 40 i /\ not_first 91 i) -> ~ fails var_or_term i.
Proof.
  intros H F. destruct i as [|c i]; [apply H; split; exact I|].
  destruct (N.eq_dec c 40) as [->|D1]; [|destruct (N.eq_dec c 91) as [->|D2]; [|now apply H]].
  - destruct (other_dec 41 i eq_refl) as [O|(b & r & -> & Hb)].
    + destruct (vot_hard_paren i O) as (x & k & E). destruct F as (y & m & F). congruence.
    + eapply fails_not_ok; [exact F|now apply vot_nil].
  - destruct (other_dec 93 i eq_refl) as [O|(b & r & -> & Hb)].
    + destruct (vot_hard_square i O) as (x & k & E). destruct F as (y & m & F). congruence.
    + eapply fails_not_ok; [exact F|now apply vot_anon].
Qed.
Lemma vot_fails_first i : fails var_or_term i -> not_first 40 i /\ not_first 91 i.
Proof.
  intros F. assert (X : ~ ~ (not_first 40 i /\ not_first 91 i)) by (intros K; now apply (vot_bracket i)).
  destruct i as [|c i]; [split; exact I|]. cbn in *. split; intros ->; apply X; intros [H1 H2]; congruence.
Qed.
(** ** Nodes are terms *)
Lemma graph_node_term i r g : graph_node i = Ok r g -> exists v, g = GnVarOrTerm v.
Proof.
  rewrite graph_node_eq. unfold graph_node_body. rewrite alt_cons by discriminate.
  destruct (map var_or_term GnVarOrTerm i) as [r' g'|e] eqn:E.
  - intros [= <- <-]. apply map_inv in E. destruct E as (v & _ & <-). eauto.
  - intros H. destruct e; try discriminate. exfalso.
    assert (F : fails var_or_term i). { unfold map in E. destruct (var_or_term i) as [|e] eqn:E'; [discriminate|]. injection E as ->. exists pos, k. exact E'. }
    apply vot_fails_first in F. destruct F as [F1 F2]. pose proof (triples_node_fails1 i F1 F2) as F.
    cbn [alt] in H. apply map_inv in H. destruct H as (t & H & _). exact (fails_not_ok _ _ _ _ F H).
Qed.
Lemma graph_node_path_term i r g : graph_node_path i = Ok r g -> exists v, g = GnpVarOrTerm v.
Proof.
  rewrite graph_node_path_eq. unfold graph_node_path_body. rewrite alt_cons by discriminate.
  destruct (map var_or_term GnpVarOrTerm i) as [r' g'|e] eqn:E.
  - intros [= <- <-]. apply map_inv in E. destruct E as (v & _ & <-). eauto.
  - intros H. destruct e; try discriminate. exfalso.
    assert (F : fails var_or_term i). { unfold map in E. destruct (var_or_term i) as [|e] eqn:E'; [discriminate|]. injection E as ->. exists pos, k. exact E'. }
    apply vot_fails_first in F. destruct F as [F1 F2]. pose proof (triples_node_path_fails1 i F1 F2) as F.
    cbn [alt] in H. apply map_inv in H. destruct H as (t & H & _). exact (fails_not_ok _ _ _ _ F H).
Qed.
Lemma pair_hard1 {A B} (p : parser A) (q : parser B) i : (exists x k, p i = Err (Failure x k)) -> exists x k, pair p q i = Err (Failure x k).
Proof. intros (x & k & H). exists x, k. unfold pair. now rewrite H. Qed.
(** a non-empty bracket where a node is expected *)
Lemma node_hard c o i : (o = 40 /\ c = 41) \/ (o = 91 /\ c = 93) -> other c i ->
  (exists x k, graph_node (o :: i) = Err (Failure x k)) /\ (exists x k, graph_node_path (o :: i) = Err (Failure x k)) /\
  (exists x k, triples_same_subject_path (o :: i) = Err (Failure x k)).
Proof.
  intros D O. assert (V : exists x k, var_or_term (o :: i) = Err (Failure x k)).
  { destruct D as [[-> ->]|[-> ->]]; [now apply vot_hard_paren|now apply vot_hard_square]. }
  rewrite graph_node_eq, graph_node_path_eq. unfold graph_node_body, graph_node_path_body, triples_same_subject_path.
  split; [|split]; apply alt_hard, map_hard; try exact V. now apply pair_hard1.
Qed.
Lemma map_err {A B} (p : parser A) (f : A -> B) i x k : map p f i = Err (Error x k) -> p i = Err (Error x k).
Proof. unfold map. destruct (p i); [discriminate|]. now intros [= ->]. Qed.
Lemma not_firsts_dec a b i : (not_first a i /\ not_first b i) \/ exists x, i = a :: x \/ i = b :: x.
Proof.
  destruct i as [|c i]; [left; split; exact I|]. destruct (N.eq_dec c a) as [->|D1]; [right; eauto|].
  destruct (N.eq_dec c b) as [->|D2]; [right; eauto|]. left. now split.
Qed.
Lemma nxt_blank c b r : negb (oneof [32; 9; 10; 13; 35] c) = true -> blank b -> nxt (first c) (b ++ c :: r).
Proof.
  intros N Hb. exists b, (c :: r). split; [reflexivity|]. split; [assumption|]. split; [apply (first_solid c); [now exists r|assumption]|now exists r].
Qed.
Lemma triples_node_path_nil b r : blank b -> fails triples_node_path (40 :: b ++ 41 :: r).
Proof.
  intros Hb. unfold triples_node_path, triples_node_path_of. apply alt_fails_cons; [|apply alt_fails_cons; [|apply alt_fails_nil]]; apply map_fails.
  - now apply delimited_fails1, terminated_fails1, tag_fails_first.
  - eapply delimited_fails2; [apply (tag_ok (s_ "("))|]. apply many1_fails, graph_node_path_fails.
    + apply (vot_blank_fails _ 41); [now apply nxt_blank|reflexivity].
    + apply triples_node_path_fails1; [apply (stops_oneof [40])|apply (stops_oneof [91])]; try (now left);
        apply (nxt_first_stops _ 41); try reflexivity; now apply nxt_blank.
Qed.
Lemma triples_node_path_anon b r : blank b -> fails triples_node_path (91 :: b ++ 93 :: r).
Proof.
  intros Hb. unfold triples_node_path, triples_node_path_of. apply alt_fails_cons; [|apply alt_fails_cons; [|apply alt_fails_nil]]; apply map_fails.
  - eapply delimited_fails2.
    + eapply terminated_ok; [apply (tag_ok (s_ "["))|apply sp_ok; [exact Hb|]]. apply solid_first. cbn. intuition discriminate.
    + apply map_fails, pair_fails1, terminated_fails1. unfold verb_path_or_simple. apply alt_fails_cons; [now apply map_fails, path_first_fails|].
      apply alt_fails_cons; [now apply map_fails, var_first|apply alt_fails_nil].
  - now apply delimited_fails1, tag_fails_first.
Qed.
Lemma tssp_term i r s : triples_same_subject_path i = Ok r s -> exists v p, s = TsspTerm v p.
Proof.
  unfold triples_same_subject_path. rewrite alt_cons by discriminate. intros H.
  destruct (map (sp_sep1 var_or_term property_list_path_not_empty) (fun '(t, l) => TsspTerm t l) i) as [r' s'|e] eqn:E.
  - injection H as -> ->. apply map_inv in E. destruct E as ([v p] & _ & <-). eauto.
  - destruct e; try discriminate. exfalso. cbn [alt] in H. apply map_inv in H. destruct H as ([n p] & H & _).
    apply pair_inv in H. destruct H as (i1 & H & _).
    destruct (not_firsts_dec 40 91 i) as [[N1 N2]|(x & [-> | ->])].
    + eapply fails_not_ok; [|exact H]. now apply triples_node_path_fails1.
    + destruct (other_dec 41 x eq_refl) as [O|(b & r0 & -> & Hb)].
      * destruct (vot_hard_paren x O) as (y & m & V). apply map_err in E. unfold sp_sep1, separated_pair, pair in E. rewrite V in E. discriminate.
      * eapply fails_not_ok; [|exact H]. now apply triples_node_path_nil.
    + destruct (other_dec 93 x eq_refl) as [O|(b & r0 & -> & Hb)].
      * destruct (vot_hard_square x O) as (y & m & V). apply map_err in E. unfold sp_sep1, separated_pair, pair in E. rewrite V in E. discriminate.
      * eapply fails_not_ok; [|exact H]. now apply triples_node_path_anon.
Qed.
(** ** Argument and expression lists *)
Lemma nil_soft i : fails nil_ i -> not_first 40 i.
Proof.
  intros F. destruct i as [|c i]; [exact I|]. cbn. intros ->. destruct F as (x & k & F). unfold nil_, preceded, map, pair in F.
  change (c_ "(") with 40 in F. rewrite (chr_ok 40 i) in F. destruct (cut (terminated sp (chr (c_ ")"))) i) as [|e] eqn:E; [discriminate|].
  injection F as ->. apply (cut_soft (terminated sp (chr (c_ ")"))) i). unfold fails. eauto.
Qed.
Lemma arg_list_nil {E} (e : parser E) i r a : arg_list_of e i = Ok r a -> a = AlNil.
Proof.
  unfold arg_list_of. rewrite alt_cons by discriminate. intros H. destruct (map nil_ (fun _ => AlNil) i) as [r' x'|e'] eqn:K.
  - injection H as -> ->. apply map_inv in K. destruct K as (v & _ & <-). reflexivity.
  - destruct e'; try discriminate. exfalso. cbn [alt] in H. apply map_inv in H. destruct H as (y & H & _).
    apply map_err in K. assert (F : fails nil_ i) by (unfold fails; eauto). apply nil_soft in F.
    apply delimited_inv in H. destruct H as (i1 & i2 & x & z & H & _). apply terminated_inv in H. destruct H as (i3 & w & H & _).
    apply chr_inv in H. destruct H as [-> _]. now apply F.
Qed.
Lemma expression_list_nil {E} (e : parser E) i r a : expression_list_of e i = Ok r a -> a = ElNil.
Proof.
  unfold expression_list_of. rewrite alt_cons by discriminate. intros H. destruct (map nil_ (fun _ => ElNil) i) as [r' x'|e'] eqn:K.
  - injection H as -> ->. apply map_inv in K. destruct K as (v & _ & <-). reflexivity.
  - destruct e'; try discriminate. exfalso. cbn [alt] in H. apply map_inv in H. destruct H as (y & H & _).
    apply map_err in K. assert (F : fails nil_ i) by (unfold fails; eauto). apply nil_soft in F.
    apply delimited_inv in H. destruct H as (i1 & i2 & x & z & H & _). apply chr_inv in H. destruct H as [-> _]. now apply F.
Qed.
(** ** Paths: one sequence *)
Lemma sep_ok_last {A B} (s : parser B) (p : parser A) i r l : sep_ok s p i r l -> sep_ok s p r r [].
Proof. induction 1; [now apply sep_stop|eapply sep_back; eassumption|assumption]. Qed.
Lemma sep_end {A B C} (s : parser B) (p : parser A) (q : parser C) r r' l : sep_ok s p r r [] ->
  (forall i, fails p i -> fails q i) -> sep_ok s q r r' l -> l = [] /\ r' = r.
Proof.
  intros H F K. inversion K as [j X|j i1 b E N X|j i1 i2 r2 b a l' E N X M]; subst; auto. exfalso.
  inversion H as [j Y|j i1' b' E' N' Y|]; subst; [exact (fails_not_ok _ _ _ _ Y E)|].
  rewrite E in E'. injection E' as <- <-. exact (fails_not_ok _ _ _ _ (F _ Y) X).
Qed.
Lemma path_one i r p : path_alternative i = Ok r p -> exists l, p = MkPathAlternative [MkPathSequence l].
Proof.
  rewrite path_alternative_eq. unfold path_alternative_body. intros H. apply map_inv in H. destruct H as (l & H & <-).
  apply sepne_iff in H; [|eapply gd_shrinks; intros k; sg|eapply gd_shrinks; intros k; sg].
  destruct H as (i1 & a & l' & H & N & S & ->). unfold path_sequence_of in H. apply map_inv in H. destruct H as (els & H & <-).
  apply sepne_iff in H; [|eapply gd_shrinks; intros k; sg|eapply gd_shrinks; intros k; sg].
  destruct H as (i2 & b & l2 & H & N2 & S2 & ->). apply sep_ok_last in S2.
  destruct (sep_end _ _ _ _ _ _ S2 (fun i F => map_fails _ MkPathSequence _ (sepne_fails (delimited sp (tag (s_ "|")) sp) _ _ F)) S) as [-> ->].
  eauto.
Qed.
(** ** Updates *)
Lemma update_stmt_kinds i r u : update_stmt i = Ok r u -> (forall a, u <> UsAdd a) /\ (forall a, u <> UsMove a).
Proof.
  intros H. apply alt_inv in H. destruct H as (q & Hq & E). cbn [In] in Hq.
  repeat (destruct Hq as [<-|Hq]; [apply map_inv in E; destruct E as (y & _ & <-); split; discriminate|]). destruct Hq.
Qed.
Lemma string_literal_arg_kinds i r s : string_literal_arg i = Ok r s -> (exists x, s = SLSimple x) \/ (exists x l, s = SLLanguage x l).
Proof.
  intros H. apply alt_inv in H. destruct H as (q & Hq & E). cbn [In] in Hq. destruct Hq as [<-|[<-|[]]].
  - apply map_inv in E. destruct E as (y & _ & <-). eauto.
  - apply map_inv in E. destruct E as ([x [l|]] & _ & <-); eauto.
Qed.
(** ** For C20 and C29 *)
Lemma brackets_hard o c b i : (o = 40 /\ c = 41) \/ (o = 91 /\ c = 93) -> blank b -> solid i -> not_first c i ->
  (exists x k, graph_node (o :: b ++ i) = Err (Failure x k)) /\ (exists x k, graph_node_path (o :: b ++ i) = Err (Failure x k)) /\
  (exists x k, triples_same_subject_path (o :: b ++ i) = Err (Failure x k)).
Proof. intros D Hb Hs N. apply (node_hard c); [assumption|]. exists b, i. auto. Qed.
Lemma one_element e t r : W_elt_or_inverse W_path e t r -> nxt (not_first 124) r ->
  path_alternative (t ++ r) = Ok r (MkPathAlternative [MkPathSequence [e]]).
Proof.
  intros H N. apply rd_path. apply (W_path_intro W_path); [auto|]. cbn. exists t, []. split; [now rewrite app_nil_r|]. split; [exact H|]. now split.
Qed.
Lemma slash_unread e t r : W_elt_or_inverse W_path e t (47 :: r) ->
  path_alternative (t ++ 47 :: r) = Ok (47 :: r) (MkPathAlternative [MkPathSequence [e]]).
Proof.
  intros H. apply one_element; [exact H|]. exists [], (47 :: r). split; [reflexivity|]. split; [apply blank_nil|].
  split; [|discriminate]. apply (first_solid 47); [now exists r|reflexivity].
Qed.
