(** Boolean words before a colon; object variables after an IRI; dots at the end of triples. *)
From Verif Require Export LMore1.
From Verif Require Import LMods.
From Verif Require LPrint5.
Notation length := List.length (only parsing).
Open Scope N_scope.
Open Scope list_scope.

(** ** Words before a colon *)
Definition prefix_of (n : PrefixedName) : option str := match n with PnameLN p _ => p | PnameNS p => p end.
Lemma word_colon_iri w b x : prefix_name w -> blank b -> exists r n, iri (w ++ b ++ 58 :: x) = Ok r (IriPrefixedName n) /\ prefix_of n = Some w.
Proof.
  intros W B.
  assert (X : exists r n, prefixed_name (w ++ b ++ 58 :: x) = Ok r n /\ prefix_of n = Some w).
  { assert (P : R_pname_ns (Some w) (w ++ b ++ [58])).
    { exists w, (b ++ [58]). split; [reflexivity|]. split; [split; [reflexivity|exact W]|]. exists b, [58]. repeat split; auto. }
    replace (w ++ b ++ 58 :: x) with ((w ++ b ++ [58]) ++ x) by (now rewrite <- !app_assoc).
    destruct (sp_local_verdict x) as [(b' & l & r & -> & B' & L & U)|N].
    - exists r, (PnameLN (Some w) l). split; [|reflexivity]. now apply prefixed_ln_ok.
    - exists x, (PnameNS (Some w)). split; [|reflexivity]. now apply prefixed_ns_ok. }
  destruct X as (r & n & E & Hn). exists r, n. split; [|exact Hn]. apply alt_next; [|apply alt_first; eapply map_ok; [exact E|reflexivity]].
  apply map_fails, iri_ref_fails. destruct W as (c & t & -> & Hc & _). cbn. intros ->. discriminate.
Qed.
Lemma bool_colon k w b x : In k ["true"; "false"]%string -> kw k w -> blank b ->
  exists r n, var_or_term (w ++ b ++ 58 :: x) = Ok r (VotTerm (GtIri (IriPrefixedName n))) /\ prefix_of n = Some w.
Proof.
  intros I W B. assert (P : prefix_name w) by (cbn in I; destruct I as [<-|[<-|[]]]; eapply letter_kw_prefix; try exact W; reflexivity).
  destruct (word_colon_iri w b x P B) as (r & n & E & Hn). exists r, n. split; [|exact Hn].
  apply alt_next; [apply map_fails, var_fails|].
  1, 2: destruct P as (c & t & -> & Hc & _); cbn; intros ->; discriminate.
  - apply alt_first. eapply map_ok; [|reflexivity]. apply alt_first. eapply map_ok; [exact E|reflexivity].
Qed.
Lemma bool_word (v : bool) w b x : kw (if v then "true" else "false") w -> blank1 b -> solid x -> not_first 58 x ->
  var_or_term (w ++ b ++ x) = Ok (b ++ x) (VotTerm (GtBooleanLiteral v)).
Proof.
  intros W B S N. apply rd_var_or_term. cbn [W_var_or_term W_graph_term W_boolean].
  assert (NI : no_iri (w ++ b ++ x)).
  { apply no_iri_fails, iri_fails_word; auto; [|apply brk_name; now apply blank1_brk|apply B].
    destruct v; (eapply letter_kw_prefix; [|exact W]; reflexivity). }
  destruct v; split; auto.
Qed.

(** ** Object variables after an IRI *)
Lemma var_char_solid c x : var_char c = true -> solid (c :: x) /\ c <> 124 /\ c <> 46.
Proof.
  intros H. split; [apply char_solid|split; intros ->; discriminate].
  destruct (existsb (N.eqb c) [32; 9; 10; 13; 35]) eqn:E; [|reflexivity]. apply existsb_exists in E. destruct E as (d & I & D).
  apply N.eqb_eq in D. subst d. cbn in I. repeat (destruct I as [<-|I]; [discriminate|]). destruct I.
Qed.
Lemma elt_question i t b x : W_iri i t (b ++ 63 :: x) -> blank1 b -> path_elt (t ++ b ++ 63 :: x) = Ok x (MkPathElt (PpIri i) (Some PmQuestionMark)).
Proof.
  intros H B. apply (map_ok _ _ _ _ (PpIri i, Some PmQuestionMark)); [|reflexivity].
  eapply pair_ok; [apply alt_first; eapply map_ok; [exact (rd_iri i t _ H)|reflexivity]|]. apply opt_some.
  eapply preceded_ok; [apply (sp1_ok b (63 :: x)); [exact B|now apply char_solid]|]. destruct x; reflexivity.
Qed.
Lemma path_question i t b c x : W_iri i t (b ++ 63 :: c :: x) -> blank1 b -> var_char c = true ->
  path_alternative (t ++ b ++ 63 :: c :: x) = Ok (c :: x) (MkPathAlternative [MkPathSequence [PeiPathElt (MkPathElt (PpIri i) (Some PmQuestionMark))]]).
Proof.
  intros H B C. destruct (var_char_solid c x C) as (S & N & _). pose proof (elt_question i t b (c :: x) H B) as E.
  assert (M : c :: x <> t ++ b ++ 63 :: c :: x).
  { intros X. apply (f_equal (@List.length char)) in X. rewrite !app_length in X. cbn [length] in X. lia. }
  assert (F : fails (delimited sp (tag (s_ "|")) sp) (c :: x)).
  { eapply delimited_fails2; [now apply sp_nil|]. apply tag_fails. intros r X. injection X as X _. congruence. }
  rewrite path_alternative_eq. eapply map_ok; [|reflexivity].
  eapply sepne_cons; [eapply (gd_shrinks false IAny true); mv|eapply (gd_shrinks true IAny true path_sequence); unfold path_sequence, path_sequence_of; mv| |exact M|apply sep_stop, F].
  eapply map_ok; [|reflexivity].
  eapply sepne_cons; [eapply (gd_shrinks false IAny true); mv|eapply (gd_shrinks true IAny true path_elt_or_inverse); unfold path_elt_or_inverse; mv| |exact M|apply sep_stop, F].
  apply alt_first. eapply map_ok; [exact E|reflexivity].
Qed.

Lemma object_question i t b c x : W_iri i t (b ++ 63 :: c :: x) -> blank1 b -> var_char c = true ->
  fails property_list_path_not_empty (t ++ b ++ 63 :: c :: x).
Proof.
  intros H B C. apply map_fails, pair_fails1. eapply terminated_fails2; [|apply sp1_fails, (var_char_solid c x C)].
  apply alt_first. eapply map_ok; [exact (path_question i t b c x H B C)|reflexivity].
Qed.

(** a group that starts with a variable starts with triples *)
Lemma group_start b c x r g : blank b -> c = 63 \/ c = 36 -> group_graph_pattern (123 :: b ++ c :: x) = Ok r g ->
  exists tb j l k b', triples_block (c :: x) = Ok j tb /\ preceded sp (separated_list sp (ggp_and_triples_of expression group_graph_pattern)) j = Ok k l /\
    k = b' ++ 125 :: r /\ blank b'.
Proof.
  intros B C H. assert (S : solid (c :: x)) by (destruct C; subst; now apply char_solid).
  assert (NB : forall k, word_like k = true -> ~ begins k (c :: x)) by (intros k W; apply LPrint5.nb_char; [exact W|destruct C; subst; lia]).
  apply group_inv in H. destruct H as (b0 & j & k & E & B0 & S0 & H & b1 & -> & B1). injection E as E.
  assert (J : j = c :: x).
  { assert (X1 : sp (b ++ c :: x) = Ok (c :: x) b) by now apply sp_ok.
    assert (X2 : sp (b0 ++ j) = Ok j b0) by now apply sp_ok. rewrite E in X1. congruence. }
  subst j. clear E B0. apply alt_inv in H. destruct H as (p & [<-|[<-|[]]] & H); apply map_inv in H; destruct H as (y & H & <-).
  - exfalso. apply map_inv in H. destruct H as ([cl z] & H & _). apply pair_inv in H. destruct H as (i1 & H & _). destruct cl as [m v].
    apply select_says in H. destruct H as (j' & H & _). apply after_says, says_begins in H. revert H. now apply NB.
  - apply map_inv in H. destruct H as ([t l] & H & _). apply pair_inv in H. destruct H as (i1 & H1 & H2). apply opt_inv in H1. destruct t as [t|].
    + apply terminated_inv in H1. destruct H1 as (i2 & d & H1 & H3). exists t, i2, l, (b1 ++ 125 :: r), b1. split; [exact H1|].
      split; [eapply preceded_ok; [exact H3|exact H2]|]. auto.
    + exfalso. destruct H1 as [-> _]. apply sepl_inv in H2. destruct H2 as [[-> E]|(i2 & a & H2)].
      * destruct b1 as [|d b1]; [destruct C; subst; discriminate E|]. 
        assert (X : sp ((d :: b1) ++ 125 :: r) = Ok (125 :: r) (d :: b1)) by (apply sp_ok; [exact B1|now apply char_solid]).
        rewrite E, sp_nil in X by exact S. discriminate X.
      * apply map_inv in H2. destruct H2 as ([p q] & H2 & _). apply pair_inv in H2. destruct H2 as (i3 & H2 & _). apply pattern_kind in H2.
        unfold announces in H2. destruct p; cbn [pattern_word] in H2; try (apply says_begins in H2; revert H2; now apply NB).
        destruct H2 as (z & E). destruct C; subst; discriminate E.
Qed.
Lemma triple_question v tv b1 i t b2 c x : W_var v tv (b1 ++ t ++ b2 ++ 63 :: c :: x) -> blank1 b1 -> solid (t ++ b2 ++ 63 :: c :: x) ->
  W_iri i t (b2 ++ 63 :: c :: x) -> blank1 b2 -> var_char c = true -> fails triples_block (tv ++ b1 ++ t ++ b2 ++ 63 :: c :: x).
Proof.
  intros V B1 S H B2 C. apply map_fails, sepne_fails. apply alt_fails_cons; [|apply alt_fails_cons; [|apply alt_fails_nil]]; apply map_fails.
  - eapply pair_fails2; [apply alt_first; eapply map_ok; [exact (rd_var v tv _ V)|reflexivity]|].
    eapply preceded_fails2; [apply (sp1_ok b1); [exact B1|exact S]|]. exact (object_question i t b2 c x H B2 C).
  - apply pair_fails1. destruct V as [V _]. apply R_var_text in V. destruct V as (b & -> & _). apply triples_node_path_fails1; destruct v; discriminate.
Qed.
Lemma group_question b v tv b1 i t b2 c x r g : blank b -> W_var v tv (b1 ++ t ++ b2 ++ 63 :: c :: x) -> blank1 b1 -> solid (t ++ b2 ++ 63 :: c :: x) ->
  W_iri i t (b2 ++ 63 :: c :: x) -> blank1 b2 -> var_char c = true -> group_graph_pattern (123 :: b ++ tv ++ b1 ++ t ++ b2 ++ 63 :: c :: x) <> Ok r g.
Proof.
  intros B V B1 S H B2 C E. pose proof (triple_question v tv b1 i t b2 c x V B1 S H B2 C) as F. destruct V as [V _]. apply R_var_text in V. destruct V as (b' & -> & _).
  cbn [app] in *. apply group_start in E; [|exact B|destruct v; cbn; auto]. destruct E as (tb & j & l & k & b3 & E & _). revert E. now apply fails_not_ok.
Qed.

(** ** Dots *)
Lemma pattern_dot x r p : graph_pattern_not_triples (46 :: x) <> Ok r p.
Proof.
  intros H. apply pattern_kind in H. unfold announces in H.
  destruct p; cbn [pattern_word] in H; try (apply says_begins in H; revert H; apply LPrint5.nb_char; [reflexivity|lia]). destruct H as (z & E). discriminate E.
Qed.
Lemma blank_end b c x b' c' x' : blank b -> blank b' -> solid (c :: x) -> solid (c' :: x') -> b ++ c :: x = b' ++ c' :: x' -> c = c'.
Proof.
  intros B B' S S' E. pose proof (sp_ok b _ B S) as X. rewrite E in X. rewrite (sp_ok b' _ B' S') in X. congruence.
Qed.
Lemma pt_dot x r p : ggp_and_triples_of expression group_graph_pattern (46 :: x) <> Ok r p.
Proof.
  intros H. apply map_inv in H. destruct H as ([a b] & H & _). apply pair_inv in H. destruct H as (i1 & H & _). revert H. apply pattern_dot.
Qed.
Lemma sepl_step {A B} (s : parser B) (p : parser A) i r l i1 a : shrinks s -> shrinks p -> separated_list s p i = Ok r l -> p i = Ok i1 a ->
  exists l', sep_ok s p i1 r l' /\ l = a :: l'.
Proof.
  intros Ss Sp H E. assert (X : separated_nonempty_list s p i = Ok r l).
  { unfold separated_list in H. unfold separated_nonempty_list. rewrite E in *. exact H. }
  apply sepne_iff in X; [|exact Ss|exact Sp]. destruct X as (i2 & a' & l' & E' & _ & H' & ->). rewrite E in E'. injection E' as <- <-. eauto.
Qed.
(** a group whose text does not start with the word [select] is a block of triples and patterns *)
Lemma group_text b j r g : blank b -> solid j -> ~ begins "select" j -> group_graph_pattern (123 :: b ++ j) = Ok r g ->
  exists s b', g = GgpSub s /\ group_graph_pattern_sub j = Ok (b' ++ 125 :: r) s /\ blank b'.
Proof.
  intros B S N H. apply group_inv in H. destruct H as (b0 & j0 & k & E & B0 & S0 & H & b1 & -> & B1). injection E as E.
  assert (J : j0 = j).
  { assert (X1 := sp_ok b j B S). assert (X2 := sp_ok b0 j0 B0 S0). rewrite E in X1. congruence. }
  subst j0. clear E B0. apply alt_inv in H. destruct H as (p & [<-|[<-|[]]] & H); apply map_inv in H; destruct H as (y & H & <-); [|eauto].
  exfalso. apply map_inv in H. destruct H as ([cl z] & H & _). apply pair_inv in H. destruct H as (i1 & H & _). destruct cl as [m v].
  apply select_says in H. destruct H as (j' & H & _). now apply after_says, says_begins in H.
Qed.
(** no triple where no block starts (as [no_block_fails]) *)
Lemma no_block_triple r : no_block r -> fails triples_same_subject_path r.
Proof.
  intros [[x ->]|[[x ->]|[B [N|(j & t & r' & -> & H & (b & x & -> & Hb & S & Gn))]]]].
  - apply tssp_fails; [now apply triples_node_path_fails1|now apply var_or_term_first].
  - apply tssp_fails; [now apply triples_node_path_fails1|now apply var_or_term_first].
  - destruct B as [B|[B|[B|[B|[B|[B|B]]]]]]; (apply tssp_fails; [eapply node_path_word_fails; [|exact B]; reflexivity|eapply vot_word_fails; [|exact B|exact N]; reflexivity]).
  - unfold triples_same_subject_path.
    apply alt_fails_cons; [|apply alt_fails_cons; [|apply alt_fails_nil]]; apply map_fails.
    + unfold sp_sep1. eapply pair_fails2.
      * apply (rd_var_or_term (VotTerm (GtIri j)) t (b ++ x)). exact H.
      * destruct b as [|c b]; [apply preceded_fails1, sp1_fails; exact S|]. eapply preceded_fails2; [apply sp1_ok; [split; [exact Hb|discriminate]|exact S]|].
        now apply group_or_nil_fails.
    + apply pair_fails1. destruct B as [B|[B|[B|[B|[B|[B|B]]]]]]; (eapply node_path_word_fails; [|exact B]; reflexivity).
Qed.
(** the triples of a block, then a dot, then something that is not a triple: the dot is left over *)
Lemma block_dot l t b b' x : sep1W W_tssp dotsW (fun r => r = b ++ 46 :: b' ++ x) l t (b ++ 46 :: b' ++ x) -> blank b -> blank b' -> solid x ->
  not_first 46 x -> no_block x -> triples_block (t ++ b ++ 46 :: b' ++ x) = Ok (b ++ 46 :: b' ++ x) (MkTriplesBlock l).
Proof.
  intros H B B' S N NB. eapply map_ok; [|reflexivity]. revert t H.
  assert (X : rd (separated_nonempty_list (many1 (sp_enc (chr (c_ ".")))) triples_same_subject_path) l (sep1W W_tssp dotsW (fun r => r = b ++ 46 :: b' ++ x) l)).
  { apply rd_sep1; [exact rd_tssp|mv|mv|now apply rdx_marks|intros t r; now apply (many1W_ne' ".")|].
    intros r ->. assert (D : dotsW (b ++ 46 :: b') x).
    { exists []. exists (b ++ 46 :: b'), []. rewrite app_nil_r. split; [reflexivity|]. split.
      - exists b, (46 :: b'). split; [reflexivity|]. split; [split; [exact B|now apply char_solid]|]. exists [46], b'. split; [reflexivity|]. split; [reflexivity|].
        rewrite app_nil_l. split; assumption.
      - cbn. split; [reflexivity|]. now apply nxt_solid. }
    destruct (rdx_marks 46 "." eq_refl _ _ D) as [y E]. rewrite <- app_assoc in E. cbn [app] in E. eapply sep_back; [exact E| |].
    - intros F. apply (f_equal (@List.length BinNums.N)) in F. rewrite app_length in F. cbn in F. rewrite app_length in F. lia.
    - now apply no_block_triple. }
  intros t H. exact (X _ _ H).
Qed.
Lemma group_dot b0 l t b b' x r g : blank b0 -> sep1W W_tssp dotsW (fun r => r = b ++ 46 :: b' ++ x) l t (b ++ 46 :: b' ++ x) ->
  blank b -> blank b' -> solid x -> not_first 46 x -> no_block x -> solid (t ++ b ++ 46 :: b' ++ x) -> ~ begins "select" (t ++ b ++ 46 :: b' ++ x) ->
  group_graph_pattern (123 :: b0 ++ t ++ b ++ 46 :: b' ++ x) <> Ok r g.
Proof.
  intros B0 H B B' S N NB St Ns E. apply group_text in E; [|assumption..]. destruct E as (s & b1 & -> & E & B1).
  apply map_inv in E. destruct E as ([o l'] & E & _). apply pair_inv in E. destruct E as (i1 & E1 & E2).
  pose proof (block_dot l t b b' x H B B' S N NB) as Hb.
  rewrite (opt_some _ _ (46 :: b' ++ x) (MkTriplesBlock l)) in E1.
  2:{ eapply terminated_ok; [exact Hb|]. apply sp_ok; [exact B|now apply char_solid]. }
  injection E1 as <- <-. apply sepl_inv in E2. destruct E2 as [[-> E]|(i2 & a & E)]; [|revert E; apply pt_dot].
  symmetry in E. apply (blank_end [] 46 (b' ++ x) b1 125 r) in E; [discriminate|constructor|exact B1|now apply char_solid..].
Qed.
(** a dot that no digit follows starts no triple *)
Lemma double_dot y : stops isd y -> fails numeric_literal (46 :: y).
Proof.
  intros D. assert (F : fails sparql_decimal (46 :: y)).
  { apply (decimal_fails [] 1%Z (46 :: y)); [constructor|reflexivity|discriminate|discriminate|]. intros c r' [= ->]. exact D. }
  apply alt_fails_cons; [|apply alt_fails_cons; [|apply alt_fails_nil]]; apply map_fails.
  - apply (sparql_int_fails_start [] 1%Z (46 :: y)); [constructor|reflexivity|discriminate|discriminate].
  - now apply pair_fails1.
Qed.
Lemma triple_dot y : stops isd y -> fails triples_block (46 :: y).
Proof.
  intros D. apply triples_block_fails, tssp_fails; [now apply triples_node_path_fails1|]. unfold var_or_term.
  apply alt_fails_cons; [now apply map_fails, var_first|]. apply alt_fails_cons; [|apply alt_fails_nil]. apply map_fails. unfold graph_term.
  apply alt_fails_cons; [now apply map_fails, iri_fails_first|].
  apply alt_fails_cons; [now apply map_fails, lit_first|].
  apply alt_fails_cons; [now apply map_fails, double_dot|].
  apply alt_fails_cons; [now apply map_fails, boolean_first|].
  apply alt_fails_cons; [now apply map_fails, blank_node_first|].
  apply alt_fails_cons; [now apply map_fails, nil_first|apply alt_fails_nil].
Qed.
Lemma shrinks_sp : shrinks sp.
Proof. eapply (gd_shrinks false IAny true). mv. Qed.
Lemma shrinks_pt : shrinks (ggp_and_triples_of expression group_graph_pattern).
Proof. eapply (gd_shrinks true IAny true). mv. Qed.
(** a pattern, then a dot *)
Lemma pattern_then_dot b0 p t b y r g : blank b0 -> W_pattern W_expression W_ggp p t (b ++ 46 :: y) -> blank b -> stops isd y -> solid (t ++ b ++ 46 :: y) ->
  no_block (t ++ b ++ 46 :: y) -> ~ begins "select" (t ++ b ++ 46 :: y) -> group_graph_pattern (123 :: b0 ++ t ++ b ++ 46 :: y) <> Ok r g.
Proof.
  intros B0 H B Dy S NB Ns E. apply group_text in E; [|assumption..]. destruct E as (s & b1 & -> & E & B1).
  apply map_inv in E. destruct E as ([o l'] & E & _). apply pair_inv in E. destruct E as (i1 & E1 & E2).
  rewrite (opt_none (terminated triples_block sp)) in E1; [|apply terminated_fails1; now apply no_block_fails]. injection E1 as <- <-.
  pose proof (triple_dot y Dy) as D.
  assert (X : ggp_and_triples_of expression group_graph_pattern (t ++ b ++ 46 :: y) = Ok (b ++ 46 :: y) (MkGraphPatternAndTriples p None)).
  { apply (map_ok _ _ _ _ (p, None)); [|reflexivity]. eapply pair_ok; [exact (rd_pattern W_expression W_ggp rd_expression rd_ggp p _ _ H)|].
    eapply preceded_ok; [apply opt_none; eapply preceded_fails2; [apply sp_ok; [exact B|now apply char_solid]|now apply chr_fails]|].
    apply opt_none. eapply preceded_fails2; [apply sp_ok; [exact B|now apply char_solid]|exact D]. }
  apply (sepl_step _ _ _ _ _ _ _ shrinks_sp shrinks_pt E2) in X. destruct X as (l & X & ->). clear E2. assert (K : b1 ++ 125 :: r = b ++ 46 :: y -> False).
  { intros K. apply (blank_end _ _ _ _ _ _ B1 B) in K; [discriminate|now apply char_solid..]. }
  inversion X; subst; try (now apply K).
  rewrite sp_ok in H0 by (assumption || now apply char_solid). injection H0 as <- <-. revert H2. apply pt_dot.
Qed.

(** a pattern, then a question mark: the mark is taken as a separator *)
Lemma pattern_then_question b0 p t b y r g : blank b0 -> W_pattern W_expression W_ggp p t (b ++ 63 :: y) -> blank b -> solid (t ++ b ++ 63 :: y) ->
  no_block (t ++ b ++ 63 :: y) -> ~ begins "select" (t ++ b ++ 63 :: y) -> group_graph_pattern (123 :: b0 ++ t ++ b ++ 63 :: y) = Ok r g ->
  exists o l, g = GgpSub (MkGroupGraphPatternSub None (MkGraphPatternAndTriples p o :: l)) /\
    exists k, opt (preceded sp triples_block) y = Ok k o.
Proof.
  intros B0 H B S NB Ns E. apply group_text in E; [|assumption..]. destruct E as (s & b1 & -> & E & B1).
  apply map_inv in E. destruct E as ([o l'] & E & <-). apply pair_inv in E. destruct E as (i1 & E1 & E2).
  rewrite (opt_none (terminated triples_block sp)) in E1; [|apply terminated_fails1; now apply no_block_fails]. injection E1 as <- <-.
  pose proof (rd_pattern W_expression W_ggp rd_expression rd_ggp p _ _ H) as X.
  assert (K : forall x, t ++ b ++ 63 :: y <> 125 :: x).
  { intros x K. rewrite K in X. apply pattern_kind in X. unfold announces in X.
    destruct p; cbn [pattern_word] in X; try (apply says_begins in X; revert X; apply LPrint5.nb_char; [reflexivity|lia]). destruct X as (z & E). discriminate E. }
  assert (Q : opt (preceded sp (chr (c_ "?"))) (b ++ 63 :: y) = Ok y (Some 63)).
  { apply opt_some. eapply preceded_ok; [apply sp_ok; [exact B|now apply char_solid]|apply chr_ok]. }
  destruct (opt (preceded sp triples_block) y) as [k o|e] eqn:O.
  - assert (Y : ggp_and_triples_of expression group_graph_pattern (t ++ b ++ 63 :: y) = Ok k (MkGraphPatternAndTriples p o)).
    { apply (map_ok _ _ _ _ (p, o)); [|reflexivity]. eapply pair_ok; [exact X|]. eapply preceded_ok; [exact Q|exact O]. }
    apply (sepl_step _ _ _ _ _ _ _ shrinks_sp shrinks_pt E2) in Y. destruct Y as (l & _ & ->). eauto.
  - exfalso. assert (Y : ggp_and_triples_of expression group_graph_pattern (t ++ b ++ 63 :: y) = Err e).
    { assert (Z : preceded (opt (preceded sp (chr (c_ "?")))) (opt (preceded sp triples_block)) (b ++ 63 :: y) = Err e).
      { unfold preceded at 1. unfold Nom.map, Nom.pair. rewrite Q, O. reflexivity. }
      unfold ggp_and_triples_of, Nom.map, separated_pair, Nom.pair. fold (graph_pattern_not_triples). rewrite X, Z. reflexivity. }
    unfold separated_list in E2. rewrite Y in E2. destruct e; try discriminate E2. injection E2 as E2 <-.
    assert (Z := sp_ok b1 (125 :: r) B1). rewrite <- E2, (sp_nil _ S) in Z. specialize (Z ltac:(now apply char_solid)). injection Z as Z _.
    now apply (K r).
Qed.
