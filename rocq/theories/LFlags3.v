(** Forms of CONSTRUCT, sub-selects, lists that need a blank after them, the verb [a], words written together. *)
From Verif Require Export LLead LFlags2.
Notation length := List.length (only parsing).
Open Scope N_scope.
Open Scope list_scope.

(** ** CONSTRUCT *)
Lemma sepl_inv {A B} (s : parser B) (p : parser A) i r l : separated_list s p i = Ok r l -> (l = [] /\ r = i) \/ exists i1 a, p i = Ok i1 a.
Proof.
  unfold separated_list. destruct (p i) as [i1 a|[]]; try discriminate; [eauto|]. intros [= <- <-]. auto.
Qed.
Lemma construct_form i r q : construct_query i = Ok r q ->
  exists j, after_word "construct" i j /\ ((exists c, q = CqSubConstruct c) <-> exists x, j = 123 :: x).
Proof.
  intros H. apply tag1_inv in H; [|reflexivity]. destruct H as (j & A & H). exists j. split; [exact A|].
  apply alt_inv in H. destruct H as (p & [<-|[<-|[]]] & H); apply map_inv in H; destruct H as (x & H & <-).
  - split; [intros _|eauto]. apply map_inv in H. destruct H as ([t y] & H & _). apply pair_inv in H. destruct H as (i1 & H & _).
    apply terminated_inv in H. destruct H as (i2 & b & H & _). apply map_inv in H. destruct H as (l & H & _).
    apply delimited_inv in H. destruct H as (i3 & i4 & a & c & H & _). apply terminated_inv in H. destruct H as (i5 & d & H & _).
    apply chr_inv in H. destruct H as [-> _]. eauto.
  - split; [intros [c C]; discriminate|]. intros [y ->]. exfalso. apply map_inv in H. destruct H as ([d z] & H & _).
    apply pair_inv in H. destruct H as (i1 & H1 & H2). apply terminated_inv in H1. destruct H1 as (i2 & b & H1 & H3).
    assert (NF : forall k u, word_like k = true -> klessb k = true -> begins k (123 :: u) -> False).
    { clear. intros k u WL K B. apply (begins_stops (N.eqb 123) k) in B; [|exact WL|reflexivity]. discriminate. }
    apply sepl_inv in H1. destruct H1 as [[-> ->]|(i6 & a & H1)].
    + rewrite sp_nil in H3 by (cbn; split; [clear; intuition discriminate|discriminate]). injection H3 as <- <-.
      destruct z as [w z]. apply pair_inv in H2. destruct H2 as (i7 & H2 & _). apply word1_inv in H2; [|reflexivity]. apply (NF "where"%string y); try reflexivity.
      eapply says_begins, after_says, H2.
    + apply tag1_inv in H1; [|reflexivity]. destruct H1 as (j' & H1 & _). apply (NF "from"%string y); try reflexivity. eapply says_begins, after_says, H1.
Qed.
(** ** Sub-selects *)
Lemma group_inv i r g : group_graph_pattern i = Ok r g ->
  exists b j k, i = 123 :: b ++ j /\ blank b /\ solid j /\
    alt [ Nom.map sub_select GgpSubSelect; Nom.map group_graph_pattern_sub GgpSub ] j = Ok k g /\ exists b', k = b' ++ 125 :: r /\ blank b'.
Proof.
  rewrite group_graph_pattern_eq. intros H. apply delimited_inv in H. destruct H as (i1 & i2 & x & y & H1 & H2 & H3).
  apply chr_inv in H1. destruct H1 as [-> _]. apply chr_inv in H3. destruct H3 as [-> _].
  apply delimited_inv in H2. destruct H2 as (i3 & i4 & b & b' & H1 & H2 & H3). apply sp_iff in H1, H3.
  destruct H1 as (-> & B & S). destruct H3 as (-> & B' & S'). exists b, i3, (b' ++ 125 :: r). eauto 8.
Qed.
Lemma sub_select_says i r s : group_graph_pattern i = Ok r (GgpSubSelect s) -> exists b j, i = 123 :: b ++ j /\ blank b /\ solid j /\ says "select" j.
Proof.
  intros H. apply group_inv in H. destruct H as (b & j & k & -> & B & S & H & _). exists b, j. repeat split; try assumption.
  apply alt_inv in H. destruct H as (p & [<-|[<-|[]]] & H); apply map_inv in H; destruct H as (x & H & E); [|discriminate]. clear E.
  apply map_inv in H. destruct H as ([c z] & H & _). apply pair_inv in H. destruct H as (i1 & H & _). destruct c as [m v].
  apply select_says in H. destruct H as (j' & H & _). eapply after_says, H.
Qed.
Lemma select_decides b w b' x r g : blank b -> kw "select" w -> blank1 b' -> solid x -> not_first 58 x ->
  group_graph_pattern (123 :: b ++ w ++ b' ++ x) = Ok r g -> exists s, g = GgpSubSelect s.
Proof.
  intros B W B' S N H. apply group_inv in H. destruct H as (b0 & j & k & E & B0 & S0 & H & b1 & -> & B1). injection E as E.
  assert (BG : begins "select" (w ++ b' ++ x)) by (exists w, (b' ++ x); auto).
  assert (SL : solid (w ++ b' ++ x)) by now apply (begins_solid "select").
  assert (J : j = w ++ b' ++ x).
  { assert (X1 : sp (b ++ w ++ b' ++ x) = Ok (w ++ b' ++ x) b) by now apply sp_ok.
    assert (X2 : sp (b0 ++ j) = Ok j b0) by now apply sp_ok. rewrite E in X1. congruence. }
  subst j. clear E B0. apply alt_inv in H. destruct H as (p & [<-|[<-|[]]] & H); apply map_inv in H; destruct H as (y & H & <-); [eauto|].
  exfalso. apply map_inv in H. destruct H as ([t l] & H & _). apply pair_inv in H. destruct H as (i1 & H1 & H2). apply opt_inv in H1.
  assert (NI : no_iri (w ++ b' ++ x)).
  { apply no_iri_fails, iri_fails_word; auto; [now apply (letter_kw_prefix "select")|apply brk_name; now apply blank1_brk|apply B']. }
  destruct t as [t|].
  - apply terminated_inv in H1. destruct H1 as (i2 & c & H1 & _). revert H1. apply fails_not_ok. now apply (no_block_word "select").
  - destruct H1 as [-> _]. apply sepl_inv in H2. destruct H2 as [[-> E]|(i2 & a & H2)].
    + rewrite <- E in SL, BG. destruct b1 as [|c b1].
      * apply (begins_stops (N.eqb 125) "select") in BG; [|reflexivity|reflexivity]. discriminate.
      * apply (blank1_no_begins "select" (c :: b1) (125 :: r)); [reflexivity|split; [exact B1|discriminate]|exact BG].
    + apply map_inv in H2. destruct H2 as ([p q] & H2 & _). apply pair_inv in H2. destruct H2 as (i3 & H2 & _). apply pattern_kind in H2.
      unfold announces in H2. assert (X : forall k, says k (w ++ b' ++ x) -> low_ascii (s_ k) = true -> differ (s_ "select") (s_ k) = true -> False).
      { intros k Q L D. apply says_begins in Q. revert Q BG. apply begins_differ; auto. }
      destruct p; cbn [pattern_word] in H2; try (now apply X in H2).
      destruct H2 as (q' & E). rewrite E in BG. apply (begins_stops (N.eqb 123) "select") in BG; [|reflexivity|reflexivity]. discriminate.
Qed.
(** ** Lists that need a blank after them *)
Lemma sep_stuck {A} (p : parser A) i i1 a : p i = Ok i1 a -> i1 <> i -> solid i1 -> fails (separated_nonempty_list sp p) i.
Proof.
  intros E N S. unfold separated_nonempty_list, fails. rewrite E. apply str_eqb_neq in N. rewrite N.
  replace (sep_loop (Datatypes.S (length i1)) sp p i1) with (@Err (list A) (Error i1 KSeparatedList)); [eauto|].
  cbn [sep_loop]. rewrite sp_nil by exact S. assert (X : str_eqb i1 i1 = true) by now apply str_eqb_eq. rewrite X. reflexivity.
Qed.
Lemma sepl_stuck {A} (p : parser A) i i1 a : p i = Ok i1 a -> i1 <> i -> solid i1 -> fails (separated_list sp p) i.
Proof.
  intros E N S. unfold separated_list, fails. rewrite E. apply str_eqb_neq in N. rewrite N.
  replace (sep_loop (Datatypes.S (length i1)) sp p i1) with (@Err (list A) (Error i1 KSeparatedList)); [eauto|].
  cbn [sep_loop]. rewrite sp_nil by exact S. assert (X : str_eqb i1 i1 = true) by now apply str_eqb_eq. rewrite X. reflexivity.
Qed.
