(** Inversion of the combinators; query forms; DISTINCT in aggregates. *)
From Verif Require Export LProp1.
Notation length := List.length (only parsing).
Open Scope N_scope.
Open Scope list_scope.

Lemma map_inv {A B} (p : parser A) (f : A -> B) i r b : map p f i = Ok r b -> exists a, p i = Ok r a /\ f a = b.
Proof. unfold map. destruct (p i) as [r' a|]; [|discriminate]. intros [= -> <-]. eauto. Qed.
Lemma pair_inv {A B} (p : parser A) (q : parser B) i r a b : pair p q i = Ok r (a, b) ->
  exists i1, p i = Ok i1 a /\ q i1 = Ok r b.
Proof.
  unfold pair. destruct (p i) as [i1 a'|]; [|discriminate]. destruct (q i1) as [i2 b'|] eqn:E; [|discriminate].
  intros [= -> -> ->]. eauto.
Qed.
Lemma preceded_inv {A B} (p : parser A) (q : parser B) i r b : preceded p q i = Ok r b ->
  exists i1 a, p i = Ok i1 a /\ q i1 = Ok r b.
Proof. intros H. apply map_inv in H. destruct H as ([a b'] & H & <-). apply pair_inv in H. destruct H as (i1 & H1 & H2). eauto. Qed.
Lemma terminated_inv {A B} (p : parser A) (q : parser B) i r a : terminated p q i = Ok r a ->
  exists i1 b, p i = Ok i1 a /\ q i1 = Ok r b.
Proof. intros H. apply map_inv in H. destruct H as ([a' b] & H & <-). apply pair_inv in H. destruct H as (i1 & H1 & H2). eauto. Qed.
Lemma delimited_inv {A B C} (p : parser A) (q : parser B) (s : parser C) i r b : delimited p q s i = Ok r b ->
  exists i1 i2 a c, p i = Ok i1 a /\ q i1 = Ok i2 b /\ s i2 = Ok r c.
Proof.
  intros H. apply preceded_inv in H. destruct H as (i1 & a & H1 & H2). apply terminated_inv in H2.
  destruct H2 as (i2 & c & H2 & H3). eauto 8.
Qed.
Lemma opt_inv {A} (p : parser A) i r o : opt p i = Ok r o ->
  match o with Some a => p i = Ok r a | None => r = i /\ fails p i end.
Proof.
  unfold opt. destruct (p i) as [r' a|e] eqn:E; [intros [= -> <-]; reflexivity|].
  destruct e; try discriminate. intros [= -> <-]. split; [reflexivity|]. unfold fails. eauto.
Qed.
Lemma alt_inv {A} (ps : list (parser A)) i r a : alt ps i = Ok r a -> exists p, In p ps /\ p i = Ok r a.
Proof.
  induction ps as [|p ps IH]; [discriminate|]. destruct ps as [|q ps].
  - cbn [alt]. intros H. exists p. split; [now left|]. exact H.
  - rewrite alt_cons by discriminate. destruct (p i) as [r' a'|e] eqn:E.
    + intros [= -> ->]. exists p. split; [now left|assumption].
    + destruct e; try discriminate. intros H. apply IH in H. destruct H as (p' & H1 & H2). exists p'. split; [now right|assumption].
Qed.
Lemma chr_inv c i r x : chr c i = Ok r x -> i = c :: r /\ x = c.
Proof.
  unfold chr. destruct i as [|y i]; [discriminate|]. destruct (N.eqb_spec y c); [|discriminate]. intros [= -> ->]. subst. auto.
Qed.

(** ** Query forms *)
Lemma R_query_word q t : R_query q t -> exists w u, t = w ++ u /\ kw (form_word q) w.
Proof.
  intros H. destruct q as [q|q|q|q]; cbn [R_query form_word] in *.
  1: destruct q. 2: destruct q as [[m v] d w m']. 3: destruct q. 4: destruct q; cbn [R_construct_query] in H.
  1, 3, 4, 5: destruct H as (u & v' & -> & Hw & _); eauto.
  destruct H as (u & v' & -> & (w' & u' & -> & Hw & _) & _). exists w', (u' ++ v'). split; [now rewrite <- app_assoc|assumption].
Qed.
Lemma query_form i r q : sparql_query i = Ok r q -> begins (form_word q) i.
Proof.
  intros H. apply sd_sparql_query in H. destruct H as (t & -> & H). apply R_query_word in H.
  destruct H as (w & u & -> & Hw). exists w, (u ++ r). split; [now rewrite <- app_assoc|assumption].
Qed.
Lemma stmt_form i r p q v : sparql_query_stmt i = Ok r (MkSparqlQueryStatement p q v) ->
  exists t b j, i = t ++ b ++ j /\ R_prologue p t /\ blank b /\ begins (form_word q) j.
Proof.
  intros H. apply sd_sparql_query_stmt in H. destruct H as (t & -> & u & x & -> & Hu & b & y & -> & Hb & z & w & -> & Hz & _).
  apply R_query_word in Hz. destruct Hz as (k & z' & -> & Hk). exists u, b, (k ++ z' ++ w ++ r).
  repeat split; auto; [now rewrite <- !app_assoc|]. exists k, (z' ++ w ++ r). auto.
Qed.
Lemma kwd_prefix_unique (k k' t t' r r' : str) : kwd k t -> kwd k' t' -> t ++ r = t' ++ r' ->
  length k = length k' -> k = k'.
Proof.
  intros <- <- E. rewrite !map_length. intros Hl. assert (t = t'); [|now subst].
  revert t' Hl E. induction t as [|c t IH]; intros [|c' t'] Hl E; try discriminate; [reflexivity|].
  injection E as -> E. injection Hl as Hl. now rewrite (IH t' Hl E).
Qed.
(** one keyword at most *)
Lemma begins_lit k i : begins k i -> exists t r, i = t ++ r /\ kwd (s_ k) t. Proof. auto. Qed.
Lemma begins_disjoint k k' i : differ (s_ k) (s_ k') = true -> begins k i -> begins k' i -> False.
Proof.
  intros D (t & r & -> & H) (t' & r' & E & H'). revert D E H H'. unfold kw. generalize (s_ k), (s_ k'). clear.
  intros w w' D E H H'. revert w w' t' D E H H'. induction t as [|c t IH]; intros w w' t' D E H H'; subst w.
  - discriminate.
  - destruct t' as [|c' t']; subst w'; [discriminate|]. injection E as -> E. cbn in D. rewrite N.eqb_refl in D.
    eapply IH; eauto. exact D.
Qed.

(** ** Characters *)
Lemma in_ranges_app a b c : in_ranges (a ++ b) c = in_ranges a c || in_ranges b c.
Proof. unfold in_ranges. apply existsb_app. Qed.
Lemma var_char_w3c c : c < 0x10000 -> in_ranges letters (c mod 256) = in_ranges letters c -> var_char c = w3c_var_first c.
Proof.
  intros L E. unfold var_char, w3c_var_first, start_char, w3c_start, base_char, w3c_base. rewrite !in_ranges_app, E. f_equal. f_equal.
  assert (Z : in_ranges [(0x10000, 0xEFFFF)] c = false).
  { unfold in_ranges, existsb. rewrite orb_false_r. apply andb_false_iff. left. now apply N.leb_gt. }
  now rewrite Z, orb_false_r.
Qed.

(** ** Local names have two units *)
Lemma local_name_two c : ~ local_name [c].
Proof.
  intros (u & t & E & Hu & Ht & N).
  assert (U : u <> []) by (destruct Hu as [[(a & b & -> & _)|(x & -> & _)]|(x & -> & _)]; discriminate).
  destruct u as [|x u]; [congruence|]. injection E as -> E. symmetry in E. apply app_eq_nil in E. destruct E as [-> ->].
  apply N. constructor.
Qed.
Lemma never_single i r p c : prefixed_name i <> Ok r (PnameLN p [c]).
Proof.
  intros H. apply prefixed_ln_iff in H. destruct H as (t & b & _ & _ & _ & L & _). now apply local_name_two in L.
Qed.

(** ** DISTINCT *)
Lemma distinct_at i : says_distinct i -> exists r, terminated distinct sp1 i = Ok r true.
Proof.
  intros (w & b & r & -> & Hw & Hb & N). destruct (blank_split r) as (b2 & r2 & -> & H2 & S2). exists r2.
  eapply terminated_ok; [eapply map_ok; [apply tnc_ok; [reflexivity|exact Hw]|reflexivity]|].
  rewrite app_assoc. apply sp1_ok; [|assumption]. split; [now apply blank_app|]. destruct b; [congruence|discriminate].
Qed.
Lemma opt_distinct_says i r d : opt_distinct i = Ok r d -> d = true <-> says_distinct i.
Proof.
  intros H. apply map_inv in H. destruct H as (o & H & <-). apply opt_inv in H. destruct o as [d|]; cbn [unwrap_or_default].
  - apply terminated_inv in H. destruct H as (i1 & b & H1 & H2). apply map_inv in H1. destruct H1 as (w & H1 & <-).
    split; [intros _|reflexivity]. apply tnc_iff in H1; [|reflexivity|apply nokel; vm_compute; intuition discriminate].
    destruct H1 as [-> Hw]. apply sp1_iff in H2. destruct H2 as (-> & Hb & _). exists w, b, r. auto.
  - destruct H as [-> F]. split; [discriminate|]. intros H. apply distinct_at in H. destruct H as [r' H].
    destruct (fails_not_ok _ _ _ _ F H).
Qed.
Definition dexp {E} (d : DistinctExpression E) : bool := match d with MkDistinctExpression d _ => d end.
Lemma distinct_expression_says {E} (e : parser E) i r d : distinct_expression_of e i = Ok r d -> dexp d = true <-> says_distinct i.
Proof.
  intros H. apply map_inv in H. destruct H as ([b x] & H & <-). apply pair_inv in H. destruct H as (i1 & H & _).
  eapply opt_distinct_says, H.
Qed.
Lemma bracketted_inv {A} (p : parser A) i r a : bracketted p i = Ok r a -> exists i1 r1, i = 40 :: i1 /\ p i1 = Ok r1 a.
Proof.
  intros H. apply delimited_inv in H. destruct H as (i1 & i2 & x & y & H1 & H2 & _). apply chr_inv in H1. destruct H1 as [-> _].
  exists i1, i2. auto.
Qed.
Lemma preceded_tag_inv {A} k (p : parser A) i r a : low_ascii k = true -> no_kelvin k i -> preceded_tag k p i = Ok r a ->
  exists w b j, i = w ++ b ++ j /\ kwd k w /\ blank b /\ p j = Ok r a.
Proof.
  intros K NK H. apply preceded_inv in H. destruct H as (i1 & x & H1 & H2). apply terminated_inv in H1.
  destruct H1 as (i2 & b & H1 & H3). apply tnc_iff in H1; auto. destruct H1 as [-> H1]. apply sp_iff in H3.
  destruct H3 as (-> & H3 & _). exists x, b, i1. auto.
Qed.
Lemma aggregate_distinct {E} (e : parser E) i r a : aggregate_of e i = Ok r a ->
  exists k w b j, In k aggregate_names /\ i = w ++ b ++ 40 :: j /\ kw k w /\ blank b /\
    (is_distinct a = true <-> says_distinct j).
Proof.
  intros H. apply alt_inv in H. destruct H as (p & Hp & H).
  assert (X : forall A (k : string) (q : parser A) (f : A -> Aggregate E) (isd : A -> bool),
    low_ascii (s_ k) = true -> ~ In 107 (s_ k) -> In k aggregate_names -> (forall x, is_distinct (f x) = isd x) ->
    (forall i r x, q i = Ok r x -> isd x = true <-> says_distinct i) ->
    map (preceded_tag (s_ k) (bracketted q)) f i = Ok r a ->
    exists k w b j, In k aggregate_names /\ i = w ++ b ++ 40 :: j /\ kw k w /\ blank b /\
      (is_distinct a = true <-> says_distinct j)).
  { clear. intros A k q f dd K NK I Hf Hq H. apply map_inv in H. destruct H as (x & H & <-).
    apply preceded_tag_inv in H; [|assumption|now apply nokel]. destruct H as (w & b & j & -> & Hw & Hb & H).
    apply bracketted_inv in H. destruct H as (i1 & r1 & -> & H). exists k, w, b, i1. repeat split; auto; rewrite Hf; eapply Hq, H. }
  assert (NI : forall k, forallb (fun c => negb (c =? 107)) (s_ k) = true -> ~ In 107 (s_ k)).
  { clear. intros k H C. rewrite forallb_forall in H. apply H in C. discriminate. }
  destruct Hp as [<-|[<-|[<-|[<-|[<-|[<-|[<-|[]]]]]]]].
  - apply map_inv in H. destruct H as (c & H & <-).
    apply (X _ "count"%string (pair opt_distinct (count_target_of e)) (fun '(d, t) => AgCount (MkCount d t)) fst);
      [reflexivity|now apply NI|now left|now intros []| |].
    + clear. intros i r [d t] H. apply pair_inv in H. destruct H as (i1 & H & _). eapply opt_distinct_says, H.
    + apply map_inv in H. destruct H as ([d t] & H & <-). eapply map_ok; [exact H|reflexivity].
  - apply (X _ "sum"%string (distinct_expression_of e) AgSum dexp); [reflexivity|now apply NI|cbn; auto 10|now intros []|apply distinct_expression_says|exact H].
  - apply (X _ "min"%string (distinct_expression_of e) AgMin dexp); [reflexivity|now apply NI|cbn; auto 10|now intros []|apply distinct_expression_says|exact H].
  - apply (X _ "max"%string (distinct_expression_of e) AgMax dexp); [reflexivity|now apply NI|cbn; auto 10|now intros []|apply distinct_expression_says|exact H].
  - apply (X _ "avg"%string (distinct_expression_of e) AgAvg dexp); [reflexivity|now apply NI|cbn; auto 10|now intros []|apply distinct_expression_says|exact H].
  - apply (X _ "sample"%string (distinct_expression_of e) AgSample dexp); [reflexivity|now apply NI|cbn; auto 10|now intros []|apply distinct_expression_says|exact H].
  - apply map_inv in H. destruct H as (c & H & <-). apply map_inv in H. destruct H as ([x s] & H & <-).
    eapply (X _ "group_concat"%string _ (fun '(x, s) => AgGroupConcat (MkGroupConcat x s)) (fun '(x, s) => dexp x));
      [reflexivity|now apply NI|cbn; auto 10|now intros [[] ?]| |eapply map_ok; [exact H|reflexivity]].
    clear. intros i r [x s] H. apply pair_inv in H. destruct H as (i1 & H & _). eapply distinct_expression_says, H.
Qed.

(** ** Blanks *)
Lemma blanks_alike b b' i : blank b -> blank b' -> exists r u v, sp (b ++ i) = Ok r u /\ sp (b' ++ i) = Ok r v.
Proof.
  intros H H'. destruct (blank_split i) as (b2 & r & -> & H2 & S). exists r, (b ++ b2), (b' ++ b2).
  rewrite !app_assoc. split; apply sp_ok; auto using blank_app.
Qed.
Lemma sp1_longest i r b : sp1 i = Ok r b <-> i = b ++ r /\ longest blank b i /\ b <> [].
Proof.
  rewrite sp1_iff. split.
  - intros (-> & [Hb N] & S). split; [reflexivity|]. split; [now apply solid_longest|assumption].
  - intros (E & L & N). split; [assumption|]. assert (H : sp i = Ok r b) by (apply sp_longest; auto).
    apply sp_iff in H. destruct H as (_ & Hb & S). repeat split; auto.
Qed.

(** ** Query forms are told apart by the keyword *)
Lemma keyword_decides k i r q : In k ["select"; "construct"; "describe"; "ask"]%string ->
  begins k i -> sparql_query i = Ok r q -> form_word q = k.
Proof.
  intros Hk B H. apply query_form in H.
  cbn in Hk. destruct Hk as [<-|[<-|[<-|[<-|[]]]]]; destruct q; try reflexivity; exfalso;
    (eapply begins_disjoint; [|exact B|exact H]; reflexivity).
Qed.

(** ** Compatibility of string arguments *)
Lemma str_eqb_iff a b : str_eqb a b = true <-> a = b.
Proof. apply str_eqb_eq. Qed.
Lemma compatible_not_simple a b : (forall s, a <> SLSimple s) -> (compatible_arg a b = true <-> compatible_doc a b).
Proof.
  intros N. destruct a as [s|s g|s]; [now destruct (N s)| |]; destruct b as [t|t h|t]; cbn; split; intros H; auto; try discriminate.
  - right. right. split; [eauto|exact I].
  - right. left. apply str_eqb_iff in H. subst. eauto.
  - apply str_eqb_iff. destruct H as [[[] _]|[(s' & t' & g' & H1 & H2)|[_ []]]]. congruence.
  - right. right. split; [eauto|exact I].
  - left. split; exact I.
  - destruct H as [[_ []]|[(s' & t' & g' & H1 & H2)|[_ []]]]; discriminate.
  - left. split; exact I.
Qed.
Lemma compatible_simple s b : compatible_arg (SLSimple s) b = true <-> ~ compatible_doc (SLSimple s) b.
Proof.
  destruct b as [t|t h|t]; cbn; split; intros H; try discriminate; try reflexivity.
  - destruct H. left. split; exact I.
  - intros [[_ []]|[(s' & t' & g' & H1 & H2)|[_ []]]]. discriminate.
  - destruct H. left. split; exact I.
Qed.

(** ** Signs and path modifiers *)
Lemma str_eqb_ff a b : str_eqb a b = false <-> a <> b.
Proof.
  destruct (str_eqb a b) eqn:E; split; auto; try discriminate.
  - apply str_eqb_iff in E. contradiction.
  - intros _ H. apply str_eqb_iff in H. congruence.
Qed.
Lemma sign_from_str_iff x s : sign_from_str x = Some s <-> (x = s_ "+" \/ x = []) /\ s = POS \/ x = s_ "-" /\ s = NEG.
Proof.
  unfold sign_from_str. destruct (str_eqb x (s_ "+")) eqn:E1; [apply str_eqb_iff in E1; subst x|
    destruct (str_eqb x []) eqn:E2; [apply str_eqb_iff in E2; subst x|destruct (str_eqb x (s_ "-")) eqn:E3; [apply str_eqb_iff in E3; subst x|]]]; cbn [orb].
  - split; [intros [= <-]; auto|]. intros [[_ ->]|[H _]]; [reflexivity|discriminate].
  - split; [intros [= <-]; auto|]. intros [[_ ->]|[H _]]; [reflexivity|discriminate].
  - split; [intros [= <-]; auto|]. intros [[[H|H] _]|[_ ->]]; [discriminate..|reflexivity].
  - apply str_eqb_ff in E1, E2, E3. split; [discriminate|]. intros [[[H|H] _]|[H _]]; contradiction.
Qed.
Lemma path_mod_from_str_iff x m : path_mod_from_str x = Some m <-> R_mod m x.
Proof.
  unfold path_mod_from_str. destruct (str_eqb x (s_ "?")) eqn:E1; [apply str_eqb_iff in E1; subst x|
    destruct (str_eqb x (s_ "*")) eqn:E2; [apply str_eqb_iff in E2; subst x|destruct (str_eqb x (s_ "+")) eqn:E3; [apply str_eqb_iff in E3; subst x|]]].
  1-3: split; [intros [= <-]; reflexivity|]; destruct m; intros H; try discriminate; reflexivity.
  apply str_eqb_ff in E1, E2, E3. split; [discriminate|]. destruct m; intros H; hnf in H; contradiction.
Qed.
Lemma path_mod_iff i r m : path_mod i = Ok r m <-> exists t, i = t ++ r /\ R_mod m t.
Proof.
  split.
  - apply sd_path_mod.
  - intros (t & -> & H). assert (X : exists c, t = [c] /\ c < 128 /\ path_mod_from_str t = Some m).
    { destruct m; hnf in H; subst t; eexists; repeat split; reflexivity. }
    destruct X as (c & -> & C & X). pose proof (split_at_ascii [c] r) as Y. specialize (Y ltac:(now constructor)).
    change ([c] ++ r) with (c :: r) in *. unfold path_mod. change (length [c]) with 1%nat in Y. now rewrite Y, X.
Qed.
Lemma sign_iff i r s : sign i = Ok r s <-> i = sign_to_str s ++ r.
Proof.
  split.
  - intros H. apply alt_inv in H. destruct H as (p & [<-|[<-|[]]] & H); apply map_inv in H; destruct H as (c & H & <-);
      apply chr_inv in H; destruct H as [-> ->]; reflexivity.
  - intros ->. destruct s; reflexivity.
Qed.
