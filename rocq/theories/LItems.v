(** A group of groups: plain ones, chains of them joined with UNION, and those behind OPTIONAL, MINUS, GRAPH, SERVICE and FILTER with EXISTS. *)
From Verif Require Import LMods LC8 LDepth2 LFlags LFlags3 LFlags4 LBlock4 LAlike LWhere LLit LPrint1 LPrint2 LFirst LSize LUnion LExists.
From Verif Require Export LForms LPlace SpecBlock.
From Verif Require Import Nom.
Notation length := List.length (only parsing).
Open Scope N_scope.
Open Scope list_scope.
Notation gg := group_graph_pattern (only parsing).
Notation gat := (ggp_and_triples_of expression group_graph_pattern) (only parsing).

(** what stands before the block, or the chain behind it *)
Inductive intro : Type :=
| Plain (us : list member)
| Optional (w b : str)
| Minus (w b : str)
| Graph (w b : str) (x : VarOrIri) (t b' : str)
| Service (w b : str) (s : bool) (u : str) (x : VarOrIri) (t b' : str)
| FilterExists (w b w' b' : str)
| FilterNotExists (w b v u w' b' : str).
Record item := Item { item_intro : intro; item_block : str; item_gap : str }.
Definition intro_text (o : intro) : str :=
  match o with
  | Plain _ => []
  | Optional w b | Minus w b => w ++ b
  | Graph w b _ t b' => w ++ b ++ t ++ b'
  | Service w b _ u _ t b' => w ++ b ++ u ++ t ++ b'
  | FilterExists w b w' b' => w ++ b ++ w' ++ b'
  | FilterNotExists w b v u w' b' => w ++ b ++ v ++ u ++ w' ++ b'
  end.
(** the words are followed by blanks; the name is read before any brace, and starts with neither a blank nor a colon *)
Definition intro_ok (o : intro) : Prop :=
  match o with
  | Plain us => Forall member_ok us
  | Optional w b => kw "optional" w /\ blank1 b
  | Minus w b => kw "minus" w /\ blank1 b
  | Graph w b x t b' => kw "graph" w /\ blank1 b /\ blank b' /\
      forall y, solid (t ++ b' ++ 123 :: y) /\ not_first 58 (t ++ b' ++ 123 :: y) /\ W_var_or_iri x t (b' ++ 123 :: y)
  | Service w b s u x t b' => kw "service" w /\ blank1 b /\ blank b' /\
      forall y, solid (u ++ t ++ b' ++ 123 :: y) /\ not_first 58 (u ++ t ++ b' ++ 123 :: y) /\ W_silent s u (t ++ b' ++ 123 :: y) /\ W_var_or_iri x t (b' ++ 123 :: y)
  | FilterExists w b w' b' => kw "filter" w /\ blank1 b /\ kw "exists" w' /\ blank1 b'
  | FilterNotExists w b v u w' b' => kw "filter" w /\ blank1 b /\ kw "not" v /\ blank1 u /\ kw "exists" w' /\ blank1 b'
  end.
Definition joined (o : intro) : list member := match o with Plain us => us | _ => [] end.
Definition item_ok (a : item) : Prop := intro_ok (item_intro a) /\ block (item_block a) /\ blank1 (item_gap a).
Fixpoint items_text (l : list item) : str := match l with [] => [] | a :: l => intro_text (item_intro a) ++ item_block a ++ LUnion.chain (joined (item_intro a)) ++ item_gap a ++ items_text l end.
(** the tree of an item, from those of its block and of the blocks joined to it *)
Definition item_tree (o : intro) (g : GroupGraphPattern) (l : list GroupGraphPattern) : GraphPatternNotTriples Expression GroupGraphPattern :=
  match o with
  | Plain _ => GpGroupOrUnion (MkGroupOrUnion (g :: l))
  | Optional _ _ => GpOptional g
  | Minus _ _ => GpMinus g
  | Graph _ _ x _ _ => GpGraph (MkGraphGraphPattern x g)
  | Service _ _ s _ x _ _ => GpService (MkServiceGraphPattern x s g)
  | FilterExists _ _ _ _ => GpFilter (CoBuiltInCall (BiExistsFunc g))
  | FilterNotExists _ _ _ _ _ _ => GpFilter (CoBuiltInCall (BiNotExistsFunc g))
  end.
Definition item_reads (a : item) (p : GraphPatternAndTriples Expression GroupGraphPattern) : Prop :=
  exists g l, gg (item_block a) = Ok [] g /\ Forall2 member_reads (joined (item_intro a)) l /\ p = MkGraphPatternAndTriples (item_tree (item_intro a) g l) None.

(** where an item or the closing brace starts *)
Definition at_item (y : str) : Prop := solid y /\ fails triples_block y /\ not_first 63 y /\ ~ begins "union" y /\ no_word1 "select" y.
Lemma mark_at c y : c = 123 \/ c = 125 -> at_item (c :: y).
Proof.
  intros C. split; [destruct C; subst; [apply solid_open|apply solid_close]|]. split; [destruct C; subst; [apply brace_no_block|apply close_no_block]|].
  split; [destruct C; subst; discriminate|].
  assert (N : forall k, In k ["union"; "select"]%string -> ~ begins k (c :: y)).
  { intros k K (t & r & E & T). unfold kw in T. cbn [In] in K. destruct K as [<-|[<-|[]]]; (destruct t as [|x t]; [discriminate T|]; injection E as <- _; destruct C; subst; vm_compute in T; discriminate T). }
  split; [apply N; cbn; auto|]. apply nw_begins, N. cbn. auto.
Qed.
Lemma kw_head k w z : (3 <= String.length k)%nat -> kw k w -> firstn 3 (List.map lower (w ++ z)) = firstn 3 (s_ k).
Proof.
  intros L K. pose proof (kw_len k w K) as LW. rewrite map_app, firstn_app, map_length, LW. unfold kw in K. rewrite K.
  replace (3 - String.length k)%nat with O by lia. cbn [firstn]. apply app_nil_r.
Qed.
Definition item_words : list string := ["optional"; "minus"; "graph"; "service"; "filter"]%string.
Lemma word_not k k' w z : In k item_words -> In k' ["union"; "select"]%string -> kw k w -> ~ begins k' (w ++ z).
Proof.
  intros I I' K (t & r & E & T). pose proof (kw_head k w z) as H. pose proof (kw_head k' t r) as H'. rewrite <- E in H'.
  cbn [In item_words] in I, I'. destruct I as [<-|[<-|[<-|[<-|[<-|[]]]]]], I' as [<-|[<-|[]]]; (rewrite H in H'; [|cbn; lia|exact K]); (assert (X := H' ltac:(cbn; lia) T); vm_compute in X; discriminate X).
Qed.
Lemma word_mark k w b z : letter_word k = true -> not_bool k = true -> kw k w -> blank1 b -> solid z -> not_first 58 z ->
  solid (w ++ b ++ z) /\ fails triples_block (w ++ b ++ z) /\ not_first 63 (w ++ b ++ z) /\ not_first 125 (w ++ b ++ z).
Proof.
  intros LW NB K B S C. assert (WL : word_like k = true) by (now apply andb_true_iff in LW). split; [now apply (kw_solid' k)|]. split.
  { apply (no_block_word k); [exact NB|exists w, (b ++ z); auto|]. apply no_iri_fails, iri_fails_word; [now apply (letter_kw_prefix k)|apply brk_name; now apply blank1_brk|apply B|exact S|exact C]. }
  split; now apply (LC8.word_not _ k).
Qed.
(** in front of a UNION that is left over *)
Definition stuck (r : str) : Prop := exists b z, blank1 b /\ r = b ++ z /\ solid z /\ fails triples_block z /\ not_first 63 z /\ not_first 125 z /\ fails gat z.
Lemma chain_stuck u us x : member_ok u -> stuck (LUnion.chain (u :: us) ++ x).
Proof.
  intros (B & K & B' & (i & BL & _)). exists (union_before u), (union_word u ++ union_after u ++ union_block u ++ LUnion.chain us ++ x). cbn [LUnion.chain]. rewrite <- !app_assoc.
  set (y := union_block u ++ LUnion.chain us ++ x). assert (S : solid y /\ not_first 58 y) by (unfold y; rewrite BL; split; [apply solid_open|discriminate]). destruct S as [S C].
  destruct (word_mark "union" (union_word u) (union_after u) y eq_refl eq_refl K B' S C) as (M1 & M2 & M3 & M4).
  split; [exact B|]. split; [reflexivity|]. repeat (split; [assumption|]). apply map_fails, pair_fails1.
  unfold graph_pattern_not_triples_of. apply alt_fails_cons; [now apply map_fails, map_fails, sepne_fails, (brace_not "union")|]. fl K.
Qed.
Lemma word_item k w b z : In k item_words -> kw k w -> blank1 b -> solid z -> not_first 58 z -> at_item (w ++ b ++ z).
Proof.
  intros I K B S C. assert (LW : letter_word k = true /\ not_bool k = true) by (cbn [In item_words] in I; destruct I as [<-|[<-|[<-|[<-|[<-|[]]]]]]; split; reflexivity). destruct LW as [LW NB].
  assert (WL : word_like k = true) by (now apply andb_true_iff in LW).
  split; [now apply (kw_solid' k)|]. split.
  { apply (no_block_word k); [exact NB|exists w, (b ++ z); auto|]. apply no_iri_fails, iri_fails_word; [now apply (letter_kw_prefix k)|apply brk_name; now apply blank1_brk|apply B|exact S|exact C]. }
  split.
  { pose proof (kw_starts k _ WL K) as (c & t & -> & H). cbn. intros ->. cbn [In item_words] in I. destruct I as [<-|[<-|[<-|[<-|[<-|[]]]]]]; vm_compute in H; decompose [or] H; try discriminate; contradiction. }
  split; [now apply (word_not k); cbn; auto|]. apply nw_begins. now apply (word_not k); cbn; auto.
Qed.
Lemma item_at a z : item_ok a -> at_item (intro_text (item_intro a) ++ item_block a ++ z).
Proof.
  intros (O & (i & -> & _) & _). destruct (item_intro a) as [|w b|w b|w b x t b'|w b s u x t b'|w b w' b'|w b v u w' b']; cbn [intro_text intro_ok] in *; rewrite <- ?app_assoc; cbn [app].
  - apply mark_at. auto.
  - destruct O as [K B]. apply (word_item "optional"); cbn; auto; [apply solid_open|discriminate].
  - destruct O as [K B]. apply (word_item "minus"); cbn; auto; [apply solid_open|discriminate].
  - destruct O as (K & B & _ & N). destruct (N (i ++ z)) as (S & C & _). apply (word_item "graph"); cbn; auto.
  - destruct O as (K & B & _ & N). destruct (N (i ++ z)) as (S & C & _). apply (word_item "service"); cbn; auto.
  - destruct O as (K & B & K' & B'). apply (word_item "filter"); cbn; auto 9; [now apply (kw_solid' "exists")|now apply (LC8.word_not 58 "exists")].
  - destruct O as (K & B & K' & B' & _). apply (word_item "filter"); cbn; auto 9; [now apply (kw_solid' "not")|now apply (LC8.word_not 58 "not")].
Qed.
Lemma items_at l x : Forall item_ok l -> at_item (items_text l ++ 125 :: x).
Proof.
  intros F. destruct l as [|a l]; [apply mark_at; auto|]. inversion F as [|a' l' O F']; subst. cbn [items_text]. rewrite <- !app_assoc. now apply item_at.
Qed.
Lemma graph_name w b x t b' j r x' g : kw "graph" w -> blank1 b -> solid (t ++ b' ++ j) -> W_var_or_iri x t (b' ++ j) -> blank b' -> solid j ->
  graph_pattern_not_triples (w ++ b ++ t ++ b' ++ j) = Ok r (GpGraph (MkGraphGraphPattern x' g)) -> x' = x.
Proof.
  intros K B S0 W B' S H. destruct (term_at "graph" w b _ eq_refl K B S0) as [y Y]. apply rd_var_or_iri in W.
  assert (Z : terminated var_or_iri sp (t ++ b' ++ j) = Ok j x) by (eapply terminated_ok; [exact W|now apply sp_ok]).
  apply alt_inv in H. destruct H as (p & [<-|[<-|[<-|[<-|[<-|[<-|[<-|[<-|[]]]]]]]]] & H); apply map_inv in H; destruct H as (z & H & X); try discriminate X.
  injection X as ->. apply map_inv in H. destruct H as ([y' [x1 g']] & H & X). injection X as -> ->. apply pair_inv in H. destruct H as (k & E & H). rewrite Y in E. injection E as <- <-.
  apply pair_inv in H. destruct H as (k & E & H). rewrite Z in E. now injection E as <- <-.
Qed.
Lemma service_name w b s u x t b' j r x' s' g : kw "service" w -> blank1 b -> solid (u ++ t ++ b' ++ j) -> W_silent s u (t ++ b' ++ j) -> W_var_or_iri x t (b' ++ j) -> blank b' -> solid j ->
  graph_pattern_not_triples (w ++ b ++ u ++ t ++ b' ++ j) = Ok r (GpService (MkServiceGraphPattern x' s' g)) -> x' = x /\ s' = s.
Proof.
  intros K B S0 V W B' S H. destruct (term_at "service" w b _ eq_refl K B S0) as [y Y]. apply rd_var_or_iri in W. apply rd_opt_silent in V.
  assert (Z : terminated var_or_iri sp (t ++ b' ++ j) = Ok j x) by (eapply terminated_ok; [exact W|now apply sp_ok]).
  apply alt_inv in H. destruct H as (p & [<-|[<-|[<-|[<-|[<-|[<-|[<-|[<-|[]]]]]]]]] & H); apply map_inv in H; destruct H as (z & H & X); try discriminate X.
  injection X as ->. apply map_inv in H. destruct H as ([y' [s1 [x1 g']]] & H & X). injection X as -> -> ->. apply pair_inv in H. destruct H as (k & E & H). rewrite Y in E. injection E as <- <-.
  apply pair_inv in H. destruct H as (k & E & H). rewrite V in E. injection E as <- <-. apply pair_inv in H. destruct H as (k & E & H). rewrite Z in E. now injection E as <- <-.
Qed.
Lemma item_pattern a y r p : item_ok a -> at_item y -> joined (item_intro a) = [] -> 
  (graph_pattern_not_triples (intro_text (item_intro a) ++ item_block a ++ item_gap a ++ y) = Ok r p <->
   r = item_gap a ++ y /\ exists g, gg (item_block a) = Ok [] g /\ p = item_tree (item_intro a) g []).
Proof.
  intros (O & BL & G) (S & _ & _ & NU & _) J. set (z := item_gap a ++ y). pose proof (block_solid _ z BL) as SB.
  destruct (item_intro a) as [us|w b|w b|w b x t b'|w b s u x t b'|w b w' b'|w b v u w' b']; cbn [intro_text intro_ok item_tree joined] in *.
  - assert (NX : nxt (fun x => ~ begins "union" x) z) by (exists (item_gap a), y; split; [reflexivity|]; split; [apply G|split; [exact S|exact NU]]).
    pose proof (union_iff (item_block a) [] z r p BL (Forall_nil _) NX) as U. cbn [LUnion.chain app] in U. cbn [app]. rewrite U. split.
    + intros (g & l & u1 & u2 & H & E & R & _ & -> & ->). symmetry in E. apply app_eq_nil in E. destruct E as [-> ->]. inversion R; subst. split; [reflexivity|]. eauto.
    + intros [-> (g & H & ->)]. exists g, [], [], []. repeat split; auto.
  - destruct O as [K B]. rewrite <- app_assoc. split.
    + intros H. assert (P : pattern_word p = Some "optional"%string) by (eapply pattern_decides; [|exists w, (b ++ item_block a ++ z); split; [reflexivity|exact K]|exact H]; cbn; auto).
      destruct p; try discriminate P. apply (optional_at w b _ B SB _ _ K) in H. apply (block_iff _ _ _ _ BL) in H. destruct H as [-> H]. eauto.
    + intros [-> (g & H & ->)]. apply optional_at; auto. apply block_iff; auto.
  - destruct O as [K B]. rewrite <- app_assoc. split.
    + intros H. assert (P : pattern_word p = Some "minus"%string) by (eapply pattern_decides; [|exists w, (b ++ item_block a ++ z); split; [reflexivity|exact K]|exact H]; cbn; auto).
      destruct p; try discriminate P. apply (minus_at w b _ B SB _ _ K) in H. apply (block_iff _ _ _ _ BL) in H. destruct H as [-> H]. eauto.
    + intros [-> (g & H & ->)]. apply minus_at; auto. apply block_iff; auto.
  - destruct O as (K & B & B' & N). assert (Q : solid (t ++ b' ++ item_block a ++ z) /\ W_var_or_iri x t (b' ++ item_block a ++ z)) by (destruct BL as (i & -> & _); cbn [app]; destruct (N (i ++ z)) as (? & _ & ?); auto).
    destruct Q as [Q1 Q2]. rewrite <- !app_assoc. split.
    + intros H. assert (P : pattern_word p = Some "graph"%string) by (eapply pattern_decides; [|exists w, (b ++ t ++ b' ++ item_block a ++ z); split; [reflexivity|exact K]|exact H]; cbn; auto).
      destruct p as [| | |[x' g]| | | |]; try discriminate P. pose proof (graph_name _ _ _ _ _ _ _ _ _ K B Q1 Q2 B' SB H) as ->. apply graph_at in H; auto. apply (block_iff _ _ _ _ BL) in H. destruct H as [-> H]. eauto.
    + intros [-> (g & H & ->)]. apply graph_at; auto. apply block_iff; auto.
  - destruct O as (K & B & B' & N). assert (Q : solid (u ++ t ++ b' ++ item_block a ++ z) /\ W_silent s u (t ++ b' ++ item_block a ++ z) /\ W_var_or_iri x t (b' ++ item_block a ++ z)) by (destruct BL as (i & -> & _); cbn [app]; destruct (N (i ++ z)) as (? & _ & ? & ?); auto).
    destruct Q as (Q1 & Q2 & Q3). rewrite <- !app_assoc. split.
    + intros H. assert (P : pattern_word p = Some "service"%string) by (eapply pattern_decides; [|exists w, (b ++ u ++ t ++ b' ++ item_block a ++ z); split; [reflexivity|exact K]|exact H]; cbn; auto).
      destruct p as [| | | |[x' s' g]| | |]; try discriminate P. destruct (service_name _ _ _ _ _ _ _ _ _ _ _ _ K B Q1 Q2 Q3 B' SB H) as [-> ->]. apply service_at in H; auto. apply (block_iff _ _ _ _ BL) in H. destruct H as [-> H]. eauto.
    + intros [-> (g & H & ->)]. apply service_at; auto. apply block_iff; auto.
  - destruct O as (K & B & K' & B'). assert (C : not_first 58 (item_block a ++ z)) by (destruct BL as (i & -> & _); discriminate). rewrite <- !app_assoc. rewrite filter_exists_at by assumption. split.
    + intros (g & H & ->). apply (block_iff _ _ _ _ BL) in H. destruct H as [-> H]. eauto.
    + intros [-> (g & H & ->)]. exists g. split; [apply block_iff; auto|reflexivity].
  - destruct O as (K & B & KN & U & K' & B'). rewrite <- !app_assoc. rewrite filter_not_exists_at by assumption. split.
    + intros (g & H & ->). apply (block_iff _ _ _ _ BL) in H. destruct H as [-> H]. eauto.
    + intros [-> (g & H & ->)]. exists g. split; [apply block_iff; auto|reflexivity].
Qed.
Lemma pattern_fwd a y r p : item_ok a -> at_item y ->
  graph_pattern_not_triples (intro_text (item_intro a) ++ item_block a ++ LUnion.chain (joined (item_intro a)) ++ item_gap a ++ y) = Ok r p ->
  (r = item_gap a ++ y /\ exists g l, gg (item_block a) = Ok [] g /\ Forall2 member_reads (joined (item_intro a)) l /\ p = item_tree (item_intro a) g l) \/ stuck r.
Proof.
  intros O A H. destruct (joined (item_intro a)) as [|u us] eqn:J.
  - left. cbn [LUnion.chain app] in H. apply item_pattern in H; auto. destruct H as [-> (g & H & ->)]. split; [reflexivity|]. exists g, []. auto.
  - destruct O as (O & BL & G). destruct A as (S & _ & _ & NU & _). destruct (item_intro a); try discriminate J. cbn [joined intro_text intro_ok app] in *. subst us0.
    assert (NX : nxt (fun x => ~ begins "union" x) (item_gap a ++ y)) by (exists (item_gap a), y; split; [reflexivity|]; split; [apply G|split; [exact S|exact NU]]).
    apply (union_iff _ _ _ _ _ BL O NX) in H. destruct H as (g & l & u1 & u2 & H & E & R & Q & -> & ->). destruct u2 as [|v u2].
    + rewrite app_nil_r in E. subst u1. left. split; [reflexivity|]. exists g, l. auto.
    + right. apply chain_stuck. rewrite E in O. apply Forall_app in O. destruct O as [_ O]. now inversion O.
Qed.
Lemma pattern_bwd a y g l : item_ok a -> at_item y -> gg (item_block a) = Ok [] g -> Forall2 member_reads (joined (item_intro a)) l ->
  graph_pattern_not_triples (intro_text (item_intro a) ++ item_block a ++ LUnion.chain (joined (item_intro a)) ++ item_gap a ++ y) = Ok (item_gap a ++ y) (item_tree (item_intro a) g l).
Proof.
  intros O A H R. destruct (joined (item_intro a)) as [|u us] eqn:J.
  - inversion R; subst. cbn [LUnion.chain app]. apply item_pattern; auto. eauto.
  - destruct O as (O & BL & G). destruct A as (S & _ & _ & NU & _). destruct (item_intro a); try discriminate J. cbn [joined intro_text intro_ok app] in *. subst us0.
    assert (NX : nxt (fun x => ~ begins "union" x) (item_gap a ++ y)) by (exists (item_gap a), y; split; [reflexivity|]; split; [apply G|split; [exact S|exact NU]]).
    apply (union_iff _ _ _ _ _ BL O NX). exists g, l, (u :: us), []. rewrite app_nil_r. cbn [item_tree LUnion.chain app]. repeat split; auto.
Qed.
Lemma after_pattern b z : blank b -> solid z -> fails triples_block z -> not_first 63 z ->
  opt (preceded sp (chr (c_ "?"))) (b ++ z) = Ok (b ++ z) None /\ opt (preceded sp triples_block) (b ++ z) = Ok (b ++ z) None.
Proof.
  intros B S NB NQ. pose proof (sp_ok b z B S) as SP. split; apply opt_none; (eapply preceded_fails2; [exact SP|]); [now apply chr_fails|exact NB].
Qed.
Lemma item_fwd a y r p : item_ok a -> at_item y ->
  gat (intro_text (item_intro a) ++ item_block a ++ LUnion.chain (joined (item_intro a)) ++ item_gap a ++ y) = Ok r p -> (r = item_gap a ++ y /\ item_reads a p) \/ stuck r.
Proof.
  intros O A H. apply map_inv in H. destruct H as ((q & t) & H & <-). apply pair_inv in H. destruct H as (i1 & H1 & H2). apply preceded_inv in H2. destruct H2 as (i2 & c & H2 & H3).
  apply (pattern_fwd a y) in H1; auto. destruct H1 as [[-> (g & l & H1 & R & ->)]|Q].
  - destruct A as (S & NB & NQ & _). destruct (after_pattern (item_gap a) y) as [Q T]; auto; [apply O|]. rewrite Q in H2. injection H2 as <- <-. rewrite T in H3. injection H3 as <- <-.
    left. split; [reflexivity|]. exists g, l. auto.
  - right. pose proof Q as (b & z & B & -> & S & NB & NQ & _). destruct (after_pattern b z) as [Q' T]; auto; [apply B|]. rewrite Q' in H2. injection H2 as <- <-. rewrite T in H3. now injection H3 as <- <-.
Qed.
Lemma item_bwd a y p : item_ok a -> at_item y -> item_reads a p ->
  gat (intro_text (item_intro a) ++ item_block a ++ LUnion.chain (joined (item_intro a)) ++ item_gap a ++ y) = Ok (item_gap a ++ y) p.
Proof.
  intros O A (g & l & H & R & ->). apply (map_ok _ _ _ _ (item_tree (item_intro a) g l, None)); [|reflexivity].
  pose proof A as (S & NB & NQ & _). destruct (after_pattern (item_gap a) y) as [Q T]; auto; [apply O|]. eapply separated_pair_ok; [|exact Q|exact T]. now apply pattern_bwd.
Qed.
Lemma sep_ok_inv {A B} (s : parser B) (p : parser A) i r l : sep_ok s p i r l ->
  fails s i \/ (r = i /\ l = [] /\ exists j c, s i = Ok j c /\ fails p j) \/ exists j c k a l', s i = Ok j c /\ p j = Ok k a /\ sep_ok s p k r l' /\ l = a :: l'.
Proof. intros H. inversion H; subst; eauto 12. Qed.
Lemma stuck_sep i r l : stuck i -> sep_ok sp gat i r l -> r = i.
Proof.
  intros (b & z & B & -> & S & _ & _ & _ & F) M. pose proof (sp_ok b z (proj1 B) S) as SP. apply sep_ok_inv in M. destruct M as [M|[(E & _)|(j & c & k & p & ps' & Q & P & _)]].
  - exfalso. eapply fails_not_ok; eauto.
  - exact E.
  - exfalso. rewrite SP in Q. injection Q as <- <-. eapply fails_not_ok; eauto.
Qed.
Lemma stuck_open b x : blank b -> ~ stuck (b ++ 125 :: x).
Proof.
  intros B (b' & z & B' & E & S & _ & _ & N & _). pose proof (sp_ok b (125 :: x) B (solid_close x)) as SP. rewrite E, (sp_ok b' z (proj1 B') S) in SP. injection SP as -> _. now apply N.
Qed.

Lemma item_not_close a l z x : item_ok a -> items_text (a :: l) ++ z = 125 :: x -> False.
Proof.
  intros (O & (i & BL & _) & _) E. cbn [items_text] in E. rewrite BL in E. unfold kw in O.
  destruct (item_intro a) as [us|w b|w b|w b v t b'|w b s u v t b'|w b w' b'|w b v u w' b']; cbn [intro_text intro_ok] in E, O; [discriminate E|..];
    (destruct O as [K _]; unfold kw in K; destruct w as [|c w]; [discriminate K|]; injection E as -> _; vm_compute in K; discriminate K).
Qed.
Lemma gap_moves b y : blank1 b -> solid y -> sp (b ++ y) = Ok y b /\ y <> b ++ y.
Proof.
  intros [B NE] S. split; [now apply sp_ok|]. intros X. apply (f_equal (@List.length _)) in X. rewrite app_length in X. destruct b; [congruence|]. cbn in X. lia.
Qed.
Lemma items_cons a l z : items_text (a :: l) ++ z = intro_text (item_intro a) ++ item_block a ++ LUnion.chain (joined (item_intro a)) ++ item_gap a ++ items_text l ++ z.
Proof. cbn [items_text]. now rewrite <- !app_assoc. Qed.
Lemma tail_read l : forall b x ps, Forall item_ok l -> blank1 b -> Forall2 item_reads l ps -> exists b', blank b' /\ sep_ok sp gat (b ++ items_text l ++ 125 :: x) (b' ++ 125 :: x) ps.
Proof.
  induction l as [|a l IH]; intros b x ps F B R.
  - inversion R; subst. exists b. split; [apply B|]. destruct (gap_moves b (125 :: x) B (solid_close x)) as [SP N]. cbn [items_text app]. eapply sep_back; [exact SP|exact N|apply close_no_pattern].
  - inversion R as [|a' p l' ps' R1 R2]; subst. inversion F as [|a' l' O F']; subst.
    destruct (IH (item_gap a) x ps' F' (proj2 (proj2 O)) R2) as (b' & B' & M). exists b'. split; [exact B'|].
    destruct (gap_moves b _ B (proj1 (items_at (a :: l) x F))) as [SP N]. eapply sep_step; [exact SP|exact N| |exact M].
    rewrite items_cons. apply item_bwd; auto. now apply items_at.
Qed.
Lemma tail_inv l : forall b x b' x' ps, Forall item_ok l -> blank1 b -> blank b' -> sep_ok sp gat (b ++ items_text l ++ 125 :: x) (b' ++ 125 :: x') ps -> Forall2 item_reads l ps /\ x' = x.
Proof.
  induction l as [|a l IH]; intros b x b' x' ps F B B' M; destruct (gap_moves b _ B (proj1 (items_at _ x F))) as [SP N]; pose proof (sp_ok b' (125 :: x') B' (solid_close x')) as SP';
    apply sep_ok_inv in M; (destruct M as [M|[(E & -> & j & c & _ & _)|(j & c & k & p & ps' & Q & P & M & ->)]]; [exfalso; eapply fails_not_ok; [exact M|exact SP]|rewrite E, SP in SP'|rewrite SP in Q; injection Q as <- <-]).
  - injection SP' as <- _. split; [constructor|reflexivity].
  - exfalso. eapply fails_not_ok; [apply close_no_pattern|exact P].
  - exfalso. injection SP' as SP' _. inversion F; subst. eapply item_not_close; eauto.
  - inversion F as [|a' l' O F']; subst. rewrite <- !app_assoc in P. apply item_fwd in P; auto; [|now apply items_at]. destruct P as [[-> P]|P]; [|exfalso; rewrite <- (stuck_sep _ _ _ P M) in P; exact (stuck_open _ _ B' P)].
    apply IH in M; auto; [|apply O]. destruct M as [M ->]. split; [now constructor|reflexivity].
Qed.
Theorem items_iff b0 l x r G : blank b0 -> Forall item_ok l ->
  (gg (123 :: b0 ++ items_text l ++ 125 :: x) = Ok r G <-> r = x /\ exists ps, Forall2 item_reads l ps /\ G = GgpSub (MkGroupGraphPatternSub None ps)).
Proof.
  intros B F. pose proof (items_at l x F) as (S & NB & _ & _ & NS). set (z := items_text l ++ 125 :: x) in *.
  assert (SM : shrinks gat) by (eapply (gd_shrinks true IAny true); intros k; sm @ggp_and_triples_of).
  assert (SS : shrinks sp) by (eapply gd_shrinks, gd_sp).
  assert (NSEL : fails (map sub_select GgpSubSelect) z) by (apply map_fails, map_fails, pair_fails1, map_fails, select_fails; exact NS).
  assert (O : opt (terminated triples_block sp) z = Ok z None) by now apply opt_none, terminated_fails1.
  assert (W : forall k ps, (exists b', blank b' /\ k = b' ++ 125 :: r) -> (separated_list sp gat z = Ok k ps -> Forall2 item_reads l ps /\ r = x)).
  { intros k ps (b' & B' & ->) H. destruct l as [|a l].
    - subst z. cbn [items_text app] in H. unfold separated_list in H. destruct (close_no_pattern x) as (p0 & k0 & X). rewrite X in H. injection H as H <-. split; [constructor|].
      pose proof (sp_ok b' (125 :: r) B' (solid_close r)) as SP. rewrite <- H, (sp_solid _ (solid_close x)) in SP. now injection SP as ->.
    - inversion F as [|a' l' Oa F']; subst. unfold z in H. rewrite items_cons in H. unfold separated_list in H.
      destruct (gat _) as [i1 p|e] eqn:E in H; [|].
      + apply item_fwd in E; auto; [|now apply items_at].
        match type of H with (if ?c then _ else _) = _ => destruct c; [discriminate H|] end.
        match type of H with match ?c with _ => _ end = _ => destruct c as [r' ps'|] eqn:EL; [|discriminate H] end. injection H as -> <-.
        apply (sep_loop_iff _ _ SS SM) in EL; [|lia]. destruct E as [[-> R1]|E]; [|exfalso; rewrite <- (stuck_sep _ _ _ E EL) in E; exact (stuck_open _ _ B' E)]. apply tail_inv in EL; auto; [|apply Oa]. destruct EL as [R2 ->]. split; [now constructor|reflexivity].
      + destruct e; try discriminate H. injection H as H <-. exfalso. pose proof (sp_ok b' (125 :: r) B' (solid_close r)) as SP. rewrite <- H in SP. rewrite <- items_cons in SP. fold z in SP. rewrite (sp_solid _ S) in SP. injection SP as SP _. exact (item_not_close _ _ _ _ Oa SP). }
  split.
  - intros H. apply group_inv in H. destruct H as (b & j & k & E & Bb & Sj & H & b' & -> & B'). injection E as E.
    pose proof (sp_ok b0 z B S) as E1. rewrite E, (sp_ok b j Bb Sj) in E1. injection E1 as -> _.
    apply alt_split in H. destruct H as [H|[_ H]]; [exfalso; eapply fails_not_ok; eauto|]. apply alt_inv in H. destruct H as (q & [<-|[]] & H).
    apply map_inv in H. destruct H as (g & H & <-). apply map_inv in H. destruct H as ((o & ps) & H & <-). apply pair_inv in H. destruct H as (j & H1 & H).
    rewrite O in H1. injection H1 as <- <-. apply W in H; eauto. destruct H as [H ->]. eauto.
  - intros [-> (ps & R & ->)].
    assert (Q : exists b', blank b' /\ separated_list sp gat z = Ok (b' ++ 125 :: x) ps).
    { destruct l as [|a l].
      - inversion R; subst. exists []. split; [constructor|]. apply LEval.sepl_nil, close_no_pattern.
      - inversion R as [|a' p l' ps' R1 R2]; subst. inversion F as [|a' l' Oa F']; subst. destruct (tail_read l (item_gap a) x ps' F' (proj2 (proj2 Oa)) R2) as (b' & B' & M). exists b'. split; [exact B'|].
        assert (E : gat z = Ok (item_gap a ++ items_text l ++ 125 :: x) p) by (unfold z; rewrite items_cons; apply item_bwd; auto; now apply items_at).
        eapply sepl_cons; [exact SS|exact SM|exact E| |exact M]. intros X. apply (f_equal (@List.length _)) in X. unfold z in X. rewrite items_cons in X. destruct Oa as (_ & (i & BL & _) & _). rewrite BL in X. repeat (rewrite ?app_length in X; cbn [List.length app] in X). lia. }
    destruct Q as (b' & B' & Q). rewrite group_graph_pattern_eq. unfold ggp_body. apply (delimited_ok _ _ _ _ (b0 ++ z) (125 :: x) x 123 _ 125); [reflexivity| |reflexivity].
    eapply delimited_ok; [exact (sp_ok b0 z B S)| |exact (sp_ok b' (125 :: x) B' (solid_close x))].
    apply alt_next; [exact NSEL|]. eapply map_ok; [|reflexivity]. apply (map_ok _ _ _ _ (None, ps)); [|reflexivity]. eapply pair_ok; [exact O|exact Q].
Qed.
