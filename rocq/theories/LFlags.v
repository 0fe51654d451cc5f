(** Flags and tags: SILENT, DISTINCT, REDUCED, directions, kinds of patterns. *)
From Verif Require Export LC8 Spec3.
From Verif Require Import LMods.
Notation length := List.length (only parsing).
Open Scope N_scope.
Open Scope list_scope.

Definition klessb (k : string) : bool := low_ascii (s_ k) && forallb (fun c => negb (c =? 107)) (s_ k).
Lemma kless_low k : klessb k = true -> low_ascii (s_ k) = true.
Proof. intros H. now apply andb_true_iff in H. Qed.
Lemma kless k i : klessb k = true -> no_kelvin (s_ k) i.
Proof.
  intros H. apply andb_true_iff in H. destruct H as [_ H]. apply nokel. intros C. rewrite forallb_forall in H. apply H in C. discriminate.
Qed.
Lemma tnc_kw k i r w : klessb k = true -> tag_no_case (s_ k) i = Ok r w -> i = w ++ r /\ kw k w.
Proof. intros K H. apply tnc_iff in H; [exact H|now apply kless_low|now apply kless]. Qed.
Lemma word1_inv k i r a : klessb k = true -> terminated (tag_no_case (s_ k)) sp1 i = Ok r a -> after_word k i r.
Proof.
  intros K H. apply terminated_inv in H. destruct H as (i1 & b & H1 & H2). apply tnc_kw in H1; [|exact K]. destruct H1 as [-> W].
  apply sp1_iff in H2. destruct H2 as (-> & B & S). exists a, b. auto.
Qed.
Lemma pair1_inv k i r a : klessb k = true -> pair (tag_no_case (s_ k)) sp1 i = Ok r a -> after_word k i r.
Proof.
  intros K H. destruct a as [a b]. apply pair_inv in H. destruct H as (i1 & H1 & H2). apply tnc_kw in H1; [|exact K]. destruct H1 as [-> W].
  apply sp1_iff in H2. destruct H2 as (-> & B & S). exists a, b. auto.
Qed.
Lemma tag1_inv {A} k (p : parser A) i r a : klessb k = true -> preceded_tag1 (s_ k) p i = Ok r a -> exists j, after_word k i j /\ p j = Ok r a.
Proof. intros K H. apply preceded_inv in H. destruct H as (j & x & H1 & H2). apply word1_inv in H1; [|exact K]. eauto. Qed.
Lemma after_says k i j : after_word k i j -> says k i.
Proof. intros (w & b & -> & W & B & S). exists w, b, j. auto. Qed.
Lemma says_begins k i : says k i -> begins k i.
Proof. intros (w & b & r & -> & W & B). exists w, (b ++ r). auto. Qed.
Lemma says_word1 k i : low_ascii (s_ k) = true -> says k i -> exists r a, terminated (tag_no_case (s_ k)) sp1 i = Ok r a.
Proof.
  intros K (w & b & r & -> & Hw & Hb & N). destruct (blank_split r) as (b2 & r2 & -> & H2 & S2). exists r2, w.
  eapply terminated_ok; [apply tnc_ok; [exact K|exact Hw]|].
  rewrite app_assoc. apply sp1_ok; [|assumption]. split; [now apply blank_app|]. destruct b; [congruence|discriminate].
Qed.
Lemma opt_silent_says i r d : opt_silent i = Ok r d -> d = true <-> says "silent" i.
Proof.
  intros H. apply map_inv in H. destruct H as (o & H & <-). apply opt_inv in H. destruct o as [d|]; cbn [unwrap_or_default].
  - apply terminated_inv in H. destruct H as (i1 & b & H1 & H2). apply map_inv in H1. destruct H1 as (w & H1 & <-).
    split; [intros _|reflexivity]. apply tnc_kw in H1; [|reflexivity].
    destruct H1 as [-> Hw]. apply sp1_iff in H2. destruct H2 as (-> & Hb & _). exists w, b, r. auto.
  - destruct H as [-> F]. split; [discriminate|]. intros H. apply says_word1 in H; [|reflexivity]. destruct H as (r' & w & H).
    destruct (fails_not_ok _ _ r' true F). apply terminated_inv in H. destruct H as (i1 & b & H1 & H2).
    eapply terminated_ok; [eapply map_ok; [exact H1|reflexivity]|exact H2].
Qed.
Lemma stmt_says {A} k (p : parser A) i r a : klessb k = true -> stmt (s_ k) p i = Ok r a -> exists j, after_word k i j /\ p j = Ok r a.
Proof.
  intros K H. apply map_inv in H. destruct H as ([x y] & H & <-). apply pair_inv in H. destruct H as (j & H1 & H2).
  apply pair1_inv in H1; [|exact K]. eauto.
Qed.
Lemma silent_stmt i r u k s : update_stmt i = Ok r u -> silent_flag u = Some (k, s) ->
  exists j, after_word k i j /\ (s = true <-> says "silent" j).
Proof.
  intros H F. apply alt_inv in H. destruct H as (p & Hp & H).
  destruct Hp as [<-|[<-|[<-|[<-|[<-|[<-|[<-|[<-|[<-|[]]]]]]]]]]; apply map_inv in H; destruct H as (x & H & <-); try discriminate.
  - apply map_inv in H. destruct H as ([y [s' [n g]]] & H & <-). injection F as <- <-. apply pair_inv in H. destruct H as (j & H1 & H).
    apply pair_inv in H. destruct H as (j' & H & _). apply pair1_inv in H1; [|reflexivity]. exists j. split; [exact H1|]. eapply opt_silent_says, H.
  - apply map_inv in H. destruct H as ([s' g] & H & <-). injection F as <- <-. apply stmt_says in H; [|reflexivity]. destruct H as (j & H1 & H).
    apply pair_inv in H. destruct H as (j' & H & _). exists j. split; [exact H1|]. eapply opt_silent_says, H.
  - apply map_inv in H. destruct H as ([s' g] & H & <-). injection F as <- <-. apply stmt_says in H; [|reflexivity]. destruct H as (j & H1 & H).
    apply pair_inv in H. destruct H as (j' & H & _). exists j. split; [exact H1|]. eapply opt_silent_says, H.
  - apply map_inv in H. destruct H as ([y [s' g]] & H & <-). injection F as <- <-. apply pair_inv in H. destruct H as (j & H1 & H).
    apply pair_inv in H. destruct H as (j' & H & _). apply pair1_inv in H1; [|reflexivity]. exists j. split; [exact H1|]. eapply opt_silent_says, H.
  - apply map_inv in H. destruct H as ([s' [f g]] & H & <-). injection F as <- <-. apply stmt_says in H; [|reflexivity]. destruct H as (j & H1 & H).
    apply pair_inv in H. destruct H as (j' & H & _). exists j. split; [exact H1|]. eapply opt_silent_says, H.
Qed.
(** ** Kinds of graph patterns *)
Lemma pattern_kind i r p : graph_pattern_not_triples i = Ok r p -> announces p i.
Proof.
  intros H. apply alt_inv in H. destruct H as (q & Hq & H).
  destruct Hq as [<-|[<-|[<-|[<-|[<-|[<-|[<-|[<-|[]]]]]]]]]; apply map_inv in H; destruct H as (x & H & <-); unfold announces; cbn [pattern_word].
  - apply map_inv in H. destruct H as (l & H & _). destruct i as [|c i]; [|destruct (N.eq_dec c 123) as [->|N]].
    + exfalso. revert H. apply fails_not_ok, sepne_fails, gg_first. exact I.
    + now exists i.
    + exfalso. revert H. apply fails_not_ok, sepne_fails, gg_first. exact N.
  - apply tag1_inv in H; [|reflexivity]. destruct H as (j & H & _). eapply after_says, H.
  - apply tag1_inv in H; [|reflexivity]. destruct H as (j & H & _). eapply after_says, H.
  - apply map_inv in H. destruct H as ([y z] & H & _). apply pair_inv in H. destruct H as (j & H & _). apply word1_inv in H; [|reflexivity]. eapply after_says, H.
  - apply map_inv in H. destruct H as ([y z] & H & _). apply pair_inv in H. destruct H as (j & H & _). apply word1_inv in H; [|reflexivity]. eapply after_says, H.
  - apply tag1_inv in H; [|reflexivity]. destruct H as (j & H & _). eapply after_says, H.
  - apply tag1_inv in H; [|reflexivity]. destruct H as (j & H & _). eapply after_says, H.
  - apply tag1_inv in H; [|reflexivity]. destruct H as (j & H & _). eapply after_says, H.
Qed.
Lemma pattern_decides k i r p : In k ["optional"; "minus"; "graph"; "service"; "filter"; "bind"; "values"]%string ->
  begins k i -> graph_pattern_not_triples i = Ok r p -> pattern_word p = Some k.
Proof.
  intros I B H. apply pattern_kind in H. unfold announces in H.
  assert (X : forall k', In k' ["optional"; "minus"; "graph"; "service"; "filter"; "bind"; "values"]%string -> begins k' i -> k' = k).
  { intros k' I' B'. destruct (string_dec k' k) as [E|N]; [exact E|]. exfalso. revert B' B N. clear H. cbn in I, I'.
    repeat (destruct I' as [<-|I']; [repeat (destruct I as [<-|I]; [first [congruence | intros B1 B2 _; revert B1 B2; apply begins_differ; reflexivity]|]); destruct I|]). destruct I'. }
  assert (Y : forall k', says k' i -> In k' ["optional"; "minus"; "graph"; "service"; "filter"; "bind"; "values"]%string -> Some k' = Some k).
  { intros k' S I'. f_equal. apply X; [exact I'|now apply says_begins]. }
  destruct p; cbn [pattern_word] in *; try (apply Y; [exact H|cbn; clear; tauto]).
  exfalso. destruct H as (r' & ->). destruct B as (w & x & E & W). destruct w as [|c w].
  - cbn in I. clear -W I. repeat (destruct I as [<-|I]; [discriminate W|]). destruct I.
  - injection E as <- _. cbn in I. clear -W I. repeat (destruct I as [<-|I]; [discriminate W|]). destruct I.
Qed.
Lemma brace_decides x r p : graph_pattern_not_triples (123 :: x) = Ok r p -> pattern_word p = None.
Proof.
  intros H. apply pattern_kind in H. unfold announces in H.
  destruct p; cbn [pattern_word] in *; try reflexivity; apply says_begins in H; destruct H as (w & y & E & W);
    (destruct w as [|ch w]; [discriminate W|injection E as <- _; discriminate W]).
Qed.
Lemma silent_service i r v s g : graph_pattern_not_triples i = Ok r (GpService (MkServiceGraphPattern v s g)) ->
  exists j, after_word "service" i j /\ (s = true <-> says "silent" j).
Proof.
  intros H. apply alt_inv in H. destruct H as (q & Hq & H).
  destruct Hq as [<-|[<-|[<-|[<-|[<-|[<-|[<-|[<-|[]]]]]]]]]; apply map_inv in H; destruct H as (x & H & E); try discriminate. injection E as ->.
  apply map_inv in H. destruct H as ([y [s' [v' g']]] & H & E). injection E as -> -> ->. apply pair_inv in H. destruct H as (j & H1 & H).
  apply pair_inv in H. destruct H as (j' & H & _). apply word1_inv in H1; [|reflexivity]. exists j. split; [exact H1|]. eapply opt_silent_says, H.
Qed.
