(** The names, literals and numbers of accepted trees are safe. *)
From Verif Require Export SpecSafe LLeaves2.
From Verif Require Import LTerm LName3.
Notation length := List.length (only parsing).
Open Scope N_scope.
Open Scope list_scope.

Lemma in_ranges_in rs c : in_ranges rs c = true -> exists a b, In (a, b) rs /\ a <= c <= b.
Proof.
  unfold in_ranges. rewrite existsb_exists. intros ([a b] & I & H). exists a, b. split; [exact I|].
  apply andb_prop in H. destruct H as [A B]. apply N.leb_le in A, B. auto.
Qed.
Lemma letters_word c : in_ranges letters c = true -> word_char c.
Proof. intros H. apply in_ranges_in in H. destruct H as (a & b & [E|[E|[]]] & H); injection E as <- <-; [now left|right; now left]. Qed.
Lemma digits_word c : in_ranges digits c = true -> word_char c.
Proof. intros H. apply in_ranges_in in H. destruct H as (a & b & [E|[]] & H); injection E as <- <-. right. right. now left. Qed.
Lemma bmp_high c : in_ranges w3c_bmp c = true -> 128 <= c.
Proof.
  intros H. apply in_ranges_in in H. destruct H as (a & b & I & H). cbn in I.
  repeat (destruct I as [E|I]; [injection E as <- <-; lia|]). destruct I.
Qed.
Lemma base_ascii c : base_char c = true -> c < 128 -> word_char c.
Proof.
  unfold base_char. intros H L. apply Bool.orb_true_iff in H. destruct H as [H|H]; [|apply bmp_high in H; lia].
  rewrite N.mod_small in H by lia. now apply letters_word.
Qed.
Lemma start_ascii c : start_char c = true -> c < 128 -> word_char c.
Proof.
  unfold start_char. intros H L. apply Bool.orb_true_iff in H. destruct H as [H|H]; [now apply base_ascii|].
  apply N.eqb_eq in H. subst. right. right. now right.
Qed.
Lemma name_ascii c : name_char c = true -> c < 128 -> word_char c \/ c = 45.
Proof.
  unfold name_char. intros H L. apply Bool.orb_true_iff in H. destruct H as [H|H]; [|left; now apply digits_word].
  apply Bool.orb_true_iff in H. destruct H as [H|H]; [left; now apply start_ascii|right; now apply N.eqb_eq].
Qed.
Lemma low_digit_ascii c : low_digit c = true -> c < 128 -> word_char c.
Proof. unfold low_digit. intros H L. rewrite N.mod_small in H by lia. now apply digits_word. Qed.
Lemma tail_ascii t : name_tail t -> ascii_of (s_ "-.") t.
Proof.
  intros (d & u & -> & D & U) c I L. apply in_app_or in I. destruct I as [I|I].
  - right. eapply Forall_forall in D; [|exact I]. apply N.eqb_eq in D. subst c. right. now left.
  - destruct U as [->|(a & m & -> & A & M & _)]; [destruct I|]. destruct I as [<-|I].
    + destruct (name_ascii a A L) as [W|W]; [now left|right; left; now symmetry].
    + eapply Forall_forall in M; [|exact I]. apply Bool.orb_true_iff in M. destruct M as [M|M].
      * destruct (name_ascii c M L) as [W|W]; [now left|right; left; now symmetry].
      * right. right. left. apply N.eqb_eq in M. now symmetry.
Qed.
Lemma prefix_safe s : prefix_name s -> s <> [] /\ ascii_of (s_ "-.") s.
Proof.
  intros (c & t & -> & C & T). split; [discriminate|]. intros x [<-|I] L; [left; now apply base_ascii|now apply (tail_ascii t T)].
Qed.
Lemma label_safe s : label_name s -> s <> [] /\ ascii_of (s_ "-.") s.
Proof.
  intros (c & t & -> & C & T). split; [discriminate|]. intros x [<-|I] L; [|now apply (tail_ascii t T)].
  left. destruct C as [C|C]; [now apply start_ascii|now apply low_digit_ascii].
Qed.
Lemma var_safe s : var_name_ok s -> s <> [] /\ ascii_of [] s.
Proof.
  intros [N A]. split; [exact N|]. intros c I L. left. eapply Forall_forall in A; [|exact I]. apply Bool.orb_true_iff in A.
  destruct A as [A|A]; [now apply start_ascii|now apply digits_word].
Qed.
Definition local_more : str := s_ "-.:%\~!$&'()*+,;=/?#@".
Lemma hex_word c : hex_digit c = true -> word_char c.
Proof.
  intros H. apply in_ranges_in in H. destruct H as (a & b & I & H). unfold word_char.
  destruct I as [E|[E|[E|[]]]]; injection E as <- <-; lia.
Qed.
Lemma plx_safe u : plx_text u -> ascii_of local_more u.
Proof.
  intros [(a & b & -> & A & B)|(c & -> & C)] x I L.
  - destruct I as [<-|[<-|[<-|[]]]]; [right; right; right; right; now left|left; now apply hex_word|left; now apply hex_word].
  - destruct I as [<-|[<-|[]]]; [right; do 4 right; now left|]. cbn in C.
    repeat match goal with H : _ \/ _ |- _ => destruct H as [<-|H]; [first [left; right; right; right; reflexivity|right; cbn; tauto]|] end. destruct C.
Qed.
Lemma units_safe t : local_units t -> ascii_of local_more t.
Proof.
  induction 1 as [|c t C T IH|u t U T IH]; intros x I L; [destruct I| |].
  - destruct I as [<-|I]; [|now apply IH]. apply Bool.orb_true_iff in C. destruct C as [C|C].
    + apply Bool.orb_true_iff in C. destruct C as [C|C].
      * destruct (name_ascii c C L) as [W|W]; [now left|right; left; now symmetry].
      * apply N.eqb_eq in C. right. right. right. left. now symmetry.
    + apply N.eqb_eq in C. right. right. left. now symmetry.
  - apply in_app_or in I. destruct I as [I|I]; [now apply (plx_safe u U)|now apply IH].
Qed.
Lemma local_safe s : local_name s -> s <> [] /\ ascii_of local_more s.
Proof.
  intros (u & t & -> & U & T & _). split.
  - destruct U as [[(a & b & -> & _)|(c & -> & _)]|(c & -> & _)]; discriminate.
  - intros x I L. apply in_app_or in I. destruct I as [I|I]; [|now apply (units_safe t T)].
    destruct U as [U|(c & -> & U)]; [now apply (plx_safe u U)|]. destruct I as [<-|[]].
    apply Bool.orb_true_iff in U. destruct U as [U|U]; [|left; now apply low_digit_ascii].
    apply Bool.orb_true_iff in U. destruct U as [U|U]; [left; now apply start_ascii|].
    apply N.eqb_eq in U. right. right. right. left. now symmetry.
Qed.
Lemma iri_safe s : all iri_char s -> forall c, In c s -> 32 < c /\ ~ In c (s_ "<>""{}|^`\").
Proof.
  intros A c I. eapply Forall_forall in A; [|exact I]. unfold iri_char in A. apply andb_prop in A. destruct A as [A B]. split.
  - destruct (N.ltb_spec 32 c) as [L|L]; [exact L|]. exfalso. rewrite N.mod_small in A by lia. apply Bool.negb_true_iff in A.
    unfold in_ranges in A. cbn [existsb] in A. apply Bool.orb_false_iff in A. destruct A as [A _].
    apply Bool.andb_false_iff in A. destruct A as [A|A]; apply N.leb_gt in A; lia.
  - intros J. apply Bool.negb_true_iff in B. rewrite (proj2 (existsb_exists _ _)) in B; [discriminate|]. exists c. split; [exact J|apply N.eqb_refl].
Qed.
Lemma letter_lang c : in_ranges letters c = true -> c < 128 /\ (word_char c \/ c = 45) /\ c <> 95.
Proof.
  intros H. pose proof (letters_word c H) as W. apply in_ranges_in in H. destruct H as (a & b & I & H).
  destruct I as [E|[E|[]]]; injection E as <- <-; (split; [lia|split; [now left|lia]]).
Qed.
Lemma alnum_lang c : in_ranges alnum c = true -> c < 128 /\ (word_char c \/ c = 45) /\ c <> 95.
Proof.
  intros H. apply in_ranges_in in H. destruct H as (a & b & I & H). unfold word_char.
  destruct I as [E|[E|[E|[]]]]; injection E as <- <-; lia.
Qed.
Lemma lang_safe s : lang_tag s -> s <> [] /\ forall c, In c s -> c < 128 /\ (word_char c \/ c = 45) /\ c <> 95.
Proof.
  intros (u & t & -> & N & U & T). split; [destruct u; [contradiction|discriminate]|].
  assert (X : forall c, In c t -> c < 128 /\ (word_char c \/ c = 45) /\ c <> 95).
  { induction T as [|v t V W T IH]; intros c I; [destruct I|]. destruct I as [<-|I]; [lia|]. apply in_app_or in I.
    destruct I as [I|I]; [|now apply IH]. eapply Forall_forall in W; [|exact I]. now apply alnum_lang. }
  intros c I. apply in_app_or in I. destruct I as [I|I]; [|now apply X]. eapply Forall_forall in U; [|exact I]. now apply letter_lang.
Qed.
Lemma i64_safe z t : R_i64 z t -> i64 z.
Proof. now intros (sg & k & ds & _ & _ & _ & _ & H). Qed.
Lemma number_safe n t : R_numeric n t -> safe_number n.
Proof.
  destruct n as [z|v x]; cbn [R_numeric safe_number]; [apply i64_safe|].
  intros (u & w & -> & (sg & k & ip & fp & pt & _ & _ & _ & _ & _ & _ & _ & R) & X). split.
  - destruct v; [now destruct R as (_ & R & _)|exact I].
  - destruct x as [z|]; [|exact I]. destruct X as (a & b & _ & _ & Z). exact (i64_safe z b Z).
Qed.
Lemma shows_safe x t : shows x t -> safe x.
Proof.
  destruct x as [k s|n|z|b]; cbn [shows].
  - intros [_ L]. destruct k; cbn [lexical] in L; cbn [safe].
    + now apply iri_safe.
    + now apply prefix_safe.
    + now apply local_safe.
    + now apply var_safe.
    + now apply label_safe.
    + destruct L as [[L|L] N]; (split; [exact N|]); eexists; (split; [|exact L]); auto.
    + now apply lang_safe.
  - apply number_safe.
  - now intros (_ & _ & H).
  - intros _. exact I.
Qed.
Lemma spread_safe l t : spread l t -> Forall safe l.
Proof. induction 1; constructor; auto. eapply shows_safe; eauto. Qed.
Lemma spread_lexical l t : spread l t -> forall k s, In (Name k s) l -> lexical k s.
Proof. induction 1 as [|x l u s v H S IH]; intros k y I; [destruct I|]. destruct I as [->|I]; [now destruct H|now apply (IH k y)]. Qed.
Lemma query_safe n i r q : sparql_query_stmt i = Ok r q -> Forall safe (leaves_query_stmt n q).
Proof. intros H. apply query_leaves with (n := n) in H. destruct H as (t & _ & H). now apply spread_safe in H. Qed.
Lemma update_safe n i r u : update i = Ok r u -> Forall safe (leaves_update n u).
Proof. intros H. apply update_leaves with (n := n) in H. destruct H as (t & _ & H). now apply spread_safe in H. Qed.
Lemma pattern_safe n i r g : group_graph_pattern i = Ok r g -> Forall safe (leaves_ggp n g).
Proof. intros H. apply pattern_leaves with (n := n) in H. destruct H as (t & _ & H). now apply spread_safe in H. Qed.
Lemma expression_safe n i r e : expression i = Ok r e -> Forall safe (leaves_expression n e).
Proof. intros H. apply expression_leaves with (n := n) in H. destruct H as (t & _ & H). now apply spread_safe in H. Qed.

(** ** Written on their own they are read as themselves *)
Definition of_some_tree (x : leaf) : Prop :=
  exists n i r, (exists q, sparql_query_stmt i = Ok r q /\ In x (leaves_query_stmt n q)) \/
                (exists u, update i = Ok r u /\ In x (leaves_update n u)).
Lemma some_tree_lexical k s : of_some_tree (Name k s) -> lexical k s.
Proof.
  intros (n & i & r & [(q & H & I)|(q & H & I)]).
  - apply query_leaves with (n := n) in H. destruct H as (t & _ & H). exact (spread_lexical _ t H k s I).
  - apply update_leaves with (n := n) in H. destruct H as (t & _ & H). exact (spread_lexical _ t H k s I).
Qed.
Lemma reread_iri s r : of_some_tree (Name KIri s) -> iri_ref (60 :: s ++ 62 :: r) = Ok r s.
Proof. intros H. apply iri_ref_iff. split; [reflexivity|]. now apply some_tree_lexical in H. Qed.
Lemma reread_string s r : of_some_tree (Name KString s) ->
  exists q, (q = 39 \/ q = 34) /\ string_literal (q :: s ++ q :: r) = Ok r s.
Proof.
  intros H. apply some_tree_lexical in H. destruct H as [[H|H] N].
  - exists 39. split; [now left|]. apply string_literal_iff. exists 39. auto.
  - exists 34. split; [now right|]. apply string_literal_iff. exists 34. auto.
Qed.
Lemma reread_var s r : of_some_tree (Name KVar s) -> stops var_char r -> var (63 :: s ++ r) = Ok r (QMark s).
Proof.
  intros H S. apply some_tree_lexical in H. apply (proj2 (var_iff (63 :: s ++ r) r (QMark s))). exists []. repeat split; auto; try apply H. constructor.
Qed.
