(** First characters: which parsers give way because of the next character. *)
From Verif Require Export LRd.
Notation length := List.length (only parsing).
Open Scope N_scope.
Open Scope list_scope.

Definition orc (f g : char -> bool) : char -> bool := fun c => f c || g c.
Definition oneof (cs : str) : char -> bool := fun c => existsb (N.eqb c) cs.
#[global] Arguments orc : simpl never.
#[global] Arguments oneof : simpl never.
Lemma stops_orc f g i : stops (orc f g) i <-> stops f i /\ stops g i.
Proof. destruct i as [|c i]; cbn; [tauto|]. unfold orc. now rewrite orb_false_iff. Qed.
Lemma stops_oneof cs c i : stops (oneof cs) i -> In c cs -> not_first c i.
Proof.
  destruct i as [|x i]; cbn; [tauto|]. intros H Hc ->. assert (oneof cs c = true) by now apply existsb_In_N. congruence.
Qed.
Lemma stops_sub (f g : char -> bool) i : (forall c, g c = true -> f c = true) -> stops f i -> stops g i.
Proof. destruct i as [|c i]; cbn; [tauto|]. intros H S. destruct (g c) eqn:E; [|reflexivity]. rewrite H in S; congruence. Qed.

(** the text starts with one of some characters *)
Definition starts (cs : str) (t : str) : Prop := exists c t', t = c :: t' /\ In c cs.
Lemma starts_stops f cs t r : starts cs t -> forallb (fun c => negb (f c)) cs = true -> stops f (t ++ r).
Proof. intros (c & t' & -> & Hc) H. cbn. rewrite forallb_forall in H. apply negb_true_iff. now apply H. Qed.
Lemma starts_not x cs t r : starts cs t -> negb (existsb (N.eqb x) cs) = true -> not_first x (t ++ r).
Proof.
  intros (c & t' & -> & Hc) H. cbn. intros ->. apply negb_true_iff in H.
  assert (existsb (N.eqb x) cs = true) by now apply existsb_In_N. congruence.
Qed.
Lemma starts_sub cs cs' t : starts cs t -> forallb (fun c => existsb (N.eqb c) cs') cs = true -> starts cs' t.
Proof.
  intros (c & t' & -> & Hc) H. exists c, t'. split; [reflexivity|]. rewrite forallb_forall in H. now apply existsb_In_N, H.
Qed.
Lemma starts_app cs t r : starts cs t -> starts cs (t ++ r).
Proof. intros (c & t' & -> & Hc). exists c, (t' ++ r). auto. Qed.
Lemma starts_solid cs t r : starts cs t -> forallb (fun c => negb (oneof [32; 9; 10; 13; 35] c)) cs = true -> solid (t ++ r).
Proof.
  intros (c & t' & -> & Hc) H. rewrite forallb_forall in H. apply H in Hc. apply negb_true_iff in Hc.
  change ((c :: t') ++ r) with (c :: (t' ++ r)). apply solid_first. intros K.
  assert (oneof [32; 9; 10; 13; 35] c = true) by now apply existsb_In_N. congruence.
Qed.
Lemma first_stops f c r : first c r -> f c = false -> stops f r.
Proof. intros [r' ->] H. exact H. Qed.
Lemma first_solid c r : first c r -> negb (oneof [32; 9; 10; 13; 35] c) = true -> solid r.
Proof.
  intros [r' ->] H. apply solid_first. intros K. apply negb_true_iff in H.
  assert (oneof [32; 9; 10; 13; 35] c = true) by now apply existsb_In_N. congruence.
Qed.
Lemma stops_first f c r : f c = false -> stops f (c :: r). Proof. auto. Qed.

(** ** Keywords *)
Definition kwf (k : string) : char -> bool := fun c => match s_ k with x :: _ => to_lower c =? x | [] => true end.
Lemma kwf_fails k i : low_ascii (s_ k) && negb (str_eqb (s_ k) []) = true -> stops (kwf k) i -> fails (tag_no_case (s_ k)) i.
Proof.
  intros K S. apply andb_true_iff in K. destruct K as [K N]. unfold kwf in S. destruct (s_ k) as [|x k'] eqn:E; [discriminate|].
  apply tnc_fails_first; [assumption|]. destruct i as [|c i]; [exact I|]. cbn in S |- *. now apply N.eqb_neq.
Qed.
Definition word_like (k : string) : bool :=
  low_ascii (s_ k) && match s_ k with x :: _ => (97 <=? x) && (x <=? 122) | [] => false end.
Lemma word_low k : word_like k = true -> low_ascii (s_ k) = true.
Proof. intros H. now apply andb_true_iff in H. Qed.
Lemma kwf_base k c : word_like k = true -> kwf k c = true -> base_char c = true.
Proof.
  intros W H. unfold word_like in W. apply andb_true_iff in W. destruct W as [_ W]. unfold kwf in H.
  destruct (s_ k) as [|x k']; [discriminate|]. apply andb_true_iff in W. destruct W as [W1 W2]. apply N.leb_le in W1, W2.
  apply N.eqb_eq in H. unfold to_lower in H.
  destruct ((65 <=? c) && (c <=? 90)) eqn:E.
  - apply andb_true_iff in E. destruct E as [E1 E2]. apply N.leb_le in E1, E2.
    assert (In c [65;66;67;68;69;70;71;72;73;74;75;76;77;78;79;80;81;82;83;84;85;86;87;88;89;90]) by (cbn; lia).
    cbn in H0. repeat (destruct H0 as [<-|H0]; [reflexivity|]). destruct H0.
  - destruct (c =? 8490) eqn:E8; [apply N.eqb_eq in E8; subst c; reflexivity|].
    subst x. assert (In c [97;98;99;100;101;102;103;104;105;106;107;108;109;110;111;112;113;114;115;116;117;118;119;120;121;122]) by (cbn; lia).
    cbn in H. repeat (destruct H as [<-|H]; [reflexivity|]). destruct H.
Qed.
Lemma kwf_fails_base k i : word_like k = true -> stops base_char i -> fails (tag_no_case (s_ k)) i.
Proof.
  intros W S. apply kwf_fails.
  - unfold word_like in W. apply andb_true_iff in W. destruct W as [-> W]. destruct (s_ k); [discriminate|reflexivity].
  - eapply stops_sub; [|exact S]. intros c. now apply kwf_base.
Qed.
(** the two characters a keyword may start with *)
Definition cap2 (k : string) : str := match s_ k with x :: _ => [x; x - 32] | [] => [] end.
Lemma kw_starts k t : word_like k = true -> kw k t -> starts (cap2 k) t.
Proof.
  intros W H. unfold word_like in W. apply andb_true_iff in W. destruct W as [_ W]. change (kwd (s_ k) t) in H. unfold cap2.
  destruct (s_ k) as [|x k']; [discriminate|]. apply andb_true_iff in W. destruct W as [W1 W2]. apply N.leb_le in W1, W2.
  destruct (kwd_nonempty _ _ _ H) as (c & w' & -> & L). exists c, w'. split; [reflexivity|].
  unfold lower, in_ranges, existsb in L. rewrite orb_false_r in L. destruct ((65 <=? c) && (c <=? 90)); cbn; lia.
Qed.
Lemma begins_starts k i : word_like k = true -> begins k i -> starts (cap2 k) i.
Proof. intros W (t & r & -> & H). apply starts_app. now apply kw_starts. Qed.
Lemma letters_solid x : 97 <= x <= 122 -> forall c, In c [x; x - 32] -> ~ In c [32; 9; 10; 13; 35].
Proof. intros H c Hc K. cbn in *. lia. Qed.
Lemma kw_solid' k t r : word_like k = true -> kw k t -> solid (t ++ r).
Proof.
  intros W H. change (kwd (s_ k) t) in H. unfold word_like in W. apply andb_true_iff in W. destruct W as [_ W].
  destruct (s_ k) as [|x k']; [discriminate|]. apply andb_true_iff in W. destruct W as [W1 W2]. apply N.leb_le in W1, W2.
  eapply kw_solid; [exact H|lia].
Qed.
Lemma begins_solid k i : word_like k = true -> begins k i -> solid i.
Proof. intros W (t & r & -> & H). now apply (kw_solid' k). Qed.

(** ** Terms *)
Definition num_first : char -> bool := orc (in_ranges digits) (oneof (s_ "+-.")).
Definition value_first : char -> bool := orc iri_first (orc num_first (oneof (s_ "'"""))).
Definition voi_first : char -> bool := orc iri_first (oneof (s_ "?$")).
Definition term_first : char -> bool := orc value_first (oneof (s_ "_[(")).
Definition vot_first : char -> bool := orc term_first (oneof (s_ "?$")).
Definition node_first : char -> bool := vot_first.
Lemma base_iri_first i : stops iri_first i -> stops base_char i.
Proof. apply stops_sub. intros c H. unfold iri_first. now rewrite H. Qed.
Lemma isd_digits i : stops (in_ranges digits) i -> stops isd i.
Proof. auto. Qed.
Lemma var_first i : stops (oneof (s_ "?$")) i -> fails var i.
Proof. intros S. apply var_fails; eapply stops_oneof; try exact S; cbn; auto. Qed.
Lemma num_first_fails i : stops num_first i -> fails numeric_literal i.
Proof.
  intros S. apply stops_orc in S. destruct S as [S1 S2].
  apply numeric_fails_first; [now apply isd_digits|eapply stops_oneof; [exact S2|cbn; auto]..].
Qed.
Lemma lit_first i : stops (oneof (s_ "'""")) i -> fails rdf_literal i.
Proof. intros S. apply rdf_literal_fails; eapply stops_oneof; try exact S; cbn; auto. Qed.
Lemma boolean_first i : stops base_char i -> fails boolean i.
Proof.
  intros S. unfold boolean. apply alt_fails_cons; [apply map_fails; now apply (kwf_fails_base "false")|].
  apply alt_fails_cons; [apply map_fails; now apply (kwf_fails_base "true")|apply alt_fails_nil].
Qed.
Lemma blank_node_first i : stops (oneof (s_ "_[")) i -> fails blank_node i.
Proof.
  intros S. unfold blank_node. apply alt_fails_cons; [|apply alt_fails_cons; [|apply alt_fails_nil]].
  - apply map_fails. apply pair_fails1. apply tag_fails_first. eapply stops_oneof; [exact S|cbn; auto].
  - apply map_fails, preceded_fails1, chr_fails. eapply stops_oneof; [exact S|cbn; auto].
Qed.
Lemma nil_first i : not_first 40 i -> fails nil_ i.
Proof. intros S. apply preceded_fails1, chr_fails. exact S. Qed.
Lemma sub_oneof cs cs' i : forallb (fun c => existsb (N.eqb c) cs) cs' = true -> stops (oneof cs) i -> stops (oneof cs') i.
Proof.
  intros H. apply stops_sub. intros c Hc. unfold oneof in *. apply existsb_In_N in Hc. rewrite forallb_forall in H. now apply H.
Qed.
Lemma graph_term_first i : stops term_first i -> fails graph_term i.
Proof.
  intros S. apply stops_orc in S. destruct S as [S S4]. apply stops_orc in S. destruct S as [S1 S]. apply stops_orc in S.
  destruct S as [S2 S3]. unfold graph_term.
  apply alt_fails_cons; [now apply map_fails, iri_fails_first|].
  apply alt_fails_cons; [now apply map_fails, lit_first|].
  apply alt_fails_cons; [now apply map_fails, num_first_fails|].
  apply alt_fails_cons; [now apply map_fails, boolean_first, base_iri_first|].
  apply alt_fails_cons; [apply map_fails, blank_node_first; now apply (sub_oneof (s_ "_[("))|].
  apply alt_fails_cons; [apply map_fails, nil_first; eapply stops_oneof; [exact S4|cbn; auto]|apply alt_fails_nil].
Qed.
Lemma var_or_term_first i : stops vot_first i -> fails var_or_term i.
Proof.
  intros S. apply stops_orc in S. destruct S as [S1 S2]. unfold var_or_term.
  apply alt_fails_cons; [now apply map_fails, var_first|]. apply alt_fails_cons; [|apply alt_fails_nil].
  now apply map_fails, graph_term_first.
Qed.
Lemma var_or_iri_first i : stops voi_first i -> fails var_or_iri i.
Proof.
  intros S. apply stops_orc in S. destruct S as [S1 S2]. unfold var_or_iri.
  apply alt_fails_cons; [now apply map_fails, var_first|]. apply alt_fails_cons; [|apply alt_fails_nil].
  now apply map_fails, iri_fails_first.
Qed.
Lemma verb_first i : stops voi_first i -> fails verb i.
Proof.
  intros S. unfold verb. apply alt_fails_cons; [now apply map_fails, var_or_iri_first|].
  apply alt_fails_cons; [|apply alt_fails_nil]. apply stops_orc in S. destruct S as [S1 S2].
  apply map_fails. apply (kwf_fails_base "a"); [reflexivity|now apply base_iri_first].
Qed.
Lemma value_first_fails i : stops value_first i -> fails datablock_value i.
Proof.
  intros S. apply stops_orc in S. destruct S as [S1 S]. apply stops_orc in S.
  destruct S as [S2 S3]. unfold datablock_value.
  apply alt_fails_cons; [now apply map_fails, iri_fails_first|].
  apply alt_fails_cons; [now apply map_fails, lit_first|].
  apply alt_fails_cons; [now apply map_fails, num_first_fails|].
  apply alt_fails_cons; [now apply map_fails, boolean_first, base_iri_first|].
  apply alt_fails_cons; [|apply alt_fails_nil]. apply map_fails.
  apply (kwf_fails_base "undef"); [reflexivity|now apply base_iri_first].
Qed.
(** what terms start with *)
Definition digit_chars : str := [48;49;50;51;52;53;54;55;56;57].
Definition num_chars : str := digit_chars ++ s_ "+-.".
Lemma digits1_starts ds : digits1 ds -> starts digit_chars ds.
Proof.
  intros [N A]. destruct ds as [|c ds]; [congruence|]. exists c, ds. split; [reflexivity|].
  apply all_cons in A. destruct A as [A _]. unfold in_ranges, digits, existsb in A. rewrite orb_false_r in A.
  apply andb_true_iff in A. destruct A as [A1 A2]. apply N.leb_le in A1, A2. cbn. lia.
Qed.
Lemma i64_starts z t : R_i64 z t -> starts num_chars t.
Proof.
  intros (sg & k & ds & S & -> & D & _). destruct S; cbn [app].
  - eapply starts_sub; [now apply digits1_starts|reflexivity].
  - exists 43, ds. split; [reflexivity|]. cbn. tauto.
  - exists 45, ds. split; [reflexivity|]. cbn. tauto.
Qed.
Lemma digits0_starts c ds : digits0 (c :: ds) -> starts digit_chars (c :: ds).
Proof. intros A. apply digits1_starts. split; [discriminate|exact A]. Qed.
Lemma decimal_starts q t : R_decimal q t -> starts num_chars t.
Proof.
  intros (sg & k & ip & fp & pt & S & -> & D1 & D2 & P & N & _).
  assert (X : starts num_chars (ip ++ pt ++ fp)).
  { destruct ip as [|c ip].
    - destruct P as [->|[-> ->]]; [|now elim N]. exists 46, fp. split; [reflexivity|]. cbn. tauto.
    - apply starts_app. eapply starts_sub; [now apply digits0_starts|reflexivity]. }
  destruct S; cbn [app].
  - exact X.
  - eexists 43, _. split; [reflexivity|]. cbn. tauto.
  - eexists 45, _. split; [reflexivity|]. cbn. tauto.
Qed.
Lemma numeric_starts n t r : W_numeric n t r -> starts num_chars t.
Proof.
  destruct n as [z|q [z|]]; cbn.
  - intros [H _]. now apply (i64_starts z).
  - intros [(u & v & -> & Hu & _) _]. apply starts_app. now apply (decimal_starts q).
  - intros [H _]. now apply (decimal_starts q).
Qed.
Lemma string_starts s t : R_string s t -> starts (s_ "'""") t.
Proof. intros (q & Hq & -> & _). exists q, (s ++ [q]). split; [reflexivity|]. cbn. destruct Hq; subst; auto. Qed.
Lemma rdf_literal_starts l t r : W_rdf_literal l t r -> starts (s_ "'""") t.
Proof. destruct l as [s d]. intros (u & x & -> & H & _). apply starts_app. now apply (string_starts s). Qed.
Lemma var_starts v t : R_var v t -> starts (s_ "?$") t.
Proof. intros H. apply R_var_text in H. destruct H as (b & -> & _). exists (sigil v), (b ++ vname v). split; [reflexivity|]. destruct v; cbn; auto. Qed.
Lemma blank_node_starts b t : R_blank_node b t -> starts (s_ "_[") t.
Proof. destruct b; intros (u & v & -> & -> & _); cbn [app s_]; eexists _, _; (split; [reflexivity|]); cbn; auto. Qed.
Lemma nil_starts t : R_nil t -> starts (s_ "(") t.
Proof. intros (u & v & -> & -> & _). eexists _, _. split; [reflexivity|]. cbn. auto. Qed.
Lemma boolean_starts b t r : W_boolean b t r -> starts (s_ "tTfF") t.
Proof. intros [H _]. eapply starts_sub; [eapply kw_starts; [|exact H]; now destruct b|now destruct b]. Qed.
Lemma no_iri_fails i : no_iri i <-> fails iri i.
Proof. symmetry. apply iri_fails_iff. Qed.
