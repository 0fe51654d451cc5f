(** What stands after a word or a path that was read: no colon after blank text, no modifier. *)
From Verif Require Import SpecTame LName3 LMore1 LGood LPrint1 LMono LC8 LMods LSafe LShape.
From Verif Require Import Nom.
Notation length := List.length (only parsing).
Open Scope N_scope.
Open Scope list_scope.

(** ** After a word *)
Definition colon_next (r : str) : Prop := exists b r', r = b ++ 58 :: r' /\ blank b.
Lemma word_colon_iri k t r : letter_word k = true -> kw k t -> colon_next r -> exists r' j, iri (t ++ r) = Ok r' j.
Proof.
  intros W H (b & r' & -> & Hb). pose proof (letter_kw_prefix k t W H) as P.
  assert (E : pname_ns (t ++ b ++ 58 :: r') = Ok r' (Some t)).
  { apply pname_ns_iff. exists (t ++ b ++ [58]). split; [now rewrite <- !app_assoc|]. exists t, (b ++ [58]). split; [reflexivity|].
    split; [now split|]. exists b, [58]. repeat split; assumption. }
  destruct (iri_verdict (t ++ b ++ 58 :: r')) as [V|F]; [exact V|]. exfalso.
  rewrite iri_fails_iff in F. apply (F (IriPrefixedName (PnameNS (Some t))) (t ++ b ++ [58]) r'); [now rewrite <- !app_assoc|].
  exists t, (b ++ [58]). split; [reflexivity|]. split; [now split|]. exists b, [58]. repeat split; assumption.
Qed.
(** the name is tried first *)
Lemma name_first {A} (C : Iri -> A) ps i r a : ps <> [] -> alt (map iri C :: ps) i = Ok r a -> (forall j, a <> C j) ->
  (forall r' j, iri i <> Ok r' j) /\ alt ps i = Ok r a.
Proof.
  intros N E D. rewrite alt_cons in E by assumption. unfold map at 1 in E. destruct (iri i) as [r' j|[]] eqn:K; try discriminate.
  - injection E as -> <-. now destruct (D j).
  - split; [discriminate|assumption].
Qed.
Definition wordy {A} (R : A -> str -> Prop) (a : A) : Prop := exists k, letter_word k = true /\ forall t, R a t -> kw k t.
Lemma after_word {A} (C : Iri -> A) ps (R : A -> str -> Prop) i r a : ps <> [] -> sound (alt (map iri C :: ps)) R ->
  alt (map iri C :: ps) i = Ok r a -> (forall j, a <> C j) -> wordy R a -> ~ colon_next r.
Proof.
  intros N S E D (k & K & W) H. destruct (S _ _ _ E) as (t & -> & Ht). apply name_first in E; auto. destruct E as [E _].
  destruct (word_colon_iri k t r K (W t Ht) H) as (r' & j & X). exact (E _ _ X).
Qed.
Lemma boolean_wordy b : exists k, letter_word k = true /\ forall t, R_boolean b t -> kw k t.
Proof. destruct b; [exists "true"%string|exists "false"%string]; split; auto. Qed.
Lemma after_boolean i r v : var_or_term i = Ok r v -> is_bool v = true -> ~ colon_next r.
Proof.
  unfold var_or_term. intros E B. apply alt_inv in E. destruct E as (p & [<-|[<-|[]]] & E); apply map_inv in E; destruct E as (x & E & <-).
  - discriminate.
  - destruct x as [| | |b| |]; try discriminate. eapply (after_word GtIri); [|exact sd_graph_term|exact E|discriminate|exact (boolean_wordy b)]. discriminate.
Qed.
Definition word_value (v : DataBlockValue) : bool := match v with DbvBooleanLiteral _ | DbvUnDef => true | _ => false end.
Lemma after_word_value i r v : datablock_value i = Ok r v -> word_value v = true -> ~ colon_next r.
Proof.
  intros E B. eapply (after_word DbvIri); [|exact sd_datablock_value|exact E|now destruct v|].
  - discriminate.
  - destruct v as [| | |b|]; try discriminate; [exact (boolean_wordy b)|]. exists "undef"%string. split; auto.
Qed.
Lemma after_verb_a i r : verb i = Ok r VerbA -> ~ colon_next r.
Proof.
  intros E H. destruct (sd_verb _ _ _ E) as (t & -> & Ht). unfold verb in E. rewrite alt_cons in E by discriminate. unfold map at 1 in E.
  destruct (word_colon_iri "a" t r eq_refl Ht H) as (r' & j & X). unfold var_or_iri in E. rewrite alt_cons in E by discriminate.
  unfold map at 1 in E. destruct (var (t ++ r)) as [? ?|[]]; try discriminate.
  cbn [alt] in E. unfold map at 1 in E. rewrite X in E. discriminate.
Qed.

(** ** The first character written *)
(** [o] starts with the first character of [t], or with a character of no importance *)
Definition like (t o : str) : Prop := exists c o', o = c :: o' /\ (first c t \/ (c < 128 /\ ~ In c (s_ "?*+:"))).
Lemma like_app t o u v : like t o -> like (t ++ u) (o ++ v).
Proof. intros (c & o' & -> & [(t' & ->)|H]); exists c, (o' ++ v); split; auto. left. now exists (t' ++ u). Qed.
Lemma like_appr t o v : like t o -> like t (o ++ v).
Proof. intros (c & o' & -> & H); exists c, (o' ++ v); split; auto. Qed.
Lemma like_colon t r o : like t o -> not_first 58 (t ++ r) -> not_first 58 o.
Proof. intros (c & o' & -> & [(t' & ->)|[_ H]]); [auto|]. intros _ ->. apply H. vm_compute. auto. Qed.
Lemma like_plain t r o : like t o -> plain_start (t ++ r) -> plain_start o.
Proof.
  intros (c & o' & -> & [(t' & ->)|[H1 H2]]) (d & u & E & H3 & H4); exists c, o'; (split; [reflexivity|]).
  - injection E as <- <-. auto.
  - split; [assumption|]. intros K. apply H2. cbn in *. intuition.
Qed.
Lemma like_starts cs t o : starts cs o -> forallb (fun c => (c <? 128) && negb (existsb (N.eqb c) (s_ "?*+:"))) cs = true -> like t o.
Proof.
  intros (c & o' & -> & H) F. exists c, o'. split; [reflexivity|]. right. rewrite forallb_forall in F. apply F in H.
  apply andb_true_iff in H. destruct H as [H1 H2]. apply N.ltb_lt in H1. split; [assumption|]. intros K. apply negb_true_iff in H2.
  assert (existsb (N.eqb c) (s_ "?*+:") = true) by (apply existsb_exists; exists c; split; [assumption|apply N.eqb_refl]). congruence.
Qed.
Lemma solid_no_blank b r : solid (b ++ 58 :: r) -> blank b -> b = [].
Proof.
  intros S B. assert (E1 : sp (b ++ 58 :: r) = Ok (58 :: r) b) by (apply sp_iff; repeat split; auto; cbn; intuition discriminate).
  assert (E2 : sp (b ++ 58 :: r) = Ok (b ++ 58 :: r) []) by (apply sp_iff; repeat split; auto; constructor). congruence.
Qed.
Lemma iri_like i t r : R_iri i t -> tame_iri i -> solid (t ++ r) -> like t (pr_iri i).
Proof.
  destruct i as [s|[p l|p]]; cbn [R_iri R_prefixed_name tame_iri pr_iri]; [|intros (u & v & -> & (x & y & -> & H1 & b & c & -> & Hb & ->) & H2) _ S|contradiction].
  - intros _ _ _. eapply (like_starts (s_ "<")); [|reflexivity]. eexists _, _. split; [reflexivity|]. now left.
  - destruct p as [p|].
    + destruct H1 as [-> (c & t & -> & _)]. exists c, ((t ++ [58]) ++ l). split; [reflexivity|]. left. exists (((t ++ b ++ s_ ":") ++ v)). reflexivity.
    + cbn in H1. unfold empty in H1. subst x. cbn [app] in S |- *. rewrite <- !app_assoc in S. cbn [app] in S. apply solid_no_blank in S; [|assumption]. subst b.
      exists 58, l. split; [reflexivity|]. left. now exists v.
Qed.
Lemma var_like v t : R_var v t -> like t (pr_var v).
Proof.
  destruct v as [s|s]; intros (u & x & -> & -> & _); (eexists _, _; split; [reflexivity|]).
  - left. now exists x.
  - right. split; [reflexivity|]. vm_compute. intuition discriminate.
Qed.
Lemma term_like g t r : R_graph_term g t -> tame_term g -> wf_term g -> solid (t ++ r) -> like t (pr_term s_ g).
Proof.
  destruct g as [i|l|n|b|b|]; cbn [R_graph_term tame_term wf_term pr_term].
  - intros H T _. now apply iri_like.
  - intros _ _ _ _. eapply like_starts; [apply lit_starts|reflexivity].
  - intros _ _ H _. eapply like_starts; [now apply num_starts|reflexivity].
  - intros _ _ _ _. eapply (like_starts (s_ "tf")); [|reflexivity]. destruct b; (eexists _, _; split; [reflexivity|]); cbn; auto.
  - intros _ _ _ _. eapply like_starts; [apply bnode_starts|reflexivity].
  - intros _ _ _ _. eapply (like_starts (s_ "(")); [|reflexivity]. eexists _, _; split; [reflexivity|]; cbn; auto.
Qed.
Lemma vot_like v t r : R_var_or_term v t -> tame_vot v -> wf_vot v -> solid (t ++ r) -> like t (pr_vot s_ v).
Proof. destruct v as [v|g]; cbn [R_var_or_term tame_vot wf_vot pr_vot]; [intros H _ _ _; now apply var_like|apply term_like]. Qed.
Lemma sepby_first {A} (R : A -> str -> Prop) S a l t : sepby R S (a :: l) t -> exists u v, t = u ++ v /\ R a u.
Proof.
  destruct l as [|b l]; cbn [sepby]; [intros H; exists t, []; now rewrite app_nil_r|].
  intros (u & v & -> & H & _). now exists u, v.
Qed.
Lemma objects_like o t r : R_object_list o t -> tame_objects o -> wf_objects o -> solid (t ++ r) -> like t (pr_objects s_ [32] o).
Proof.
  destruct o as [[|[v|n] l]]; cbn [R_object_list tame_objects wf_objects]; intros [N H] T [_ W] S; [contradiction| |].
  - apply sepby_first in H. destruct H as (u & x & -> & H). inversion_clear T as [|? ? T1 _]. inversion_clear W as [|? ? W1 _].
    cbn [pr_objects List.map joined pr_node]. apply like_app. rewrite <- app_assoc in S. now apply (vot_like v u (x ++ r)).
  - inversion_clear W as [|? ? W1 _]. destruct W1.
Qed.
Lemma voi_like v t r : R_var_or_iri v t -> tame_voi v -> solid (t ++ r) -> like t (pr_voi v).
Proof. destruct v as [v|i]; cbn [R_var_or_iri tame_voi pr_voi]; [intros H _ _; now apply var_like|apply iri_like]. Qed.
Definition tame_verb (v : Verb) : Prop := match v with VerbVarOrIri v => tame_voi v | VerbA => True end.
Lemma verb_like v t r : R_verb v t -> tame_verb v -> solid (t ++ r) -> like t (pr_verb s_ v).
Proof.
  destruct v as [v|]; cbn [R_verb tame_verb pr_verb]; [apply voi_like|]. intros _ _ _. eapply (like_starts (s_ "a")); [|reflexivity].
  eexists _, _; split; [reflexivity|]; cbn; auto.
Qed.
Lemma props_like p t r : R_property_list p t -> tame_props p -> solid (t ++ r) -> like t (pr_props s_ [32] p).
Proof.
  destruct p as [[|[v o] l]]; cbn [R_property_list tame_props]; intros (u & x & -> & [N H] & _) T S; [contradiction|].
  apply sepby_first in H. destruct H as (y & z & -> & a & b & -> & H & _). inversion_clear T as [|? ? T1 _].
  cbn [pr_props List.map joined pr_verb_list]. rewrite <- !app_assoc in S |- *. apply like_app. eapply verb_like; [exact H| |exact S].
  destruct v; [apply T1|exact I].
Qed.
Lemma path_like p t r : R_path p t -> path_tame tame_path p -> solid (t ++ r) -> like t (pr_path s_ [32] p).
Proof.
  destruct p as [[|[[|e l]] m]]; cbn [R_path path_tame]; intros [N H] T S; [contradiction|exfalso|].
  - apply sepby_first in H. destruct H as (u & v & -> & H & _). contradiction.
  - apply sepby_first in H. destruct H as (u & v & -> & _ & H). apply sepby_first in H. destruct H as (x & y & -> & H).
    inversion_clear T as [|? ? T1 _]. inversion_clear T1 as [|? ? T2 _].
    cbn [pr_path pr_sequence List.map joined]. rewrite <- !app_assoc in S |- *. apply like_app.
    destruct e as [[p m']|[p m']]; cbn [R_elt_or_inverse R_elt] in H; cbn [tame_elt_or_inverse] in T2; cbn [pr_elt_or_inverse pr_elt].
    + destruct H as (a & b & -> & H & _). apply like_app. rewrite <- !app_assoc in S. destruct p as [i| |[s]|p]; cbn [R_path_primary tame_path_primary pr_path_primary] in *.
      * now apply (iri_like i a _ H T2 S).
      * eapply (like_starts (s_ "a")); [|reflexivity]. eexists _, _; split; [reflexivity|]; cbn; auto.
      * eapply (like_starts (s_ "!")); [|reflexivity]. eexists _, _; split; [reflexivity|]; cbn; auto.
      * eapply (like_starts (s_ "(")); [|reflexivity]. eexists _, _; split; [reflexivity|]; cbn; auto.
    + eapply (like_starts (s_ "^")); [|reflexivity]. eexists _, _; split; [reflexivity|]; cbn; auto.
Qed.
Lemma path_primary_mono (P Q : PathAlternative -> Prop) p : (forall p, P p -> Q p) -> tame_path_primary P p -> tame_path_primary Q p.
Proof. intros W. destruct p; cbn; auto. Qed.
Lemma path_elt_mono (P Q : PathAlternative -> Prop) p : (forall p, P p -> Q p) -> tame_elt_or_inverse P p -> tame_elt_or_inverse Q p.
Proof. intros W. destruct p as [[p m]|[p m]]; cbn [tame_elt_or_inverse]; now apply path_primary_mono. Qed.
Lemma tame_path_inv p : tame_path p -> path_tame tame_path p.
Proof.
  intros [P p' W H]. destruct p' as [l]. cbn in *. eapply Forall_impl; [|exact H]. intros [l'] F. eapply Forall_impl; [|exact F].
  intros a. now apply path_elt_mono.
Qed.
Lemma props_path_like p t r : R_property_list_path p t -> tame_props_path p -> solid (t ++ r) -> like t (pr_props_path s_ [32] p).
Proof.
  destruct p as [v o es]; cbn [R_property_list_path tame_props_path pr_props_path]. intros (u & x & -> & H & _) (T & _) S. apply like_app.
  rewrite <- app_assoc in S. destruct v as [p|v]; cbn [R_verb_path tame_verb_path pr_verb_path] in *; [|now apply var_like].
  apply tame_path_inv in T. exact (path_like p u _ H T S).
Qed.

(** ** After a path *)
Lemma opt_none_inv {A} (p : parser A) i r : opt p i = Ok r None -> r = i /\ fails p i.
Proof. unfold opt. destruct (p i) as [? ?|[]] eqn:E; try discriminate. intros [= ->]. split; [reflexivity|]. eexists _, _. exact E. Qed.
Definition plain_next (r : str) : Prop := forall b i, sp1 r = Ok i b -> plain_start i.
Lemma no_mod_plain r : fails (preceded sp1 path_mod) r -> plain_next r.
Proof.
  intros F b i E. assert (K : fails path_mod i).
  { destruct F as (p & k & F). unfold preceded, map, pair in F. rewrite E in F. destruct (path_mod i) as [? ?|e] eqn:X; [discriminate|]. injection F as ->. eexists _, _; exact X. }
  clear F E. destruct K as (p & k & K). destruct i as [|c i]; [discriminate|]. exists c, i. split; [reflexivity|].
  assert (C : c < 128).
  { destruct (N.ltb_spec c 128) as [|L]; [assumption|]. exfalso. unfold path_mod in K. apply N.ltb_ge in L. cbn [split_at] in K. unfold utf8_len in K.
    rewrite L in K. destruct (c <? 0x800), (c <? 0x10000); cbn in K; discriminate K. }
  split; [exact C|]. intros H. cbn in H. destruct H as [<-|[<-|[<-|[]]]]; unfold path_mod in K; destruct i; discriminate K.
Qed.
Lemma sepne_end {A B} (s : parser B) (p : parser A) i r l : shrinks s -> shrinks p -> separated_nonempty_list s p i = Ok r l ->
  exists k b l', p k = Ok r b /\ l = l' ++ [b].
Proof.
  intros Ss Sp H. apply sepne_iff in H; auto. destruct H as (i1 & a & l' & E & N & M & ->). destruct (sep_last _ _ _ _ _ M i a E) as (k & b & K & l2 & ->).
  now exists k, b, l2.
Qed.
Section PathEnd.
  Context (pa : parser PathAlternative) (Spa : sound pa R_path).
  (** what the last element says about the rest *)
  Definition elt_end (e : PathEltOrInverse) (r : str) : Prop :=
    match e with
    | PeiPathElt (MkPathElt PpA None) | PeiInverse (MkPathElt PpA None) => plain_next r /\ ~ colon_next r
    | PeiPathElt (MkPathElt _ None) | PeiInverse (MkPathElt _ None) => plain_next r
    | _ => True
    end.
  Lemma primary_end i r : path_primary_of pa i = Ok r PpA -> ~ colon_next r.
  Proof using Spa.
    intros E. eapply (after_word PpIri); [|exact (sd_path_primary_of pa Spa)|exact E|discriminate|].
    - discriminate.
    - exists "a"%string. split; [reflexivity|]. intros t ->. reflexivity.
  Qed.
  Lemma path_elt_end i r p : path_elt_of pa i = Ok r p -> elt_end (PeiPathElt p) r /\ elt_end (PeiInverse p) r.
  Proof using Spa.
    unfold path_elt_of. intros E. apply map_inv in E. destruct E as ([q m] & E & <-). apply pair_inv in E. destruct E as (i1 & E1 & E2).
    destruct m as [m|]; [destruct q; split; exact I|]. apply opt_none_inv in E2. destruct E2 as [-> F]. apply no_mod_plain in F.
    destruct q; cbn [elt_end]; try (split; exact F). apply primary_end in E1. auto.
  Qed.
  Lemma elt_or_inverse_end i r e : path_elt_or_inverse_of pa i = Ok r e -> elt_end e r.
  Proof using Spa.
    unfold path_elt_or_inverse_of. intros E. apply alt_inv in E. destruct E as (p & [<-|[<-|[]]] & E); apply map_inv in E; destruct E as (x & E & <-).
    - now apply path_elt_end in E.
    - apply preceded_inv in E. destruct E as (i1 & b & _ & E). now apply path_elt_end in E.
  Qed.
  Lemma path_body_end i r l : path_alternative_body pa i = Ok r (MkPathAlternative [MkPathSequence l]) ->
    exists e, elt_end e r /\ forall d, last l d = e.
  Proof using Spa.
    unfold path_alternative_body. intros E. apply map_inv in E. destruct E as (l' & E & [= ->]).
    apply sepne_end in E; [|eapply gd_shrinks; intros k; sg|eapply sound_shrinks, sd_path_sequence_of, Spa].
    destruct E as (k & s & l' & E & H). destruct l' as [|y l']; [|apply (f_equal (@length _)) in H; cbn in H; rewrite app_length in H; cbn in H; lia].
    injection H as <-. unfold path_sequence_of in E. apply map_inv in E. destruct E as (l' & E & [= ->]).
    apply sepne_end in E; [|eapply gd_shrinks; intros k'; sg|eapply sound_shrinks, sd_path_elt_or_inverse_of, Spa].
    destruct E as (k2 & e & l' & E & ->). exists e. split; [exact (elt_or_inverse_end _ _ _ E)|]. intros d. apply last_last.
  Qed.
End PathEnd.
Lemma path_end i r p : path_alternative i = Ok r p -> (ends_bare p = true -> plain_next r) /\ (ends_a p = true -> ~ colon_next r).
Proof.
  rewrite path_alternative_eq. intros E. destruct (path_body_one _ sd_path_alternative _ _ _ E) as [l ->].
  destruct (path_body_end _ sd_path_alternative _ _ _ E) as (e & H & L). cbn [ends_bare ends_a]. rewrite !L.
  destruct e as [[[] []]|[[] []]]; cbn [elt_end] in H; split; intros X; try discriminate; try exact H; apply H.
Qed.
(** after a verb and blank text *)
Lemma verb_end i r v b k : verb_path_or_simple i = Ok r v -> sp1 r = Ok k b ->
  match v with VpsPath p => (ends_bare p = true -> plain_start k) /\ (ends_a p = true -> not_first 58 k) | VpsSimple _ => True end.
Proof.
  unfold verb_path_or_simple. intros E S. apply alt_inv in E. destruct E as (p & [<-|[<-|[]]] & E); apply map_inv in E; destruct E as (x & E & <-); [|exact I].
  apply path_end in E. destruct E as [E1 E2]. split; intros H; [exact (E1 H _ _ S)|]. specialize (E2 H). apply sp1_iff in S. destruct S as (-> & Hb & _).
  destruct k as [|c k]; [exact I|]. intros ->. apply E2. exists b, k. split; [reflexivity|]. apply Hb.
Qed.
Lemma no_colon b k : blank b -> ~ colon_next (b ++ k) -> not_first 58 k.
Proof. intros Hb H. destruct k as [|c k]; [exact I|]. intros ->. apply H. now exists b, k. Qed.
Lemma colon_blank b r : blank b -> colon_next r -> colon_next (b ++ r).
Proof. intros Hb (c & r' & -> & Hc). exists (b ++ c), r'. split; [apply app_assoc|now apply blank_app]. Qed.
Lemma iri_named i t r : R_iri i t -> ~ colon_next (t ++ r) -> tame_iri i -> Print.named i.
Proof.
  destruct i as [s|[[p|] l|p]]; cbn [Print.named tame_iri]; auto. intros (u & v & -> & (x & y & -> & H1 & b & c & -> & Hb & ->) & _) H _.
  apply H. cbn in H1. unfold empty in H1. subst x. exists b, (v ++ r). split; [|exact Hb]. cbn. now rewrite <- !app_assoc.
Qed.
Lemma sp_enc_inv {A} (p : parser A) i r a : sp_enc p i = Ok r a -> exists b k j c, i = b ++ k /\ blank b /\ p k = Ok j a /\ j = c ++ r /\ blank c.
Proof.
  unfold sp_enc, delimited. intros E. apply preceded_inv in E. destruct E as (k & b & E1 & E). apply terminated_inv in E. destruct E as (j & c & E2 & E3).
  apply sp_iff in E1. destruct E1 as (-> & Hb & _). apply sp_iff in E3. destruct E3 as (-> & Hc & _). now exists b, k, (c ++ r), c.
Qed.
Lemma many_head {A} (p : parser A) i r a l : many_ok p i r (a :: l) -> exists i1, p i = Ok i1 a.
Proof. intros M. inversion M; subst. eexists. eassumption. Qed.
Lemma values_wf i r l : many_ok (sp_enc datablock_value) i r l -> ens datablock_value (fun v => tame_value v -> wf_value v) ->
  Forall tame_value l -> wf_values l.
Proof.
  intros M H. induction M as [i F|i i1 r v l E N M IH]; [intros _; exact I|]. intros T. pose proof (Forall_inv T) as T1. apply Forall_inv_tail in T. rename T into T2. specialize (IH T2).
  apply sp_enc_inv in E. destruct E as (b & k & j & c & -> & Hb & E & -> & Hc). split; [exact (H _ _ _ E T1)|]. split; [|exact IH].
  destruct l as [|v' l']; [exact I|]. apply many_head in M. destruct M as (i2 & E').
  destruct (word_value v) eqn:W; [|destruct v; try discriminate; exact I]. pose proof (after_word_value _ _ _ E W) as C.
  destruct v' as [i| | | |]; try (destruct v; exact I). assert (K : Print.named i); [|destruct v; try discriminate; exact K].
  apply sp_enc_inv in E'. destruct E' as (b' & k' & j' & c' & -> & Hb' & E' & _).
  destruct (sd_datablock_value _ _ _ E') as (t & -> & Ht). apply (iri_named i t j' Ht).
  - intros Q. apply C, colon_blank, colon_blank; assumption.
  - inversion_clear T2 as [|? ? T3 _]. exact T3.
Qed.
Lemma items_step i i1 r v l : sp_enc graph_node i = Ok i1 v -> many_ok (sp_enc graph_node) i1 r l -> ens graph_node (fun v => tame_node v -> wf_node v) ->
  Forall tame_node (v :: l) -> wf_items l -> wf_items (v :: l).
Proof.
  intros E M H T IH. pose proof (Forall_inv T) as T1. apply Forall_inv_tail in T. rename T into T2.
  apply sp_enc_inv in E. destruct E as (b & k & j & c & -> & Hb & E & -> & Hc). split; [exact (H _ _ _ E T1)|]. split; [|exact IH].
  destruct l as [|v' l']; [exact I|]. apply many_head in M. destruct M as (i2 & E').
  destruct v as [[|[| | |x| |]]|]; try exact I. assert (C : ~ colon_next (c ++ i1)).
  { rewrite graph_node_eq in E. unfold graph_node_body in E. apply alt_inv in E.
    destruct E as (p & [<-|[<-|[]]] & E); apply map_inv in E; destruct E as (y & E & D); [injection D as ->|discriminate]. now apply after_boolean in E. }
  destruct v' as [[|[i| | | | |]]|]; try exact I. cbn [wf_item].
  apply sp_enc_inv in E'. destruct E' as (b' & k' & j' & c' & -> & Hb' & E' & _).
  destruct (sd_graph_node _ _ _ E') as (t & -> & Ht). apply (iri_named i t j' Ht).
  - intros Q. apply C, colon_blank, colon_blank; assumption.
  - inversion_clear T2 as [|? ? T3 _]. exact T3.
Qed.
Lemma items_wf i r l : many_ok (sp_enc graph_node) i r l -> ens graph_node (fun v => tame_node v -> wf_node v) ->
  Forall tame_node l -> wf_items l.
Proof.
  intros M H. induction M as [i F|i i1 r v l E N M IH]; [intros _; exact I|]. intros T. apply (items_step i i1 r v l E M H T).
  apply IH. exact (Forall_inv_tail T).
Qed.
Lemma objects_path_like o t r : R_object_list_path o t -> match o with MkObjectListPath l => Forall tame_node_path l end ->
  match o with MkObjectListPath l => l <> [] /\ Forall wf_node_path l end -> solid (t ++ r) -> like t (pr_objects_path s_ [32] o).
Proof.
  destruct o as [[|[v|n] l]]; cbn [R_object_list_path]; intros [N H] T [_ W] S; [contradiction| |].
  - apply sepby_first in H. destruct H as (u & x & -> & H). inversion_clear T as [|? ? T1 _]. inversion_clear W as [|? ? W1 _].
    cbn [pr_objects_path List.map joined pr_node_path]. apply like_app. rewrite <- app_assoc in S. now apply (vot_like v u (x ++ r)).
  - inversion_clear W as [|? ? W1 _]. destruct W1.
Qed.
