(** Printed prologues, dataset clauses, data blocks, templates. *)
From Verif Require Export LPrint1.
Notation length := List.length (only parsing).
Open Scope N_scope.
Open Scope list_scope.

(** ** Texts that start with a character that no list, clause or bracket ends with *)
Definition taboo : str := [32; 9; 10; 13; 35] ++ s_ ",;.|])}&=*/".
Definition tame (t : str) : Prop := exists c t', t = c :: t' /\ existsb (N.eqb c) taboo = false.
Lemma tame_hard t : tame t -> hard t.
Proof.
  intros (c & t' & -> & H). exists c, t'. split; [reflexivity|]. intros X.
  assert (K : existsb (N.eqb c) taboo = true) by (apply existsb_In_N; unfold taboo; apply in_or_app; now left). congruence.
Qed.
Lemma tame_not c t r : tame t -> existsb (N.eqb c) taboo = true -> not_first c (t ++ r).
Proof. intros (x & t' & -> & H) K. cbn. intros ->. congruence. Qed.
Lemma tame_app t r : tame t -> tame (t ++ r).
Proof. intros (c & t' & -> & H). exists c, (t' ++ r). auto. Qed.
Lemma tame_starts cs t : forallb (fun c => negb (existsb (N.eqb c) taboo)) cs = true -> starts cs t -> tame t.
Proof.
  intros H (c & t' & -> & Hc). exists c, t'. split; [reflexivity|]. rewrite forallb_forall in H. apply negb_true_iff. now apply H.
Qed.
Lemma tame_cons c t : existsb (N.eqb c) taboo = false -> tame (c :: t). Proof. exists c, t. auto. Qed.
Lemma tame_solid t r : tame t -> solid (t ++ r). Proof. intros H. now apply hard_solid, tame_hard. Qed.
Lemma base_tame c t : base_char c = true -> tame (c :: t).
Proof.
  intros H. exists c, t. split; [reflexivity|]. destruct (existsb (N.eqb c) taboo) eqn:E; [|reflexivity].
  apply existsb_exists in E. destruct E as (x & Hx & E). apply N.eqb_eq in E. subst x.
  assert (F : forallb (fun c => negb (base_char c)) taboo = true) by reflexivity.
  rewrite forallb_forall in F. apply F in Hx. rewrite H in Hx. discriminate.
Qed.
Lemma iri_tame i : wf_iri i -> tame (pr_iri i).
Proof.
  destruct i as [s|[[p|] l|p]]; cbn [wf_iri pr_iri]; [now intros _; apply tame_cons| |now intros _; apply tame_cons|intros []].
  intros [(c & t & -> & Hc & _) _]. now apply base_tame.
Qed.
Lemma var_tame v : tame (pr_var v). Proof. destruct v; now apply tame_cons. Qed.
Lemma lit_tame l : tame (pr_lit l). Proof. eapply tame_starts; [|apply lit_starts]. reflexivity. Qed.
Lemma num_tame n : wf_num n -> tame (pr_num n). Proof. intros H. eapply tame_starts; [|now apply num_starts]. reflexivity. Qed.
Lemma bnode_tame b : tame (pr_bnode b). Proof. eapply tame_starts; [|apply bnode_starts]. reflexivity. Qed.

(** a blank, and after it none of the characters [cs] *)
Definition sp_not (cs : str) (r : str) : Prop := exists (Bk : blanks) r', r = Bk ++ r' /\ solid r' /\ Forall (fun c => not_first c r') cs.
Lemma sp_not_weak cs cs' r : sp_not cs r -> forallb (fun c => existsb (N.eqb c) cs) cs' = true -> sp_not cs' r.
Proof.
  intros (Bk & r' & -> & S & F) H. exists Bk, r'. split; [reflexivity|]. split; [assumption|]. rewrite forallb_forall in H.
  rewrite Forall_forall in *. intros c Hc. apply F. apply H in Hc. now apply existsb_In_N in Hc.
Qed.
Lemma sp_not_brk cs r : sp_not cs r -> brk r. Proof. intros (Bk & r' & -> & _). apply btext_brk. Qed.
Lemma sp_not_nxt cs c r : sp_not cs r -> existsb (N.eqb c) cs = true -> nxt (not_first c) r.
Proof.
  intros (Bk & r' & -> & S & F) H. apply nxt_sp; [assumption|]. rewrite Forall_forall in F. apply F. now apply existsb_In_N in H.
Qed.
Lemma sp_not_tame {Bk : blanks} cs t r : tame t -> not_first 58 (t ++ r) -> forallb (fun c => existsb (N.eqb c) (58 :: taboo)) cs = true -> sp_not cs (Bk ++ t ++ r).
Proof.
  intros T N H. exists Bk, (t ++ r). split; [reflexivity|]. split; [now apply tame_solid|]. rewrite forallb_forall in H.
  apply Forall_forall. intros c Hc. apply H in Hc. cbn [existsb] in Hc. apply orb_true_iff in Hc.
  destruct Hc as [Hc|Hc]; [apply N.eqb_eq in Hc; now subst|now apply tame_not].
Qed.
Lemma sp_not_char {Bk : blanks} cs x r : negb (existsb (N.eqb x) cs) = true -> existsb (N.eqb x) [32; 9; 10; 13; 35] = false -> sp_not cs (Bk ++ x :: r).
Proof.
  intros H S. exists Bk, (x :: r). split; [reflexivity|]. split; [apply solid_first; intros X; apply existsb_In_N in X; congruence|].
  apply Forall_forall. intros c Hc. cbn. intros ->. apply existsb_In_N in Hc. rewrite Hc in H. discriminate.
Qed.

(** ** Lists *)
Section Lists.
  Context {A : Type} (W : A -> lang) (p : A -> str) (Q : A -> Prop).
  Lemma many_ended {Bk : blanks} (F stop : str -> Prop) : (forall a r, Q a -> F r -> W a (p a) (Bk ++ r)) -> (forall a t, Q a -> F (p a ++ t)) ->
    (forall r, F r -> solid r) -> forall l r, Forall Q l -> F r -> stop r ->
    manyW (fun a => W a >> gap) stop l (ended Bk (List.map p l)) r.
  Proof.
    intros H1 H2 H3 l r. induction 1 as [|a l Ha Hl IH]; intros Hr Hs; [split; auto|].
    assert (X : F (ended Bk (List.map p l) ++ r)).
    { destruct Hl as [|b l Hb]; [assumption|]. unfold ended. cbn [List.map flat_map]. rewrite <- !app_assoc. now apply H2. }
    cbn [manyW List.map]. change (ended Bk (p a :: List.map p l)) with ((p a ++ Bk) ++ ended Bk (List.map p l)).
    apply then_app; [|now apply IH]. apply then_app; [now apply H1|]. now apply gap_sp, H3.
  Qed.
  Lemma tail_joined (S : lang) sep (F stop : str -> Prop) : (forall a r, Q a -> F r -> W a (p a) r) -> (forall a t, Q a -> F (sep ++ p a ++ t)) ->
    (forall a t, Q a -> S sep (p a ++ t)) -> forall l r, Forall Q l -> F r -> stop r ->
    tailW W S stop l (flat_map (fun x => sep ++ x) (List.map p l)) r.
  Proof.
    intros H1 H2 H3 l r. induction 1 as [|a l Ha Hl IH]; intros Hr Hs; [split; auto|].
    cbn [tailW List.map flat_map]. rewrite <- app_assoc. apply then_app; [rewrite <- app_assoc; now apply H3|].
    apply then_app; [|now apply IH]. apply H1; [assumption|].
    destruct Hl as [|b l Hb]; [assumption|]. cbn [List.map flat_map]. rewrite <- !app_assoc. now apply H2.
  Qed.
  Lemma sep1_joined (S : lang) sep (F stop : str -> Prop) : (forall a r, Q a -> F r -> W a (p a) r) -> (forall a t, Q a -> F (sep ++ p a ++ t)) ->
    (forall a t, Q a -> S sep (p a ++ t)) -> forall l r, l <> [] -> Forall Q l -> F r -> stop r ->
    sep1W W S stop l (joined sep (List.map p l)) r.
  Proof.
    intros H1 H2 H3 l r N Hl Hr Hs. destruct Hl as [|a l Ha Hl]; [congruence|]. cbn [sep1W List.map joined].
    apply then_app; [|now apply (tail_joined S sep F stop)]. apply H1; [assumption|].
    destruct Hl as [|b l Hb]; [assumption|]. cbn [List.map flat_map]. rewrite <- !app_assoc. now apply H2.
  Qed.
  Lemma sep_joined (S : lang) sep (F none stop : str -> Prop) : (forall a r, Q a -> F r -> W a (p a) r) -> (forall a t, Q a -> F (sep ++ p a ++ t)) ->
    (forall a t, Q a -> S sep (p a ++ t)) -> forall l r, l <> [] -> Forall Q l -> F r -> stop r ->
    sepW W S none stop l (joined sep (List.map p l)) r.
  Proof. intros H1 H2 H3 l r N Hl Hr Hs. pose proof (sep1_joined S sep F stop H1 H2 H3 l r N Hl Hr Hs) as X. destruct l; [congruence|exact X]. Qed.
  Lemma joined_first (P : str -> Prop) sep l r : l <> [] -> Forall Q l -> (forall a t, Q a -> P (p a ++ t)) -> P (joined sep (List.map p l) ++ r).
  Proof.
    intros N H X. destruct H as [|a l Ha _]; [congruence|]. cbn [joined List.map]. rewrite <- app_assoc. now apply X.
  Qed.
  Lemma ended_joined {Bk : str} l : l <> [] -> ended Bk (List.map p l) = joined Bk (List.map p l) ++ Bk.
  Proof.
    intros N. destruct l as [|a l]; [congruence|]. clear N. cbn [List.map joined]. revert a.
    induction l as [|b l IH]; intros a; [cbn; now rewrite !app_nil_r|].
    change (ended Bk (p a :: List.map p (b :: l))) with ((p a ++ Bk) ++ ended Bk (p b :: List.map p l)). rewrite IH.
    cbn [List.map flat_map]. now rewrite <- !app_assoc.
  Qed.
  Lemma spaced_joined {Bk : str} l : l <> [] -> spaced Bk (List.map p l) = Bk ++ joined Bk (List.map p l).
  Proof. intros N. destruct l as [|a l]; [congruence|]. cbn [List.map joined spaced flat_map]. now rewrite app_assoc. Qed.
End Lists.
Lemma joined_tame {A} (p : A -> str) (Q : A -> Prop) sep l : l <> [] -> Forall Q l -> (forall a, Q a -> tame (p a)) -> tame (joined sep (List.map p l)).
Proof.
  intros N H X. rewrite <- (app_nil_r (joined _ _)). apply (joined_first p Q); auto. intros. now apply tame_app, X.
Qed.
(** separators *)
Lemma many1_one (P : lang) (stop : str -> Prop) t r : P t r -> stop r -> many1W P stop t r.
Proof. intros H1 H2. exists []. apply then_last; [assumption|]. split; auto. Qed.
Lemma padded_sep (Bk : blanks) s c r : s_ s = [c] -> solid r -> existsb (N.eqb c) [32; 9; 10; 13; 35] = false -> (gap >> sym s >> gap) (Bk ++ [c] ++ Bk) r.
Proof.
  intros E S H. apply then_app; [apply gap_sp; cbn [app]; apply solid_first; intros X; apply existsb_In_N in X; congruence|].
  apply then_cons; [unfold sym, tok, lit; now rewrite E|]. now apply gap_sp.
Qed.

Section Words.
  Context (w : string -> str) (Hw : casing w) (Bk : blanks).
  Lemma lower_same c : (c <? 128) && negb ((65 <=? c) && (c <=? 90)) = true -> lower c = c.
  Proof. intros H. apply andb_true_iff in H. destruct H as [_ H]. apply negb_true_iff in H. unfold lower, in_ranges, existsb. rewrite H. reflexivity. Qed.
  Lemma w_kw k : word_like k = true -> kw k (w k).
  Proof.
    intros H. apply Hw. apply word_low in H. unfold low_ascii in H. rewrite forallb_forall in H.
    rewrite <- (List.map_id (s_ k)) at 2. apply map_ext_in. intros c Hc. now apply lower_same, H.
  Qed.
  Lemma w_word k r : word_like k = true -> word k (w k) r. Proof. apply w_kw. Qed.
  Lemma w_starts k : word_like k = true -> starts (cap2 k) (w k). Proof. intros H. apply kw_starts; [assumption|now apply w_kw]. Qed.
  Lemma w_tame k : word_like k = true -> tame (w k).
  Proof.
    intros H. pose proof (w_kw k H) as K. apply kw_starts in K; [|assumption]. destruct K as (c & t & -> & Hc). apply base_tame.
    unfold word_like in H. unfold cap2 in Hc. apply andb_true_iff in H. destruct H as [_ H]. destruct (s_ k) as [|x s]; [destruct Hc|].
    apply andb_true_iff in H. rewrite !N.leb_le in H. destruct H as [? ?].
    assert (F : forall m : nat, forall b, (forall k, (k < m)%nat -> base_char (b + N.of_nat k) = true) ->
      b <= c < b + N.of_nat m -> base_char c = true).
    { intros m b X [? ?]. specialize (X (N.to_nat (c - b))). rewrite N2Nat.id in X.
      replace (b + (c - b)) with c in X by lia. apply X. lia. }
    destruct Hc as [Hc|[Hc|[]]]; subst c.
    - apply (F 26%nat 97); [|cbn; lia]. clear. intros k Hk. do 26 (destruct k as [|k]; [reflexivity|]). lia.
    - apply (F 26%nat 65); [|cbn; lia]. clear. intros k Hk. do 26 (destruct k as [|k]; [reflexivity|]). lia.
  Qed.
  Lemma w_begins k r : word_like k = true -> begins k (w k ++ r). Proof. intros H. exists (w k), r. split; [reflexivity|now apply w_kw]. Qed.
  Lemma w_solid k r : word_like k = true -> solid (w k ++ r). Proof. intros H. now apply tame_solid, w_tame. Qed.
  Lemma w_nb k k' r : word_like k = true -> word_like k' = true -> differ (s_ k') (s_ k) = true -> ~ begins k (w k' ++ r).
  Proof. intros K K' D B. apply (begins_differ k k' (w k' ++ r)); auto using word_low. now apply w_begins. Qed.
  Lemma w_not_colon k r : word_like k = true -> not_first 58 (w k ++ r).
  Proof.
    intros H. pose proof (w_starts k H) as K. unfold word_like in H. apply andb_true_iff in H. destruct H as [_ H].
    unfold cap2 in K. destruct (s_ k) as [|x s]; [discriminate|]. apply andb_true_iff in H. rewrite !N.leb_le in H.
    destruct K as (c & t & -> & [Hc|[Hc|[]]]); cbn; intros ->; lia.
  Qed.
  Lemma nw_begins k i : ~ begins k i -> no_word1 k i.
  Proof. intros N u b v -> Hu _. apply N. now exists u, (b ++ v). Qed.
  (** a keyword followed by a blank is not the prefix of a name *)
  Lemma w_plain (B' : blanks) k r : letter_word k = true -> solid r -> not_first 58 r -> no_iri (w k ++ B' ++ r).
  Proof.
    intros K S N. apply no_iri_fails. apply iri_fails_word; auto using blank_sp; [|now apply brk_name].
    apply (letter_kw_prefix k); [assumption|]. apply w_kw. now apply andb_true_iff in K.
  Qed.
  Lemma W_bool_text b r : sp_not [58] r -> W_boolean b (pr_bool w b) r.
  Proof.
    intros (B' & r' & -> & S & F). inversion F; subst. unfold pr_bool. split; [apply w_kw; now destruct b|].
    apply w_plain; auto. now destruct b.
  Qed.

  (** ** Terms *)
  Lemma W_vot_text v r : wf_vot v -> brk r -> (is_bool v = true -> sp_not [58] r) -> W_var_or_term v (pr_vot w v) r.
  Proof.
    intros H B N. destruct v as [v|[i|l|n|b|b|]]; cbn [wf_vot wf_term] in H.
    - now apply W_var_text.
    - now apply W_iri_text.
    - now apply W_lit_text.
    - now apply W_num_text.
    - apply W_bool_text. now apply N.
    - now apply W_bnode_text.
    - apply W_nil_text.
  Qed.
  Lemma W_vot_sp v r : wf_vot v -> sp_not [58] r -> W_var_or_term v (pr_vot w v) r.
  Proof. intros H S. apply W_vot_text; auto. now apply sp_not_brk in S. Qed.
  Lemma vot_tame v : wf_vot v -> tame (pr_vot w v).
  Proof.
    intros H. destruct v as [v|[i|l|n|b|b|]]; cbn [wf_vot wf_term] in H; cbn [pr_vot pr_term].
    - apply var_tame.
    - now apply iri_tame.
    - apply lit_tame.
    - now apply num_tame.
    - apply w_tame. now destruct b.
    - apply bnode_tame.
    - now apply tame_cons.
  Qed.
  Lemma vot_no_word v k r : wf_vot v -> letter_word k = true -> differ (s_ "true") (s_ k) && differ (s_ "false") (s_ k) = true ->
    no_word1 k (pr_vot w v ++ r).
  Proof.
    intros H K D. pose proof K as K'. apply andb_true_iff in K'. destruct K' as [WL _]. apply andb_true_iff in D. destruct D as [D1 D2].
    assert (C : forall c, In c (s_ "?$""'-0123456789[_(") -> negb (existsb (N.eqb c) (cap2 k)) = true).
    { intros c Hc. unfold word_like in WL. apply andb_true_iff in WL. destruct WL as [_ WL]. unfold cap2. destruct (s_ k) as [|x s]; [discriminate|].
      apply andb_true_iff in WL. rewrite !N.leb_le in WL. cbn [existsb]. apply negb_true_iff. rewrite orb_false_r. apply orb_false_iff.
      rewrite !N.eqb_neq. cbn in Hc. intuition (subst; lia). }
    assert (C' : forall cs t, forallb (fun c => existsb (N.eqb c) (s_ "?$""'-0123456789[_(")) cs = true -> starts cs t -> no_word1 k (t ++ r)).
    { intros cs t F S. apply (nw_starts k cs); auto. rewrite forallb_forall in *. intros c Hc. apply C. apply F in Hc. now apply existsb_In_N in Hc. }
    destruct v as [v|[i|l|n|b|b|]]; cbn [wf_vot wf_term] in H; cbn [pr_vot pr_term].
    - apply (C' (s_ "?$")); [reflexivity|]. destruct v; (eexists _, _; split; [reflexivity|]); cbn; auto.
    - now apply no_word1_iri.
    - now apply (C' (s_ """'")), lit_starts.
    - now apply (C' (s_ "-0123456789")), num_starts.
    - apply nw_begins. destruct b; now apply w_nb.
    - now apply (C' (s_ "[_")), bnode_starts.
    - apply (C' (s_ "(")); [reflexivity|]. eexists _, _. split; [reflexivity|]. now left.
  Qed.
  Lemma W_voi_text v r : wf_voi v -> brk r -> W_var_or_iri v (pr_voi v) r.
  Proof. intros H B. destruct v; [now apply W_var_text|now apply W_iri_text]. Qed.
  Lemma voi_tame v : wf_voi v -> tame (pr_voi v).
  Proof. intros H. destruct v; [apply var_tame|now apply iri_tame]. Qed.
  (** a keyword before an IRI: no IRI starts there, or it is the prefix of one *)
  Lemma word_iri k i r : letter_word k = true -> wf_iri i -> brk r ->
    no_iri (w k ++ Bk ++ pr_iri i ++ r) \/ exists j t, w k ++ Bk ++ pr_iri i ++ r = t ++ r /\ W_iri j t r.
  Proof.
    intros L H B. assert (WL : word_like k = true) by now apply andb_true_iff in L.
    assert (D : Print.named i \/ exists l, i = IriPrefixedName (PnameLN None l)) by (destruct i as [s|[[p|] l|p]]; [left; exact I|left; exact I|right; eauto|destruct H]).
    destruct D as [N|[l ->]].
    - left. apply w_plain; [assumption|now apply tame_solid, iri_tame|]. apply named_not_colon. now split.
    - right. destruct H as [_ H]. exists (IriPrefixedName (PnameLN (Some (w k)) l)), (w k ++ Bk ++ pr_iri (IriPrefixedName (PnameLN None l))).
      split; [now rewrite <- !app_assoc|]. cbn [pr_iri W_iri iri_at]. exists (w k ++ Bk ++ [58]), []. split; [|split; [|split]].
      + unfold pr_prefix. cbn [may_]. rewrite <- !app_assoc. reflexivity.
      + exists (w k), (Bk ++ [58]). split; [reflexivity|]. split.
        * split; [reflexivity|]. apply (letter_kw_prefix k); [assumption|]. now apply w_kw.
        * exists Bk, [58]. repeat split. apply blank_sp.
      + constructor.
      + now apply local_longest.
  Qed.
  Lemma word_voi k v r : letter_word k = true -> wf_voi v -> brk r ->
    no_iri (w k ++ Bk ++ pr_voi v ++ r) \/ exists j t, w k ++ Bk ++ pr_voi v ++ r = t ++ r /\ W_iri j t r.
  Proof.
    intros L H B. destruct v as [v|i]; [|now apply word_iri]. left. apply w_plain; [assumption|apply tame_solid, var_tame|destruct v; discriminate].
  Qed.
  Definition word_value (v : DataBlockValue) : bool := match v with DbvBooleanLiteral _ | DbvUnDef => true | _ => false end.
  Lemma W_value_text v r : wf_value v -> solid r -> (word_value v = true -> not_first 58 r) -> W_value v (pr_value w v) (Bk ++ r).
  Proof.
    intros H S N. destruct v as [i|l|n|b|]; cbn [wf_value] in H.
    - apply W_iri_text; [apply H|auto].
    - now apply W_lit_text.
    - now apply W_num_text.
    - apply W_bool_text. exists Bk, r. auto.
    - split; [now apply w_kw|apply w_plain; auto].
  Qed.
  Lemma value_tame v : wf_value v -> tame (pr_value w v).
  Proof.
    intros H. destruct v as [i|l|n|b|]; cbn [wf_value] in H; cbn [pr_value].
    - apply iri_tame, H.
    - apply lit_tame.
    - now apply num_tame.
    - apply w_tame. now destruct b.
    - now apply w_tame.
  Qed.
  Lemma starts_not_colon cs t r : starts cs t -> existsb (N.eqb 58) cs = false -> not_first 58 (t ++ r).
  Proof. intros S H. eapply starts_not; [exact S|]. now rewrite H. Qed.
  Lemma value_not_colon v v' r : wf_value v' -> wf_next v v' -> word_value v = true -> not_first 58 (pr_value w v' ++ r).
  Proof.
    intros H N V. destruct v' as [i|l|n|b|]; cbn [wf_value] in H; cbn [pr_value].
    - apply named_not_colon. split; [assumption|]. destruct v; try discriminate; exact N.
    - eapply starts_not_colon; [apply lit_starts|reflexivity].
    - eapply starts_not_colon; [now apply num_starts|reflexivity].
    - apply w_not_colon. now destruct b.
    - now apply w_not_colon.
  Qed.
  Lemma values_each l : wf_values l -> Forall wf_value l.
  Proof. induction l as [|v l IH]; [constructor|]. intros (H & _ & Hl). constructor; auto. Qed.

  (** ** Prologue, dataset clauses, data blocks *)
  Lemma iri_ref_text s r : all iri_char s -> tok (R_iri_ref s) (60 :: s ++ [62]) r. Proof. split; auto. Qed.
  Lemma W_decl_text d r : wf_decl d -> W_decl d (pr_decl w Bk d) r.
  Proof.
    intros H. destruct d as [s|[p s]]; cbn [wf_decl pr_decl W_decl] in *.
    - apply then_app; [now apply w_word|]. change (Bk ++ s_ "<" ++ s ++ s_ ">") with (Bk ++ 60 :: s ++ [62]).
      apply then_app; [apply gap1_sp; apply solid_first; cbn; intuition discriminate|]. now apply iri_ref_text.
    - apply then_app; [now apply w_word|]. apply then_app.
      + apply gap_sp. rewrite <- app_assoc. now apply hard_solid, prefix_hard.
      + apply then_app; [now apply pname_text|]. change (Bk ++ s_ "<" ++ s ++ s_ ">") with (Bk ++ 60 :: s ++ [62]).
        apply then_app; [apply gap_sp; apply solid_first; cbn; intuition discriminate|]. now apply iri_ref_text.
  Qed.
  Lemma decl_tame d : tame (pr_decl w Bk d).
  Proof. destruct d as [s|[p s]]; cbn [pr_decl]; apply tame_app; now apply w_tame. Qed.
  (** the prologue takes everything but its last blank *)
  Lemma W_prologue_text p r : wf_prologue p -> solid r -> no_decl r -> (W_prologue p >> gap) (pr_prologue w Bk p) r.
  Proof.
    intros H S N. destruct p as [l]. cbn [wf_prologue pr_prologue W_prologue] in *. destruct l as [|d l].
    - apply then_none; [split; auto|]. now apply gap_no.
    - rewrite ended_joined by discriminate. apply then_app; [|now apply gap_sp].
      apply (sep_joined W_decl (pr_decl w Bk) wf_decl gap1 Bk (fun _ => True)); auto; try discriminate.
      + intros a r' Ha _. now apply W_decl_text.
      + intros a t Ha. apply gap1_sp. apply tame_solid, decl_tame.
      + now apply nxt_sp.
  Qed.
  Lemma W_don_text d r : wf_don d -> brk r -> W_default_or_named d (pr_don w Bk d) r.
  Proof.
    intros H B. destruct d as [i|i]; cbn [wf_don pr_don W_default_or_named] in *.
    - split; [apply W_iri_text; [apply H|assumption]|]. intros u b v E Hu Hb. exfalso.
      apply (no_word1_iri "named" i r ltac:(reflexivity) H u b v E Hu Hb).
    - apply then_app; [now apply w_word|]. apply then_app; [|apply W_iri_text; [apply H|assumption]].
      apply gap1_sp. now apply tame_solid, iri_tame.
  Qed.
  Lemma don_tame d : wf_don d -> tame (pr_don w Bk d).
  Proof. intros H. destruct d as [i|i]; cbn [pr_don]; [apply iri_tame, H|]. apply tame_app. now apply w_tame. Qed.
  Lemma W_datasets_text l r : Forall wf_don l -> solid r -> ~ begins "from" r -> (W_datasets l >> gap) (pr_datasets w Bk l) r.
  Proof.
    intros H S N. unfold W_datasets, pr_datasets. destruct l as [|d l].
    - apply then_none; [split; auto|]. now apply gap_no.
    - rewrite ended_joined by discriminate. apply then_app; [|now apply gap_sp].
      apply (sep_joined W_dataset _ wf_don gap1 Bk brk); auto; try discriminate.
      + intros a r' Ha B. apply then_app; [now apply w_word|]. apply then_app; [|now apply W_don_text].
        apply gap1_sp. now apply tame_solid, don_tame.
      + intros a t Ha. apply gap1_sp. rewrite <- app_assoc. now apply w_solid.
      + now apply nxt1_sp.
  Qed.
  Lemma datasets_first (P : str -> Prop) l r : (forall t, P (w "from" ++ t)) -> P r -> P (pr_datasets w Bk l ++ r).
  Proof.
    intros H1 H2. destruct l as [|d l]; [exact H2|]. unfold pr_datasets, ended. cbn [List.map flat_map]. rewrite <- !app_assoc. apply H1.
  Qed.
  Lemma ended_solid {A} (p : A -> str) (Q : A -> Prop) l r : Forall Q l -> (forall a, Q a -> tame (p a)) -> solid r -> solid (ended Bk (List.map p l) ++ r).
  Proof.
    intros H T S. destruct H as [|a l Ha _]; [exact S|]. unfold ended. cbn [List.map flat_map]. rewrite <- !app_assoc. now apply tame_solid, T.
  Qed.
  Lemma char_solid c r : existsb (N.eqb c) [32; 9; 10; 13; 35] = false -> solid (c :: r).
  Proof. intros H. apply solid_first. intros X. apply existsb_In_N in X. congruence. Qed.
  Lemma W_values_list l c r : wf_values l -> c = 41 \/ c = 125 ->
    manyW (fun v => W_value v >> gap) (first c) l (ended Bk (List.map (pr_value w) l)) (c :: r).
  Proof.
    intros H C. assert (S : solid (c :: r)) by (destruct C; subst; now apply char_solid).
    induction l as [|v l IH]; [split; [reflexivity|now exists r]|]. destruct H as (Hv & Hn & Hl). cbn [manyW List.map].
    change (ended Bk (pr_value w v :: List.map (pr_value w) l)) with ((pr_value w v ++ Bk) ++ ended Bk (List.map (pr_value w) l)).
    assert (X : solid (ended Bk (List.map (pr_value w) l) ++ c :: r)).
    { eapply ended_solid; [exact (values_each l Hl)|intros; now apply value_tame|assumption]. }
    apply then_app; [|now apply IH]. apply then_app; [|now apply gap_sp]. apply W_value_text; [assumption..|].
    intros V. destruct l as [|v' l]; [destruct C; subst; discriminate|]. unfold ended. cbn [List.map flat_map]. rewrite <- !app_assoc.
    apply (value_not_colon v); [apply Hl|assumption..].
  Qed.
  Lemma W_row_text vs r : wf_values vs -> W_row vs (pr_row w Bk vs) r.
  Proof.
    intros H. unfold W_row, pr_row. change (s_ "(" ++ Bk ++ ?x) with (40 :: Bk ++ x). apply then_cons; [reflexivity|].
    apply then_app; [apply gap_sp; rewrite <- app_assoc; eapply ended_solid; [exact (values_each vs H)|intros; now apply value_tame|now apply char_solid]|].
    apply then_app; [|reflexivity]. apply W_values_list; auto.
  Qed.
  Lemma W_block_text d r : wf_block d -> W_datablock d (pr_block w Bk d) r.
  Proof.
    intros H. destruct d as [[v vs]|[vs rows]]; cbn [wf_block pr_block W_datablock] in *; destruct H as [H1 H2].
    - apply then_app; [now apply W_var_text|]. change (Bk ++ s_ "{" ++ Bk ++ ?x) with (Bk ++ 123 :: Bk ++ x).
      apply then_app; [apply gap_sp; now apply char_solid|]. apply then_cons; [reflexivity|].
      apply then_app; [apply gap_sp; rewrite <- app_assoc; eapply ended_solid; [exact (values_each vs H2)|intros; now apply value_tame|now apply char_solid]|].
      apply then_app; [|reflexivity]. apply W_values_list; auto.
    - replace (s_ "(" ++ Bk ++ ended Bk (List.map pr_var vs) ++ s_ ")" ++ Bk ++ s_ "{" ++ Bk ++ ended Bk (List.map (pr_row w Bk) rows) ++ s_ "}")
        with ((40 :: Bk ++ ended Bk (List.map pr_var vs) ++ [41]) ++ Bk ++ 123 :: Bk ++ ended Bk (List.map (pr_row w Bk) rows) ++ [125])
        by (cbn; now rewrite <- !app_assoc).
      apply then_app.
      + apply then_cons; [reflexivity|].
        apply then_app; [apply gap_sp; rewrite <- app_assoc; eapply ended_solid; [exact H1|intros; apply var_tame|now apply char_solid]|].
        apply then_app; [|reflexivity]. apply (many_ended W_var pr_var wf_var solid); auto.
        * intros a r' Ha _. now apply W_var_text.
        * intros a t _. apply tame_solid, var_tame.
        * now apply char_solid.
        * eexists. reflexivity.
      + apply then_app; [apply gap_sp; now apply char_solid|]. apply then_cons; [reflexivity|].
        apply then_app; [apply gap_sp; rewrite <- app_assoc; eapply ended_solid; [exact H2|intros; now apply tame_cons|now apply char_solid]|].
        apply then_app; [|reflexivity]. apply (many_ended W_row (pr_row w Bk) wf_values solid); auto.
        * intros a r' Ha _. now apply W_row_text.
        * intros a t _. unfold pr_row. now apply char_solid.
        * now apply char_solid.
        * eexists. reflexivity.
  Qed.
  Lemma block_tame d : tame (pr_block w Bk d).
  Proof. destruct d as [[v vs]|[vs rows]]; cbn [pr_block]; [apply tame_app, var_tame|now apply tame_cons]. Qed.
  Lemma W_values_text d r : wf_block d -> W_values d (pr_values w Bk d) r.
  Proof.
    intros H. apply then_app; [now apply w_word|]. apply then_app; [|now apply W_block_text]. apply gap1_sp, tame_solid, block_tame.
  Qed.
End Words.
