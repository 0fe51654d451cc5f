(** For the examples: showing by computation that a concrete text is laid out as required. *)
From Verif Require Export LC1.
Notation length := List.length (only parsing).
Open Scope N_scope.
Open Scope list_scope.

Lemma then_at n (P Q : lang) t r : P (firstn n t) (skipn n t ++ r) -> Q (skipn n t) r -> (P >> Q) t r.
Proof. intros H1 H2. exists (firstn n t), (skipn n t). split; [symmetry; apply firstn_skipn|auto]. Qed.
Lemma blank_by t : sp t = Ok [] t -> blank t. Proof. intros H. now apply sp_iff in H. Qed.
Lemma blank1_by t : sp1 t = Ok [] t -> blank1 t. Proof. intros H. now apply sp1_iff in H. Qed.
Lemma solid_by r : sp r = Ok r [] -> solid r. Proof. intros H. now apply sp_iff in H. Qed.
Lemma gap_by t r : sp t = Ok [] t -> sp r = Ok r [] -> gap t r. Proof. split; [now apply blank_by|now apply solid_by]. Qed.
Lemma gap1_by t r : sp1 t = Ok [] t -> sp r = Ok r [] -> gap1 t r. Proof. split; [now apply blank1_by|now apply solid_by]. Qed.
Lemma nxt_at n (P : str -> Prop) r : sp (firstn n r) = Ok [] (firstn n r) -> sp (skipn n r) = Ok (skipn n r) [] -> P (skipn n r) -> nxt P r.
Proof.
  intros H1 H2 H3. exists (firstn n r), (skipn n r). split; [symmetry; apply firstn_skipn|].
  split; [now apply blank_by|]. split; [now apply solid_by|assumption].
Qed.
Lemma nxt1_at n (P : str -> Prop) r : sp1 (firstn n r) = Ok [] (firstn n r) -> sp (skipn n r) = Ok (skipn n r) [] -> P (skipn n r) -> nxt1 P r.
Proof.
  intros H1 H2 H3. exists (firstn n r), (skipn n r). split; [symmetry; apply firstn_skipn|].
  split; [now apply blank1_by|]. split; [now apply solid_by|assumption].
Qed.
Lemma iri_by j t r : iri (t ++ r) = Ok r j -> W_iri j t r. Proof. apply iri_iff. Qed.
Lemma app_same {A} (t u r : list A) : t ++ r = u ++ r -> t = u. Proof. apply app_inv_tail. Qed.
Lemma var_by v t r : var (t ++ r) = Ok r v -> W_var v t r.
Proof.
  intros H. apply var_iff in H. destruct H as (b & E & Hb & Hn & S). split; [|assumption]. apply R_var_text. exists b.
  split; [|auto]. apply (app_same _ _ r). now rewrite E, !app_comm_cons, <- !app_assoc.
Qed.
Lemma int_by z t r : sparql_int (t ++ r) = Ok r z -> W_numeric (NInt z) t r.
Proof. intros H. apply sparql_int_iff in H. destruct H as (u & E & H1 & H2). apply app_same in E. subst u. now split. Qed.
Lemma literal_by l t r : rdf_literal (t ++ r) = Ok r l -> W_rdf_literal l t r.
Proof.
  destruct l as [s d]. intros H. pose proof H as H'. apply rdf_literal_iff in H. destruct H as (q & x & Hq & E & Hb & N & D).
  apply desc_iff in D as D'. assert (X : exists y, x = y ++ r).
  { destruct (gd_shrinks _ _ _ (opt desc_p) ltac:(unfold desc_p; intros k; sg) _ _ _ D') as [y [E' _]]. now exists y. }
  destruct X as [y ->]. exists (q :: s ++ [q]), y. split; [|split; [|exact D]].
  - apply (app_same _ _ r). rewrite E. cbn. now rewrite <- !app_assoc.
  - exists q. auto.
Qed.
Lemma word_by k t r : List.map lower t = s_ k -> word k t r. Proof. auto. Qed.
Lemma plain_by k t r i e : List.map lower t = s_ k -> iri (t ++ r) = Err (Error i e) -> plain_word k t r.
Proof. intros H1 H2. split; [exact H1|]. apply no_iri_fails. now exists i, e. Qed.
Lemma not_begins_by k i p e : low_ascii (s_ k) = true -> tag_no_case (s_ k) i = Err (Error p e) -> ~ begins k i.
Proof. intros K H (t & r & -> & Ht). rewrite (tnc_ok (s_ k)) in H by assumption. discriminate. Qed.
Lemma begins_by k i n : List.map lower (firstn n i) = s_ k -> begins k i.
Proof. intros H. exists (firstn n i), (skipn n i). split; [symmetry; apply firstn_skipn|exact H]. Qed.
Lemma pname_by p t r : pname_ns (t ++ r) = Ok r p -> tok (R_pname_ns p) t r.
Proof. intros H. apply pname_ns_iff in H. destruct H as (u & E & H). apply app_same in E. now subst u. Qed.
Lemma iri_ref_by s t r : iri_ref (t ++ r) = Ok r s -> tok (R_iri_ref s) t r.
Proof.
  intros H. apply iri_ref_iff in H. destruct H as [E H]. split; [|assumption]. apply (app_same _ _ r). rewrite E. cbn. now rewrite <- app_assoc.
Qed.
Ltac vr := vm_compute; reflexivity.
(** one leaf of a layout *)
Ltac leaf := cbn [W_value W_graph_term W_var_or_term W_verb W_var_or_iri W_graph_node]; lazymatch goal with
  | |- gap _ _ => apply gap_by; vr
  | |- gap1 _ _ => apply gap1_by; vr
  | |- sym _ _ _ => vr
  | |- word _ _ _ => vr
  | |- W_iri _ _ _ => apply iri_by; vr
  | |- W_var _ _ _ => apply var_by; vr
  | |- W_numeric (NInt _) _ _ => apply int_by; vr
  | |- W_rdf_literal _ _ _ => apply literal_by; vr
  | |- plain_word _ _ _ => eapply plain_by; vr
  | |- W_boolean _ _ _ => eapply plain_by; vr
  | |- tok (R_pname_ns _) _ _ => apply pname_by; vr
  | |- tok (R_iri_ref _) _ _ => apply iri_ref_by; vr
  | |- ~ begins _ _ => eapply not_begins_by; vr
  | |- begins ?k _ => apply (begins_by _ _ (List.length (s_ k))); vr
  | |- first _ _ => eexists; vr
  | |- solid _ => apply solid_by; vr
  | |- no_iri _ => apply no_iri_fails; eexists _, _; vr
  | |- stops _ _ => first [exact I | vr]
  | |- not_first _ _ => first [exact I | vm_compute; discriminate]
  end.
(** [at_ n]: the first piece is [n] characters long; [fin]: the list ends *)
Tactic Notation "at_" constr(n) := apply (then_at n); cbn [firstn skipn app]; [try leaf|].
Ltac fin := split; [reflexivity|].
(** evaluates the texts of a goal *)
Ltac texts := cbv zeta; repeat match goal with |- context [s_ ?x] => let v := eval vm_compute in (s_ x) in change (s_ x) with v end.
