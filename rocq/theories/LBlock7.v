(** CONSTRUCT WHERE is accepted exactly if its braces are. *)
From Verif Require Import LMods LC8 LGen4.
From Verif Require Export LBlock6.
From Verif Require Import MUpdate.
From Verif Require Import Nom.
Notation length := List.length (only parsing).
Open Scope N_scope.
Open Scope list_scope.

(** the text of a query up to the braces of CONSTRUCT WHERE *)
Definition W_construct_where_open : lang := fun t r => exists p d,
  (W_prologue p >> gap >> Layout.word "construct" >> gap1 >> W_datasets d >> gap >> Layout.word "where" >> gap1) t r.

Lemma braced_local t x : block t -> braced_template (t ++ x) = shifted x (braced_template t) /\ forall r g, braced_template t = Ok r g -> r = [].
Proof.
  intros (i & -> & D). cbn [app]. assert (K : loc (sp_enc (opt triples_template))) by lo. destruct (K O i x D) as [E R].
  unfold braced_template, delimited, preceded, terminated, map, pair. change (c_ "{") with 123. change (c_ "}") with 125. rewrite !chr_ok.
  rewrite E. destruct (sp_enc (opt triples_template) i) as [r a|[]]; cbn [shifted]; try (split; [reflexivity|discriminate]).
  destruct (R _ _ eq_refl) as [D1 _]. destruct (close_brace O r x D1) as [E1 R1]. rewrite E1. destruct (chr 125 r) as [r' b|[]]; cbn [shifted]; (split; [reflexivity|]); try discriminate.
  intros r2 g X. injection X as <- _. destruct (R1 _ _ eq_refl) as [D2 _]. now inversion D2.
Qed.
Lemma braced_iff t x r o : block t -> (braced_template (t ++ x) = Ok r o <-> r = x /\ braced_template t = Ok [] o).
Proof.
  intros B. destruct (braced_local t x B) as [E R]. rewrite E. split.
  - destruct (braced_template t) as [r' a|[]]; cbn [shifted]; try discriminate. intros X. injection X as <- <-. now rewrite (R r' a eq_refl).
  - intros [-> ->]. reflexivity.
Qed.
Lemma braced_error t x p k : block t -> braced_template t = Err (Error p k) -> braced_template (t ++ x) = Err (Error (p ++ x) k).
Proof. intros B H. rewrite (proj1 (braced_local t x B)), H. reflexivity. Qed.

Lemma construct_where_open (P : str -> Prop) d t0 t : P [] -> block t -> (Layout.word "construct" >> gap1 >> W_datasets d >> gap >> Layout.word "where" >> gap1) t0 t ->
  (acc P sparql_query (t0 ++ t) <-> acc P braced_template t).
Proof.
  intros HP B (w & t1 & -> & K & b & t2 & -> & Hb & a & t3 & -> & Ha & b2 & t4 & -> & Hb2 & v & b3 & -> & Kv & Hb3). rewrite <- !app_assoc in *.
  unfold sparql_query.
  rewrite acc_skip by (apply map_fails, map_fails, pair_fails1, terminated_fails1, map_fails, pair_fails1; now apply (nf_kw "select" "construct" eq_refl eq_refl eq_refl w)).
  rewrite acc_here.
  2:{ apply alt_fails_cons; [apply map_fails, map_fails, pair_fails1; now apply (nf_kw "describe" "construct" eq_refl eq_refl eq_refl w)|].
      apply alt_fails_cons; [apply map_fails, map_fails, pair_fails1, terminated_fails1; now apply (nf_kw "ask" "construct" eq_refl eq_refl eq_refl w)|]. apply alt_fails_nil. }
  rewrite acc_map. unfold construct_query, preceded_tag1.
  assert (T : terminated (tag_no_case (s_ "construct")) sp1 (w ++ b ++ a ++ b2 ++ v ++ b3 ++ t) = Ok (a ++ b2 ++ v ++ b3 ++ t) w).
  { eapply terminated_ok; [now apply (tnc_ok (s_ "construct") w)|]. apply sp1_ok; apply Hb. }
  rewrite (acc_preceded _ _ _ _ _ _ T). rewrite acc_skip.
  2:{ apply map_fails, map_fails, pair_fails1, terminated_fails1, map_fails, delimited_fails1, terminated_fails1, chr_fails.
      destruct d as [|c d]; cbn [W_datasets sepW] in Ha.
      - destruct Ha as [-> _]. cbn [app]. apply blank_not; [apply Hb2|cbn; clear; intuition discriminate|]. now apply (word_not 123 "where").
      - destruct Ha as (u & z & -> & (w' & y & -> & Hw & _) & _). rewrite <- !app_assoc. now apply (word_not 123 "from"). }
  rewrite acc_here by apply alt_fails_nil. rewrite acc_map. unfold sub_triples. rewrite acc_map. unfold tuple4.
  rewrite (acc_pair _ _ _ _ _ _ (dss_open d a b2 v (b3 ++ t) Ha Hb2)). unfold tuple3.
  assert (T2 : terminated (tag_no_case (s_ "where")) sp1 (v ++ b3 ++ t) = Ok t v).
  { eapply terminated_ok; [now apply (tnc_ok (s_ "where") v)|]. apply sp1_ok; apply Hb3. }
  rewrite (acc_pair _ _ _ _ _ _ T2). fold braced_template. pose proof (proj2 (braced_local t [] B)) as R. split.
  - intros (r & [o m] & E & _). apply pair_inv in E. destruct E as (j & E & _). pose proof (R _ _ E) as ->. exists [], o. auto.
  - intros (r & o & E & _). pose proof (R _ _ E) as ->. exists []. eexists. split; [|exact HP]. eapply (pair_ok _ _ _ []); [exact E|]. eapply (preceded_ok _ _ _ []); [reflexivity|exact modifier_nil].
Qed.
Lemma construct_where_block t0 t : W_construct_where_open t0 t -> block t -> ((exists r q, sparql_query_stmt (t0 ++ t) = Ok r q) <-> exists o, braced_template t = Ok [] o).
Proof.
  intros (p & d & u & t1 & -> & Hp & b & f & -> & Hb & Hf) B. rewrite <- !app_assoc in *.
  assert (T : terminated prologue sp (u ++ b ++ f ++ t) = Ok (f ++ t) p). { eapply terminated_ok; [exact (rd_prologue p _ _ Hp)|]. apply sp_ok; apply Hb. }
  split.
  - intros (r & q & E). apply map_inv in E. destruct E as ([p' [z v]] & E & _). apply pair_inv in E. destruct E as (j & E1 & E). rewrite T in E1. injection E1 as <- _.
    apply pair_inv in E. destruct E as (k & E & _). assert (Z : acc (fun _ => True) sparql_query (f ++ t)) by (exists k, z; auto).
    apply (construct_where_open (fun _ => True) d f t I B Hf) in Z. destruct Z as (r2 & g & Z & _). pose proof (proj2 (braced_local t [] B) _ _ Z) as ->. eauto.
  - intros [o E]. assert (Z : acc (fun r => r = []) braced_template t) by (exists [], o; auto).
    apply (construct_where_open (fun r => r = []) d f t eq_refl B Hf) in Z. destruct Z as (r & z & Z & ->). eexists [], _. apply (map_ok _ _ _ _ (p, (z, None))); [|reflexivity].
    eapply pair_ok; [exact T|]. eapply (pair_ok _ _ _ []); [exact Z|reflexivity].
Qed.

(** ** DESCRIBE: the group may be missing, so all of the text is asked for *)
Definition W_describe_open : lang := fun t r => exists p v d,
  (W_prologue p >> gap >> Layout.word "describe" >> gap1 >> W_targets v >> gap1 >> W_datasets d >> gap >> W_where_word) t r.
Lemma no_mods i : solid i -> (forall k, In k ["group"; "having"; "order"; "limit"; "offset"]%string -> fails (tag_no_case (s_ k)) i) -> solution_modifier i = Ok i no_modifiers.
Proof.
  intros S F. assert (G : forall A (p : parser A), fails p i -> opt (preceded sp p) i = Ok i None) by (intros A p Fp; apply opt_none; eapply preceded_fails2; [exact (sp_nil i S)|exact Fp]).
  unfold solution_modifier, solution_modifier_of, tuple4, tuple3. apply (map_ok _ _ _ _ (None, (None, (None, None)))); [|reflexivity].
  eapply pair_ok; [apply opt_none; apply map_fails, preceded_fails1, terminated_fails1, delimited_fails1; apply F; cbn; auto|].
  eapply pair_ok; [apply G; apply map_fails, preceded_fails1, terminated_fails1; apply F; cbn; auto|].
  eapply pair_ok; [apply G; apply map_fails, preceded_fails1, terminated_fails1, delimited_fails1; apply F; cbn; auto|].
  apply G. apply alt_fails_cons; [|apply alt_fails_cons; [|apply alt_fails_nil]]; apply map_fails, pair_fails1, map_res_fails1, preceded_fails1, terminated_fails1; apply F; cbn; auto 9.
Qed.
Lemma where_no_mods w t y : t = 123 :: y -> W_where_word w t -> solution_modifier (w ++ t) = Ok (w ++ t) no_modifiers.
Proof.
  intros E W. apply no_mods; [exact (where_solid w t y E W)|]. intros k K. subst t. destruct W as [(u & v & -> & K' & _)| ->].
  - rewrite <- app_assoc. cbn [In] in K. destruct K as [<-|[<-|[<-|[<-|[<-|[]]]]]]; (eapply nf_kw; [..|exact K']; reflexivity).
  - cbn [app In] in *. destruct K as [<-|[<-|[<-|[<-|[<-|[]]]]]]; eexists _, _; reflexivity.
Qed.

Lemma describe_head v d t0 t : block t -> (Layout.word "describe" >> gap1 >> W_targets v >> gap1 >> W_datasets d >> gap >> W_where_word) t0 t ->
  exists w, W_where_word w t /\ forall P, acc P sparql_query (t0 ++ t) <-> acc P (pair (opt (terminated where_clause sp)) solution_modifier) (w ++ t).
Proof.
  intros B (w & t1 & -> & K & b & t2 & -> & Hb & u & t4 & -> & Hu & b1 & t5 & -> & Hb1 & a & t3 & -> & Ha & b2 & w0 & -> & Hb2 & Hv). rewrite <- !app_assoc in *.
  exists w0. split; [exact Hv|]. intros P. unfold sparql_query.
  rewrite acc_skip by (apply map_fails, map_fails, pair_fails1, terminated_fails1, map_fails, pair_fails1; now apply (nf_kw "select" "describe" eq_refl eq_refl eq_refl w)).
  rewrite acc_skip by (apply map_fails, tag1_fails; now apply (nf_kw "construct" "describe" eq_refl eq_refl eq_refl w)).
  rewrite acc_here.
  2:{ apply alt_fails_cons; [apply map_fails, map_fails, pair_fails1, terminated_fails1; now apply (nf_kw "ask" "describe" eq_refl eq_refl eq_refl w)|]. apply alt_fails_nil. }
  rewrite acc_map. unfold describe_query. rewrite acc_map. unfold tuple5, tuple4, tuple3.
  assert (T : tag_no_case (s_ "describe") (w ++ b ++ u ++ b1 ++ a ++ b2 ++ w0 ++ t) = Ok (b ++ u ++ b1 ++ a ++ b2 ++ w0 ++ t) w) by now apply (tnc_ok (s_ "describe") w).
  rewrite (acc_pair _ _ _ _ _ _ T).
  assert (T2 : sp_enc1 var_or_iris_or_all (b ++ u ++ b1 ++ a ++ b2 ++ w0 ++ t) = Ok (a ++ b2 ++ w0 ++ t) v).
  { eapply delimited_ok; [apply sp1_ok; apply Hb|exact (rd_targets v _ _ Hu)|apply sp1_ok; apply Hb1]. }
  rewrite (acc_pair _ _ _ _ _ _ T2). now rewrite (acc_pair _ _ _ _ _ _ (dss_open d a b2 w0 t Ha Hb2)).
Qed.
Lemma describe_block t0 t : W_describe_open t0 t -> block t -> ((exists q, sparql_query_stmt (t0 ++ t) = Ok [] q) <-> exists g, group_graph_pattern t = Ok [] g).
Proof.
  intros (p & v & d & u & t1 & -> & Hp & b & f & -> & Hb & Hf) B. rewrite <- !app_assoc in *.
  assert (T : terminated prologue sp (u ++ b ++ f ++ t) = Ok (f ++ t) p). { eapply terminated_ok; [exact (rd_prologue p _ _ Hp)|]. apply sp_ok; apply Hb. }
  destruct (describe_head v d f t B Hf) as (w & W & H). destruct (block_first t B) as [y Hy]. pose proof (where_open w t y Hy W) as O. split.
  - intros (q & E). apply map_inv in E. destruct E as ([p' [z x]] & E & _). apply pair_inv in E. destruct E as (j & E1 & E). rewrite T in E1. injection E1 as <- _.
    apply pair_inv in E. destruct E as (k & E & V). assert (Z : acc (fun r => r = k) sparql_query (f ++ t)) by (exists k, z; auto).
    apply H in Z. destruct Z as (r & [o m] & Z & ->). apply pair_inv in Z. destruct Z as (j & Z & M). apply opt_inv in Z. destruct o as [g|].
    + apply terminated_inv in Z. destruct Z as (j1 & s & Z & _). assert (Y : acc (fun _ => True) where_clause (w ++ t)) by (exists j1, g; auto).
      apply O in Y. destruct Y as (r2 & g2 & Y & _). pose proof (proj2 (block_local t [] B) _ _ Y) as ->. eauto.
    + destruct Z as [-> _]. rewrite (where_no_mods w t y Hy W) in M. injection M as <- _. exfalso.
      assert (N : opt (preceded sp1 (preceded_tag1 (s_ "values") datablock)) (w ++ t) = Ok (w ++ t) None) by (apply opt_none, preceded_fails1, sp1_fails; exact (where_solid w t y Hy W)).
      rewrite N in V. injection V as V _. apply app_eq_nil in V. destruct V as [_ V]. subst t. discriminate V.
  - intros [g E]. assert (Z : acc (fun r => r = []) group_graph_pattern t) by (exists [], g; auto). apply O in Z. destruct Z as (r & g2 & Z & ->).
    assert (Y : acc (fun r => r = []) (pair (opt (terminated where_clause sp)) solution_modifier) (w ++ t)).
    { exists []. eexists. split; [|reflexivity]. eapply (pair_ok _ _ _ []); [|exact modifier_nil]. apply opt_some. eapply (terminated_ok _ _ _ []); [exact Z|reflexivity]. }
    apply H in Y. destruct Y as (r & z & Y & ->). eexists. apply (map_ok _ _ _ _ (p, (z, None))); [|reflexivity].
    eapply pair_ok; [exact T|]. eapply (pair_ok _ _ _ []); [exact Y|reflexivity].
Qed.
