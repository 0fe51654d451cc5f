(** VALUES with its variables and the braces of its rows: the braces are read alone. *)
From Verif Require Import LMods LC8 LGen4 LLit.
From Verif Require Import LDecl LAlike LWhere LBlock4 LBlock6 LData.
From Verif Require Export LForms LPlace SpecBlock.
From Verif Require Import Nom.
Notation length := List.length (only parsing).
Open Scope N_scope.
Open Scope list_scope.

(** the variables in front of the braces: one, or a list in brackets *)
Inductive columns := OneColumn (v : Var) | Columns (vs : list Var).
Definition W_columns (c : columns) : lang :=
  match c with
  | OneColumn v => W_var v
  | Columns vs => sym "(" >> gap >> manyW (fun v => W_var v >> gap) (first 41) vs >> sym ")"
  end.
(** rows of the braces: values, or values in brackets *)
Definition braces {A} (p : parser A) : parser A := delimited (sp_enc (chr 123)) p (preceded sp (chr 125)).
Definition one_rows : parser (list DataBlockValue) := many0 (sp_enc datablock_value).
Definition full_rows : parser (list (list DataBlockValue)) := many0 (sp_enc (bracketted (preceded sp (many0 (sp_enc datablock_value))))).
Definition rows_read (c : columns) (t : str) (d : DataBlock) : Prop :=
  match c with
  | OneColumn v => exists l, braces one_rows t = Ok [] l /\ d = DbOneVar (MkInlineDataOneVar v l)
  | Columns vs => exists l, braces full_rows t = Ok [] l /\ d = DbFull (MkInlineDataFull vs l)
  end.

Lemma braces_at {A} (p : parser A) b j : blank b -> braces p (b ++ 123 :: j) = terminated (preceded sp p) (preceded sp (chr 125)) j.
Proof.
  intros B. unfold braces, sp_enc. unfold delimited, preceded, terminated, map, pair. rewrite (sp_ok b (123 :: j) B) by (now apply char_solid). rewrite chr_ok.
  destruct (sp j) as [j1 y|e]; [|reflexivity]. destruct (p j1) as [j2 a|e]; [|reflexivity]. destruct (sp j2) as [j3 z|e]; [|reflexivity]. destruct (chr 125 j3); reflexivity.
Qed.
Lemma braces_iff {A} (p : parser A) b t x r a : loc p -> blank b -> block t -> (braces p (b ++ t ++ x) = Ok r a <-> r = x /\ braces p t = Ok [] a).
Proof.
  intros L B (i & -> & D). cbn [app]. rewrite (braces_at p b) by exact B. pose proof (braces_at p [] i blank_nil) as E0. cbn [app] in E0. rewrite E0.
  assert (K : loc (preceded sp p)) by (apply loc_preceded; [exact loc_sp|exact L]). destruct (K O i x D) as [E R]. unfold terminated. unfold map, pair. rewrite E.
  destruct (preceded sp p i) as [i1 y|[]]; cbn [shifted]; try (split; [discriminate|intros [_ X]; discriminate X]).
  destruct (R _ _ eq_refl) as [D1 _]. destruct (close_enc O i1 x D1) as [E1 R1]. rewrite E1. destruct (preceded sp (chr 125) i1) as [i2 z|[]]; cbn [shifted]; try (split; [discriminate|intros [_ X]; discriminate X]).
  destruct (R1 _ _ eq_refl) as [D2 _]. assert (N : i2 = []) by now inversion D2. subst i2. cbn [app]. split; [intros X; now injection X as <- <-|]. intros [-> X]. now injection X as <-.
Qed.
Lemma loc_one_rows : loc one_rows. Proof. unfold one_rows. lo. Qed.
Lemma loc_full_rows : loc full_rows. Proof. unfold full_rows. lo. Qed.
Lemma rd_columns vs : rd (bracketted (preceded sp (many0 (sp_enc var)))) vs (W_columns (Columns vs)).
Proof.
  intros t r H. cbn [W_columns] in H.
  assert (X : rd (bracketted (preceded sp (many0 (sp_enc var)))) vs (sym "(" >> (gap >> manyW (fun v => W_var v >> gap) (first 41) vs) >> sym ")")).
  { apply rd_bracketted. apply rd_padded_many; [exact rd_var|mv1 var| |].
    - intros r0 H0. now apply (first_solid 41).
    - intros r0 H0. apply var_first. now apply (first_stops _ 41). }
  apply X. destruct H as (a & b & -> & Ha & Hb). exists a, b. split; [reflexivity|]. split; [assumption|]. now apply then_assoc.
Qed.
Lemma columns_first c h r : W_columns c h r ->
  match c with OneColumn _ => exists y z, h ++ r = y :: z /\ (y = 63 \/ y = 36) | Columns _ => exists z, h ++ r = 40 :: z end.
Proof.
  destruct c as [v|vs]; cbn [W_columns].
  - intros [H _]. destruct v; cbn [R_var] in H; destruct H as (u & z & -> & -> & _); rewrite <- app_assoc; cbn [s_ app]; eexists _, _; (split; [reflexivity|]); vm_compute; auto.
  - intros (a & b & -> & -> & _). rewrite <- app_assoc. cbn [app]. eexists. reflexivity.
Qed.
Lemma datablock_iff c h b t x r d : W_columns c h (b ++ t ++ x) -> blank b -> block t -> (datablock (h ++ b ++ t ++ x) = Ok r d <-> r = x /\ rows_read c t d).
Proof.
  intros H B BL. pose proof (columns_first c h _ H) as F. unfold datablock. destruct c as [v|vs].
  - destruct F as (y & z & F & C). assert (N : fails (alt [map inline_data_full DbFull]) (h ++ b ++ t ++ x)).
    { apply alt_fails_cons; [|apply alt_fails_nil]. apply map_fails, map_fails, pair_fails1, delimited_fails1. rewrite F. apply chr_fails. destruct C as [-> | ->]; cbn; discriminate. }
    pose proof (fun Q => alt_lone (map inline_data_one_var DbOneVar) _ _ Q N) as A. destruct A as [A _]; [discriminate|]. rewrite A. rewrite (proj1 (map_lone _ _ _)). cbn [rows_read W_columns] in *.
    unfold inline_data_one_var. change (delimited (sp_enc (chr (c_ "{"))) _ _) with (braces one_rows). pose proof (rd_var v _ _ H) as V. split.
    + intros (a & E & ->). apply (map_lone _ _ _) in E. destruct E as ([v0 l] & E & ->). apply pair_inv in E. destruct E as (j & E1 & E2). rewrite V in E1. injection E1 as <- <-.
      apply (braces_iff _ b t x) in E2; [|exact loc_one_rows|exact B|exact BL]. destruct E2 as [-> E2]. eauto.
    + intros (-> & l & E & ->). eexists. split; [|reflexivity]. apply (map_lone _ _ _). exists (v, l). split; [|reflexivity]. eapply pair_ok; [exact V|]. apply braces_iff; auto. exact loc_one_rows.
  - destruct F as (z & F). rewrite alt_drop; [|apply map_fails, map_fails, pair_fails1; rewrite F; now apply var_first|discriminate].
    change (alt [map inline_data_full DbFull]) with (map inline_data_full DbFull). rewrite (proj1 (map_lone _ _ _)). cbn [rows_read].
    unfold inline_data_full. change (delimited (sp_enc (chr (c_ "{"))) _ _) with (braces full_rows). pose proof (rd_columns vs _ _ H) as V. split.
    + intros (a & E & ->). apply (map_lone _ _ _) in E. destruct E as ([v0 l] & E & ->). apply pair_inv in E. destruct E as (j & E1 & E2). rewrite V in E1. injection E1 as <- <-.
      apply (braces_iff _ b t x) in E2; [|exact loc_full_rows|exact B|exact BL]. destruct E2 as [-> E2]. eauto.
    + intros (-> & l & E & ->). eexists. split; [|reflexivity]. apply (map_lone _ _ _). exists (vs, l). split; [|reflexivity]. eapply pair_ok; [exact V|]. apply braces_iff; auto. exact loc_full_rows.
Qed.
Section Clause.
  Variables (c : columns) (w b0 h b t : str).
  Hypotheses (K : kw "values" w) (B0 : blank1 b0) (H : forall y, W_columns c h (b ++ 123 :: y)) (B : blank b) (BL : block t).
  Lemma values_rows x r d : inline_data (w ++ b0 ++ h ++ b ++ t ++ x) = Ok r d <-> r = x /\ rows_read c t d.
  Proof.
    assert (H' : W_columns c h (b ++ t ++ x)) by (destruct BL as (i & -> & _); apply H). unfold inline_data. rewrite (tag1_at "values"); auto; [now apply datablock_iff|].
    pose proof (columns_first c h _ H') as F. destruct c; [destruct F as (y & z & -> & [-> | ->])|destruct F as (z & ->)]; now apply char_solid.
  Qed.
  Theorem values_iff x r d : inline_data (w ++ b0 ++ h ++ b ++ t ++ x) = Ok r d <-> r = x /\ inline_data (w ++ b0 ++ h ++ b ++ t) = Ok [] d.
  Proof. rewrite values_rows. pose proof (values_rows [] [] d) as E. rewrite app_nil_r in E. rewrite E. split; [intros [-> X]; auto|intros (-> & _ & X); auto]. Qed.
  Theorem values_columns x r d : inline_data (w ++ b0 ++ h ++ b ++ t ++ x) = Ok r d ->
    match c with OneColumn v => exists l, d = DbOneVar (MkInlineDataOneVar v l) | Columns vs => exists l, d = DbFull (MkInlineDataFull vs l) end.
  Proof. intros E. apply values_rows in E. destruct E as [_ E]. destruct c; destruct E as (l & _ & ->); eauto. Qed.
End Clause.
Theorem values_one_names v v' w b0 h b w' b0' h' b' t x x' l : kw "values" w -> blank1 b0 -> (forall y, W_columns (OneColumn v) h (b ++ 123 :: y)) -> blank b ->
  kw "values" w' -> blank1 b0' -> (forall y, W_columns (OneColumn v') h' (b' ++ 123 :: y)) -> blank b' -> block t ->
  (inline_data (w ++ b0 ++ h ++ b ++ t ++ x) = Ok x (DbOneVar (MkInlineDataOneVar v l)) <->
   inline_data (w' ++ b0' ++ h' ++ b' ++ t ++ x') = Ok x' (DbOneVar (MkInlineDataOneVar v' l))).
Proof.
  intros K B0 H B K' B0' H' B' BL. rewrite (values_rows (OneColumn v)) by auto. rewrite (values_rows (OneColumn v')) by auto. cbn [rows_read].
  split; intros (_ & l0 & E & X); injection X as <-; eauto.
Qed.
Theorem values_full_names vs vs' w b0 h b w' b0' h' b' t x x' l : kw "values" w -> blank1 b0 -> (forall y, W_columns (Columns vs) h (b ++ 123 :: y)) -> blank b ->
  kw "values" w' -> blank1 b0' -> (forall y, W_columns (Columns vs') h' (b' ++ 123 :: y)) -> blank b' -> block t ->
  (inline_data (w ++ b0 ++ h ++ b ++ t ++ x) = Ok x (DbFull (MkInlineDataFull vs l)) <->
   inline_data (w' ++ b0' ++ h' ++ b' ++ t ++ x') = Ok x' (DbFull (MkInlineDataFull vs' l))).
Proof.
  intros K B0 H B K' B0' H' B' BL. rewrite (values_rows (Columns vs)) by auto. rewrite (values_rows (Columns vs')) by auto. cbn [rows_read].
  split; intros (_ & l0 & E & X); injection X as <-; eauto.
Qed.
