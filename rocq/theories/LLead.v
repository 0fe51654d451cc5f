(** Blank text in front of a query or a request. *)
From Verif Require Export LC8.
From Verif Require Import LMods.
Notation length := List.length (only parsing).
Open Scope N_scope.
Open Scope list_scope.

Lemma blank1_no_begins k b i : word_like k = true -> blank1 b -> ~ begins k (b ++ i).
Proof.
  intros K [B N] H. apply begins_solid in H; [|exact K]. destruct (blank_split i) as (b' & i' & -> & B' & S).
  assert (X : sp (b ++ b' ++ i') = Ok i' (b ++ b')) by (rewrite app_assoc; apply sp_ok; [now apply blank_app|exact S]).
  rewrite (sp_nil _ H) in X. injection X as E1 E2. destruct b; [congruence|discriminate].
Qed.
Lemma no_prologue i : no_decl i -> prologue i = Ok i (MkPrologue []).
Proof. intros H. eapply map_ok; [|reflexivity]. apply LEval.sepl_nil. now apply no_decl_fails. Qed.
Lemma sp_lead b i : blank b -> exists i' u v, sp i = Ok i' u /\ sp (b ++ i) = Ok i' v.
Proof.
  intros B. destruct (blank_split i) as (b' & i' & -> & B' & S). exists i', b', (b ++ b'). split; [now apply sp_ok|].
  rewrite app_assoc. apply sp_ok; [now apply blank_app|exact S].
Qed.
Lemma lead_no_decl b i : blank b -> no_decl i -> no_decl (b ++ i).
Proof.
  intros B D. destruct b as [|c b]; [exact D|]. split; apply blank1_no_begins; try reflexivity; (split; [exact B|discriminate]).
Qed.
Lemma lead_query b i : blank b -> no_decl i -> sparql_query_stmt (b ++ i) = sparql_query_stmt i.
Proof.
  intros B D. pose proof (lead_no_decl b i B D) as D'. destruct (sp_lead b i B) as (i' & u & v & H & H').
  assert (T : terminated prologue sp i = Ok i' (MkPrologue [])) by (eapply terminated_ok; [apply no_prologue, D|exact H]).
  assert (T' : terminated prologue sp (b ++ i) = Ok i' (MkPrologue [])) by (eapply terminated_ok; [apply no_prologue, D'|exact H']).
  unfold sparql_query_stmt. unfold Nom.map, tuple3, pair. rewrite T, T'. reflexivity.
Qed.
Lemma lead_update b i r p s n : blank b -> no_decl i -> update i = Ok r (MkUpdate p (Some s) n) -> update (b ++ i) = Ok r (MkUpdate p (Some s) n).
Proof.
  intros B D. pose proof (lead_no_decl b i B D) as D'. destruct (sp_lead b i B) as (i' & u & v & H & H').
  rewrite !update_eq. unfold update_body, Nom.map, opt, pair. rewrite (no_prologue _ D), (no_prologue _ D').
  assert (E : preceded sp update_stmt (b ++ i) = preceded sp update_stmt i) by (unfold preceded, Nom.map, pair; rewrite H, H'; now destruct (update_stmt i')).
  rewrite E. destruct (preceded sp update_stmt i) as [j x|e]; [|destruct e; congruence].
  destruct (preceded (sp_enc (chr (c_ ";"))) update j) as [j' y|[]]; congruence.
Qed.
Definition a_decl (i : str) : Prop := begins "base" i \/ begins "prefix" i.
Lemma decl_solid i : a_decl i -> solid i.
Proof. intros [H|H]; (eapply begins_solid; [|exact H]; reflexivity). Qed.
Lemma lead_query_decl b i r q : blank1 b -> a_decl i -> sparql_query_stmt (b ++ i) <> Ok r q.
Proof.
  intros B D H. assert (D' : no_decl (b ++ i)) by (split; now apply blank1_no_begins).
  apply map_inv in H. destruct H as ([p [x v]] & H & _). apply pair_inv in H. destruct H as (j & T & H).
  apply terminated_inv in T. destruct T as (j' & y & T & S). rewrite (no_prologue _ D') in T. injection T as <- <-.
  destruct B as [B _]. rewrite (sp_ok _ _ B (decl_solid i D)) in S. injection S as <- _.
  apply pair_inv in H. destruct H as (k & H & _). apply query_form in H.
  destruct D as [D|D]; destruct x; revert D H; apply begins_differ; reflexivity.
Qed.
Lemma lead_update_decl b i : blank1 b -> a_decl i -> update (b ++ i) = Ok (b ++ i) (MkUpdate (MkPrologue []) None None).
Proof.
  intros B D. apply update_empty; [|split; now apply blank1_no_begins].
  exists b, i. split; [reflexivity|]. split; [apply B|]. split; [now apply decl_solid|]. intros k I K.
  destruct D as [D|D]; cbn in I; repeat (destruct I as [<-|I]; [revert D K; apply begins_differ; reflexivity|]); destruct I.
Qed.
