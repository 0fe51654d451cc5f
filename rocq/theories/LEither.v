(** A text is a query or a request with statements, never both. *)
From Verif Require Import LMods LC8.
From Verif Require Export LInv.
From Verif Require Import Nom.
Notation length := List.length (only parsing).
Open Scope N_scope.
Open Scope list_scope.

Lemma form_no_stmt q j : begins (form_word q) j -> no_stmt j.
Proof.
  intros B k I X. revert B X. cbn [stmt_words In] in I. 
  destruct q; cbn [form_word]; repeat (destruct I as [<-|I]; [apply begins_differ; reflexivity|]); destruct I.
Qed.
Lemma query_as_update i r p q v : sparql_query_stmt i = Ok r (MkSparqlQueryStatement p q v) ->
  exists b j, update i = Ok (b ++ j) (MkUpdate p None None) /\ blank b /\ begins (form_word q) j.
Proof.
  intros E. apply map_inv in E. destruct E as ([p' [q' v']] & E & X). injection X as -> -> ->. apply pair_inv in E. destruct E as (j & E1 & E2).
  apply pair_inv in E2. destruct E2 as (k & E2 & _). apply query_form in E2. apply terminated_inv in E1. destruct E1 as (r1 & b & E1 & S).
  pose proof (sd_sp _ _ _ S) as (t & -> & Hb). exists t, j. split; [|split; [exact Hb|exact E2]].
  rewrite update_eq. unfold update_body. apply (map_ok _ _ _ _ (p, None)); [|reflexivity]. eapply pair_ok; [exact E1|].
  apply opt_none, pair_fails1. eapply preceded_fails2; [exact S|]. apply no_stmt_fails. now apply (form_no_stmt q).
Qed.
Lemma update_not_query i r p s u : update i = Ok r (MkUpdate p (Some s) u) -> forall r' q, sparql_query_stmt i <> Ok r' q.
Proof. intros H r' [p' q v] E. apply query_as_update in E. destruct E as (b & j & E & _). rewrite E in H. discriminate H. Qed.
Lemma begins_ne k j : s_ k <> [] -> begins k j -> j <> [].
Proof. intros N (w & x & -> & K) E. apply app_eq_nil in E. destruct E as [-> _]. apply N. unfold kw in K. destruct (s_ k); [reflexivity|discriminate K]. Qed.
Lemma query_not_update i r q : sparql_query_stmt i = Ok r q -> forall u, update i <> Ok [] u.
Proof.
  intros H u E. destruct q as [p q v]. apply query_as_update in H. destruct H as (b & j & X & _ & B). rewrite X in E. injection E as E _. apply app_eq_nil in E. destruct E as [_ E].
  revert E. apply (begins_ne (form_word q)); [|exact B]. destruct q; discriminate.
Qed.
