(** What a parser takes from the text has matching brackets. *)
From Verif Require Export SpecNest.
From Verif Require Import LSound LSound1 LSound2 LTerm LGood2 LEval.
From Verif Require Import Nom.
Notation length := List.length (only parsing).
Open Scope N_scope.
Open Scope list_scope.

Notation bal p := (eats p nested).
Lemma nested_app u v : nested u -> nested v -> nested (u ++ v).
Proof.
  intros H K. induction H; cbn [app]; rewrite <- ?app_assoc; cbn [app]; try (now constructor); exact K.
Qed.
Definition plain (c : char) : bool := negb (contains (s_ "()[]{}""'#\") c).
Lemma plain_by f : existsb f (s_ "()[]{}""'#\") = false -> forall c, f c = true -> plain c = true.
Proof.
  intros H c Hc. unfold plain, contains. destruct (existsb (N.eqb c) _) eqn:X; [|reflexivity].
  apply existsb_exists in X. destruct X as (y & I & Y). apply N.eqb_eq in Y. subst y.
  assert (existsb f (s_ "()[]{}""'#\") = true) by (apply existsb_exists; eauto). congruence.
Qed.
Lemma plain_cons c v : plain c = true -> nested v -> nested (c :: v).
Proof.
  intros P N. constructor; [|exact N]. intros I. unfold plain in P. apply negb_true_iff in P. assert (contains (s_ "()[]{}""'#\") c = true); [|congruence].
  apply existsb_exists. exists c. split; [exact I|apply N.eqb_refl].
Qed.
Lemma plain_nested t : Forall (fun c => plain c = true) t -> nested t.
Proof. induction 1; [constructor|]. now apply plain_cons. Qed.
Lemma all_nested f t : existsb f (s_ "()[]{}""'#\") = false -> all f t -> nested t.
Proof. intros H A. apply plain_nested. eapply Forall_impl; [|exact A]. intros c. now apply plain_by. Qed.
Lemma blank_nested t : blank t -> nested t.
Proof.
  induction 1 as [|c t I H IH|u c t F I H IH]; [constructor| |].
  - apply plain_cons; [|exact IH]. cbn in I. destruct I as [<-|[<-|[<-|[<-|[]]]]]; reflexivity.
  - rewrite Forall_forall in F. constructor; [intros X; now apply F in X|intros X; now apply F in X| |exact IH]. cbn in I. destruct I as [<-|[<-|[]]]; auto.
Qed.

(** ** Combinators *)
Lemma seq_nested (P Q : str -> Prop) t : (forall t, P t -> nested t) -> (forall t, Q t -> nested t) -> (P ;; Q) t -> nested t.
Proof. intros HP HQ (u & v & -> & A & B). apply nested_app; auto. Qed.
Lemma bal_pair {A B} (p : parser A) (q : parser B) : bal p -> bal q -> bal (pair p q).
Proof. intros H K. eapply eats_of; [apply sound_pair; eassumption|]. intros a t. apply seq_nested; auto. Qed.
Lemma bal_map {A B} (p : parser A) (f : A -> B) : bal p -> bal (map p f).
Proof. intros H. eapply sound_map; [exact H|auto]. Qed.
Lemma bal_preceded {A B} (p : parser A) (q : parser B) : bal p -> bal q -> bal (preceded p q).
Proof. intros H K. apply bal_map. now apply bal_pair. Qed.
Lemma bal_terminated {A B} (p : parser A) (q : parser B) : bal p -> bal q -> bal (terminated p q).
Proof. intros H K. apply bal_map. now apply bal_pair. Qed.
Lemma bal_opt {A} (p : parser A) : bal p -> bal (opt p).
Proof. intros H. eapply eats_of; [apply eats_opt, H|]. intros _ t [->|X]; [constructor|exact X]. Qed.
Lemma bal_map_res {A B} (p : parser A) (f : A -> option B) : bal p -> bal (map_res p f).
Proof. intros H. eapply eats_of; [apply sound_map_res, H|]. intros b t (a & _ & X). exact X. Qed.
Lemma bal_recognize {A} (p : parser A) : bal p -> bal (recognize p).
Proof. intros H. eapply eats_of; [apply sound_recognize, H|]. intros s t [-> X]. exact X. Qed.
Lemma star_nested {A} (R : A -> str -> Prop) : (forall a t, R a t -> nested t) -> forall l t, star R l t -> nested t.
Proof.
  intros H l. induction l as [|a l IH]; intros t S; [hnf in S; subst; constructor|]. destruct S as (x & y & -> & U & V). apply nested_app; eauto.
Qed.
Lemma bal_many0 {A} (p : parser A) : bal p -> bal (many0 p).
Proof. intros H. eapply eats_of; [apply sound_many0, H|]. apply star_nested. auto. Qed.
Lemma bal_many1 {A} (p : parser A) : bal p -> bal (many1 p).
Proof. intros H. eapply eats_of; [apply sound_many1, H|]. intros l t [_ X]. revert l t X. apply star_nested. auto. Qed.
Lemma sepby_nested {A} (R : A -> str -> Prop) (S : str -> Prop) : (forall a t, R a t -> nested t) -> (forall t, S t -> nested t) -> forall l t, sepby R S l t -> nested t.
Proof.
  intros H K l. induction l as [|a l IH]; intros t X; [hnf in X; subst; constructor|]. destruct l as [|b l]; [exact (H a t X)|].
  destruct X as (x & y & -> & U & x' & y' & -> & V & W). apply nested_app; [exact (H _ _ U)|]. apply nested_app; [exact (K _ V)|exact (IH _ W)].
Qed.
Lemma bal_sepne {A B} (s : parser B) (p : parser A) : bal s -> bal p -> bal (separated_nonempty_list s p).
Proof. intros H K. eapply eats_of; [apply sound_separated_nonempty_list; eassumption|]. intros l t [_ X]. revert l t X. apply sepby_nested; [auto|]. intros t [X _]. exact X || (intros; tauto). Qed.
Lemma bal_sepl {A B} (s : parser B) (p : parser A) : bal s -> bal p -> bal (separated_list s p).
Proof. intros H K. eapply eats_of; [apply sound_separated_list; eassumption|]. apply sepby_nested; [auto|]. intros t [X _]. exact X || (intros; tauto). Qed.
Lemma bal_chr c : plain c = true -> bal (chr c).
Proof. intros P. eapply eats_of; [apply eats_chr|]. intros _ t ->. apply plain_cons; [exact P|constructor]. Qed.
Lemma bal_tag s : forallb plain s = true -> bal (tag s).
Proof. intros P. eapply eats_of; [apply eats_tag|]. intros _ t ->. apply plain_nested. now apply Forall_forall, forallb_forall. Qed.
Lemma bal_one_of s : forallb plain s = true -> bal (one_of s).
Proof. intros P. eapply eats_of; [apply sound_one_of|]. intros c t [-> I]. apply plain_cons; [|constructor]. rewrite forallb_forall in P. auto. Qed.
Lemma kwd_nested k t : forallb plain k = true -> kwd k t -> nested t.
Proof.
  unfold kwd. intros P <-. apply plain_nested. rewrite forallb_forall in P. apply Forall_forall. intros c I.
  pose proof (P (lower c) (in_map lower _ _ I)) as Q. unfold lower in Q. destruct (in_ranges [(65, 90)] c) eqn:E; [|exact Q].
  revert E. now apply (plain_by (in_ranges [(65, 90)])).
Qed.
Lemma bal_tnc k : kw_ok k = true -> forallb plain k = true -> bal (tag_no_case k).
Proof. intros K P. eapply eats_of; [now apply sound_tag_no_case|]. intros s t [-> X]. now apply (kwd_nested k). Qed.
Lemma bal_tncs k : kw_ok k = true -> forallb plain k = true -> bal (tag_no_case_streaming k).
Proof. intros K P. eapply eats_of; [now apply sound_tag_no_case_streaming|]. intros s t [-> X]. now apply (kwd_nested k). Qed.
Lemma bal_take_while f : existsb f (s_ "()[]{}""'#\") = false -> bal (take_while f).
Proof. intros E. eapply eats_of; [apply sound_take_while|]. intros s t [-> X]. now apply (all_nested f). Qed.
Lemma bal_take1 k f : existsb f (s_ "()[]{}""'#\") = false -> bal (take1 k f).
Proof. intros E. eapply eats_of; [apply sound_take1|]. intros s t [-> [_ X]]. now apply (all_nested f). Qed.
Lemma bal_take_one f : existsb f (s_ "()[]{}""'#\") = false -> bal (take_while_m_n 1 1 f).
Proof. intros E. eapply eats_of; [apply sound_take_one|]. intros s t [_ (c & -> & X)]. apply plain_cons; [now apply (plain_by f)|constructor]. Qed.
Lemma bal_sp : bal sp. Proof. eapply eats_of; [apply sd_sp|]. intros a t. apply blank_nested. Qed.
Lemma bal_sp1 : bal sp1. Proof. eapply eats_of; [apply sd_sp1|]. intros a t [X _]. now apply blank_nested. Qed.

(** ** Brackets *)
Definition around (o : char) (t : str) : Prop := exists u v, t = u ++ o :: v /\ nested u /\ nested v.
Lemma around_chr c : eats (chr c) (around c).
Proof. eapply eats_of; [apply eats_chr|]. intros _ t ->. exists [], []. repeat split; constructor. Qed.
Lemma around_tag c : eats (tag [c]) (around c).
Proof. eapply eats_of; [apply eats_tag|]. intros _ t ->. exists [], []. repeat split; constructor. Qed.
Lemma around_preceded {A B} (p : parser A) (q : parser B) c : bal p -> eats q (around c) -> eats (preceded p q) (around c).
Proof.
  intros H K. eapply sound_map; [apply sound_pair; eassumption|]. intros _ t (a & b & -> & X & u & v & -> & Y & Z). exists (a ++ u), v. rewrite <- app_assoc. repeat split; auto. now apply nested_app.
Qed.
Lemma around_terminated {A B} (p : parser A) (q : parser B) c : eats p (around c) -> bal q -> eats (terminated p q) (around c).
Proof.
  intros H K. eapply sound_map; [apply sound_pair; eassumption|]. intros _ t (a & b & -> & (u & v & -> & Y & Z) & X). exists u, (v ++ b). rewrite <- app_assoc. repeat split; auto. now apply nested_app.
Qed.
Lemma bal_brackets {A B C} (p : parser A) (q : parser B) (s : parser C) o c : eats p (around o) -> eats s (around c) -> In (o, c) [(40, 41); (91, 93); (123, 125)] ->
  bal q -> bal (delimited p q s).
Proof.
  intros H K I Q. eapply eats_of; [apply sound_delimited; eassumption|]. intros _ t (a & b & -> & (u & v & -> & U & V) & d & e & -> & X & u' & v' & -> & U' & V').
  rewrite <- app_assoc. apply nested_app; [exact U|]. cbn [app]. rewrite !app_assoc. rewrite <- (app_assoc (v ++ d)). rewrite app_assoc. constructor; auto. repeat apply nested_app; assumption.
Qed.

(** ** Strategy *)
Create HintDb bal.
#[export] Hint Resolve bal_sp bal_sp1 : bal.
Lemma bal_delimited {A B C} (p : parser A) (q : parser B) (s : parser C) : bal p -> bal q -> bal s -> bal (delimited p q s).
Proof. intros. apply bal_preceded; [assumption|]. now apply bal_terminated. Qed.
Lemma bal_sep_pair {A B C} (p : parser A) (q : parser B) (s : parser C) : bal p -> bal q -> bal s -> bal (separated_pair p q s).
Proof. intros. apply bal_pair; [assumption|]. now apply bal_preceded. Qed.
Ltac ar := lazymatch goal with
  | |- eats (chr _) _ => apply around_chr
  | |- eats (tag _) _ => apply around_tag
  | |- eats (terminated ?p sp) _ => apply around_terminated; [ar|apply bal_sp]
  | |- eats (preceded sp ?p) _ => apply around_preceded; [apply bal_sp|ar]
  | |- eats (sp_enc ?p) _ => unfold sp_enc, delimited; apply around_preceded; [apply bal_sp|apply around_terminated; [ar|apply bal_sp]]
  end.
Lemma around_sp_terminated c : eats (terminated sp (tag [c])) (around c).
Proof.
  eapply sound_map; [apply sound_pair; [apply bal_sp|apply around_tag]|]. intros _ t (a & b & -> & X & u & v & -> & Y & Z). exists (a ++ u), v. rewrite <- app_assoc. repeat split; auto. now apply nested_app.
Qed.
Ltac ba := lazymatch goal with
  | |- eats (map _ _) _ => apply bal_map; ba
  | |- eats (pair _ _) _ => apply bal_pair; ba
  | |- eats (tuple3 _ _ _) _ => unfold tuple3; ba
  | |- eats (tuple4 _ _ _ _) _ => unfold tuple4; ba
  | |- eats (tuple5 _ _ _ _ _) _ => unfold tuple5; ba
  | |- eats (preceded _ _) _ => apply bal_preceded; ba
  | |- eats (terminated _ _) _ => apply bal_terminated; ba
  | |- eats (bracketted _) _ => unfold bracketted; ba
  | |- eats (delimited (chr (c_ "(")) _ _) _ => apply (bal_brackets _ _ _ 40 41); [ar|ar|now left|ba]
  | |- eats (delimited (tag (s_ "(")) _ _) _ => apply (bal_brackets _ _ _ 40 41); [ar|ar|now left|ba]
  | |- eats (delimited (terminated (chr (c_ "(")) sp) _ _) _ => apply (bal_brackets _ _ _ 40 41); [ar|ar|now left|ba]
  | |- eats (delimited (terminated (tag (s_ "(")) sp) _ _) _ => apply (bal_brackets _ _ _ 40 41); [ar|ar|now left|ba]
  | |- eats (delimited (terminated (chr (c_ "[")) sp) _ _) _ => apply (bal_brackets _ _ _ 91 93); [ar|ar|now right; left|ba]
  | |- eats (delimited (terminated (tag (s_ "[")) sp) _ _) _ => apply (bal_brackets _ _ _ 91 93); [ar|ar|now right; left|ba]
  | |- eats (delimited (chr (c_ "{")) _ _) _ => apply (bal_brackets _ _ _ 123 125); [ar|ar|now do 2 right; left|ba]
  | |- eats (delimited (terminated (chr (c_ "{")) sp) _ _) _ => apply (bal_brackets _ _ _ 123 125); [ar|ar|now do 2 right; left|ba]
  | |- eats (delimited (terminated (tag (s_ "{")) sp) _ _) _ => apply (bal_brackets _ _ _ 123 125); [ar|apply around_sp_terminated|now do 2 right; left|ba]
  | |- eats (delimited (sp_enc (chr (c_ "{"))) _ _) _ => apply (bal_brackets _ _ _ 123 125); [ar|ar|now do 2 right; left|ba]
  | |- eats (delimited _ _ _) _ => apply bal_delimited; ba
  | |- eats (separated_pair _ _ _) _ => apply bal_sep_pair; ba
  | |- eats (sp_sep _ _) _ => unfold sp_sep; ba
  | |- eats (sp_sep1 _ _) _ => unfold sp_sep1; ba
  | |- eats (sp_enc _) _ => unfold sp_enc; ba
  | |- eats (sp_enc1 _) _ => unfold sp_enc1; ba
  | |- eats (preceded_tag _ _) _ => unfold preceded_tag; ba
  | |- eats (preceded_tag1 _ _) _ => unfold preceded_tag1; ba
  | |- eats (preceded_bracketted _ _) _ => unfold preceded_bracketted; ba
  | |- eats (alt []) _ => apply sound_alt_nil
  | |- eats (alt (_ :: _)) _ => apply sound_alt_cons; ba
  | |- eats (opt _) _ => apply bal_opt; ba
  | |- eats (cut _) _ => apply sound_cut; ba
  | |- eats (map_res _ _) _ => apply bal_map_res; ba
  | |- eats (recognize _) _ => apply bal_recognize; ba
  | |- eats (many0 _) _ => apply bal_many0; ba
  | |- eats (many1 _) _ => apply bal_many1; ba
  | |- eats (separated_list _ _) _ => apply bal_sepl; ba
  | |- eats (separated_nonempty_list _ _) _ => apply bal_sepne; ba
  | |- eats (chr _) _ => apply bal_chr; reflexivity
  | |- eats (tag _) _ => apply bal_tag; reflexivity
  | |- eats (one_of _) _ => apply bal_one_of; reflexivity
  | |- eats (tag_no_case _) _ => apply bal_tnc; reflexivity
  | |- eats (tag_no_case_streaming _) _ => apply bal_tncs; reflexivity
  | |- eats (take1 _ _) _ => apply bal_take1; reflexivity
  | |- eats (take_while1 _) _ => apply bal_take1; reflexivity
  | |- eats (take_while _) _ => apply bal_take_while; reflexivity
  | |- eats (take_while_m_n _ _ _) _ => apply bal_take_one; reflexivity
  | |- _ => first [assumption | solve [auto 1 with bal nocore]]
  end.
