(** Departures of the terminals from the standard, for every text of a kind. *)
From Verif Require Import LMods.
From Verif Require Export LGen LInv.
Notation length := List.length (only parsing).
Open Scope N_scope.
Open Scope list_scope.

(** ** Strings *)
Lemma line_end_read q s r : q = 39 \/ q = 34 -> body q s -> In 10 s \/ In 13 s -> string_literal (q :: s ++ q :: r) = Ok r s.
Proof. intros Q B I. apply string_literal_iff. exists q. repeat split; auto. intros ->. destruct I as [[]|[]]. Qed.

(** ** IRI references *)
Lemma low_byte_iri s c r : In c s -> c mod 256 <= 32 -> (forall d, In d s -> d <> 62) -> forall r' s', iri_ref (60 :: s ++ 62 :: r) <> Ok r' s'.
Proof.
  intros I L N r' s' H. apply iri_ref_iff in H. destruct H as [E A]. injection E as E.
  assert (X : s' = s).
  { assert (A' : forall d, In d s' -> d <> 62).
    { intros d Hd ->. eapply Forall_forall in A; [|exact Hd]. discriminate. }
    clear -E N A'. revert s' E A'. induction s as [|x s IH]; intros [|y s'] E A'; cbn in E; [reflexivity| | |].
    - injection E as E _. destruct (A' y (or_introl eq_refl)). congruence.
    - injection E as E _. destruct (N x (or_introl eq_refl)). congruence.
    - injection E as -> E. f_equal. apply IH; [intros d Hd; apply N; now right|exact E|intros d Hd; apply A'; now right]. }
  subst s'. eapply Forall_forall in A; [|exact I]. unfold iri_char in A. apply andb_true_iff in A. destruct A as [A _].
  apply negb_true_iff in A. unfold in_ranges in A. cbn [existsb] in A. rewrite orb_false_r in A. apply andb_false_iff in A. rewrite !N.leb_gt in A. destruct A as [A|A]; [now apply N.nlt_0_r in A|]. 
  now apply N.lt_nge in A.
Qed.
Lemma w3c_not_gt s d : all w3c_iri_char s -> In d s -> d <> 62.
Proof. intros A I ->. eapply Forall_forall in A; [|exact I]. discriminate. Qed.
Lemma permitted_rejected s c r : all w3c_iri_char s -> In c s -> c mod 256 <= 32 -> forall r' s', iri_ref (60 :: s ++ 62 :: r) <> Ok r' s'.
Proof. intros A I L. apply (low_byte_iri s c); auto. intros d. now apply w3c_not_gt. Qed.

(** ** Variables *)
Lemma low_letter_var c : in_ranges letters (c mod 256) = true -> var_char c = true.
Proof. intros H. unfold var_char, start_char, base_char. now rewrite H. Qed.
Lemma plane_not_var c : 0x10000 <= c -> in_ranges letters (c mod 256) = false -> var_char c = false.
Proof.
  intros L H. unfold var_char, start_char, base_char. rewrite H. 
  assert (X : forall a b, b < 0x10000 -> (a <=? c) && (c <=? b) = false).
  { intros a b B. apply andb_false_iff. right. apply N.leb_gt. eapply N.lt_le_trans; eassumption. }
  unfold in_ranges, w3c_bmp, digits. cbn [existsb]. rewrite !X by reflexivity. cbn [orb].
  replace (c =? 95) with false; [reflexivity|]. symmetry. apply N.eqb_neq. intros ->. now apply L.
Qed.
Lemma low_letters_read s r : s <> [] -> Forall (fun c => in_ranges letters (c mod 256) = true) s -> stops var_char r -> var (63 :: s ++ r) = Ok r (QMark s).
Proof.
  intros N A S. apply (proj2 (var_iff (63 :: s ++ r) r (QMark s))). exists []. repeat split; auto; [constructor|].
  revert A. apply Forall_impl. exact low_letter_var.
Qed.
Lemma planes_rejected g c r : g = 63 \/ g = 36 -> 0x10000 <= c -> in_ranges letters (c mod 256) = false -> forall r' v, var (g :: c :: r) <> Ok r' v.
Proof.
  intros G L H r' v E. pose proof (plane_not_var c L H) as V. revert E. apply fails_not_ok.
  apply (var_fails_after g [] (c :: r)); [constructor| |exact V]. apply char_solid.
  destruct (existsb (N.eqb c) [32; 9; 10; 13; 35]) eqn:E; [|reflexivity]. apply existsb_exists in E. destruct E as (d & I & D).
  apply N.eqb_eq in D. subst d. cbn in I. repeat (destruct I as [<-|I]; [now destruct L|]). destruct I.
Qed.
Lemma stop_in_name s c r : var_name_ok s -> var_char c = false -> var (63 :: s ++ c :: r) = Ok (c :: r) (QMark s).
Proof. intros H C. apply (proj2 (var_iff _ _ (QMark s))). exists []. repeat split; try apply H; auto. constructor. Qed.
Lemma more_not_var c : in_ranges [(0xB7, 0xB7); (0x300, 0x36F); (0x203F, 0x2040)] c = true -> in_ranges letters (c mod 256) = false -> var_char c = false.
Proof.
  intros R H. unfold var_char, start_char, base_char. rewrite H. unfold in_ranges in R. cbn [existsb] in R. rewrite !orb_true_iff, !andb_true_iff, !N.leb_le in R.
  assert (X : in_ranges w3c_bmp c = false /\ (c =? 95) = false /\ in_ranges digits c = false); [|destruct X as (-> & -> & ->); reflexivity].
  clear H. repeat split.
  - unfold in_ranges, w3c_bmp. cbn [existsb]. repeat (apply orb_false_iff; split); try reflexivity; apply andb_false_iff; rewrite !N.leb_gt; lia.
  - apply N.eqb_neq. lia.
  - unfold in_ranges, digits. cbn [existsb]. rewrite orb_false_r. apply andb_false_iff. rewrite !N.leb_gt. lia.
Qed.
Lemma more_ends s c r : var_name_ok s -> in_ranges [(0xB7, 0xB7); (0x300, 0x36F); (0x203F, 0x2040)] c = true -> in_ranges letters (c mod 256) = false ->
  var (63 :: s ++ c :: r) = Ok (c :: r) (QMark s).
Proof. intros H R L. apply stop_in_name; [exact H|now apply more_not_var]. Qed.
Lemma blank_in_var b s r : blank b -> var_name_ok s -> stops var_char r -> var (63 :: b ++ s ++ r) = Ok r (QMark s).
Proof. intros B H S. apply (proj2 (var_iff (63 :: b ++ s ++ r) r (QMark s))). exists b. auto. Qed.

(** ** Prefixed names *)
Lemma ns_text p b : prefix_name p -> blank b -> R_pname_ns (Some p) (p ++ b ++ [58]).
Proof.
  intros P B. exists p, (b ++ [58]). split; [reflexivity|]. split; [split; [reflexivity|exact P]|]. exists b, [58]. repeat split; auto.
Qed.
Lemma blanks_around p b b' l r : prefix_name p -> blank b -> blank b' -> longest local_name l (l ++ r) ->
  prefixed_name (p ++ b ++ 58 :: b' ++ l ++ r) = Ok r (PnameLN (Some p) l).
Proof.
  intros P B B' L. apply prefixed_ln_iff. exists (p ++ b ++ [58]), b'. split; [now rewrite <- !app_assoc|]. split; [now apply ns_text|]. auto.
Qed.
Lemma blank1_first b : blank1 b -> exists c b', b = c :: b' /\ In c [32; 9; 10; 13; 35].
Proof. intros [B N]. destruct B as [|c b H B|bd nl b H1 H2 B]; [now destruct N| |]; (eexists _, _; split; [reflexivity|]); cbn in *; intuition auto. Qed.
Lemma blank_unit_stop b x : blank1 b -> unit_stop (b ++ x).
Proof.
  intros B. apply blank1_first in B. destruct B as (c & b' & -> & I). cbn [app].
  cbn in I. repeat (destruct I as [<-|I]; [split; [reflexivity|split; [reflexivity|apply no_plx_first; discriminate]]|]). destruct I.
Qed.
Lemma single_left p c b x : prefix_name p -> (start_char c || (c =? 58) || low_digit c) = true -> blank1 b ->
  prefixed_name (p ++ 58 :: c :: b ++ x) = Ok (c :: b ++ x) (PnameNS (Some p)).
Proof.
  intros P C B. apply prefixed_ns_iff. exists (p ++ [58]). split; [now rewrite <- app_assoc|]. split; [exact (ns_text p [] P blank_nil)|].
  intros b0 l r' E B0 (u & t & -> & U & T & N).
  assert (b0 = []) as ->.
  { destruct B0 as [|d b0 H B0|bd nl b0 H1 H2 B0]; [reflexivity| |]; injection E as E _; subst c; [|discriminate].
    cbn in H. repeat (destruct H as [<-|H]; [discriminate|]). destruct H. }
  assert (u = [c]) as ->.
  { destruct U as [U|(d & -> & _)]; [|injection E as -> _; reflexivity].
    apply plx_first in U. destruct U as (d & u' & -> & D). injection E as E _. subst d. destruct D as [-> | ->]; discriminate. }
  cbn [app] in E. injection E as E. destruct (blank_unit_stop b x B) as (S1 & S2 & S3). rewrite E in S1, S2, S3.
  apply N. destruct (units_first t T) as [->|[(d & t' & -> & D & _)|[(t' & -> & _)|(u & t' & -> & U2 & _)]]]; [constructor| | |]; exfalso.
  - cbn in S1. congruence.
  - discriminate S2.
  - rewrite <- app_assoc in S3. exact (S3 u (t' ++ r') eq_refl U2).
Qed.
Lemma dots_units ds : all (N.eqb 46) ds -> local_units ds.
Proof. induction 1 as [|c ds H _ IH]; [constructor|]. apply units_char; [|exact IH]. apply N.eqb_eq in H. now subst c. Qed.
Lemma dots_swallowed p l ds b x : prefix_name p -> local_name l -> all (N.eqb 46) ds -> blank1 b ->
  prefixed_name (p ++ 58 :: l ++ ds ++ b ++ x) = Ok (b ++ x) (PnameLN (Some p) (l ++ ds)).
Proof.
  intros P (u & t & -> & U & T & N) D B.
  replace (p ++ 58 :: (u ++ t) ++ ds ++ b ++ x) with ((p ++ [] ++ [58]) ++ [] ++ (u ++ t ++ ds) ++ b ++ x) by (cbn [app]; now rewrite <- !app_assoc).
  rewrite <- (app_assoc u t ds). apply prefixed_ln_ok; [exact (ns_text p [] P blank_nil)|constructor| |now apply blank_unit_stop].
  exists u, (t ++ ds). split; [reflexivity|]. split; [exact U|]. split; [apply units_app; [exact T|now apply dots_units]|].
  intros A. apply N. apply Forall_app in A. apply A.
Qed.
