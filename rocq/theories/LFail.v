(** Where hard failures come from: the combinators, the terminals. *)
From Verif Require Export SpecFail.
From Verif Require Import LSound1 LTok LMono LC8 LMods.
From Verif Require Import Nom.
Notation length := List.length (only parsing).
Open Scope N_scope.
Open Scope list_scope.

Definition placed {A} (i : str) (x : res A) : Prop :=
  match x with Ok r _ => exists t, i = t ++ r | Err (Failure pos k) => spot i pos k | Err _ => True end.
(** [hf p]: a remainder of [p] is a suffix, a hard failure of [p] is at a [spot]. *)
Definition hf {A} (p : parser A) : Prop := forall i, placed i (p i).

Lemma unclosed_app o c t i pos : unclosed o c i pos -> unclosed o c (t ++ i) pos.
Proof. intros (u & b & -> & H). exists (t ++ u), b. now rewrite <- app_assoc. Qed.
Lemma spot_app t i pos k : spot i pos k -> spot (t ++ i) pos k.
Proof.
  intros [(K & [U|U])|(K & u & d & e & s & -> & H)]; [left|left|right]; split; trivial.
  - left. now apply unclosed_app. - right. now apply unclosed_app.
  - exists (t ++ u), d, e, s. now rewrite <- app_assoc.
Qed.
Lemma placed_app {A} t i (x : res A) : placed i x -> placed (t ++ i) x.
Proof. destruct x as [r a|[]]; cbn; trivial; [intros (u & ->); exists (t ++ u); now rewrite app_assoc|apply spot_app]. Qed.
Lemma hf_elim {A} (p : parser A) i x : hf p -> p i = x -> placed i x.
Proof. intros H <-. apply H. Qed.

(** parsers that never fail hard *)
Lemma hf_soft {A} (p : parser A) R : sound p R -> (forall i pos k, p i <> Err (Failure pos k)) -> hf p.
Proof.
  intros S N i. destruct (p i) as [r a|e] eqn:E; [destruct (S _ _ _ E) as (t & -> & _); now exists t|].
  destruct e; try exact I. exfalso. exact (N _ _ _ E).
Qed.
Lemma hf_map {A B} (p : parser A) (f : A -> B) : hf p -> hf (map p f).
Proof. intros H i. specialize (H i). unfold map. destruct (p i) as [r a|e]; exact H. Qed.
Lemma hf_map_res {A B} (p : parser A) (f : A -> option B) : hf p -> hf (map_res p f).
Proof. intros H i. specialize (H i). unfold map_res. destruct (p i) as [r a|e]; [destruct (f a); [exact H|exact I]|exact H]. Qed.
Lemma hf_recognize {A} (p : parser A) : hf p -> hf (recognize p).
Proof. intros H i. specialize (H i). unfold recognize. destruct (p i) as [r a|e]; exact H. Qed.
Lemma hf_pair {A B} (p : parser A) (q : parser B) : hf p -> hf q -> hf (pair p q).
Proof.
  intros HP HQ i. specialize (HP i). unfold pair. destruct (p i) as [r a|e]; [|exact HP]. destruct HP as (t & ->).
  specialize (HQ r). destruct (q r) as [r' b|e]; exact (placed_app t r _ HQ).
Qed.
Lemma hf_preceded {A B} (p : parser A) (q : parser B) : hf p -> hf q -> hf (preceded p q).
Proof. intros HP HQ. unfold preceded. now apply hf_map, hf_pair. Qed.
Lemma hf_terminated {A B} (p : parser A) (q : parser B) : hf p -> hf q -> hf (terminated p q).
Proof. intros HP HQ. unfold terminated. now apply hf_map, hf_pair. Qed.
Lemma hf_opt {A} (p : parser A) : hf p -> hf (opt p).
Proof. intros H i. specialize (H i). unfold opt. destruct (p i) as [r a|[]]; try exact H. now exists []. Qed.
Lemma hf_alt_nil {A} : hf (@alt A []). Proof. exact (fun _ => I). Qed.
Lemma hf_alt_cons {A} (p : parser A) ps : hf p -> hf (alt ps) -> hf (alt (p :: ps)).
Proof.
  intros HP HQ i. destruct ps as [|q ps]; [exact (HP i)|]. rewrite alt_cons by discriminate. specialize (HP i).
  destruct (p i) as [r a|[]]; try exact HP. exact (HQ i).
Qed.
Lemma many0_loop_hf {A} (p : parser A) : hf p -> forall n, hf (many0_loop n p).
Proof.
  intros HP. induction n as [|n IH]; intros i; [exact I|]. cbn [many0_loop]. specialize (HP i). destruct (p i) as [r a|[]]; try exact HP.
  - destruct (str_eqb r i); [exact I|]. destruct HP as (t & ->). specialize (IH r). destruct (many0_loop n p r); exact (placed_app t r _ IH).
  - now exists [].
Qed.
Lemma hf_many0 {A} (p : parser A) : hf p -> hf (many0 p).
Proof. intros H i. exact (many0_loop_hf p H _ i). Qed.
Lemma many1_loop_hf {A} (p : parser A) : hf p -> forall n, hf (many1_loop n p).
Proof.
  intros HP. induction n as [|n IH]; intros i; [exact I|]. cbn [many1_loop]. specialize (HP i). destruct (p i) as [r a|[]]; try exact HP.
  - destruct (str_eqb r i); [exact I|]. destruct HP as (t & ->). specialize (IH r). destruct (many1_loop n p r); exact (placed_app t r _ IH).
  - now exists [].
Qed.
Lemma hf_many1 {A} (p : parser A) : hf p -> hf (many1 p).
Proof.
  intros H i. pose proof (H i) as HP. unfold many1. destruct (p i) as [r a|e]; [|exact HP]. destruct HP as (t & ->).
  pose proof (many1_loop_hf p H (S (length r)) r) as L. destruct (many1_loop _ p r); exact (placed_app t r _ L).
Qed.
Lemma sep_loop_hf {A B} (s : parser B) (p : parser A) : hf s -> hf p -> forall n, hf (sep_loop n s p).
Proof.
  intros HS HP. induction n as [|n IH]; intros i; [exact I|]. cbn [sep_loop]. specialize (HS i). destruct (s i) as [r b|[]]; try exact HS.
  - destruct (str_eqb r i); [exact I|]. destruct HS as (t & ->). specialize (HP r). destruct (p r) as [r' a|[]]; try exact (placed_app t r _ HP).
    + destruct (str_eqb r' _); [exact I|]. destruct HP as (t' & ->). specialize (IH r').
      destruct (sep_loop n s p r'); exact (placed_app t _ _ (placed_app t' r' _ IH)).
    + now exists [].
  - now exists [].
Qed.
Lemma hf_sepl {A B} (s : parser B) (p : parser A) : hf s -> hf p -> hf (separated_list s p).
Proof.
  intros HS HP i. pose proof (HP i) as H. unfold separated_list. destruct (p i) as [r a|[]]; try exact H; [|now exists []].
  destruct (str_eqb r i); [exact I|]. destruct H as (t & ->).
  pose proof (sep_loop_hf s p HS HP (S (length r)) r) as L. destruct (sep_loop _ s p r); exact (placed_app t r _ L).
Qed.
Lemma hf_sepne {A B} (s : parser B) (p : parser A) : hf s -> hf p -> hf (separated_nonempty_list s p).
Proof.
  intros HS HP i. pose proof (HP i) as H. unfold separated_nonempty_list. destruct (p i) as [r a|[]]; try exact H.
  destruct (str_eqb r i); [exact I|]. destruct H as (t & ->).
  pose proof (sep_loop_hf s p HS HP (S (length r)) r) as L. destruct (sep_loop _ s p r); exact (placed_app t r _ L).
Qed.
Lemma hf_iter {A} (body : parser A -> parser A) : (forall p, hf p -> hf (body p)) -> forall n, hf (iter n body).
Proof. intros H n. induction n as [|n IH]; [exact (fun _ => I)|]. exact (H _ IH). Qed.
Lemma hf_fixp {A} (body : parser A -> parser A) : (forall p, hf p -> hf (body p)) -> hf (fixp body).
Proof. intros H i. exact (hf_iter body H _ i). Qed.

(** ** Texts *)
Lemma hf_tag t : hf (tag t).
Proof. intros i. unfold tag. destruct (strip_prefix t i) as [r|] eqn:E; [|exact I]. apply strip_prefix_some in E. now exists t. Qed.
Lemma hf_tnc t : hf (tag_no_case t).
Proof.
  intros i. unfold tag_no_case. destruct (compare_no_case i t); try exact I. destruct (split_at _ i) as [[a b]|] eqn:E; [|exact I].
  apply split_at_app in E. exists a. apply E.
Qed.
Lemma hf_tncs t : hf (tag_no_case_streaming t).
Proof.
  intros i. unfold tag_no_case_streaming. destruct (compare_no_case i t); try exact I. destruct (split_at _ i) as [[a b]|] eqn:E; [|exact I].
  apply split_at_app in E. exists a. apply E.
Qed.
Lemma hf_chr c : hf (chr c).
Proof. intros [|x i]; [exact I|]. unfold chr. destruct (x =? c); [now exists [x]|exact I]. Qed.
Lemma hf_one_of cs : hf (one_of cs).
Proof. intros [|x i]; [exact I|]. unfold one_of. destruct (contains cs x); [now exists [x]|exact I]. Qed.
Lemma hf_none_of cs : hf (none_of cs).
Proof. intros [|x i]; [exact I|]. unfold none_of. destruct (contains cs x); [exact I|now exists [x]]. Qed.
Lemma hf_take_while f : hf (take_while f).
Proof. intros i. unfold take_while. pose proof (span_app f i) as E. destruct (span f i) as [a b]. now exists a. Qed.
Lemma hf_take1 k f : hf (take1 k f).
Proof. intros i. unfold take1. pose proof (span_app f i) as E. destruct (span f i) as [[|x a] b]; [exact I|now exists (x :: a)]. Qed.
Lemma hf_take_while_m_n m n f : hf (take_while_m_n m n f).
Proof.
  intros i. unfold take_while_m_n. pose proof (span_n_app n f i) as E. destruct (span_n n f i) as [a b].
  destruct (Nat.leb m _); [now exists a|exact I].
Qed.
Lemma escaped_loop_hf {A B} (p : parser A) (q : parser B) x i0 : hf p -> hf q -> forall n i, (exists t, i0 = t ++ i) ->
  placed i0 (escaped_loop n p x q i0 i).
Proof.
  intros HP HQ. induction n as [|n IH]; intros i H; [exact I|]. cbn [escaped_loop]. destruct i as [|c i]; [exists i0; now rewrite app_nil_r|].
  destruct H as (t & ->). pose proof (HP (c :: i)) as P1. destruct (p (c :: i)) as [r a|[]]; try exact (placed_app t _ _ P1).
  - destruct r as [|d r]; [now exists (t ++ c :: i); rewrite app_nil_r|]. apply IH. destruct P1 as (u & ->). exists (t ++ u). now rewrite <- app_assoc.
  - destruct (c =? x).
    + destruct i as [|d i]; [exact I|]. assert (E : t ++ c :: d :: i = (t ++ [c]) ++ d :: i) by now rewrite <- app_assoc.
      rewrite E in *. pose proof (placed_app (t ++ [c]) _ _ (HQ (d :: i))) as Q1.
      destruct (q (d :: i)) as [r b|e]; [|destruct e; exact Q1].
      destruct r as [|y r]; [now exists ((t ++ [c]) ++ d :: i); rewrite app_nil_r|]. apply IH. exact Q1.
    + destruct (Nat.eqb _ _); [exact I|now exists t].
Qed.
Lemma hf_escaped {A B} (p : parser A) (q : parser B) x : hf p -> hf q -> hf (escaped p x q).
Proof. intros HP HQ i. apply escaped_loop_hf; [exact HP|exact HQ|now exists []]. Qed.

Create HintDb hf discriminated.
#[export] Hint Resolve hf_tag hf_tnc hf_tncs hf_chr hf_one_of hf_none_of hf_take_while hf_take1 hf_take_while_m_n : hf.
Ltac head_of p := lazymatch p with ?f _ => head_of f | _ => p end.
Ltac hv := lazymatch goal with
  | |- hf (map _ _) => apply hf_map; hv
  | |- hf (map_res _ _) => apply hf_map_res; hv
  | |- hf (recognize _) => apply hf_recognize; hv
  | |- hf (pair _ _) => apply hf_pair; hv
  | |- hf (preceded _ _) => apply hf_preceded; hv
  | |- hf (terminated _ _) => apply hf_terminated; hv
  | |- hf (delimited _ _ _) => unfold delimited; hv
  | |- hf (separated_pair _ _ _) => unfold separated_pair; hv
  | |- hf (tuple3 _ _ _) => unfold tuple3; hv
  | |- hf (tuple4 _ _ _ _) => unfold tuple4; hv
  | |- hf (tuple5 _ _ _ _ _) => unfold tuple5; hv
  | |- hf (opt _) => apply hf_opt; hv
  | |- hf (alt []) => apply hf_alt_nil
  | |- hf (alt (_ :: _)) => apply hf_alt_cons; hv
  | |- hf (many0 _) => apply hf_many0; hv
  | |- hf (many1 _) => apply hf_many1; hv
  | |- hf (separated_list _ _) => apply hf_sepl; hv
  | |- hf (separated_nonempty_list _ _) => apply hf_sepne; hv
  | |- hf (escaped _ _ _) => apply hf_escaped; hv
  | |- hf (take_while1 _) => apply hf_take1
  | |- hf digit1 => apply hf_take1
  | |- hf alpha1 => apply hf_take1
  | |- hf alphanumeric1 => apply hf_take1
  | H : hf ?p |- hf ?p => exact H
  | |- hf ?p => first [solve [auto with hf nocore] | let h := head_of p in unfold h; hv | idtac]
  end.

(** ** The three places *)
Lemma hf_brackets o c : (o = 40 /\ c = 41) \/ (o = 91 /\ c = 93) -> hf (preceded (chr o) (cut (terminated sp (chr c)))).
Proof.
  intros C i. destruct i as [|x i]; [exact I|]. unfold preceded, map, pair, chr at 1. destruct (x =? o) eqn:X; [|exact I]. apply N.eqb_eq in X. subst x.
  destruct (blank_split i) as (b & r & -> & B & S). unfold cut, terminated, map, pair. rewrite (sp_ok b r B S). unfold chr.
  assert (U : not_first c r -> spot (o :: b ++ r) r KChar).
  { intros N. left. split; [reflexivity|]. destruct C as [[-> ->]|[-> ->]]; [left|right]; exists [], b; repeat split; assumption. }
  destruct r as [|y r]; [exact (U I)|]. destruct (y =? c) eqn:Y; [exists (o :: b ++ [y]); cbn; now rewrite <- app_assoc|].
  apply U. now apply N.eqb_neq.
Qed.
Lemma hf_nil_ : hf nil_. Proof. apply hf_brackets. now left. Qed.
Lemma hf_anon : hf anon. Proof. apply hf_brackets. now right. Qed.
#[export] Hint Resolve hf_nil_ hf_anon : hf.
Lemma hf_sparql_int : hf sparql_int.
Proof.
  intros i. unfold sparql_int. pose proof (hf_recognize _ (hf_pair opt_sign digit1 ltac:(hv) ltac:(hv)) i) as H.
  destruct (recognize _ i) as [r o|e]; [|exact H]. destruct (match r with [] => _ | _ :: _ => _ end); [exact I|]. destruct (parse_i64 o); [exact H|exact I].
Qed.
Lemma hf_sparql_decimal : hf sparql_decimal.
Proof.
  intros i. unfold sparql_decimal. assert (H : hf recognize_sparql_float) by hv. specialize (H i).
  destruct (recognize_sparql_float i) as [r o|e]; [|exact H]. destruct (parse_decimal o); [exact H|exact I].
Qed.
Lemma decimal_end v t : R_decimal v t -> exists u d, t = u ++ [d] /\ (in_ranges digits d = true \/ d = 46).
Proof.
  intros (sg & k & ip & fp & pt & _ & -> & I1 & F & P & N & _). destruct fp as [|x fp].
  - rewrite app_nil_r in *. destruct P as [->|[-> _]]; [exists (sg ++ ip), 46; split; [now rewrite app_assoc|now right]|]. rewrite app_nil_r.
    destruct (exists_last N) as (u & d & ->). exists (sg ++ u), d. split; [now rewrite app_assoc|]. left.
    unfold digits0, all in I1. rewrite Forall_app in I1. destruct I1 as [_ I1]. now inversion I1.
  - destruct (@exists_last _ (x :: fp)) as (u & d & E); [discriminate|]. rewrite E in *. exists (sg ++ ip ++ pt ++ u), d.
    split; [now rewrite !app_assoc|]. left. unfold digits0, all in F. rewrite Forall_app in F. destruct F as [_ F]. now inversion F.
Qed.
Lemma digit1_cases r : digit1 r = Err (Error r KDigit) \/ exists r' a, digit1 r = Ok r' a.
Proof. unfold digit1, take1. destruct (span _ r) as [[|x a] b]; [now left|right; eauto]. Qed.
Lemma two_chars x y i : (exists c r, i = c :: r /\ (c = x \/ c = y) /\ alt [chr x; chr y] i = Ok r c) \/ alt [chr x; chr y] i = Err (Error i KChar).
Proof.
  destruct i as [|c r]; [now right|]. cbn [alt]. unfold chr. destruct (c =? x) eqn:X; [apply N.eqb_eq in X; subst; left; eauto 6|].
  destruct (c =? y) eqn:Y; [apply N.eqb_eq in Y; subst; left; eauto 6|now right].
Qed.
Lemma hf_sparql_double : hf sparql_double.
Proof.
  intros i. unfold sparql_double, pair. pose proof (hf_sparql_decimal i) as H. destruct (sparql_decimal i) as [r v|e] eqn:D; [|exact H].
  destruct (sd_sparql_decimal _ _ _ D) as (t & -> & Rt). destruct (decimal_end _ _ Rt) as (u & d & -> & Hd). unfold opt, exponent, preceded, map, pair.
  destruct (two_chars (c_ "e") (c_ "E") r) as [(e & r1 & -> & He & A)|A]; rewrite A; [|now exists (u ++ [d])].
  unfold map_res, recognize, pair. assert (O : exists r2 w s, opt_sign r1 = Ok r2 s /\ r1 = w ++ r2 /\ ((w = [] /\ not_first 43 r2 /\ not_first 45 r2) \/ w = [43] \/ w = [45])).
  { unfold opt_sign, opt. destruct (two_chars (c_ "+") (c_ "-") r1) as [(y & r2 & -> & Y & Q)|Q]; rewrite Q.
    - exists r2, [y], (Some y). split; [reflexivity|]. split; [reflexivity|]. destruct Y as [-> | ->]; [right; now left|right; now right].
    - exists r1, [], None. split; [reflexivity|]. split; [reflexivity|]. left. split; [reflexivity|]. destruct r1 as [|y r1]; [now split|]. cbn in Q |- *.
      unfold chr in Q. split; intros ->; discriminate Q. }
  destruct O as (r2 & w & s & O & -> & Hw). rewrite O. unfold cut. destruct (digit1_cases r2) as [Q|(r3 & a & Q)]; rewrite Q.
  - cbn. right. split; [reflexivity|]. exists u, d, e, w. rewrite <- app_assoc. repeat split; try assumption.
    unfold digit1, take1 in Q. destruct r2 as [|y r2]; [exact I|]. cbn [span] in Q. destruct (char_is_dec_digit y) eqn:Y; [destruct (span _ r2); discriminate|].
    cbn -[in_ranges]. rewrite <- Y. symmetry. apply LSound1.is_digit_eq.
  - assert (P3 : exists z, r2 = z ++ r3) by exact (hf_elim _ _ _ (hf_take1 _ _) Q).
    destruct P3 as (z & ->). destruct (parse_i64 _); cbn; [exists ((u ++ [d]) ++ e :: w ++ z); rewrite <- !app_assoc; cbn; now rewrite <- app_assoc|now exists (u ++ [d])].
Qed.
Lemma hf_path_mod : hf path_mod.
Proof.
  intros [|x i]; [exact I|]. unfold path_mod. destruct (split_at 1 (x :: i)) as [[h r]|] eqn:E; [|exact I]. apply split_at_app in E.
  destruct (path_mod_from_str h); [exists h; apply E|exact I].
Qed.
#[export] Hint Resolve hf_sparql_int hf_sparql_decimal hf_sparql_double hf_path_mod : hf.
