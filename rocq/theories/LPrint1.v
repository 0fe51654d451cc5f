(** Printed leaves: numbers, names, terms, keywords. *)
From Verif Require Export Print LayoutQuery LCall LC1 LC2 LC6 LC8 LMods.
Notation length := List.length (only parsing).
Open Scope N_scope.
Open Scope list_scope.

(** ** First characters *)
Definition hard (t : str) : Prop := exists c t', t = c :: t' /\ ~ In c [32; 9; 10; 13; 35].
Lemma hard_solid t r : hard t -> solid (t ++ r).
Proof. intros (c & t' & -> & H). now apply solid_first. Qed.
Lemma hard_solid0 t : hard t -> solid t.
Proof. intros H. rewrite <- (app_nil_r t). now apply hard_solid. Qed.
Lemma hard_app t r : hard t -> hard (t ++ r).
Proof. intros (c & t' & -> & H). exists c, (t' ++ r). auto. Qed.
Lemma hard_cons c t : existsb (N.eqb c) [32; 9; 10; 13; 35] = false -> hard (c :: t).
Proof.
  intros H. exists c, t. split; [reflexivity|]. intros X. apply existsb_In_N in X. congruence.
Qed.
Lemma hard_starts cs t : forallb (fun c => negb (existsb (N.eqb c) [32; 9; 10; 13; 35])) cs = true -> starts cs t -> hard t.
Proof.
  intros H (c & t' & -> & Hc). rewrite forallb_forall in H. apply hard_cons. apply negb_true_iff. now apply H.
Qed.
Lemma not_first_app c t r : t <> [] -> not_first c t -> not_first c (t ++ r).
Proof. destruct t; [congruence|auto]. Qed.
Lemma hard_nonempty t : hard t -> t <> [].
Proof. now intros (c & t' & -> & _). Qed.
Lemma starts_nonempty cs t : starts cs t -> t <> [].
Proof. now intros (c & t' & -> & _). Qed.

(** ** Splitting layouts *)
Lemma then_app (P Q : lang) u v r : P u (v ++ r) -> Q v r -> (P >> Q) (u ++ v) r.
Proof. intros. now exists u, v. Qed.
Lemma then_cons (P Q : lang) c v r : P [c] (v ++ r) -> Q v r -> (P >> Q) (c :: v) r.
Proof. intros. now exists [c], v. Qed.
Ltac tcons := first [apply then_cons|apply then_app].
Lemma then_none (P Q : lang) v r : P [] (v ++ r) -> Q v r -> (P >> Q) v r.
Proof. intros. now exists [], v. Qed.
Lemma then_last (P Q : lang) u r : P u r -> Q [] r -> (P >> Q) u r.
Proof. intros. exists u, []. now rewrite app_nil_r. Qed.
(** the text written for a blank *)
Record blanks := MkBlanks { btext :> list N; btext_ok : blank1 btext }.
Lemma one_space_ok : blank1 [32]. Proof. split; [apply blank_space; [now left|constructor]|discriminate]. Qed.
Definition one_space : blanks := MkBlanks [32] one_space_ok.
Lemma blank_sp (B : blanks) : blank B. Proof. apply btext_ok. Qed.
Lemma gap_sp (B : blanks) r : solid r -> gap B r. Proof. intros. split; [apply blank_sp|assumption]. Qed.
Lemma gap_no r : solid r -> gap [] r. Proof. intros. split; [constructor|assumption]. Qed.
Lemma gap1_sp (B : blanks) r : solid r -> gap1 B r. Proof. intros. split; [apply btext_ok|assumption]. Qed.
Lemma nxt_sp (B : blanks) (P : str -> Prop) r : solid r -> P r -> nxt P (B ++ r).
Proof. intros. exists B, r. repeat split; auto using blank_sp. Qed.
Lemma nxt1_sp (B : blanks) (P : str -> Prop) r : solid r -> P r -> nxt1 P (B ++ r).
Proof. intros. exists B, r. repeat split; auto using blank_sp. apply btext_ok. Qed.
Lemma btext_brk (B : blanks) r : brk (B ++ r).
Proof. apply blank_brk; [apply btext_ok|left; apply btext_ok]. Qed.
Global Hint Resolve btext_brk : core.
Global Hint Extern 0 (brk _) => (rewrite <- ?app_assoc; apply btext_brk) : core.
Lemma nxt_no (P : str -> Prop) r : solid r -> P r -> nxt P r.
Proof. intros. exists [], r. repeat split; auto. constructor. Qed.

(** ** Numbers *)
Lemma value_snoc u d : value (u ++ [d]) = (10 * value u + Z.of_N (d - 48))%Z.
Proof.
  induction u as [|c u IH]; cbn [app value length]; [cbn [length Z.of_nat]; rewrite Z.pow_0_r; lia|].
  rewrite IH, app_length. cbn [length]. rewrite Nat2Z.inj_add. change (Z.of_nat 1) with 1%Z.
  rewrite Z.pow_add_r by lia. change (10 ^ 1)%Z with 10%Z. ring.
Qed.
Lemma digs_S f n : digs (S f) n = (if n / 10 =? 0 then [] else digs f (n / 10)) ++ [48 + n mod 10]. Proof. reflexivity. Qed.
Lemma digs_value : forall f n, n < 2 ^ N.of_nat f -> value (digs (S f) n) = Z.of_N n.
Proof.
  induction f as [|f IH]; intros n H.
  - change (2 ^ N.of_nat 0) with 1 in H. assert (n = 0) by (clear -H; lia). subst. reflexivity.
  - rewrite digs_S, value_snoc.
    assert (D : n = 10 * (n / 10) + n mod 10) by (apply N.div_mod; discriminate).
    assert (M : n mod 10 < 10) by (apply N.mod_lt; discriminate).
    rewrite (N.add_comm 48), N.add_sub. set (q := n / 10) in *. set (m := n mod 10) in *.
    destruct (N.eqb_spec q 0) as [Z0|Z0].
    + cbn [value]. rewrite Z0 in D. clear -D. lia.
    + rewrite IH; [clear -D; lia|]. rewrite Nat2N.inj_succ, N.pow_succ_r' in H. clear -D H. lia.
Qed.
Lemma dec_value n : value (dec n) = Z.of_N n.
Proof. apply digs_value. rewrite N2Nat.id. apply N.size_gt. Qed.
Lemma digs_digits : forall f n, all (in_ranges digits) (digs f n).
Proof.
  induction f as [|f IH]; intros n; [constructor|]. rewrite digs_S. apply Forall_app. split.
  - destruct (_ =? 0); [constructor|apply IH].
  - constructor; [|constructor]. assert (n mod 10 < 10) by (apply N.mod_lt; discriminate).
    set (m := n mod 10) in *. unfold in_ranges, digits, existsb. rewrite orb_false_r. apply andb_true_iff.
    split; apply N.leb_le; clear -H; lia.
Qed.
Lemma dec_digits n : digits1 (dec n).
Proof.
  split; [|apply digs_digits]. unfold dec. rewrite digs_S. intros X. now apply app_eq_nil in X.
Qed.
Lemma digits_low t : digits1 t -> starts (s_ "0123456789") t.
Proof.
  intros [N H]. destruct t as [|c t]; [congruence|]. exists c, t. split; [reflexivity|]. inversion H; subst.
  match goal with H : _ = true |- _ => revert H end.
  unfold in_ranges, digits, existsb. rewrite orb_false_r, andb_true_iff, !N.leb_le. intros [? ?].
  assert (E : exists k, c = 48 + k /\ k < 10) by (exists (c - 48); lia). destruct E as (k & -> & Hk). cbn.
  assert (k = 0 \/ k = 1 \/ k = 2 \/ k = 3 \/ k = 4 \/ k = 5 \/ k = 6 \/ k = 7 \/ k = 8 \/ k = 9) as X by lia.
  repeat (destruct X as [->|X]; [cbn; tauto|]). subst k. cbn. tauto.
Qed.
Lemma dec_starts n : starts (s_ "0123456789") (dec n). Proof. apply digits_low, dec_digits. Qed.
Lemma int_text z : i64 z -> R_i64 z (pr_int z).
Proof.
  intros H. unfold pr_int. destruct (Z.ltb_spec z 0) as [L|L].
  - exists [45], (-1)%Z, (dec (Z.to_N (- z))). repeat split; try apply dec_digits; try apply H.
    + constructor.
    + rewrite dec_value, Z2N.id by lia. lia.
  - exists [], 1%Z, (dec (Z.to_N z)). repeat split; try apply dec_digits; try apply H.
    + constructor.
    + rewrite dec_value, Z2N.id by lia. lia.
Qed.
Lemma padded_length k : forall n, length (last_digits k n) = k.
Proof. induction k as [|k IH]; intros n; [reflexivity|]. cbn [last_digits]. rewrite app_length, IH. cbn. lia. Qed.
Lemma padded_value k : forall n, n < 10 ^ N.of_nat k -> value (last_digits k n) = Z.of_N n.
Proof.
  induction k as [|k IH]; intros n H.
  - change (10 ^ N.of_nat 0) with 1 in H. assert (n = 0) by (clear -H; lia). subst. reflexivity.
  - cbn [last_digits]. rewrite value_snoc. rewrite Nat2N.inj_succ, N.pow_succ_r' in H.
    assert (D : n = 10 * (n / 10) + n mod 10) by (apply N.div_mod; discriminate).
    assert (L : n / 10 < 10 ^ N.of_nat k) by (apply N.div_lt_upper_bound; [discriminate|exact H]).
    rewrite (N.add_comm 48), N.add_sub, (IH _ L). set (q := n / 10) in *. set (m := n mod 10) in *. clear -D. lia.
Qed.
Lemma digit_ok n : in_ranges digits (48 + n mod 10) = true.
Proof.
  assert (n mod 10 < 10) by (apply N.mod_lt; discriminate).
  set (m := n mod 10) in *. unfold in_ranges, digits, existsb. rewrite orb_false_r. apply andb_true_iff.
  split; apply N.leb_le; clear -H; lia.
Qed.
Lemma padded_digits k : forall n, digits0 (last_digits k n).
Proof. induction k as [|k IH]; intros n; [constructor|]. cbn [last_digits]. apply Forall_app. split; [apply IH|]. constructor; [apply digit_ok|constructor]. Qed.
Lemma value_app u v : value (u ++ v) = (value u * 10 ^ Z.of_nat (length v) + value v)%Z.
Proof.
  revert u. induction v as [|c v IH] using rev_ind; intros u.
  - rewrite app_nil_r. cbn [length Z.of_nat]. rewrite Z.pow_0_r. cbn [value]. lia.
  - rewrite app_assoc, !value_snoc, IH, app_length. cbn [length]. rewrite Nat2Z.inj_add. change (Z.of_nat 1) with 1%Z.
    rewrite Z.pow_add_r by lia. change (10 ^ 1)%Z with 10%Z. ring.
Qed.
(** the digits written have the value of the number *)
Lemma size_text v : wf_f64 v -> exists ip fp, pr_size v = ip ++ [46] ++ fp /\ digits1 ip /\ digits0 fp /\
  rounds (inject_Z (value (ip ++ fp)) / inject_Z (10 ^ Z.of_nat (length fp))) v.
Proof.
  assert (X : forall s m e ip fp, binary64 m e -> digits1 ip -> digits0 fp ->
    (inject_Z (value (ip ++ fp)) / inject_Z (10 ^ Z.of_nat (length fp)) == magnitude m e)%Q ->
    rounds (inject_Z (value (ip ++ fp)) / inject_Z (10 ^ Z.of_nat (length fp))) (Finite s m e)).
  { intros s m e ip fp B D1 D2 E. pose proof (round_ok s (value (ip ++ fp)) (10 ^ Z.of_nat (length fp)) (value_nonneg _) (pow10_pos _)) as R.
    rewrite <- (rounds_exact _ _ s m e _ (value_nonneg _) (pow10_pos _) B E R (round_negative _ _ _)). exact R. }
  assert (Y : forall m e, (0 <= e)%Z -> (inject_Z (value (dec (m * 2 ^ Z.to_N e) ++ [])) / inject_Z (10 ^ Z.of_nat (length (@nil N))) == magnitude m e)%Q).
  { intros m e P. rewrite app_nil_r, dec_value. cbn [length Z.of_nat]. rewrite Z.pow_0_r, Qdiv_1_r, N2Z.inj_mul, N2Z.inj_pow, Z2N.id by exact P.
    change (Z.of_N 2) with 2%Z. rewrite inject_Z_mult, Qpower.Zpower_Qpower by exact P. reflexivity. }
  destruct v as [s m e|s]; cbn [wf_f64]; intros B.
  - destruct e as [|k|k]; cbn [pr_size].
    + eexists _, []. split; [reflexivity|]. split; [apply dec_digits|]. split; [constructor|]. apply X; [assumption|apply dec_digits|constructor|]. apply (Y m 0%Z). lia.
    + eexists _, []. split; [reflexivity|]. split; [apply dec_digits|]. split; [constructor|]. apply X; [assumption|apply dec_digits|constructor|]. apply (Y m (Zpos k)). lia.
    + eexists _, _. split; [reflexivity|]. split; [apply dec_digits|]. split; [apply padded_digits|]. apply X; [assumption|apply dec_digits|apply padded_digits|].
      rewrite value_app, padded_length, dec_value, padded_value.
      2:{ rewrite positive_nat_N. apply N.mod_lt. apply N.pow_nonzero. discriminate. }
      set (x := m * 5 ^ N.pos k). rewrite positive_nat_Z. 
      assert (E : (Z.of_N (x / 10 ^ N.pos k) * 10 ^ Z.pos k + Z.of_N (x mod 10 ^ N.pos k))%Z = Z.of_N x).
      { change (10 ^ Z.pos k)%Z with (Z.of_N 10 ^ Z.of_N (N.pos k))%Z. rewrite <- N2Z.inj_pow, <- N2Z.inj_mul, <- N2Z.inj_add. f_equal.
        rewrite N.mul_comm. symmetry. apply N.div_mod. apply N.pow_nonzero. discriminate. }
      rewrite E. unfold x, magnitude. rewrite N2Z.inj_mul, N2Z.inj_pow. change (Z.of_N 5) with 5%Z. change (Z.of_N (N.pos k)) with (Z.pos k).
      change (Z.neg k) with (- Z.pos k)%Z. rewrite Qpower.Qpower_opp.
      change 10%Z with (2 * 5)%Z. rewrite Z.pow_mul_l, !inject_Z_mult, !Qpower.Zpower_Qpower by discriminate.
      change (inject_Z 2) with 2%Q. change (inject_Z 5) with 5%Q.
      assert (N2 : ~ (2 ^ Z.pos k == 0)%Q) by (apply Qpower.Qpower_not_0; discriminate).
      assert (N5 : ~ (5 ^ Z.pos k == 0)%Q) by (apply Qpower.Qpower_not_0; discriminate).
      generalize dependent (2 ^ Z.pos k)%Q. generalize dependent (5 ^ Z.pos k)%Q. intros a A b Bb. field. auto.
  - eexists _, []. split; [reflexivity|]. split; [apply dec_digits|]. split; [constructor|].
    rewrite app_nil_r, dec_value. cbn [length Z.of_nat]. change (10 ^ 0)%Z with 1%Z.
    apply rounds_eq with (inject_Z (Z.of_N (2 ^ 1024))); [symmetry; apply Qdiv_1_r|]. unfold rounds, overflow. rewrite <- Zle_Qle. vm_compute. discriminate.
Qed.
Lemma f64_text v : wf_f64 v -> R_decimal v (pr_f64 v).
Proof.
  intros H. destruct (size_text v H) as (ip & fp & E & D1 & D2 & R). unfold pr_f64. rewrite E.
  exists (if negative v then [45] else []), (if negative v then -1 else 1)%Z, ip, fp, [46].
  repeat split; auto.
  - destruct (negative v); constructor.
  - apply D1.
  - intros Z. apply app_eq_nil in Z as [Z _]. now apply D1.
  - now intros ->.
  - destruct (negative v); [reflexivity|discriminate].
Qed.
Lemma nat_text z : u64 z -> R_u64 z (dec (Z.to_N z)).
Proof.
  intros H. split; [apply dec_digits|]. split; [|assumption]. rewrite dec_value, Z2N.id; [reflexivity|]. now destruct H.
Qed.

(** ** Names *)
Lemma longest_of (L : str -> Prop) (F : str -> str -> Prop) (p : parser str) : (forall s r, L s -> F s r -> p (s ++ r) = Ok r s) ->
  (forall s r, L s -> F s r \/ exists x r', r = x ++ r' /\ x <> [] /\ L (s ++ x)) ->
  forall s r, L s -> F s r -> longest L s (s ++ r).
Proof.
  intros R X s r H HF. split; [assumption|]. intros s' r' E H'.
  destruct (longest_extend L F X s' r' H') as (s2 & r2 & E2 & L2 & F2 & Len).
  pose proof (R _ _ H HF) as E3. rewrite E, E2, (R _ _ L2 F2) in E3. injection E3 as -> ->. assumption.
Qed.
Lemma local_longest l r : local_name l -> brk r -> longest local_name l (l ++ r).
Proof.
  intros H B. apply (longest_of local_name (fun _ => unit_stop) pn_local pn_local_ok local_ext); [assumption|].
  now apply brk_unit.
Qed.
Lemma label_longest l r : label_name l -> brk r -> longest label_name l (l ++ r).
Proof.
  intros H B. apply (longest_of label_name name_follow label_p label_ok label_ext); [assumption|]. now apply brk_name.
Qed.
Lemma lang_longest l r : lang_tag l -> brk r -> longest lang_tag l (l ++ r).
Proof.
  intros H B. apply (longest_of lang_tag lang_follow lang_body); [intros; rewrite <- lang_at; now apply language_tag_ok|apply lang_ext|assumption|].
  split; [destruct (existsb _ _); now apply brk_stops|]. intros c r' ->. discriminate B.
Qed.
Lemma pname_text p : wf_prefix p -> R_pname_ns p (pr_prefix p).
Proof.
  intros H. unfold pr_prefix. exists (may_ (fun x => x) p), [58]. split; [reflexivity|]. split.
  - destruct p as [p|]; [split; [reflexivity|exact H]|reflexivity].
  - exists [], [58]. repeat split. constructor.
Qed.
Lemma W_iri_text i r : wf_iri i -> brk r -> W_iri i (pr_iri i) r.
Proof.
  intros H B. destruct i as [s|[p l|p]]; cbn [wf_iri pr_iri] in *; [| |destruct H].
  - split; [cbn [app]; now rewrite <- app_assoc|assumption].
  - destruct H as [Hp Hl]. exists (pr_prefix p), []. rewrite <- app_assoc. repeat split; auto.
    + now apply pname_text.
    + constructor.
    + now apply local_longest.
Qed.
Lemma base_hard c t : base_char c = true -> hard (c :: t).
Proof.
  intros H. exists c, t. split; [reflexivity|]. intros Hc. cbn in Hc.
  repeat (destruct Hc as [Hc|Hc]; [subst c; discriminate|]). destruct Hc.
Qed.
Lemma prefix_hard p : wf_prefix p -> hard (pr_prefix p).
Proof.
  intros H. destruct p as [p|]; [|now apply hard_cons]. cbn in H. destruct H as (c & t & -> & Hc & _).
  unfold pr_prefix. cbn [may_ app]. now apply base_hard.
Qed.
Lemma iri_hard i : wf_iri i -> hard (pr_iri i).
Proof.
  destruct i as [s|[p l|p]]; cbn [wf_iri pr_iri]; [intros _; now apply hard_cons| |intros []].
  intros [H _]. now apply hard_app, prefix_hard.
Qed.
Lemma named_not_colon i r : wf_name i -> not_first 58 (pr_iri i ++ r).
Proof.
  intros [H N]. destruct i as [s|[[p|] l|p]]; cbn [wf_iri pr_iri named] in *.
  - discriminate.
  - destruct H as [(c & t & -> & Hc & _) _]. cbn. intros ->. discriminate.
  - destruct N.
  - destruct H.
Qed.
(** *** IRIs do not look like a word and a blank *)
Definition letter_word (k : string) : bool := word_like k && forallb (fun c => (97 <=? c) && (c <=? 122)) (s_ k).
Lemma letter_kw_prefix k t : letter_word k = true -> kw k t -> prefix_name t.
Proof.
  intros W H. apply andb_true_iff in W. destruct W as [W K].
  assert (A : all (fun c => base_char c && name_char c && negb (c =? 46)) t).
  { unfold kw in H. revert H K. generalize (s_ k). clear. induction t as [|c t IH]; intros k H K; [constructor|].
    destruct k as [|x k]; [discriminate|]. cbn [List.map] in H. injection H as H1 H2. cbn [forallb] in K.
    apply andb_true_iff in K. destruct K as [K1 K2]. constructor; [|eapply IH; eauto].
    apply andb_true_iff in K1. destruct K1 as [K1 K3]. apply N.leb_le in K1, K3.
    assert (D : 97 <= c <= 122 \/ 65 <= c <= 90).
    { unfold lower, in_ranges, existsb in H1. rewrite orb_false_r in H1.
      destruct ((65 <=? c) && (c <=? 90)) eqn:E; [apply andb_true_iff in E; rewrite !N.leb_le in E; auto|subst; auto]. }
    assert (F : forall m : nat, forall b, (forall k, (k < m)%nat -> (fun c => base_char c && name_char c && negb (c =? 46)) (b + N.of_nat k) = true) ->
      b <= c < b + N.of_nat m -> base_char c && name_char c && negb (c =? 46) = true).
    { intros m b X [? ?]. specialize (X (N.to_nat (c - b))). rewrite N2Nat.id in X.
      replace (b + (c - b)) with c in X by lia. apply X. lia. }
    destruct D as [D|D].
    - apply (F 26%nat 97); [|cbn; lia]. clear. intros k Hk. do 26 (destruct k as [|k]; [reflexivity|]). lia.
    - apply (F 26%nat 65); [|cbn; lia]. clear. intros k Hk. do 26 (destruct k as [|k]; [reflexivity|]). lia. }
  destruct (kw_starts k t W H) as (c & t' & -> & _). inversion A as [|? ? A1 A2]; subst. exists c, t'. split; [reflexivity|].
  rewrite !andb_true_iff in A1. split; [apply A1|]. exists [], t'. split; [reflexivity|]. split; [constructor|].
  destruct t' as [|a m]; [now left|]. right. exists a, m. split; [reflexivity|].
  inversion A2 as [|? ? B1 B2]; subst. rewrite !andb_true_iff in B1. split; [apply B1|]. split.
  - revert B2. unfold all. apply Forall_impl. intros x Hx. rewrite !andb_true_iff in Hx. now destruct Hx as [[_ ->] _].
  - assert (I : In (last (a :: m) 0) (a :: m)). { clear. revert a. induction m as [|b m IH]; intros a; [now left|]. right. apply IH. }
    unfold all in A2. rewrite Forall_forall in A2. apply A2 in I. rewrite !andb_true_iff in I. destruct I as [_ I].
    intros E. rewrite E in I. discriminate.
Qed.
Lemma blank1_brk b r : blank1 b -> brk (b ++ r).
Proof. intros [H N]. apply blank_brk; auto. Qed.
Lemma no_word1_iri k i r : letter_word k = true -> wf_iri i -> no_word1 k (pr_iri i ++ r).
Proof.
  intros W H u b v E Hu Hb. pose proof (letter_kw_prefix k u W Hu) as Hp. apply andb_true_iff in W. destruct W as [W _].
  assert (P1 : pn_prefix (u ++ b ++ v) = Ok (b ++ v) u) by (apply pn_prefix_ok; [assumption|]; now apply brk_name, blank1_brk).
  assert (N : not_first 58 (b ++ v)).
  { pose proof (blank1_brk b v Hb). now apply brk_not. }
  assert (NE : b <> []) by apply Hb.
  destruct i as [s|[[p|] l|p]]; cbn [wf_iri pr_iri] in *.
  - apply (begins_starts k (u ++ b ++ v)) in W; [|now exists u, (b ++ v)]. rewrite <- E in W.
    destruct Hp as (c & t & -> & Hc & _). cbn in E. injection E as <- _. discriminate.
  - destruct H as [H _]. cbn in H. rewrite <- E in P1. unfold pr_prefix in P1. cbn [may_] in P1. rewrite <- !app_assoc in P1.
    rewrite (pn_prefix_ok p ([58] ++ l ++ r)) in P1; [|assumption|apply (colon_follow p [] (l ++ r)); constructor].
    injection P1 as E1 _. rewrite <- E1 in N. now apply N.
  - destruct Hp as (c & t & -> & Hc & _). cbn in E. injection E as <- _. discriminate.
  - destruct H.
Qed.
Lemma nb_starts k cs t r : word_like k = true -> starts cs t -> forallb (fun c => negb (existsb (N.eqb c) (cap2 k))) cs = true ->
  ~ begins k (t ++ r).
Proof.
  intros W (c & t' & -> & Hc) D B. apply (begins_starts k _ W) in B. destruct B as (c' & t2 & E & Hc').
  injection E as <- _. rewrite forallb_forall in D. apply D in Hc. apply existsb_In_N in Hc'. rewrite Hc' in Hc. discriminate.
Qed.
Lemma nw_starts k cs t r : word_like k = true -> starts cs t -> forallb (fun c => negb (existsb (N.eqb c) (cap2 k))) cs = true ->
  no_word1 k (t ++ r).
Proof. intros W S D u b v E Hu _. apply (nb_starts k cs t r W S D). rewrite E. now exists u, (b ++ v). Qed.

(** ** Terms *)
Lemma var_text v : wf_var v -> R_var v (pr_var v).
Proof. intros H. destruct v as [s|s]; (eexists [_], s; split; [reflexivity|]; split; [reflexivity|]; exists [], s; repeat split; try apply H; constructor). Qed.
Lemma W_var_text v r : wf_var v -> brk r -> W_var v (pr_var v) r.
Proof. intros H B. split; [now apply var_text|now apply brk_stops]. Qed.
Lemma var_hard v : hard (pr_var v). Proof. destruct v; now apply hard_cons. Qed.
Lemma plain_body q : q <> 92 -> forall s, plain q s = true <-> body q s.
Proof.
  intros Q s. assert (X : forall n s, (length s < n)%nat -> (plain q s = true <-> body q s)).
  { clear s. induction n as [|n IH]; intros s L; [lia|]. destruct s as [|c t]; [split; constructor|]. cbn [plain length] in *.
    destruct (N.eqb_spec c 92) as [-> |C].
    - destruct t as [|d u]; [split; [discriminate|]; intros H; inversion H; congruence|]. cbn [length] in L. rewrite andb_true_iff, IH by lia.
      split; [intros [A B]; apply body_esc; [now apply existsb_In_N|exact B]|].
      intros H. inversion H; subst; [congruence|]. split; [now apply existsb_In_N|assumption].
    - rewrite andb_true_iff, negb_true_iff, N.eqb_neq, IH by lia. split; [intros [A B]; now apply body_char|].
      intros H. inversion H; subst; [auto|congruence]. }
  apply (X (S (length s))). lia.
Qed.
Lemma string_text s : wf_string s -> R_string s (pr_string s).
Proof.
  intros [H N]. exists (quote s). unfold pr_string, quote. pose proof (plain_body 34 ltac:(discriminate) s) as E. destruct (plain 34 s).
  - split; [now right|]. split; [reflexivity|]. split; [now apply E|exact N].
  - split; [now left|]. split; [reflexivity|]. split; [|exact N]. destruct H as [H|H]; [apply E in H; discriminate|exact H].
Qed.
Lemma quote_low s : In (quote s) (s_ """'").
Proof. unfold quote. destruct (plain 34 s); cbn; auto. Qed.
Lemma W_lit_text l r : wf_lit l -> brk r -> W_rdf_literal l (pr_lit l) r.
Proof.
  intros H B. destruct l as [s d]. destruct H as [Hs Hd]. exists (pr_string s), (may_ pr_desc d). split; [reflexivity|].
  split; [now apply string_text|]. destruct d as [[g|i]|]; cbn [may_ pr_desc desc_at app].
  - split; [reflexivity|]. now apply lang_longest.
  - eexists. split; [reflexivity|]. now apply W_iri_text.
  - split; [reflexivity|]. split; intros; intros ?; subst r; discriminate B.
Qed.
Lemma lit_starts l : starts (s_ """'") (pr_lit l). Proof. destruct l. eexists _, _. split; [reflexivity|]. apply quote_low. Qed.
Lemma f64_dot v : wf_f64 v -> In 46 (pr_f64 v).
Proof. intros H. destruct (size_text v H) as (ip & fp & E & _). unfold pr_f64. rewrite E, !in_app_iff. right. right. left. now left. Qed.
Lemma dec_longest v t r : R_decimal v t -> dec_follow t r -> longest dec_text t (t ++ r).
Proof.
  intros H F. pose proof (sparql_decimal_ok v t r H F) as E. apply sparql_decimal_iff in E as (t' & E & _ & L).
  apply app_inv_tail in E. now subst t'.
Qed.
Lemma W_num_text n r : wf_num n -> brk r -> W_numeric n (pr_num n) r.
Proof.
  intros H B. destruct n as [z|v [z|]]; cbn [wf_num pr_num may_] in *.
  - split; [now apply int_text|]. repeat split; [now apply brk_stops|now apply brk_not..].
  - destruct H as [H1 H2]. split; [|now apply brk_stops]. exists (pr_f64 v), (101 :: pr_int z). split; [reflexivity|]. split; [now apply f64_text|].
    exists [101], (pr_int z). split; [reflexivity|]. split; [now left|now apply int_text].
  - destruct H as [H _]. rewrite app_nil_r. pose proof (f64_text v H) as R. pose proof (f64_dot v H) as D.
    split; [exact R|]. split; [|split; [now apply brk_not|split; [now apply brk_not|]]].
    + apply (dec_longest v); [exact R|]. split; [now apply brk_stops|intros _; now apply brk_not].
    + intros z (sg & k & ds & Hs & E & [_ A] & _). rewrite E in D. apply in_app_iff in D as [D|D].
      * destruct Hs; cbn in D; intuition discriminate.
      * unfold all in A. rewrite Forall_forall in A. apply A in D. discriminate D.
Qed.
Lemma f64_starts v : wf_f64 v -> negative v = false -> starts (s_ "0123456789") (pr_f64 v).
Proof.
  intros H N. destruct (size_text v H) as (ip & fp & E & D & _). unfold pr_f64. rewrite E, N. cbn [app].
  apply digits_low in D as (c & t & -> & D). exists c, (t ++ 46 :: fp). auto.
Qed.
Lemma num_starts_digit n : wf_num n -> Print.unsigned n -> starts (s_ "0123456789") (pr_num n).
Proof.
  destruct n as [z|v x]; cbn [wf_num Print.unsigned pr_num]; intros H U.
  - unfold pr_int. destruct (Z.ltb_spec z 0); [lia|]. apply dec_starts.
  - apply f64_starts in U as (c & t & -> & U); [|apply H]. exists c, (t ++ may_ (fun z => 101 :: pr_int z) x). auto.
Qed.
Lemma num_starts n : wf_num n -> starts (s_ "-0123456789") (pr_num n).
Proof.
  destruct n as [z|v x]; cbn [pr_num]; intros H.
  - unfold pr_int. destruct (z <? 0)%Z.
    + eexists _, _. split; [reflexivity|]. now left.
    + destruct (dec_starts (Z.to_N z)) as (c & t & -> & D). exists c, t. split; [reflexivity|]. now right.
  - destruct (negative v) eqn:N.
    + unfold pr_f64. rewrite N. eexists _, _. split; [reflexivity|]. now left.
    + apply f64_starts in N as (c & t & -> & D); [|apply H]. eexists _, _. split; [reflexivity|]. now right.
Qed.
Lemma W_bnode_text b r : wf_bnode b -> brk r -> W_blank_node b (pr_bnode b) r.
Proof.
  intros H B. destruct b as [|s]; cbn [wf_bnode pr_bnode] in *.
  - split; [|exact I]. exists [91], [93]. repeat split. exists [], [93]. repeat split. constructor.
  - split; [|now apply label_longest]. exists (s_ "_:"), s. repeat split. exists [], s. repeat split; auto. constructor.
Qed.
Lemma bnode_starts b : starts (s_ "[_") (pr_bnode b).
Proof. destruct b; (eexists _, _; split; [reflexivity|]); cbn; auto. Qed.
Lemma W_nil_text r : W_nil (s_ "()") r.
Proof. exists [40], [41]. repeat split. exists [], [41]. repeat split. constructor. Qed.
