(** A bare operand that is a number has no sign: the sign is taken for an operator. *)
From Verif Require Import SpecShape LNum LMono LC8 LMods LSafe.
From Verif Require Import Nom.
Notation length := List.length (only parsing).
Open Scope N_scope.
Open Scope list_scope.

(** ** Numbers without their sign *)
Definition num_start (i : str) : Prop := exists c r, i = c :: r /\ (isd c = true \/ c = 46).
Lemma sparql_int_verdict i : (exists r z, sparql_int i = Ok r z) \/ fails sparql_int i.
Proof.
  unfold fails, sparql_int, recognize, pair. destruct (opt_sign_total i) as (sg & r & o & -> & _ & E). rewrite E.
  destruct (digit1 r) as [r' a|e] eqn:X.
  - destruct (match r' with [] => false | _ :: _ => _ end); [right; eauto|]. destruct (parse_i64 _); eauto.
  - unfold digit1, take1 in X. cbv beta in X. destruct (span char_is_dec_digit r) as [[|] ?]; [injection X as <-|discriminate]. right. eauto.
Qed.
Lemma digits_start ds r : digits1 ds -> num_start (ds ++ r).
Proof. intros [N H]. destruct ds as [|c ds]; [contradiction|]. inversion_clear H. exists c, (ds ++ r). auto. Qed.
Lemma shape_start ip pt fp r : digits0 ip -> digits0 fp -> (pt = [46] \/ pt = [] /\ fp = []) -> ip ++ fp <> [] -> num_start (ip ++ pt ++ fp ++ r).
Proof.
  intros H1 H2 H3 H4. destruct (digits0_cases ip H1) as [->|D]; [|now apply digits_start].
  destruct H3 as [->|[-> ->]]; [|contradiction]. exists 46, (fp ++ r). auto.
Qed.
Lemma minus_sign sg k ds x y : signed sg k ds -> 45 :: x = sg ++ y -> num_start y -> sg = [45] /\ x = y /\ k = (-1)%Z.
Proof.
  intros S E (c & r & -> & H). destruct S; cbn [app] in E.
  - injection E as <- _. destruct H; discriminate.
  - discriminate.
  - injection E as ->. auto.
Qed.
Lemma unsigned_text i r n : numeric_literal (45 :: i) = Ok r n -> num_start i /\ exists n', numeric_literal i = Ok r n'.
Proof.
  intros E. destruct n as [z|q e].
  - unfold numeric_literal in E. apply alt_inv in E. destruct E as (p & [<-|[<-|[]]] & E); apply map_inv in E; destruct E as (x & E & D); [injection D as ->|now destruct x].
    apply sparql_int_iff in E. destruct E as (t & E & (sg & k & ds & Hs & -> & Hd & -> & B) & F). rewrite <- app_assoc in E.
    destruct (minus_sign _ _ _ _ _ Hs E (digits_start ds r Hd)) as (-> & -> & ->). split; [now apply digits_start|].
    destruct (Z_lt_dec (value ds) (2 ^ 63)) as [L|L].
    + exists (NInt (value ds)). apply numeric_int; [|exact F]. exists [], 1%Z, ds. split; [constructor|]. split; [reflexivity|]. split; [exact Hd|].
      split; [lia|]. unfold i64 in *. lia.
    + assert (T : dec_text ds).
      { apply dec_text_iff. exists [], ds, [], []. split; [now rewrite app_nil_r|]. repeat split; [exists 1%Z; constructor|apply Hd|constructor|now right|].
        rewrite app_nil_r. apply Hd. }
      destruct T as [q Hq]. exists (NDouble q None). destruct F as (F1 & F2 & F3 & F4). apply numeric_dec; [exact Hq|split; auto| |now apply exponent_fails_first].
      apply (sparql_int_fails_range [] 1%Z ds r); [constructor|exact Hd|exact F1|]. unfold i64. lia.
  - pose proof E as E0. unfold numeric_literal in E. apply alt_inv in E. destruct E as (p & [<-|[<-|[]]] & E); apply map_inv in E; destruct E as (x & E & D); [discriminate|].
    destruct x as [q' e']. injection D as -> ->. unfold sparql_double in E. apply pair_inv in E. destruct E as (i1 & E1 & E2).
    apply sparql_decimal_iff in E1. destruct E1 as (t & E1 & Hq & L).
    assert (F : dec_follow t i1) by (rewrite E1 in L; exact (longest_follow dec_text dec_follow dec_ext t i1 (proj1 L) (proj2 L))).
    destruct Hq as (sg & k & ip & fp & pt & Hs & -> & H1 & H2 & H3 & H4 & _). rewrite <- !app_assoc in E1.
    pose proof (shape_start ip pt fp i1 H1 H2 H3 H4) as NS. destruct (minus_sign _ _ _ _ _ Hs E1 NS) as (-> & -> & ->). split; [exact NS|].
    assert (T : dec_text (ip ++ pt ++ fp)).
    { apply dec_text_iff. exists [], ip, pt, fp. split; [reflexivity|]. repeat split; auto. exists 1%Z; constructor. }
    destruct T as [q' Hq']. exists (NDouble q' e). unfold numeric_literal. apply alt_next.
    + apply map_fails. destruct (sparql_int_verdict (ip ++ pt ++ fp ++ i1)) as [(r' & z & X)|X]; [exfalso|exact X].
      apply sparql_int_iff in X. destruct X as (t & X & (sg & k & ds & Hs' & -> & Hd & -> & B) & F').
      assert (Y : numeric_literal (45 :: ip ++ pt ++ fp ++ i1) = Ok r' (NInt (-1 * value ds))).
      { rewrite X. destruct NS as (c & y & NS & Hc). rewrite X in NS.
        assert (sg = [] /\ k = 1%Z) as [-> ->]. { destruct Hs'; [auto|cbn in NS; injection NS as <- _; destruct Hc; discriminate..]. }
        apply (numeric_int _ (45 :: ds)); [|exact F']. exists [45], (-1)%Z, ds. split; [constructor|]. split; [reflexivity|]. split; [exact Hd|]. split; [reflexivity|].
        pose proof (value_nonneg ds). unfold i64 in *. lia. }
      rewrite Y in E0. discriminate.
    + apply alt_first. apply (map_ok _ _ _ _ (q', e)); [|reflexivity]. eapply pair_ok; [|exact E2]. rewrite !app_assoc, <- (app_assoc ip).
      apply sparql_decimal_ok; [exact Hq'|]. destruct F as [F1 F2]. split; [exact F1|]. exact F2.
Qed.
Lemma numeric_sign i r n : numeric_literal i = Ok r n -> no_sign n \/ exists i', i = 45 :: i'.
Proof.
  intros E. destruct (sd_numeric_literal _ _ _ E) as (t & -> & H). destruct n as [z|q e].
  - destruct H as (sg & k & ds & Hs & -> & Hd & -> & B). destruct Hs as [ds|ds|ds]; pose proof (value_nonneg ds); [left; change (0 <= 1 * value ds)%Z; lia..|right; eexists; reflexivity].
  - destruct H as (u & v & -> & (sg & k & ip & fp & pt & Hs & -> & _ & _ & _ & _ & Hn & _) & _). destruct Hs; [left|left|right; eexists; reflexivity].
    + cbn. destruct (negative q); [|reflexivity]. discriminate (proj1 Hn eq_refl).
    + cbn. destruct (negative q); [|reflexivity]. discriminate (proj1 Hn eq_refl).
Qed.

(** ** Operands *)
Section Operands.
  Context {E G : Type} (e : parser E) (g : parser G).
  Lemma built_in_first i : stops base_char i -> fails (built_in_call_of e g) i.
  Proof.
    intros S.
    assert (K : forall k, LC4.named k = true -> word_like k = true -> fails (tag_no_case (s_ k)) i) by (intros k H1 H2; now apply kwf_fails_base).
    unfold built_in_call_of, aggregate_of, count_of, group_concat_of, built_in_call_1_of, built_in_call_2_of, regex_expression_of,
      call0, call1, call2, preceded_bracketted, preceded_tag, preceded_tag1.
    repeat (first [apply alt_fails_nil | apply alt_fails_cons]); repeat (first [apply alt_fails_nil | apply alt_fails_cons | apply map_fails | apply preceded_fails1 | apply terminated_fails1 | apply pair_fails1]);
    apply K; reflexivity.
  Qed.
  Lemma num_start_stops f i : num_start i -> (forall c, isd c = true \/ c = 46 -> f c = false) -> stops f i.
  Proof. intros (c & r & -> & H) K. exact (K c H). Qed.
  Lemma num_char c : isd c = true \/ c = 46 -> In c [48; 49; 50; 51; 52; 53; 54; 55; 56; 57; 46].
  Proof. intros [H| ->]; [|vm_compute; tauto]. unfold in_ranges, digits in H. cbn [existsb fst snd] in H. rewrite orb_false_r in H.
    apply andb_true_iff in H. destruct H as [H1 H2]. apply N.leb_le in H1, H2. cbn. lia.
  Qed.
  Lemma num_start_by f i : num_start i -> existsb f [48; 49; 50; 51; 52; 53; 54; 55; 56; 57; 46] = false -> stops f i.
  Proof.
    intros H K. apply (num_start_stops f i H). intros c Hc. apply num_char in Hc. destruct (f c) eqn:X; [|reflexivity].
    assert (existsb f [48; 49; 50; 51; 52; 53; 54; 55; 56; 57; 46] = true) by (apply existsb_exists; exists c; auto). congruence.
  Qed.
  Lemma num_start_not x i : num_start i -> existsb (N.eqb x) [48; 49; 50; 51; 52; 53; 54; 55; 56; 57; 46] = false -> not_first x i.
  Proof.
    intros H K. pose proof (num_start_by (N.eqb x) i H K) as S. destruct i as [|c i]; [exact I|]. cbn in *. intros ->. now rewrite N.eqb_refl in S.
  Qed.
  Lemma num_start_solid i : num_start i -> sp i = Ok i [].
  Proof.
    intros (c & r & -> & H). apply sp_iff. split; [reflexivity|]. split; [constructor|]. apply solid_first. apply num_char in H. cbn in *.
    intuition (subst; discriminate).
  Qed.
  Lemma number_primary i r n : num_start i -> numeric_literal i = Ok r n -> primary_expression_of e g i = Ok r (PeNumericLiteral n).
  Proof.
    intros S H. unfold primary_expression_of.
    apply alt_next; [apply map_fails, delimited_fails1, chr_fails; now apply num_start_not|].
    apply alt_next; [apply map_fails, built_in_first; now apply num_start_by|].
    apply alt_next; [apply map_fails, map_fails, pair_fails1, iri_fails_first; now apply num_start_by|].
    apply alt_next; [apply map_fails, lit_first; now apply num_start_by|].
    apply alt_first. now apply (map_ok _ _ _ _ n).
  Qed.
  Lemma op_fails {A} x (p : parser A) c i : In x [33; 43; 45] -> In c [48; 49; 50; 51; 52; 53; 54; 55; 56; 57; 46; 45] -> x <> c ->
    fails (preceded_tag [x] p) (c :: i).
  Proof.
    intros X C N. apply preceded_fails1, terminated_fails1. apply tnc_fails_first.
    - cbn in X. destruct X as [<-|[<-|[<-|[]]]]; reflexivity.
    - assert (L : to_lower c = c) by (cbn in C; repeat (destruct C as [<-|C]; [reflexivity|]); destruct C). cbn [not_first_nc]. rewrite L. auto.
  Qed.
  Lemma op_fails_num {A} x (p : parser A) i : In x [33; 43; 45] -> num_start i -> fails (preceded_tag [x] p) i.
  Proof.
    intros X (c & r & -> & C). apply num_char in C. apply op_fails; [exact X| |].
    - cbn in C |- *. tauto.
    - intros ->. cbn in X, C. intuition (subst; discriminate).
  Qed.
  Lemma number_unary i r n : num_start i -> numeric_literal i = Ok r n -> unary_expression_of e g i = Ok r (UnDefault (PeNumericLiteral n)).
  Proof.
    intros S H. unfold unary_expression_of.
    apply alt_next; [apply map_fails, (op_fails_num 33); [cbn; auto|exact S]|].
    apply alt_next; [apply map_fails, (op_fails_num 43); [cbn; auto|exact S]|].
    apply alt_next; [apply map_fails, (op_fails_num 45); [cbn; auto|exact S]|].
    apply alt_first. eapply map_ok; [|reflexivity]. now apply number_primary.
  Qed.
  Lemma minus_ok {A} (p : parser A) i r a : num_start i -> p i = Ok r a -> preceded_tag [45] p (45 :: i) = Ok r a.
  Proof.
    intros S H. unfold preceded_tag. eapply preceded_ok; [|exact H]. eapply terminated_ok; [|now apply num_start_solid].
    exact (tnc_ok [45] [45] i eq_refl eq_refl).
  Qed.
  Lemma unary_unsigned i r n : unary_expression_of e g i = Ok r (UnDefault (PeNumericLiteral n)) -> no_sign n.
  Proof.
    intros U. assert (N : numeric_literal i = Ok r n).
    { unfold unary_expression_of in U. apply alt_inv in U. cbn [In] in U. destruct U as (p & [<-|[<-|[<-|[<-|[]]]]] & U); apply map_inv in U; destruct U as (x & U & D); try discriminate.
      injection D as ->. unfold primary_expression_of in U. apply alt_inv in U. cbn [In] in U.
      destruct U as (p & [<-|[<-|[<-|[<-|[<-|[<-|[<-|[]]]]]]]] & U); apply map_inv in U; destruct U as (y & U & D); try discriminate. now injection D as ->. }
    destruct (numeric_sign _ _ _ N) as [H|[i' ->]]; [exact H|exfalso]. destruct (unsigned_text _ _ _ N) as (S & n' & N').
    assert (X : unary_expression_of e g (45 :: i') = Ok r (UnSub (PeNumericLiteral n'))); [|rewrite X in U; discriminate].
    unfold unary_expression_of. apply alt_next; [apply map_fails, (op_fails 33); [cbn; auto|cbn; tauto|discriminate]|].
    apply alt_next; [apply map_fails, (op_fails 43); [cbn; auto|cbn; tauto|discriminate]|]. apply alt_first.
    eapply map_ok; [|reflexivity]. apply minus_ok; [exact S|]. now apply number_primary.
  Qed.
  Lemma add_unsigned i r n l : add_expression_of e g i = Ok r (AddNumeric n l) -> no_sign n.
  Proof.
    intros U. assert (N : exists i1, numeric_literal i = Ok i1 n /\ preceded sp (separated_list sp (mult_expression_of e g)) i1 = Ok r l).
    { unfold add_expression_of in U. apply alt_inv in U. cbn [In] in U. destruct U as (p & [<-|[<-|[<-|[]]]] & U); apply map_inv in U; destruct U as (x & U & D); try discriminate.
      destruct x as [n1 l1]. injection D as -> ->. apply pair_inv in U. exact U. }
    destruct N as (i1 & N & M). destruct (numeric_sign _ _ _ N) as [H|[i' ->]]; [exact H|exfalso]. destruct (unsigned_text _ _ _ N) as (S & n' & N').
    assert (X : add_expression_of e g (45 :: i') = Ok r (AddSub (MkMultiplicative (UnDefault (PeNumericLiteral n')) l))); [|rewrite X in U; discriminate].
    unfold add_expression_of. apply alt_next; [apply map_fails, (op_fails 43); [cbn; auto|cbn; tauto|discriminate]|]. apply alt_first.
    eapply map_ok; [|reflexivity]. apply minus_ok; [exact S|]. unfold multiplicative_expression_of.
    apply (map_ok _ _ _ _ (UnDefault (PeNumericLiteral n'), l)); [|reflexivity]. eapply pair_ok; [exact (number_unary _ _ _ S N')|exact M].
  Qed.
End Operands.
