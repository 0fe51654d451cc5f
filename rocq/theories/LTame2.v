(** What the parsers return can be written, unless Print.v does not write it: expressions and patterns. *)
From Verif Require Import LSign LMono LC8 LMods LSafe LMore1 SpecDepth LShape.
From Verif Require Export LTame.
From Verif Require Import Nom.
Notation length := List.length (only parsing).
Open Scope N_scope.
Open Scope list_scope.

(** [at_solid p Q]: what [p] returns where no blank follows satisfies [Q]. *)
Definition at_solid {A} (p : parser A) (Q : A -> Prop) : Prop := forall i r a, p i = Ok r a -> solid r -> Q a.
Lemma ens_bracket {A} (p : parser A) (P Q : A -> Prop) : ens p P -> at_solid p Q -> ens (bracketted p) (fun a => P a /\ Q a).
Proof.
  intros H S i r a E. apply delimited_inv in E. destruct E as (i1 & i2 & x & y & _ & E & C). apply chr_inv in C. destruct C as [-> _].
  split; [exact (H _ _ _ E)|]. apply (S _ _ _ E). exact (close_solid r).
Qed.
Lemma at_map {A B} (p : parser A) (f : A -> B) (Q : B -> Prop) : at_solid p (fun a => Q (f a)) -> at_solid (map p f) Q.
Proof. intros H i r b E S. apply map_inv in E. destruct E as (a & E & <-). exact (H _ _ _ E S). Qed.
Lemma at_pair {A B} (p : parser A) (q : parser B) Q : at_solid q Q -> at_solid (pair p q) (fun ab => Q (snd ab)).
Proof. intros H i r [a b] E S. apply pair_inv in E. destruct E as (i1 & _ & E). exact (H _ _ _ E S). Qed.
Lemma at_preceded {A B} (p : parser A) (q : parser B) Q : at_solid q Q -> at_solid (preceded p q) Q.
Proof. intros H i r b E S. apply preceded_inv in E. destruct E as (i1 & x & _ & E). exact (H _ _ _ E S). Qed.
Lemma at_pair_opt {A B} (p : parser A) (q : parser B) (P : A -> Prop) (Q : B -> Prop) : at_solid p P -> at_solid q Q ->
  at_solid (pair p (opt q)) (fun ab => match snd ab with Some b => Q b | None => P (fst ab) end).
Proof.
  intros HP HQ i r [a o] E S. apply pair_inv in E. destruct E as (i1 & E1 & E2). apply opt_inv in E2. cbn [fst snd].
  destruct o as [b|]; [exact (HQ _ _ _ E2 S)|]. destruct E2 as [-> _]. exact (HP _ _ _ E1 S).
Qed.

Lemma te_limit_offset : ens limit_offset_clause wf_limit_offset.
Proof.
  eapply ens_sound; [exact sd_limit_offset_clause|].
  assert (L : forall n t, R_limit n t -> u64 n) by now intros n t (x & y & -> & _ & a & b & -> & _ & _ & _ & H).
  assert (O : forall n t, R_offset n t -> u64 n) by now intros n t (x & y & -> & _ & a & b & -> & _ & _ & _ & H).
  intros [n o|n o] t (x & y & -> & H & a & b & -> & _ & K); (split; [eauto|]); destruct o as [m|]; cbn [opt_] in K; eauto.
Qed.
#[export] Hint Resolve te_limit_offset : tame.

Section Core.
  Context {E G : Type} (e : parser E) (g : parser G) (RE : E -> str -> Prop) (RG : G -> str -> Prop).
  Context (TE WE : E -> Prop) (TG WG : G -> Prop) (op ends_in : E -> bool).
  Context (Se : sound e RE) (Sg : sound g RG) (He : ens e (TE ~~> WE)) (Hg : ens g (TG ~~> WG)).
  Let fit (x : E) : Prop := ends_in x = false -> op x = false.
  Context (Fe : at_solid e fit) (Oe : forall i r x, e i = Ok r x -> op x = false -> solid r).

  Lemma te_arg_list : ens (arg_list_of e) wf_arg_list.
  Proof. intros i r a H. now rewrite (arg_list_nil _ _ _ _ H). Qed.
  Lemma te_expression_list : ens (expression_list_of e) wf_expr_list.
  Proof. intros i r a H. now rewrite (expression_list_nil _ _ _ _ H). Qed.
  Lemma te_bracketted_expression : ens (bracketted_expression_of e) (TE ~~> WE).
  Proof using He. unfold bracketted_expression_of. tv. Qed.
  Hint Resolve te_arg_list te_expression_list te_bracketted_expression : tame.

  (** arguments *)
  Lemma args_wf l : each (TE ~~> WE) l -> (match rev l with x :: _ => fit x | [] => True end) -> tame_args TE ends_in l -> wf_args WE op l.
  Proof. intros H F [T1 T2]. split; [now apply (each_forall TE)|]. destruct (rev l); auto. Qed.
  Lemma te_args1 : ens (bracketted e) ((fun x => tame_args TE ends_in [x]) ~~> (fun x => wf_args WE op [x])).
  Proof using He Fe.
    eapply ens_weaken; [exact (ens_bracket e _ _ He Fe)|]. intros x [H F] T. now apply args_wf.
  Qed.
  Lemma te_args2 : ens (bracketted (expr2_of e)) ((fun '(x, y) => tame_args TE ends_in [x; y]) ~~> (fun '(x, y) => wf_args WE op [x; y])).
  Proof using He Fe.
    eapply ens_weaken; [eapply (ens_bracket (expr2_of e) _ (fun xy => fit (snd xy)))|].
    - unfold expr2_of. tv.
    - unfold expr2_of, separated_pair. apply at_pair. now apply at_preceded.
    - intros [x y] [[H1 H2] F]. apply args_wf; cbn; auto.
  Qed.
  Lemma te_args3 : ens (bracketted (tuple3 e (preceded comma e) (preceded comma e)))
    ((fun '(x, (y, z)) => tame_args TE ends_in [x; y; z]) ~~> (fun '(x, (y, z)) => wf_args WE op [x; y; z])).
  Proof using He Fe.
    eapply ens_weaken; [eapply (ens_bracket _ _ (fun xyz => fit (snd (snd xyz))))|].
    - tv.
    - unfold tuple3. apply (at_pair _ _ (fun yz => fit (snd yz))), at_pair. now apply at_preceded.
    - intros [x [y z]] [[H1 [H2 H3]] F]. apply args_wf; cbn; auto.
  Qed.
  Lemma te_expr3 : ens (bracketted_expr3_of e) ((fun '(a, (b, c)) => tame_expr3 TE ends_in (MkRegex a b c)) ~~> (fun '(a, (b, c)) => wf_expr3 WE op (MkRegex a b c))).
  Proof using He Fe.
    unfold bracketted_expr3_of. eapply ens_weaken; [eapply (ens_bracket _ _ (fun xyz => match snd (snd xyz) with Some z => fit z | None => fit (fst (snd xyz)) end))|].
    - tv.
    - unfold tuple3. apply (at_pair _ _ (fun yz => match snd yz with Some z => fit z | None => fit (fst yz) end)).
      apply (at_pair_opt _ _ fit fit); now apply at_preceded.
    - intros [x [y [z|]]] [[H1 [H2 H3]] F]; apply args_wf; cbn in *; auto.
  Qed.
  Lemma te_str_replace : ens (str_replace_expression_of e) (tame_str_replace TE ends_in ~~> wf_str_replace WE op).
  Proof using He Fe.
    unfold str_replace_expression_of. eapply ens_map; [eapply (ens_bracket _ _ (fun xyz => match snd (snd (snd xyz)) with Some z => fit z | None => fit (fst (snd (snd xyz))) end))|].
    - tv.
    - unfold tuple4. apply (at_pair _ _ (fun yz => match snd (snd yz) with Some z => fit z | None => fit (fst (snd yz)) end)).
      apply (at_pair _ _ (fun yz => match snd yz with Some z => fit z | None => fit (fst yz) end)).
      apply (at_pair_opt _ _ fit fit); now apply at_preceded.
    - intros [x [y [z [u|]]]] [[H1 [H2 [H3 H4]]] F]; apply args_wf; cbn in *; auto.
  Qed.
  Hint Resolve te_args1 te_args2 te_args3 te_expr3 te_str_replace : tame.
  Lemma te_distinct : ens (bracketted (distinct_expression_of e)) (tame_distinct_expression TE ends_in ~~> wf_distinct_expression WE op).
  Proof using He Fe.
    eapply ens_weaken; [eapply (ens_bracket _ (fun '(MkDistinctExpression _ x) => TE x -> WE x) (fun '(MkDistinctExpression _ x) => fit x))|].
    - unfold distinct_expression_of. eapply ens_map; [tv|]. intros [d x] [_ H]. exact H.
    - unfold distinct_expression_of. intros i r [d x] H S. apply map_inv in H. destruct H as ([d' x'] & H & X). injection X as -> ->.
      exact (at_pair _ _ fit Fe _ _ _ H S).
    - intros [d x] [H F]. apply args_wf; cbn; auto.
  Qed.
  Lemma te_count : ens (count_of e) ((fun c => tame_aggregate TE ends_in (AgCount c)) ~~> (fun c => wf_aggregate WE op (AgCount c))).
  Proof using He Fe.
    unfold count_of, preceded_tag. eapply ens_map; [eapply ens_preceded, (ens_bracket _ (fun dt => match snd dt with CtAll => True | CtExpr x => TE x -> WE x end)
      (fun dt => match snd dt with CtAll => True | CtExpr x => fit x end))|].
    - assert (K : ens (count_target_of e) (fun t => match t with CtAll => True | CtExpr x => TE x -> WE x end)).
      { unfold count_target_of. alts; (eapply ens_map; [tv|]); auto. }
      eapply ens_weaken; [exact (ens_pair opt_distinct _ _ _ (ens_true _) K)|]. now intros [d t] [_ H].
    - apply (at_pair opt_distinct _ (fun t => match t with CtAll => True | CtExpr x => fit x end)). intros i r t H S. unfold count_target_of in H.
      apply alt_inv in H. destruct H as (p & I & H). destruct I as [<-|[<-|[]]]; apply map_inv in H; destruct H as (x & H & <-); [exact I|exact (Fe _ _ _ H S)].
    - intros [d [|x]] [H F]; [auto|]. apply args_wf; cbn in *; auto.
  Qed.
  Lemma te_group_concat : ens (group_concat_of e) ((fun c => tame_aggregate TE ends_in (AgGroupConcat c)) ~~> (fun c => wf_aggregate WE op (AgGroupConcat c))).
  Proof using He Fe.
    unfold group_concat_of, preceded_tag. eapply ens_map; [eapply ens_preceded,
      (ens_bracket _ (fun xs => match fst xs with MkDistinctExpression _ x => TE x -> WE x end /\ if_ wf_string (snd xs))
      (fun xs => match snd xs with Some _ => True | None => match fst xs with MkDistinctExpression _ x => fit x end end))|].
    - eapply ens_weaken; [eapply ens_pair; [|tv]|].
      + instantiate (1 := fun d => match d with MkDistinctExpression _ x => TE x -> WE x end).
        unfold distinct_expression_of. eapply ens_map; [tv|]. intros [d x] [_ H]. exact H.
      + auto.
    - eapply (at_pair_opt _ _ (fun d => match d with MkDistinctExpression _ x => fit x end) (fun _ => True)); [|now intros i r a _ _].
      intros i r [d x] H S. apply map_inv in H. destruct H as ([d' x'] & H & X). injection X as -> ->.
      exact (at_pair _ _ fit Fe _ _ _ H S).
    - intros [[d x] [s|]] [[H1 H2] F] T; cbn in *; [auto|]. apply args_wf; cbn; auto.
  Qed.
  Hint Resolve te_distinct te_count te_group_concat : tame.
  Lemma te_aggregate : ens (aggregate_of e) (tame_aggregate TE ends_in ~~> wf_aggregate WE op).
  Proof using He Fe.
    unfold aggregate_of, preceded_bracketted, preceded_tag.
    alts; (eapply ens_map; [first [exact te_count|exact te_group_concat|eapply ens_preceded, te_distinct]|]); intros a H; exact H.
  Qed.
  Hint Resolve te_aggregate : tame.
  Notation T := (tame_built_in TE TG ends_in).
  Notation W := (wf_built_in WE WG op).
  Lemma te_call1 n (k : E -> BuiltInCall E G) : (forall x, T (k x) = tame_args TE ends_in [x]) -> (forall x, W (k x) = wf_args WE op [x]) ->
    ens (call1 e n k) (T ~~> W).
  Proof using He Fe.
    intros KT KW. unfold call1, preceded_bracketted, preceded_tag. eapply ens_map; [eapply ens_preceded, te_args1|].
    intros x H. now rewrite KT, KW.
  Qed.
  Lemma te_call2 n (k : E -> E -> BuiltInCall E G) : (forall x y, T (k x y) = tame_args TE ends_in [x; y]) -> (forall x y, W (k x y) = wf_args WE op [x; y]) ->
    ens (call2 e n k) (T ~~> W).
  Proof using He Fe.
    intros KT KW. unfold call2, preceded_bracketted, preceded_tag. eapply ens_map; [eapply ens_preceded, te_args2|].
    intros [x y] H. now rewrite KT, KW.
  Qed.
  Lemma te_call0 n (k : BuiltInCall E G) : W k -> ens (call0 n k) (T ~~> W).
  Proof. intros KW. unfold call0. eapply ens_map; [apply ens_true|]. auto. Qed.
  Ltac calls := alts; try first [apply te_call1; reflexivity | apply te_call2; reflexivity | apply te_call0; exact I].
  Lemma te_built_in_1 : ens (built_in_call_1_of e) (T ~~> W).
  Proof using He Fe.
    unfold built_in_call_1_of. calls.
    - eapply ens_map; [exact te_aggregate|]. intros a H. exact H.
    - eapply ens_map; [eapply ens_preceded; tv|]. intros v H _. exact H.
    - eapply ens_map; [eapply ens_preceded|].
      + eapply (ens_bracket _ (fun o => match o with Some x => TE x -> WE x | None => True end) (fun o => match o with Some x => fit x | None => True end)).
        * alts; (eapply ens_map; [tv|]); auto.
        * intros i r o H S. apply alt_inv in H. destruct H as (p & J & H). destruct J as [<-|[<-|[]]]; apply map_inv in H; destruct H as (x & H & <-);
            [exact (Fe _ _ _ H S)|exact I].
      + intros [x|] [H F]; [|auto]. apply (args_wf [x]); cbn; auto.
    - eapply ens_map; [eapply ens_preceded|].
      + unfold separated_pair, substring_expression_of, preceded_tag1. eapply ens_pair; [exact te_expression_list|].
        eapply ens_preceded, ens_map; [eapply ens_preceded, te_expr3|]. intros [a [b c]] H.
        instantiate (1 := tame_expr3 TE ends_in ~~> wf_expr3 WE op). exact H.
      + intros [l s] [H1 H2] T. split; auto.
    - eapply ens_map; [eapply ens_preceded; unfold separated_pair; eapply ens_pair; [exact te_bracketted_expression|eapply ens_preceded; exact te_str_replace]|].
      intros [l s] [H1 H2] [T1 T2]. split; auto.
  Qed.
  Lemma te_built_in_2 : ens (built_in_call_2_of e) (T ~~> W).
  Proof using He Fe. unfold built_in_call_2_of. calls. Qed.
  Lemma te_built_in : ens (built_in_call_of e g) (T ~~> W).
  Proof using He Hg Fe.
    unfold built_in_call_of. calls.
    - exact te_built_in_1.
    - exact te_built_in_2.
    - eapply ens_map; [eapply ens_preceded, te_expression_list|]. auto.
    - unfold preceded_bracketted, preceded_tag. eapply ens_map; [eapply ens_preceded, te_args3|]. intros [x [y z]] H. exact H.
    - unfold regex_expression_of. eapply ens_map; [eapply ens_map; [eapply ens_preceded, te_expr3|]|].
      + intros [a [b c]] H. instantiate (1 := tame_expr3 TE ends_in ~~> wf_expr3 WE op). exact H.
      + auto.
    - eapply ens_map; [eapply ens_preceded, Hg|]. auto.
    - eapply ens_map; [tv|]. intros [a [b c]] [_ [_ H]]. exact H.
  Qed.
  Hint Resolve te_built_in : tame.
  Lemma te_as_var_opt : ens (expression_as_var_opt_of e)
    ((fun '(MkExpressionAsVarOpt x _) => TE x) ~~> (fun '(MkExpressionAsVarOpt x v) => WE x /\ Print.some_ wf_var v /\ (v <> None -> op x = true))).
  Proof using He Oe.
    intros i r [x v] H T. apply delimited_inv in H. destruct H as (i1 & i2 & y & z & _ & H & _). apply delimited_inv in H. destruct H as (i3 & i4 & y' & z' & _ & H & _).
    apply map_inv in H. destruct H as ([x' o] & H & X). injection X as -> ->. apply pair_inv in H. destruct H as (i5 & H1 & H2). apply opt_inv in H2.
    split; [exact (He _ _ _ H1 T)|]. destruct v as [v|]; [|split; [exact I|congruence]].
    apply preceded_inv in H2. destruct H2 as (i6 & b & H2 & H3). apply te_var in H3. split; [exact H3|]. intros _.
    apply delimited_inv in H2. destruct H2 as (i7 & i8 & u & u' & H2 & _).
    destruct (op x) eqn:O; [reflexivity|]. exfalso. pose proof (Oe _ _ _ H1 O) as S. revert H2. apply fails_not_ok. now apply sp1_fails.
  Qed.
  Lemma te_as_var : ens (expression_as_var_of e) (tame_as TE ~~> wf_as WE).
  Proof using He.
    unfold expression_as_var_of, delimited, sp_enc, delimited. eapply ens_preceded, ens_terminated, ens_preceded, ens_terminated, ens_map; [tv|shut].
  Qed.
  Hint Resolve te_as_var_opt te_as_var : tame.
  Lemma te_bind : ens (bind_of e) (tame_as TE ~~> wf_as WE). Proof using He. unfold bind_of, preceded_tag1. eapply ens_preceded, te_as_var. Qed.
  Lemma te_function_call : ens (function_call_of e) ((fun '(MkFunctionCall i _) => tame_name i) ~~> (fun '(MkFunctionCall i a) => wf_function i a)).
  Proof.
    unfold function_call_of. eapply ens_map; [tv|]. intros [i a] [H1 H2] [T1 T2]. cbn [fst snd] in *. split; [|split]; auto.
  Qed.
  Lemma te_iri_or_fun : ens (iri_or_fun_of e) ((fun f => tame_primary (G := G) TE TG ends_in (PeIriOrFunction f)) ~~> (fun f => wf_primary WE WG op (PeIriOrFunction f))).
  Proof.
    unfold iri_or_fun_of. eapply ens_map; [tv|]. intros [i [a|]] [H1 H2] [T1 T2]; cbn [fst snd] in *; [split; [|split]|split]; auto.
  Qed.
  Hint Resolve te_bind te_function_call te_iri_or_fun : tame.
  Lemma te_primary : ens (primary_expression_of e g) (tame_primary TE TG ends_in ~~> wf_primary WE WG op).
  Proof using He Hg Fe.
    unfold primary_expression_of. alts; (eapply ens_map; [tv|]); auto.
  Qed.
  Hint Resolve te_primary : tame.
  Lemma te_unary : ens (unary_expression_of e g) (tame_unary TE TG ends_in ~~> wf_unary WE WG op).
  Proof using He Hg Fe.
    assert (K : ens (unary_expression_of e g) (tame_unary TE TG ends_in ~~> (fun u => match u with UnNot p | UnAdd p | UnSub p | UnDefault p => wf_primary WE WG op p end))).
    { unfold unary_expression_of. alts; (eapply ens_map; [tv|]); auto. }
    intros i r u H T. pose proof (K _ _ _ H T) as W. destruct u as [p|p|p|p]; try exact W. split; [exact W|].
    destruct p; try exact I. exact (unary_unsigned e g _ _ _ H).
  Qed.
  Hint Resolve te_unary : tame.
  Lemma te_mult : ens (mult_expression_of e g) (tame_mult TE TG ends_in ~~> wf_mult WE WG op).
  Proof using He Hg Fe. unfold mult_expression_of. alts; (eapply ens_map; [tv|]); auto. Qed.
  Hint Resolve te_mult : tame.
  Lemma te_multiplicative : ens (multiplicative_expression_of e g) (tame_multiplicative TE TG ends_in ~~> wf_multiplicative WE WG op).
  Proof using He Hg Fe.
    unfold multiplicative_expression_of. eapply ens_map; [tv|]. intros [u l] [H1 H2] [T1 T2]. cbn [fst snd] in *. split; [auto|]. now apply (each_forall _ _ _ H2).
  Qed.
  Hint Resolve te_multiplicative : tame.
  Definition wf_term_ (a : AddExpression E G) : Prop :=
    match a with
    | AddAdd (MkMultiplicative u l) | AddSub (MkMultiplicative u l) => wf_unary WE WG op u /\ Forall (wf_mult WE WG op) l
    | AddNumeric n l => wf_num n /\ unsigned n /\ Forall (wf_mult WE WG op) l
    end.
  Lemma te_add : ens (add_expression_of e g) (tame_add TE TG ends_in ~~> wf_term_).
  Proof using He Hg Fe.
    assert (K : ens (add_expression_of e g) (tame_add TE TG ends_in ~~> (fun a => match a with
      | AddAdd (MkMultiplicative u l) | AddSub (MkMultiplicative u l) => wf_unary WE WG op u /\ Forall (wf_mult WE WG op) l
      | AddNumeric n l => wf_num n /\ Forall (wf_mult WE WG op) l end))).
    { unfold add_expression_of. alts.
      - eapply ens_map; [tv|]. intros [u l] H. exact H.
      - eapply ens_map; [tv|]. intros [u l] H. exact H.
      - eapply ens_map; [tv|]. intros [n l] [H1 H2] T. cbn [fst snd] in *. split; [auto|]. now apply (each_forall _ _ _ H2). }
    intros i r a H T. pose proof (K _ _ _ H T) as W. destruct a as [m|m|n l]; [exact W|exact W|]. destruct W as [W1 W2].
    split; [exact W1|]. split; [exact (add_unsigned e g _ _ _ _ H)|exact W2].
  Qed.
  Hint Resolve te_add : tame.
  Lemma term_wf_ a : wf_term_ a -> factors a <> [] -> wf_add WE WG op a.
  Proof. destruct a as [[u l]|[u l]|n l]; cbn; intros H N; break; auto. Qed.
  Lemma te_additive : ens (additive_expression_of e g) (tame_additive TE TG ends_in ~~> wf_additive WE WG op).
  Proof using Se Sg He Hg Fe.
    intros i r [m l] H T. pose proof (fun a => terms_have_factors e g RE RG Se Sg i r m l a H) as F. destruct T as [T1 T2].
    assert (K : ens (additive_expression_of e g) (fun '(MkAdditive m l) => (tame_multiplicative TE TG ends_in m -> wf_multiplicative WE WG op m) /\ each (tame_add TE TG ends_in ~~> wf_term_) l)).
    { unfold additive_expression_of. eapply ens_map; [tv|]. intros [u k] [H1 H2]. split; auto. }
    apply K in H. destruct H as [H1 H2]. split; [auto|]. pose proof (each_forall _ _ _ H2 T2) as H3.
    apply Forall_forall. intros a I. apply term_wf_; [|exact (F a I)]. exact (proj1 (Forall_forall _ _) H3 a I).
  Qed.
  Hint Resolve te_additive : tame.
  Lemma te_op : ens (op_expression_of e g) (tame_op TE TG ends_in ~~> wf_op WE WG op).
  Proof using Se Sg He Hg Fe. unfold op_expression_of. alts; (eapply ens_map; [tv|]); auto. Qed.
  Hint Resolve te_op : tame.
  Lemma te_relational : ens (relational_expression_of e g) (tame_relational TE TG ends_in ~~> wf_relational WE WG op).
  Proof using Se Sg He Hg Fe.
    unfold relational_expression_of. eapply ens_map; [tv|]. intros [a [o|]] [H1 H2] [T1 T2]; cbn [fst snd] in *; split; auto.
  Qed.
  Hint Resolve te_relational : tame.
  Lemma te_and : ens (conditional_and_expression_of e g) (tame_and TE TG ends_in ~~> wf_and WE WG op).
  Proof using Se Sg He Hg Fe.
    unfold conditional_and_expression_of. eapply ens_map; [tv|]. intros l H T. split; [exact (proj1 H)|]. exact (some_forall _ _ _ H T).
  Qed.
  Hint Resolve te_and : tame.
  Lemma te_constraint : ens (constraint_of e g) (tame_constraint TE TG ends_in ~~> wf_constraint WE WG op).
  Proof using He Hg Fe. unfold constraint_of. alts; (eapply ens_map; [tv|]); auto. Qed.
  Hint Resolve te_constraint : tame.
  Lemma te_filter : ens (filter_of e g) (tame_constraint TE TG ends_in ~~> wf_constraint WE WG op).
  Proof using He Hg Fe. unfold filter_of. tv. Qed.
  Lemma te_order_condition : ens (order_condition_of e g) (tame_order_condition TE TG ends_in ~~> wf_order_condition WE WG op).
  Proof using He Hg Fe.
    unfold order_condition_of. alts.
    - eapply ens_map; [unfold order_expression_of; eapply ens_map; [tv|]|].
      + intros [o x] [_ H]. instantiate (1 := (fun '(MkOrderExpression _ x) => TE x) ~~> (fun '(MkOrderExpression _ x) => WE x)). exact H.
      + intros [o x] H. exact H.
    - eapply ens_map; [tv|]; auto.
    - eapply ens_map; [tv|]; auto.
  Qed.
  Lemma te_group_condition : ens (group_condition_of e g) (tame_group_condition TE TG ends_in ~~> wf_group_condition WE WG op).
  Proof using He Hg Fe Oe.
    unfold group_condition_of. alts; (eapply ens_map; [tv|]); [auto|auto| |auto].
    intros [x [v|]] H T; destruct (H T) as (H1 & H2 & H3); [|exact H1]. split; [exact H1|]. split; [|exact H2]. apply H3. discriminate.
  Qed.
  Hint Resolve te_filter te_order_condition te_group_condition : tame.
  Lemma te_group_clause : ens (group_clause_of e g)
    ((fun '(MkGroupClause l) => Forall (tame_group_condition TE TG ends_in) l) ~~> (fun '(MkGroupClause l) => l <> [] /\ Forall (wf_group_condition WE WG op) l)).
  Proof using He Hg Fe Oe. unfold group_clause_of. eapply ens_map; [tv|]. intros l H T. split; [exact (proj1 H)|]. exact (some_forall _ _ _ H T). Qed.
  Lemma te_order_clause : ens (order_clause_of e g)
    ((fun '(MkOrderClause l) => Forall (tame_order_condition TE TG ends_in) l) ~~> (fun '(MkOrderClause l) => l <> [] /\ Forall (wf_order_condition WE WG op) l)).
  Proof using He Hg Fe. unfold order_clause_of. eapply ens_map; [tv|]. intros l H T. split; [exact (proj1 H)|]. exact (some_forall _ _ _ H T). Qed.
  Lemma te_having_clause : ens (having_clause_of e g)
    ((fun '(MkHavingClause l) => Forall (tame_constraint TE TG ends_in) l /\ match l with c :: _ => wf_first c | [] => True end) ~~>
     (fun '(MkHavingClause l) => l <> [] /\ Forall (wf_constraint WE WG op) l /\ match l with c :: _ => wf_first c | [] => True end)).
  Proof using He Hg Fe.
    unfold having_clause_of. eapply ens_map; [tv|]. intros l H [T1 T2]. split; [exact (proj1 H)|]. split; [exact (some_forall _ _ _ H T1)|exact T2].
  Qed.
  Hint Resolve te_group_clause te_order_clause te_having_clause : tame.
  Lemma te_modifier : ens (solution_modifier_of e g) (tame_mods TE TG ends_in ~~> wf_mods WE WG op).
  Proof using He Hg Fe Oe.
    unfold solution_modifier_of. eapply ens_map; [tv|]. intros [gb [h [ob lo]]] (H1 & H2 & H3 & H4) (T1 & T2 & T3). cbn [fst snd] in *.
    split; [exact (if_some _ _ _ H3 T1)|]. split; [exact (if_some _ _ _ H1 T2)|]. split; [exact (if_some _ _ _ H2 T3)|exact (if_all _ _ H4)].
  Qed.
  Lemma te_where : ens (where_clause_of g) (TG ~~> WG). Proof using Hg. unfold where_clause_of. tv. Qed.
  Lemma te_select_var : ens (var_or_expression_as_var_of e)
    ((fun v => match v with VoeVar _ => True | VoeExpressionAsVar x => tame_as TE x end) ~~> (fun v => match v with VoeVar v => wf_var v | VoeExpressionAsVar x => wf_as WE x end)).
  Proof using He. unfold var_or_expression_as_var_of. alts; (eapply ens_map; [tv|]); auto. Qed.
  Hint Resolve te_modifier te_where te_select_var : tame.
  Lemma te_select_clause : ens (select_clause_of e) (tame_select TE ~~> wf_select WE).
  Proof using He.
    unfold select_clause_of. assert (K : ens (select_vars_of e) ((fun v => tame_select TE (MkSelectClause None v)) ~~> (fun v => wf_select WE (MkSelectClause None v)))).
    { unfold select_vars_of. alts; (eapply ens_map; [tv|]); [auto|]. intros l H T. split; [exact (proj1 H)|]. exact (some_forall _ _ _ H T). }
    eapply ens_map; [tv|]. intros [a [m v]] (_ & _ & H). exact H.
  Qed.
  Hint Resolve te_select_clause : tame.
  Lemma te_sub_select : ens (sub_select_of e g) (tame_sub_select TE TG ends_in ~~> wf_sub_select WE WG op).
  Proof using He Hg Fe Oe.
    unfold sub_select_of, values_clause. eapply ens_map; [tv|]. intros [s [w [m v]]] (H1 & H2 & H3 & H4) (T1 & T2 & T3 & T4). cbn [fst snd] in *.
    split; [auto|]. split; [auto|]. split; [auto|]. exact (if_some _ _ _ H4 T4).
  Qed.
  Lemma te_group_or_union : ens (group_or_union_of g) ((fun '(MkGroupOrUnion l) => Forall TG l) ~~> (fun '(MkGroupOrUnion l) => l <> [] /\ Forall WG l)).
  Proof using Hg. unfold group_or_union_of. eapply ens_map; [tv|]. intros l H T. split; [exact (proj1 H)|]. exact (some_forall _ _ _ H T). Qed.
  Lemma te_graph_graph : ens (graph_graph_pattern_of g) ((fun '(MkGraphGraphPattern v x) => tame_voi v /\ TG x) ~~> (fun '(MkGraphGraphPattern v x) => wf_voi v /\ WG x)).
  Proof using Hg. unfold graph_graph_pattern_of. eapply ens_map; [tv|]. intros [a [v x]] (_ & H1 & H2) [T1 T2]. cbn [fst snd] in *. split; auto. Qed.
  Lemma te_service : ens (service_graph_pattern_of g) ((fun '(MkServiceGraphPattern v _ x) => tame_voi v /\ TG x) ~~> (fun '(MkServiceGraphPattern v _ x) => wf_voi v /\ WG x)).
  Proof using Hg. unfold service_graph_pattern_of. eapply ens_map; [tv|]. intros [a [s [v x]]] (_ & _ & H1 & H2) [T1 T2]. cbn [fst snd] in *. split; auto. Qed.
  Hint Resolve te_group_or_union te_graph_graph te_service : tame.
  Lemma te_pattern : ens (graph_pattern_not_triples_of e g) (tame_pattern TE TG ends_in ~~> wf_pattern WE WG op).
  Proof using He Hg Fe.
    unfold graph_pattern_not_triples_of, optional_of, minus_of, inline_data. alts; (eapply ens_map; [tv|]); try (intros a H; exact H).
  Qed.
  Hint Resolve te_pattern : tame.
  Lemma te_pattern_and_triples : ens (ggp_and_triples_of e g)
    ((fun '(MkGraphPatternAndTriples p t) => tame_pattern TE TG ends_in p /\ Print.some_ tame_triples t) ~~>
     (fun '(MkGraphPatternAndTriples p t) => wf_pattern WE WG op p /\ Print.some_ wf_triples t)).
  Proof using He Hg Fe.
    unfold ggp_and_triples_of. eapply ens_map; [tv|]. intros [p t] [H1 H2] [T1 T2]. cbn [fst snd] in *. split; [auto|]. exact (if_some _ _ _ H2 T2).
  Qed.
  Hint Resolve te_pattern_and_triples : tame.
  Lemma te_group_sub : ens (ggp_sub_of e g) (tame_sub TE TG ends_in ~~> wf_sub WE WG op).
  Proof using He Hg Fe.
    unfold ggp_sub_of. eapply ens_map; [tv|]. intros [t l] [H1 H2] [T1 T2]. cbn [fst snd] in *. split; [exact (if_some _ _ _ H1 T1)|].
    exact (each_forall _ _ _ H2 T2).
  Qed.
End Core.

(** ** The knot *)
Section After.
  Context (e : parser Expression) (g : parser GroupGraphPattern) (Se : sound e R_expression) (Sg : sound g R_ggp).
  Lemma additive_ends i r a : additive_expression_of e g i = Ok r a -> (op_additive a = false <-> solid r).
  Proof using Se Sg.
    intros H. destruct a as [m l]. apply map_inv in H. destruct H as ([m' l'] & H & X). injection X as -> ->. apply pair_inv in H. destruct H as (i1 & _ & H).
    apply preceded_inv in H. destruct H as (i2 & b & H1 & H2). apply sp_rest in H1. destruct l as [|x l]; split.
    - intros _. apply sepl_empty in H2. now subst.
    - reflexivity.
    - discriminate.
    - intros S. exfalso. apply sepl_sp_after in H2; [|exact (sound_shrinks _ _ (sd_add_expression_of e g _ _ Se Sg))].
      destruct H2 as [_ H2]. now apply H2.
  Qed.
  Lemma relational_ends i r a : relational_expression_of e g i = Ok r a ->
    (op_relational a = false -> solid r) /\ (solid r -> in_relational a = false -> op_relational a = false).
  Proof using Se Sg.
    intros H. destruct a as [a o]. apply map_inv in H. destruct H as ([a' o'] & H & X). injection X as -> ->.
    apply pair_inv in H. destruct H as (i1 & H1 & H2). apply opt_inv in H2. destruct o as [o|].
    - apply preceded_inv in H2. destruct H2 as (i2 & b & _ & H2). apply alt_inv in H2. destruct H2 as (p & I & H2).
      destruct I as [<-|[<-|[<-|[<-|[<-|[<-|[<-|[<-|[]]]]]]]]]; apply map_inv in H2; destruct H2 as (x & H2 & <-); cbn [op_relational in_relational];
        try (split; [discriminate|intros _ ?; discriminate]);
        apply preceded_inv in H2; destruct H2 as (i3 & c & _ & H2); apply additive_ends in H2; split; intros; now apply H2.
    - destruct H2 as [-> _]. apply additive_ends in H1. split; intros; now apply H1.
  Qed.
  Lemma expression_ends i r x : expression_body e g i = Ok r x ->
    (op_expression x = false -> solid r) /\ (solid r -> in_expression x = false -> op_expression x = false).
  Proof using Se Sg.
    intros H. destruct x as [l]. apply map_inv in H. destruct H as (l' & H & X). injection X as ->.
    apply sepne_last in H; [|eapply (gd_shrinks false IAny true); mv|exact (sound_shrinks _ _ (sd_conditional_and_expression_of e g _ _ Se Sg))].
    destruct H as (k & c & H & L). unfold op_expression, in_expression. rewrite !L. destruct c as [cl].
    apply map_inv in H. destruct H as (l' & H & X). injection X as ->.
    apply sepne_last in H; [|eapply (gd_shrinks false IAny true); mv|exact (sound_shrinks _ _ (sd_relational_expression_of e g _ _ Se Sg))].
    destruct H as (k2 & c & H & L2). unfold op_and, in_and. rewrite !L2. exact (relational_ends _ _ _ H).
  Qed.
End After.
Lemma te_nested n :
  (sound (expression_within n) R_expression /\ sound (group_graph_pattern_within n) R_ggp) /\
  (ens (expression_within n) (tame_expression n ~~> wf_expression n) /\ ens (group_graph_pattern_within n) (tame_ggp n ~~> wf_ggp n)) /\
  at_solid (expression_within n) (fun x => in_expression x = false -> op_expression x = false) /\
  (forall i r x, expression_within n i = Ok r x -> op_expression x = false -> solid r).
Proof.
  induction n as [|n IH]; [repeat split; discriminate|].
  destruct IH as ((S1 & S2) & (H1 & H2) & F & O). unfold expression_within, group_graph_pattern_within, tame_expression, tame_ggp, wf_expression, wf_ggp in *.
  cbn [nested tames wfs]. destruct (nested n) as [e g], (tames n) as [TE TG], (wfs n) as [WE WG]. cbn [fst snd] in *.
  split; [split; [exact (sd_expression_body _ _ S1 S2)|exact (sd_ggp_body _ _ S1 S2)]|]. split; [split|split].
  - unfold expression_body. eapply ens_map; [eapply ens_sepne; exact (te_and e g _ _ TE WE TG WG op_expression in_expression S1 S2 H1 H2 F)|].
    intros l H T. split; [exact (proj1 H)|]. exact (some_forall _ _ _ H T).
  - unfold ggp_body, sp_enc, delimited. eapply ens_preceded, ens_terminated, ens_preceded, ens_terminated. alts.
    + eapply ens_map; [exact (te_sub_select e g TE WE TG WG op_expression in_expression H1 H2 F O)|]. intros a H. exact H.
    + eapply ens_map; [exact (te_group_sub e g TE WE TG WG op_expression in_expression H1 H2 F)|]. intros a H. exact H.
  - intros i r x H S. now apply (expression_ends e g S1 S2 i r x H).
  - intros i r x H. now apply (expression_ends e g S1 S2 i r x H).
Qed.
