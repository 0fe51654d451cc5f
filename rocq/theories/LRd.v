(** Reading safely laid out texts: evaluation lemmas in the shape of the [W] relations. *)
From Verif Require Export Layout LGood2 LInv.
Notation length := List.length (only parsing).
Open Scope N_scope.
Open Scope list_scope.

(** [p] reads the texts of [P] as [a], whatever follows; reads them as something; gives way on them *)
Definition rd {A} (p : parser A) (a : A) (P : lang) : Prop := forall t r, P t r -> p (t ++ r) = Ok r a.
Definition rdx {A} (p : parser A) (P : lang) : Prop := forall t r, P t r -> exists a, p (t ++ r) = Ok r a.
Definition nf {A} (p : parser A) (P : lang) : Prop := forall t r, P t r -> fails p (t ++ r).

Lemma rd_rdx {A} (p : parser A) a P : rd p a P -> rdx p P.
Proof. intros H t r Ht. exists a. now apply H. Qed.
Lemma rd_sub {A} (p : parser A) a P (Q : lang) : rd p a P -> (forall t r, Q t r -> P t r) -> rd p a Q.
Proof. intros H S t r Ht. apply H, S, Ht. Qed.
Lemma rdx_sub {A} (p : parser A) P (Q : lang) : rdx p P -> (forall t r, Q t r -> P t r) -> rdx p Q.
Proof. intros H S t r Ht. apply H, S, Ht. Qed.
Lemma then_assoc P Q S t r : (P >> Q >> S) t r <-> ((P >> Q) >> S) t r.
Proof.
  split.
  - intros (u & x & -> & Hu & v & w & -> & Hv & Hw). exists (u ++ v), w. split; [apply app_assoc|]. split; [|assumption].
    exists u, v. split; [reflexivity|]. split; [|assumption]. now rewrite <- app_assoc in Hu.
  - intros (x & w & -> & (u & v & -> & Hu & Hv) & Hw). exists u, (v ++ w). split; [symmetry; apply app_assoc|].
    split; [now rewrite <- app_assoc|]. exists v, w. auto.
Qed.
Lemma then_l P Q S t r : (P >> Q >> S) t r -> ((P >> Q) >> S) t r. Proof. apply then_assoc. Qed.
Lemma then_l3 P Q S T t r : (P >> Q >> S >> T) t r -> ((P >> Q >> S) >> T) t r.
Proof.
  intros (a & b & -> & Ha & Hb). apply then_l. exists a, b. split; [reflexivity|]. split; [assumption|]. now apply then_l.
Qed.
Lemma then_mono (P Q Q' : lang) t r : (forall t r, Q t r -> Q' t r) -> (P >> Q) t r -> (P >> Q') t r.
Proof. intros H (a & b & -> & Ha & Hb). exists a, b. auto. Qed.
Lemma rd_assoc {A} (p : parser A) a P Q S : rd p a ((P >> Q) >> S) -> rd p a (P >> Q >> S).
Proof. intros H t r Ht. apply H. now apply then_assoc. Qed.
Lemma rd_assoc' {A} (p : parser A) a P Q S : rd p a (P >> Q >> S) -> rd p a ((P >> Q) >> S).
Proof. intros H t r Ht. apply H. now apply then_assoc. Qed.
Lemma rdx_assoc {A} (p : parser A) P Q S : rdx p ((P >> Q) >> S) -> rdx p (P >> Q >> S).
Proof. intros H t r Ht. apply H. now apply then_assoc. Qed.
Lemma rd_map {A B} (p : parser A) (f : A -> B) a b P : rd p a P -> f a = b -> rd (map p f) b P.
Proof. intros H E t r Ht. apply (map_ok _ _ _ _ a); [now apply H|assumption]. Qed.
Lemma rdx_map {A B} (p : parser A) (f : A -> B) P : rdx p P -> rdx (map p f) P.
Proof. intros H t r Ht. destruct (H t r Ht) as [a E]. exists (f a). now apply (map_ok _ _ _ _ a). Qed.
Lemma rd_pair {A B} (p : parser A) (q : parser B) a b P Q : rd p a P -> rd q b Q -> rd (pair p q) (a, b) (P >> Q).
Proof.
  intros Hp Hq t r (u & v & -> & Hu & Hv). rewrite <- app_assoc. eapply pair_ok; [now apply Hp|now apply Hq].
Qed.
Lemma rdx_pair {A B} (p : parser A) (q : parser B) P Q : rdx p P -> rdx q Q -> rdx (pair p q) (P >> Q).
Proof.
  intros Hp Hq t r (u & v & -> & Hu & Hv). rewrite <- app_assoc. destruct (Hp _ _ Hu) as [a Ha]. destruct (Hq _ _ Hv) as [b Hb].
  exists (a, b). eapply pair_ok; eassumption.
Qed.
Lemma rd_preceded {A B} (p : parser A) (q : parser B) b P Q : rdx p P -> rd q b Q -> rd (preceded p q) b (P >> Q).
Proof.
  intros Hp Hq t r (u & v & -> & Hu & Hv). rewrite <- app_assoc. destruct (Hp _ _ Hu) as [a Ha].
  eapply preceded_ok; [exact Ha|now apply Hq].
Qed.
Lemma rdx_preceded {A B} (p : parser A) (q : parser B) P Q : rdx p P -> rdx q Q -> rdx (preceded p q) (P >> Q).
Proof. intros Hp Hq. apply rdx_map, rdx_pair; assumption. Qed.
Lemma rd_terminated {A B} (p : parser A) (q : parser B) a P Q : rd p a P -> rdx q Q -> rd (terminated p q) a (P >> Q).
Proof.
  intros Hp Hq t r (u & v & -> & Hu & Hv). rewrite <- app_assoc. destruct (Hq _ _ Hv) as [b Hb].
  eapply terminated_ok; [now apply Hp|exact Hb].
Qed.
Lemma rdx_terminated {A B} (p : parser A) (q : parser B) P Q : rdx p P -> rdx q Q -> rdx (terminated p q) (P >> Q).
Proof. intros Hp Hq. apply rdx_map, rdx_pair; assumption. Qed.
Lemma rd_delimited {A B C} (p : parser A) (q : parser B) (s : parser C) b P Q S :
  rdx p P -> rd q b Q -> rdx s S -> rd (delimited p q s) b (P >> Q >> S).
Proof. intros H1 H2 H3. apply rd_preceded; [assumption|]. now apply rd_terminated. Qed.
Lemma rdx_delimited {A B C} (p : parser A) (q : parser B) (s : parser C) P Q S :
  rdx p P -> rdx q Q -> rdx s S -> rdx (delimited p q s) (P >> Q >> S).
Proof. intros H1 H2 H3. apply rdx_preceded; [assumption|]. now apply rdx_terminated. Qed.
Lemma rd_separated_pair {A B C} (p : parser A) (s : parser B) (q : parser C) a c P S Q :
  rd p a P -> rdx s S -> rd q c Q -> rd (separated_pair p s q) (a, c) (P >> S >> Q).
Proof. intros H1 H2 H3. apply rd_pair; [assumption|]. now apply rd_preceded. Qed.
Lemma rd_opt_some {A} (p : parser A) a P : rd p a P -> rd (opt p) (Some a) P.
Proof. intros H t r Ht. apply opt_some. now apply H. Qed.
Lemma rd_opt_none {A} (p : parser A) (P : str -> Prop) : (forall r, P r -> fails p r) -> rd (opt p) None (ahead P).
Proof. intros H t r [-> Hr]. now apply opt_none, H. Qed.
Lemma rd_opt {A} (p : parser A) (W : A -> lang) (none : str -> Prop) o :
  (forall a, rd p a (W a)) -> (forall r, none r -> fails p r) -> rd (opt p) o (optW W none o).
Proof. intros H1 H2. destruct o; [apply rd_opt_some, H1|exact (rd_opt_none p none H2)]. Qed.
Lemma rd_alt_first {A} (p : parser A) ps a P : rd p a P -> rd (alt (p :: ps)) a P.
Proof. intros H t r Ht. apply alt_first. now apply H. Qed.
Lemma rd_alt_next {A} (p : parser A) ps a P : nf p P -> rd (alt ps) a P -> rd (alt (p :: ps)) a P.
Proof. intros H1 H2 t r Ht. apply alt_next; [now apply H1|now apply H2]. Qed.
Lemma nf_map {A B} (p : parser A) (f : A -> B) P : nf p P -> nf (map p f) P.
Proof. intros H t r Ht. apply map_fails. now apply H. Qed.
Lemma nf_pair1 {A B} (p : parser A) (q : parser B) P : nf p P -> nf (pair p q) P.
Proof. intros H t r Ht. apply pair_fails1. now apply H. Qed.
Lemma nf_preceded1 {A B} (p : parser A) (q : parser B) P : nf p P -> nf (preceded p q) P.
Proof. intros H t r Ht. apply preceded_fails1. now apply H. Qed.
Lemma nf_terminated1 {A B} (p : parser A) (q : parser B) P : nf p P -> nf (terminated p q) P.
Proof. intros H t r Ht. apply terminated_fails1. now apply H. Qed.
Lemma nf_delimited1 {A B C} (p : parser A) (q : parser B) (s : parser C) P : nf p P -> nf (delimited p q s) P.
Proof. intros H t r Ht. apply delimited_fails1. now apply H. Qed.
Lemma nf_pair2 {A B} (p : parser A) (q : parser B) P Q : rdx p P -> nf q Q -> nf (pair p q) (P >> Q).
Proof.
  intros Hp Hq t r (u & v & -> & Hu & Hv). rewrite <- app_assoc. destruct (Hp _ _ Hu) as [a Ha].
  eapply pair_fails2; [exact Ha|now apply Hq].
Qed.
Lemma nf_preceded2 {A B} (p : parser A) (q : parser B) P Q : rdx p P -> nf q Q -> nf (preceded p q) (P >> Q).
Proof. intros Hp Hq. now apply nf_map, nf_pair2. Qed.
Lemma nf_terminated2 {A B} (p : parser A) (q : parser B) P Q : rdx p P -> nf q Q -> nf (terminated p q) (P >> Q).
Proof. intros Hp Hq. now apply nf_map, nf_pair2. Qed.
(** the first piece decides *)
Lemma nf_then {A} (p : parser A) P Q : nf p P -> nf p (P >> Q).
Proof. intros H t r (u & v & -> & Hu & _). rewrite <- app_assoc. now apply H. Qed.
Lemma nf_assoc {A} (p : parser A) P Q S : nf p ((P >> Q) >> S) -> nf p (P >> Q >> S).
Proof. intros H t r Ht. apply H. now apply then_assoc. Qed.

(** ** Tokens *)
Lemma rdx_sp : rdx sp gap. Proof. intros t r [H1 H2]. exists t. now apply sp_ok. Qed.
Lemma rdx_sp1 : rdx sp1 gap1. Proof. intros t r [H1 H2]. exists t. now apply sp1_ok. Qed.
Lemma rdx_tag s : rdx (tag (s_ s)) (sym s). Proof. intros t r ->. exists (s_ s). apply tag_ok. Qed.
Lemma rdx_chr c s : s_ s = [c] -> rdx (chr c) (sym s).
Proof. intros E t r ->. rewrite E. exists c. apply chr_ok. Qed.
Lemma rdx_kw k : low_ascii (s_ k) = true -> rdx (tag_no_case (s_ k)) (word k).
Proof. intros K t r H. exists t. now apply tnc_ok. Qed.
Lemma rd_tok {A} (p : parser A) a (P : str -> Prop) : (forall t r, P t -> p (t ++ r) = Ok r a) -> rd p a (tok P).
Proof. intros H t r Ht. now apply H. Qed.
Lemma nf_kw k w : low_ascii (s_ k) = true -> low_ascii (s_ w) = true -> differ (s_ w) (s_ k) = true ->
  nf (tag_no_case (s_ k)) (word w).
Proof. intros K W D t r H. eapply tnc_fails_kwd; [| | |exact H]; assumption. Qed.
Lemma rd_sp_enc {A} (p : parser A) a P : rd p a P -> rd (sp_enc p) a (gap >> P >> gap).
Proof. intros H. apply rd_delimited; [apply rdx_sp|assumption|apply rdx_sp]. Qed.
Lemma rdx_sp_enc {A} (p : parser A) P : rdx p P -> rdx (sp_enc p) (gap >> P >> gap).
Proof. intros H. apply rdx_delimited; [apply rdx_sp|assumption|apply rdx_sp]. Qed.
Lemma rd_sp_enc1 {A} (p : parser A) a P : rd p a P -> rd (sp_enc1 p) a (gap1 >> P >> gap1).
Proof. intros H. apply rd_delimited; [apply rdx_sp1|assumption|apply rdx_sp1]. Qed.
Lemma rdx_sp_enc1 {A} (p : parser A) P : rdx p P -> rdx (sp_enc1 p) (gap1 >> P >> gap1).
Proof. intros H. apply rdx_delimited; [apply rdx_sp1|assumption|apply rdx_sp1]. Qed.
Lemma rd_bracketted {A} (p : parser A) a P : rd p a P -> rd (bracketted p) a (sym "(" >> P >> sym ")").
Proof. intros H. apply rd_delimited; [now apply rdx_chr|assumption|now apply rdx_chr]. Qed.
Lemma rd_preceded_tag {A} k (p : parser A) a P : low_ascii (s_ k) = true -> rd p a P ->
  rd (preceded_tag (s_ k) p) a (word k >> gap >> P).
Proof.
  intros K H. apply rd_assoc, rd_preceded; [|assumption]. apply rdx_terminated; [now apply rdx_kw|apply rdx_sp].
Qed.
Lemma rd_preceded_tag1 {A} k (p : parser A) a P : low_ascii (s_ k) = true -> rd p a P ->
  rd (preceded_tag1 (s_ k) p) a (word k >> gap1 >> P).
Proof.
  intros K H. apply rd_assoc, rd_preceded; [|assumption]. apply rdx_terminated; [now apply rdx_kw|apply rdx_sp1].
Qed.
(** failing on a keyword that is not there *)
Lemma kw_fails k i : low_ascii (s_ k) = true -> forallb (fun c => negb (c =? 107)) (s_ k) = true -> ~ begins k i ->
  fails (tag_no_case (s_ k)) i.
Proof.
  intros K NK H. apply tnc_fails_begins; [assumption| |].
  - intros H1 _. rewrite forallb_forall in NK. apply NK in H1. discriminate.
  - intros t r E Ht. apply H. exists t, r. auto.
Qed.
Lemma tag1_fails {A} k (p : parser A) i : fails (tag_no_case (s_ k)) i -> fails (preceded_tag1 (s_ k) p) i.
Proof. intros H. apply preceded_fails1. now apply terminated_fails1. Qed.
Lemma tag0_fails {A} k (p : parser A) i : fails (tag_no_case (s_ k)) i -> fails (preceded_tag (s_ k) p) i.
Proof. intros H. apply preceded_fails1. now apply terminated_fails1. Qed.
Lemma nf_tag1 {A} k (p : parser A) P : nf (tag_no_case (s_ k)) P -> nf (preceded_tag1 (s_ k) p) P.
Proof. intros H t r Ht. apply tag1_fails. now apply H. Qed.
Lemma nf_tag0 {A} k (p : parser A) P : nf (tag_no_case (s_ k)) P -> nf (preceded_tag (s_ k) p) P.
Proof. intros H t r Ht. apply tag0_fails. now apply H. Qed.

(** ** Lists *)
(** every parser used here satisfies the structural invariants *)
Definition moves {A} (p : parser A) : Prop := good true IAny true p.
Definition runs {A} (p : parser A) : Prop := good false IAny true p.
Ltac mv := let n := fresh "n" in intros n; eapply sim_weaken; [sg | reflexivity ..].
Ltac mv1 p := unfold p; mv.
Lemma gd_shrinks {A} b c d (p : parser A) : good b c d p -> shrinks p.
Proof.
  intros H i r a E. pose proof (good_elim _ _ _ _ H i) as K. rewrite E in K. destruct K as [[t ->] _]. exists t. auto.
Qed.
Lemma gd_moves {A} c d (p : parser A) i r a : good true c d p -> p i = Ok r a -> r <> i.
Proof.
  intros H E ->. pose proof (good_elim _ _ _ _ H i) as K. rewrite E in K. destruct K as [_ K]. specialize (K eq_refl). lia.
Qed.
Lemma gap1_ne t r : gap1 t r -> t <> []. Proof. now intros [[_ H] _]. Qed.
Lemma app_ne {A} (t r : list A) : t <> [] -> r <> t ++ r.
Proof.
  intros N E. apply (f_equal (@length A)) in E. rewrite app_length in E. destruct t; [congruence|]. cbn in E. lia.
Qed.
Section Lists.
  Context {A B : Type} (p : parser A) (s : parser B) (W : A -> lang) (S : lang) (none stop : str -> Prop).
  Context (Hp : forall a, rd p a (W a)).
  Section Many.
    Context (Gp : moves p) (Hstop : forall r, stop r -> fails p r).
    Lemma many_tail l t r : manyW W stop l t r -> many_ok p (t ++ r) r l.
    Proof.
      revert t. induction l as [|a l IH]; intros t.
      - intros [-> H]. now apply many_stop, Hstop.
      - intros (u & v & -> & Hu & Hv). rewrite <- app_assoc. apply Hp in Hu. eapply many_step; [exact Hu| |now apply IH].
        exact (gd_moves _ _ _ _ _ _ Gp Hu).
    Qed.
    Lemma rd_many0 l : rd (many0 p) l (manyW W stop l).
    Proof. intros t r H. apply many0_iff; [eapply gd_shrinks, Gp|]. now apply many_tail. Qed.
    Lemma rd_many1 l : rd (many1 p) l (fun t r => l <> [] /\ manyW W stop l t r).
    Proof.
      intros t r [N H]. destruct l as [|a l]; [congruence|]. destruct H as (u & v & -> & Hu & Hv). rewrite <- app_assoc.
      apply many1_iff; [eapply gd_shrinks, Gp|]. exists (v ++ r), a, l. split; [now apply Hp|]. split; [now apply many_tail|reflexivity].
    Qed.
  End Many.
  Section Sep.
    Context (Gp : moves p) (Gs : runs s) (Hs : rdx s S) (NS : forall t r, S t r -> t <> []).
    Context (Hstop : forall r, stop r -> sep_ok s p r r []).
    Lemma sep_tail l t r : tailW W S stop l t r -> sep_ok s p (t ++ r) r l.
    Proof.
      revert t. induction l as [|a l IH]; intros t.
      - intros [-> H]. now apply Hstop.
      - intros (u & x & -> & Hu & v & w & -> & Hv & Hw). rewrite <- !app_assoc. rewrite <- app_assoc in Hu.
        destruct (Hs _ _ Hu) as [y Hy]. eapply sep_step; [exact Hy| |now apply Hp|now apply IH].
        apply app_ne. eapply NS, Hu.
    Qed.
    Lemma rd_sep1 l : rd (separated_nonempty_list s p) l (sep1W W S stop l).
    Proof.
      intros t r H. destruct l as [|a l]; [destruct H|]. destruct H as (u & v & -> & Hu & Hv). rewrite <- app_assoc.
      apply Hp in Hu. eapply sepne_cons; [eapply gd_shrinks, Gs|eapply gd_shrinks, Gp|exact Hu| |now apply sep_tail].
      exact (gd_moves _ _ _ _ _ _ Gp Hu).
    Qed.
    Lemma rd_sep l : (forall r, none r -> fails p r) -> rd (separated_list s p) l (sepW W S none stop l).
    Proof.
      intros Hn t r H. destruct l as [|a l].
      - destruct H as [-> H]. now apply sepl_nil, Hn.
      - destruct H as (u & v & -> & Hu & Hv). rewrite <- app_assoc.
        apply Hp in Hu. eapply sepl_cons; [eapply gd_shrinks, Gs|eapply gd_shrinks, Gp|exact Hu| |now apply sep_tail].
        exact (gd_moves _ _ _ _ _ _ Gp Hu).
    Qed.
  End Sep.
End Lists.
(** a repetition of padded pieces, after a blank *)
Lemma pad_many {A} (W : A -> lang) stop l t r : solid (t ++ r) -> manyW (fun a => W a >> gap) stop l t r ->
  manyW (fun a => gap >> W a >> gap) stop l t r.
Proof.
  revert t. induction l as [|a l IH]; intros t S; [auto|].
  intros (u & v & -> & Hu & Hv). exists u, v. split; [reflexivity|]. rewrite <- app_assoc in S. split.
  - exists [], u. split; [reflexivity|]. split; [|assumption]. split; [constructor|]. assumption.
  - apply IH; [|assumption]. destruct Hu as (x & y & -> & _ & [_ Hy]). exact Hy.
Qed.
Lemma gap_pad_many {A} (W : A -> lang) stop l : forall t r, (gap >> manyW (fun a => W a >> gap) stop l) t r ->
  (gap >> manyW (fun a => gap >> W a >> gap) stop l) t r.
Proof.
  intros t r (u & v & -> & [H1 H2] & Hv). exists u, v. split; [reflexivity|]. split; [now split|]. now apply pad_many.
Qed.
(** separators that find nothing *)
Lemma sp_enc_stop {A B} (x : parser A) (p : parser B) (P : str -> Prop) r : (forall r, P r -> fails x r) -> nxt P r -> sep_ok (sp_enc x) p r r [].
Proof.
  intros H (b & r' & -> & Hb & Hr & HP). apply sep_stop. eapply delimited_fails2; [now apply sp_ok|now apply H].
Qed.
Lemma sp_enc_fails {A} (x : parser A) (P : str -> Prop) r : (forall r, P r -> fails x r) -> nxt P r -> fails (sp_enc x) r.
Proof. intros H (b & r' & -> & Hb & Hr & HP). eapply delimited_fails2; [now apply sp_ok|now apply H]. Qed.
Lemma sp_fails {A} (x : parser A) (P : str -> Prop) r : (forall r, P r -> fails x r) -> nxt P r -> fails (preceded sp x) r.
Proof. intros H (b & r' & -> & Hb & Hr & HP). eapply preceded_fails2; [now apply sp_ok|now apply H]. Qed.
Lemma sp_back {A} (p : parser A) (P : str -> Prop) r : (forall r, P r -> fails p r) -> nxt1 P r -> sep_ok sp p r r [].
Proof.
  intros H (b & r' & -> & Hb & Hr & HP). destruct Hb as [Hb N]. eapply sep_back; [now apply sp_ok|now apply app_ne|now apply H].
Qed.
Lemma sp1_stop {A} (p : parser A) (P : str -> Prop) r : (forall r, P r -> fails p r) -> nxt P r -> sep_ok sp1 p r r [].
Proof.
  intros H (b & r' & -> & Hb & Hr & HP). destruct b as [|c b]; [now apply sep_stop, sp1_fails|].
  eapply sep_back; [apply sp1_ok; [split; [assumption|discriminate]|assumption]| |now apply H]. apply app_ne. discriminate.
Qed.
Lemma gap1_sp : rdx sp gap1. Proof. intros t r [[H _] H2]. exists t. now apply sp_ok. Qed.
Lemma rdx_many1W {A} (x : parser A) P (stop : str -> Prop) : moves x -> rdx x P -> (forall r, stop r -> fails x r) ->
  rdx (many1 x) (many1W P stop).
Proof.
  intros G H Hs t r (n & u & v & -> & Hu & Hv). rewrite <- app_assoc. destruct (H _ _ Hu) as [a Ha].
  assert (M : exists l, many_ok x (v ++ r) r l).
  { clear Hu Ha. revert v Hv. induction n as [|y n IH]; intros v.
    - intros [-> K]. exists []. now apply many_stop, Hs.
    - intros (z & w & -> & Hz & Hw). rewrite <- app_assoc. destruct (H _ _ Hz) as [a' E]. destruct (IH w Hw) as [l Hl].
      exists (a' :: l). eapply many_step; [exact E|exact (gd_moves _ _ _ _ _ _ G E)|exact Hl]. }
  destruct M as [l M]. exists (a :: l). eapply many1_cons; [eapply gd_shrinks, G|exact Ha|exact M].
Qed.
Lemma many1W_ne (P : lang) stop t r : (forall u v, P u v -> u <> []) -> many1W P stop t r -> t <> [].
Proof. intros H (n & u & v & -> & Hu & _) E. apply app_eq_nil in E. destruct E as [-> _]. now apply (H _ _ Hu). Qed.
Lemma first_not c x r : c <> x -> first c r -> not_first x r.
Proof. intros N [r' ->]. exact N. Qed.
Lemma rdx_unit {A} (p : parser A) P : rdx p P -> rd (map p (fun _ => tt)) tt P.
Proof. intros H t r Ht. destruct (H t r Ht) as [a E]. now apply (map_ok _ _ _ _ a). Qed.
