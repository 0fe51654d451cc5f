(** Requests made of statements with a block of quads. *)
From Verif Require Import LMods LC8 LGen4 LLit.
From Verif Require Import LDecl LAlike LWhere LBlock6.
From Verif Require Export LForms LPlace SpecBlock.
From Verif Require Import Nom.
Notation length := List.length (only parsing).
Open Scope N_scope.
Open Scope list_scope.

(** INSERT DATA, DELETE DATA or DELETE WHERE with its words and blanks, the block, and the blanks before and after the semicolon if another statement follows *)
Inductive data_kind := InsertData | DeleteData | DeleteWhere.
Definition data_word1 (k : data_kind) : string := match k with InsertData => "insert" | _ => "delete" end.
Definition data_word2 (k : data_kind) : string := match k with DeleteWhere => "where" | _ => "data" end.
Definition data_tree (k : data_kind) (q : Quads) : UpdateStatement := match k with InsertData => UsInsertData q | DeleteData => UsDeleteData q | DeleteWhere => UsDeleteWhere q end.
Record data := Data { data_of : data_kind; data_w1 : str; data_b1 : str; data_w2 : str; data_b2 : str; data_block : str; data_b3 : str; data_b4 : str }.
Definition data_ok (d : data) : Prop := kw (data_word1 (data_of d)) (data_w1 d) /\ blank1 (data_b1 d) /\ kw (data_word2 (data_of d)) (data_w2 d) /\ blank1 (data_b2 d) /\
  block (data_block d) /\ blank (data_b3 d) /\ blank (data_b4 d).
Definition data_text (d : data) : str := data_w1 d ++ data_b1 d ++ data_w2 d ++ data_b2 d ++ data_block d.
Fixpoint request (l : list data) (x : str) : str :=
  match l with
  | [] => x
  | d :: l' => data_text d ++ match l' with [] => x | _ => data_b3 d ++ 59 :: data_b4 d ++ request l' x end
  end.
Definition data_reads (d : data) (s : UpdateStatement) : Prop := exists q, quads_pattern (data_block d) = Ok [] q /\ s = data_tree (data_of d) q.
Definition data_refused (d : data) : Prop := exists p k, quads_pattern (data_block d) = Err (Error p k).
(** the tree of a request: each statement holds the next; a request cut off after a semicolon ends with an empty one *)
Definition empty_request : Update := MkUpdate (MkPrologue []) None None.
Fixpoint request_tree (l : list UpdateStatement) (whole : bool) : Update :=
  match l with
  | [] => empty_request
  | s :: l' => MkUpdate (MkPrologue []) (Some s) (match l' with [] => if whole then None else Some empty_request | _ => Some (request_tree l' whole) end)
  end.

Lemma alt_drop {A} (p : parser A) ps i : fails p i -> ps <> [] -> alt (p :: ps) i = alt ps i.
Proof. intros (a & k & F) N. rewrite alt_cons by exact N. now rewrite F. Qed.
Lemma alt_lone {A} (p : parser A) ps i : ps <> [] -> fails (alt ps) i ->
  (forall r a, alt (p :: ps) i = Ok r a <-> p i = Ok r a) /\ (fails (alt (p :: ps)) i <-> fails p i).
Proof.
  intros N (x & k & F). unfold fails. rewrite alt_cons by exact N. destruct (p i) as [r a|[p0 k0|p0 k0| | |]]; (split; [intros r' a'; split; intros H; try exact H; try discriminate H|split; intros (y & k1 & H); try discriminate H; eauto]).
  rewrite F in H. discriminate H.
Qed.
Lemma map_lone {A B} (p : parser A) (f : A -> B) i : (forall r b, map p f i = Ok r b <-> exists a, p i = Ok r a /\ b = f a) /\ (fails (map p f) i <-> fails p i).
Proof.
  unfold map, fails. destruct (p i) as [r a|e]; split.
  - intros r' b. split; [intros X; injection X as <- <-; eauto|]. intros (a' & X & ->). now injection X as <- <-.
  - split; intros (y & k & X); discriminate X.
  - intros r' b. split; [discriminate|]. intros (a' & X & _). discriminate X.
  - split; intros (y & k & X); injection X as ->; eauto.
Qed.

Lemma no_quads k w y : word_like k = true -> kw k w -> fails quads_pattern (w ++ y).
Proof.
  intros L K. apply delimited_fails1, terminated_fails1. unfold fails. change (s_ "{") with [123]. rewrite tag_chr.
  destruct (chr_fails 123 (w ++ y)) as (p & e & F).
  - exact (word_not 123 k w y L K eq_refl).
  - rewrite F. destruct e; eauto.
Qed.
Section One.
  Variables (d : data) (x : str).
  Hypothesis D : data_ok d.
  Notation j := (data_block d ++ x).
  Notation i := (data_w1 d ++ data_b1 d ++ data_w2 d ++ data_b2 d ++ j).
  Lemma no_modify : fails modify_stmt i.
  Proof.
    destruct D as (K1 & B1 & K2 & _). unfold modify_stmt, tuple5. apply map_fails.
    assert (O : opt (delimited (tag_no_case (s_ "where")) iri sp1) i = Ok i None) by (apply opt_none; destruct (data_of d); cbn [data_word1] in K1; fl K1).
    eapply pair_fails2; [exact O|]. apply pair_fails1, terminated_fails1. unfold delete_insert. apply alt_fails_cons; [destruct (data_of d); cbn [data_word1] in K1; fl K1|].
    apply alt_fails_cons; [|apply alt_fails_nil]. apply map_fails. destruct (data_of d); cbn [data_word1 data_word2] in *; try fl K1.
    unfold fails, insert_clause. rewrite (tag1_at "insert"); auto; [now apply (no_quads "data")|]. apply (kw_solid' "data"); [reflexivity|exact K2].
  Qed.
  Lemma stmt_quads : (forall r s, update_stmt i = Ok r s <-> exists q, quads_pattern j = Ok r q /\ s = data_tree (data_of d) q) /\ (fails update_stmt i <-> fails quads_pattern j).
  Proof.
    pose proof no_modify as M. destruct D as (K1 & B1 & K2 & B2 & BL & _). assert (S : solid j) by (destruct BL as (y & -> & _); now apply char_solid).
    unfold update_stmt, fails. destruct (data_of d); cbn [data_word1 data_word2 data_tree] in *.
    - assert (S' : solid (data_w2 d ++ data_b2 d ++ j)) by (apply (kw_solid' "data"); [reflexivity|exact K2]).
      do 5 (rewrite alt_drop; [|fl K1|discriminate]).
      assert (F : fails (alt [map delete_data UsDeleteData; map delete_where_data UsDeleteWhere; map modify_stmt UsModify]) i).
      { apply alt_fails_cons; [fl K1|]. apply alt_fails_cons; [fl K1|]. apply alt_fails_cons; [now apply map_fails|apply alt_fails_nil]. }
      assert (E : insert_data i = quads_pattern j) by (unfold insert_data; rewrite (tag1_at "insert") by auto; now rewrite (tag1_at "data") by auto).
      pose proof (fun N => alt_lone (map insert_data UsInsertData) _ i N F) as A. destruct A as [A1 A2]; [discriminate|]. destruct (map_lone insert_data UsInsertData i) as [M1 M2]. split.
      + intros r s. rewrite A1, M1, E. reflexivity.
      + etransitivity; [exact A2|]. etransitivity; [exact M2|]. unfold fails. now rewrite E.
    - assert (S' : solid (data_w2 d ++ data_b2 d ++ j)) by (apply (kw_solid' "data"); [reflexivity|exact K2]).
      do 6 (rewrite alt_drop; [|fl K1|discriminate]).
      assert (F : fails (alt [map delete_where_data UsDeleteWhere; map modify_stmt UsModify]) i).
      { apply alt_fails_cons; [|apply alt_fails_cons; [now apply map_fails|apply alt_fails_nil]]. apply map_fails. unfold fails, delete_where_data. rewrite (tag1_at "delete") by auto. apply preceded_fails1, terminated_fails1. eapply off; [exact K2|reflexivity..]. }
      assert (E : delete_data i = quads_pattern j) by (unfold delete_data; rewrite (tag1_at "delete") by auto; now rewrite (tag1_at "data") by auto).
      pose proof (fun N => alt_lone (map delete_data UsDeleteData) _ i N F) as A. destruct A as [A1 A2]; [discriminate|]. destruct (map_lone delete_data UsDeleteData i) as [M1 M2]. split.
      + intros r s. rewrite A1, M1, E. reflexivity.
      + etransitivity; [exact A2|]. etransitivity; [exact M2|]. unfold fails. now rewrite E.
    - assert (S' : solid (data_w2 d ++ data_b2 d ++ j)) by (apply (kw_solid' "where"); [reflexivity|exact K2]).
      do 6 (rewrite alt_drop; [|fl K1|discriminate]).
      rewrite alt_drop; [|apply map_fails; unfold fails, delete_data; rewrite (tag1_at "delete") by auto; apply preceded_fails1, terminated_fails1; eapply off; [exact K2|reflexivity..]|discriminate].
      assert (F : fails (alt [map modify_stmt UsModify]) i) by (apply alt_fails_cons; [now apply map_fails|apply alt_fails_nil]).
      assert (E : delete_where_data i = quads_pattern j) by (unfold delete_where_data; rewrite (tag1_at "delete") by auto; now rewrite (tag1_at "where") by auto).
      pose proof (fun N => alt_lone (map delete_where_data UsDeleteWhere) _ i N F) as A. destruct A as [A1 A2]; [discriminate|]. destruct (map_lone delete_where_data UsDeleteWhere i) as [M1 M2]. split.
      + intros r s. rewrite A1, M1, E. reflexivity.
      + etransitivity; [exact A2|]. etransitivity; [exact M2|]. unfold fails. now rewrite E.
  Qed.
  Lemma data_iff r s : update_stmt (data_text d ++ x) = Ok r s <-> r = x /\ data_reads d s.
  Proof.
    unfold data_text, data_reads. rewrite <- !app_assoc. rewrite (proj1 stmt_quads). assert (B : block (data_block d)) by apply D. split.
    - intros (q & H & ->). apply (quads_iff _ _ _ _ B) in H. destruct H as [-> H]. eauto.
    - intros (-> & q & H & ->). exists q. split; [now apply quads_iff|reflexivity].
  Qed.
  Lemma data_fails : fails update_stmt (data_text d ++ x) <-> data_refused d.
  Proof.
    unfold data_text, data_refused. rewrite <- !app_assoc. rewrite (proj2 stmt_quads). assert (B : block (data_block d)) by apply D. unfold fails. rewrite (proj1 (quads_local _ x B)).
    destruct (quads_pattern (data_block d)) as [r q|[]]; cbn [shifted]; split; intros (p9 & k9 & H); try discriminate H; eauto.
  Qed.
  Lemma data_starts : solid (data_text d ++ x) /\ no_decl (data_text d ++ x).
  Proof.
    destruct D as (K & _). unfold data_text. rewrite <- !app_assoc. set (y := data_b1 d ++ _). assert (B : begins (data_word1 (data_of d)) (data_w1 d ++ y)) by (exists (data_w1 d), y; auto).
    destruct (data_of d); cbn [data_word1] in *; (split; [revert B; apply begins_solid; reflexivity|split; intros X; revert B X; apply begins_differ; reflexivity]).
  Qed.
End One.

(** what follows the statement *)
Lemma update_step d x r u : data_ok d ->
  (update (data_text d ++ x) = Ok r u <->
   (exists s o, data_reads d s /\ opt (preceded (sp_enc (chr 59)) update) x = Ok r o /\ u = MkUpdate (MkPrologue []) (Some s) o) \/
   (data_refused d /\ r = data_text d ++ x /\ u = empty_request)).
Proof.
  intros D. destruct (data_starts d x D) as [S N]. pose proof (data_iff d x D) as I. pose proof (data_fails d x D) as F. set (i := data_text d ++ x) in *.
  rewrite update_eq. unfold update_body. unfold map at 1. unfold pair at 1. rewrite (no_prologue i N). unfold opt at 1. unfold pair at 1. rewrite (preceded_at sp update_stmt i i [] (sp_nil i S)).
  change (c_ ";") with 59. destruct (update_stmt i) as [r1 s|e] eqn:E.
  - destruct (proj1 (I _ _) eq_refl) as [-> R]. assert (NR : ~ data_refused d) by (intros X; apply F in X; destruct X as (p & k & X); rewrite E in X; discriminate X).
    split.
    + intros H. left. destruct (opt _ x) as [r2 o|[]] eqn:O; try discriminate H.
      * injection H as <- <-. eauto.
      * exfalso. unfold opt in O. destruct (preceded _ _ x) as [? ?|[]]; discriminate O.
    + intros [(s' & o & R' & O & ->)|[X _]]; [|contradiction]. rewrite O. destruct R as (q & Q & ->), R' as (q' & Q' & ->). rewrite Q in Q'. injection Q' as <-. reflexivity.
  - assert (NR : forall s, ~ data_reads d s) by (intros s R; assert (X : Err e = Ok x s) by (apply I; auto); discriminate X). split.
    + intros H. right. destruct e; try discriminate H. injection H as <- <-. split; [apply F; unfold fails; eauto|auto].
    + intros [(s' & o & R' & _)|(X & -> & ->)]; [now apply NR in R'|]. apply F in X. destruct X as (p & k & X). rewrite E in X. injection X as ->. reflexivity.
Qed.
Lemma update_no_error d x p k : data_ok d -> update (data_text d ++ x) <> Err (Error p k).
Proof.
  intros D H. destruct (data_starts d x D) as [_ N]. rewrite update_eq in H. unfold update_body in H. unfold map at 1 in H. unfold pair at 1 in H. rewrite (no_prologue _ N) in H.
  unfold opt at 1 in H. destruct (pair (preceded sp update_stmt) _ _) as [? ?|[]]; discriminate H.
Qed.
Lemma semi b b' y : blank b -> blank b' -> solid y -> preceded (sp_enc (chr 59)) update (b ++ 59 :: b' ++ y) = update y.
Proof.
  intros B B' S. eapply preceded_at. eapply delimited_ok; [apply sp_ok; [exact B|now apply char_solid]|apply chr_ok|now apply sp_ok].
Qed.
Lemma no_semi x : nxt (not_first 59) x -> fails (preceded (sp_enc (chr 59)) update) x.
Proof.
  intros (b & y & -> & B & S & N). apply preceded_fails1. eapply delimited_fails2; [apply sp_ok; eassumption|]. now apply chr_fails.
Qed.
Theorem request_iff l x r u : l <> [] -> Forall data_ok l -> nxt (not_first 59) x ->
  (update (request l x) = Ok r u <->
   exists l1 l2 ss, l = l1 ++ l2 /\ Forall2 data_reads l1 ss /\ match l2 with [] => True | d :: _ => data_refused d end /\
     r = request l2 x /\ u = request_tree ss (match l2 with [] => true | _ => false end)).
Proof.
  intros NE F X. revert r u. induction l as [|d l IH]; [congruence|]. intros r u. inversion F as [|d' l' D F']; subst. cbn [request]. rewrite (update_step d _ r u D). clear NE.
  destruct l as [|e l].
  - rewrite (opt_none _ _ (no_semi x X)). split.
    + intros [(s & o & R & E & ->)|(R & -> & ->)].
      * injection E as <- <-. exists [d], [], [s]. repeat split; auto.
      * exists [], [d], []. repeat split; auto.
    + intros (l1 & l2 & ss & E & R & Q & -> & ->). destruct l1 as [|d1 l1]; cbn [app] in E.
      * subst l2. inversion R; subst. right. auto.
      * injection E as <- E. symmetry in E. apply app_eq_nil in E. destruct E as [-> ->]. inversion R as [|? s ? ? R1 R2]; subst. inversion R2; subst. left. exists s, None. auto.
  - assert (S : solid (request (e :: l) x)). { inversion F' as [|? ? D' _]; subst. cbn [request]. now apply data_starts. }
    assert (B : blank (data_b3 d) /\ blank (data_b4 d)) by apply D. destruct B as [B3 B4].
    specialize (IH ltac:(discriminate) F'). set (y := request (e :: l) x) in *.
    assert (O : forall r o, opt (preceded (sp_enc (chr 59)) update) (data_b3 d ++ 59 :: data_b4 d ++ y) = Ok r o <-> exists v, update y = Ok r v /\ o = Some v).
    { intros r0 o. unfold opt. rewrite (semi _ _ _ B3 B4 S). destruct (update y) as [r1 v|[p k|p k| | |]] eqn:E; split; try discriminate.
      - intros H. injection H as <- <-. eauto.
      - intros (v' & H & ->). now injection H as <- <-.
      - intros _. exfalso. revert E. unfold y. cbn [request]. inversion F' as [|? ? D' _]; subst. now apply update_no_error.
      - intros (v' & H & _). discriminate H.
      - intros (v' & H & _). discriminate H.
      - intros (v' & H & _). discriminate H.
      - intros (v' & H & _). discriminate H.
      - intros (v' & H & _). discriminate H. }
    split.
    + intros [(s & o & R & E & ->)|(R & -> & ->)].
      * apply O in E. destruct E as (v & E & ->). apply IH in E. destruct E as (l1 & l2 & ss & E & RR & Q & -> & ->). exists (d :: l1), l2, (s :: ss). rewrite E. repeat split; auto.
        cbn [request_tree]. destruct ss as [|s' ss]; [|reflexivity]. inversion RR; subst. destruct l2; [discriminate E|reflexivity].
      * exists [], (d :: e :: l), []. repeat split; auto.
    + intros (l1 & l2 & ss & E & R & Q & -> & ->). destruct l1 as [|d1 l1]; cbn [app] in E.
      * subst l2. inversion R; subst. right. auto.
      * injection E as <- E. inversion R as [|? s ? ss' R1 R2]; subst. left. cbn [request_tree].
        exists s, (Some (request_tree ss' (match l2 with [] => true | _ => false end))). repeat split; auto.
        -- apply O. eexists. split; [|reflexivity]. apply IH. exists l1, l2, ss'. rewrite E. auto.
        -- destruct ss' as [|s' ss']; [|reflexivity]. inversion R2; subst. destruct l2; [discriminate E|reflexivity].
Qed.
Lemma request_cons d e l x : request (d :: e :: l) x = data_text d ++ data_b3 d ++ 59 :: data_b4 d ++ request (e :: l) x.
Proof. reflexivity. Qed.
Lemma request_longer d l x : data_ok d -> (length x < length (request (d :: l) x))%nat.
Proof.
  intros D. assert (N : (0 < length (data_text d))%nat).
  { unfold data_text. rewrite !app_length. destruct D as (_ & [_ N] & _). destruct (data_b1 d); [congruence|cbn [List.length]; lia]. }
  destruct l as [|e l]; [cbn [request]; rewrite app_length; lia|]. rewrite request_cons, !app_length. cbn [List.length]. rewrite app_length.
  enough (length x <= length (request (e :: l) x))%nat by lia. clear.
  revert e. induction l as [|f l IH]; intros e; [cbn [request]; rewrite app_length; lia|]. rewrite request_cons, !app_length. cbn [List.length]. rewrite app_length. specialize (IH f). lia.
Qed.
(** all of it is read exactly if every block is *)
Theorem request_whole l x : l <> [] -> Forall data_ok l -> nxt (not_first 59) x ->
  ((exists u, update (request l x) = Ok x u) <-> Forall (fun d => exists q, quads_pattern (data_block d) = Ok [] q) l).
Proof.
  intros NE F X. split.
  - intros (u & H). apply (request_iff l x x u NE F X) in H. destruct H as (l1 & l2 & ss & -> & R & Q & E & _). destruct l2 as [|d l2].
    + rewrite app_nil_r in *. clear - R. induction R as [|d s l1 ss (q & R & _) _ IH]; constructor; eauto.
    + exfalso. apply Forall_app in F. destruct F as [_ F]. inversion F; subst. pose proof (request_longer d l2 x) as L. rewrite <- E in L. specialize (L ltac:(assumption)). lia.
  - intros H. assert (R : exists ss, Forall2 data_reads l ss).
    { clear - H. induction H as [|d l (q & Q) _ (ss & IH)]; [exists []; constructor|]. exists (data_tree (data_of d) q :: ss). constructor; [exists q; auto|exact IH]. }
    destruct R as [ss R]. exists (request_tree ss true). apply request_iff; auto. exists l, [], ss. rewrite app_nil_r. auto.
Qed.
