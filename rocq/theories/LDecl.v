(** Declarations do not change how the rest of a text is read. *)
From Verif Require Import LMods LC8.
From Verif Require Export LEither.
From Verif Require Import Nom.
Notation length := List.length (only parsing).
Open Scope N_scope.
Open Scope list_scope.

Definition declare (p : Prologue) (x : res SparqlQueryStatement) : res SparqlQueryStatement :=
  match x with Ok r (MkSparqlQueryStatement _ q v) => Ok r (MkSparqlQueryStatement p q v) | Err e => Err e end.

Lemma no_prologue j : no_decl j -> prologue j = Ok j (MkPrologue []).
Proof. intros D. apply (rd_prologue (MkPrologue []) [] j). split; [reflexivity|exact D]. Qed.
Lemma stmt_at p i r1 b j : prologue i = Ok r1 p -> sp r1 = Ok j b ->
  sparql_query_stmt i = match pair sparql_query (opt (preceded sp1 (preceded_tag1 (s_ "values") datablock))) j with Ok r (q, v) => Ok r (MkSparqlQueryStatement p q v) | Err e => Err e end.
Proof.
  intros E S. unfold sparql_query_stmt, tuple3. unfold map at 1. unfold pair at 1. rewrite (terminated_ok _ _ _ _ _ _ _ E S).
  destruct (pair sparql_query _ j) as [r [q v]|e]; reflexivity.
Qed.
Lemma query_declared p t b j : W_prologue p t (b ++ j) -> blank b -> solid j -> no_decl j -> sparql_query_stmt (t ++ b ++ j) = declare p (sparql_query_stmt j).
Proof.
  intros H B S D. rewrite (stmt_at p _ _ _ _ (rd_prologue p t _ H) (sp_ok b j B S)), (stmt_at _ _ _ _ _ (no_prologue j D) (sp_nil j S)).
  destruct (pair sparql_query _ j) as [r [q v]|e]; reflexivity.
Qed.
Lemma form_no_decl q j : begins (form_word q) j -> no_decl j.
Proof. intros B. split; intros X; revert B X; destruct q; apply begins_differ; reflexivity. Qed.
Lemma query_undeclared i r p q v : sparql_query_stmt i = Ok r (MkSparqlQueryStatement p q v) ->
  exists t b j, i = t ++ b ++ j /\ R_prologue p t /\ blank b /\ sparql_query_stmt j = Ok r (MkSparqlQueryStatement (MkPrologue []) q v).
Proof.
  intros E. pose proof E as E0. apply map_inv in E. destruct E as ([p' [q' v']] & E & X). injection X as -> -> ->. apply pair_inv in E. destruct E as (j & E1 & E2).
  pose proof E2 as E3. apply pair_inv in E3. destruct E3 as (k & E3 & _). apply query_form in E3. apply terminated_inv in E1. destruct E1 as (r1 & b & E1 & S).
  pose proof (sd_prologue _ _ _ E1) as (t & -> & Ht). pose proof (sd_sp _ _ _ S) as (b' & -> & Hb). exists t, b', j.
  split; [reflexivity|]. split; [exact Ht|]. split; [exact Hb|].
  assert (SJ : solid j). { apply (begins_solid (form_word q)); [destruct q; reflexivity|exact E3]. }
  rewrite (stmt_at _ _ _ _ _ (no_prologue j (form_no_decl q j E3)) (sp_nil j SJ)). rewrite E2. reflexivity.
Qed.

(** ** Requests *)
Lemma preceded_at {A B} (p : parser A) (q : parser B) i j a : p i = Ok j a -> preceded p q i = q j.
Proof. intros E. unfold preceded, map, pair. rewrite E. destruct (q j); reflexivity. Qed.
Lemma stmt_no_decl j r s : update_stmt j = Ok r s -> no_decl j /\ solid j.
Proof.
  intros H. apply update_keys in H. destruct H as (k & I & B). destruct s; cbn [stmt_keys In] in I;
    repeat (destruct I as [<-|I]; [split; [split; intros X; revert B X; apply begins_differ; reflexivity|revert B; apply begins_solid; reflexivity]|]); destruct I.
Qed.
Lemma update_at p i r1 b j r s u : prologue i = Ok r1 p -> sp r1 = Ok j b ->
  (update i = Ok r (MkUpdate p (Some s) u) <-> pair update_stmt (opt (preceded (sp_enc (chr (c_ ";"))) update)) j = Ok r (s, u)).
Proof.
  intros E S. rewrite update_eq. unfold update_body. unfold map at 1. unfold pair at 1. rewrite E. unfold opt at 1. unfold pair at 1. rewrite (preceded_at sp update_stmt r1 j b S).
  unfold pair at 1. destruct (update_stmt j) as [r2 s2|[]]; try (split; intros X; discriminate X).
  destruct (opt _ r2) as [r3 u3|[]]; (split; intros X; try discriminate X; injection X as <- <- <-; reflexivity).
Qed.
Lemma update_declared p t b j r s u : W_prologue p t (b ++ j) -> blank b -> solid j -> no_decl j ->
  (update (t ++ b ++ j) = Ok r (MkUpdate p (Some s) u) <-> update j = Ok r (MkUpdate (MkPrologue []) (Some s) u)).
Proof.
  intros H B S D. rewrite (update_at p _ _ _ _ r s u (rd_prologue p t _ H) (sp_ok b j B S)), (update_at _ _ _ _ _ r s u (no_prologue j D) (sp_nil j S)). reflexivity.
Qed.
Lemma update_undeclared i r p s u : update i = Ok r (MkUpdate p (Some s) u) ->
  exists t b j, i = t ++ b ++ j /\ R_prologue p t /\ blank b /\ update j = Ok r (MkUpdate (MkPrologue []) (Some s) u).
Proof.
  intros E. pose proof E as E0. rewrite update_eq in E0. apply map_inv in E0. destruct E0 as ([p' o] & E0 & X). apply pair_inv in E0. destruct E0 as (r1 & E1 & E2).
  destruct o as [[s' u']|]; [|discriminate X]. injection X as -> -> ->. destruct (sp r1) as [j b|e] eqn:S.
  2:{ exfalso. unfold opt, pair, preceded, map, pair in E2. rewrite S in E2. destruct e; discriminate E2. }
  apply (update_at _ _ _ _ _ r s u E1 S) in E. pose proof E as E3. apply pair_inv in E3. destruct E3 as (k & E3 & _). apply stmt_no_decl in E3. destruct E3 as [D SJ].
  pose proof (sd_prologue _ _ _ E1) as (t & -> & Ht). pose proof (sd_sp _ _ _ S) as (b' & -> & Hb). exists t, b', j.
  split; [reflexivity|]. split; [exact Ht|]. split; [exact Hb|]. now apply (update_at _ _ _ _ _ r s u (no_prologue j D) (sp_nil j SJ)).
Qed.
