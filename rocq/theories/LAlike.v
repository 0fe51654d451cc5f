(** Statements with the same arguments are read alike. *)
From Verif Require Import LMods LC8.
From Verif Require Export LTmpl.
From Verif Require Import Nom.
Notation length := List.length (only parsing).
Open Scope N_scope.
Open Scope list_scope.

Lemma word_at k w b j : low_ascii (s_ k) = true -> kw k w -> blank1 b -> solid j -> exists y, pair (tag_no_case (s_ k)) sp1 (w ++ b ++ j) = Ok j y.
Proof.
  intros L K B S. destruct (kw_sp1 k L (w ++ b) j) as [y E]; [exists w, b; split; [reflexivity|split; [exact K|split; assumption]]|].
  rewrite <- app_assoc in E. eauto.
Qed.
Lemma word_stmt_at {A} k (p : parser A) w b j : low_ascii (s_ k) = true -> kw k w -> blank1 b -> solid j ->
  stmt (s_ k) p (w ++ b ++ j) = p j.
Proof.
  intros L K B S. destruct (word_at k w b j L K B S) as [y E]. unfold stmt, map. unfold pair at 1. rewrite E. destruct (p j); reflexivity.
Qed.
Lemma tag1_at {A} k (p : parser A) w b j : low_ascii (s_ k) = true -> kw k w -> blank1 b -> solid j -> preceded_tag1 (s_ k) p (w ++ b ++ j) = p j.
Proof.
  intros L K B S. destruct (word_at k w b j L K B S) as [[y1 y2] E]. apply pair_inv in E. destruct E as (i & E1 & E2).
  unfold preceded_tag1, preceded. unfold map at 1. unfold pair at 1. rewrite (terminated_ok _ _ _ _ _ _ _ E1 E2). destruct (p j); reflexivity.
Qed.

Lemma off k k' w j : kw k' w -> low_ascii (s_ k) = true -> low_ascii (s_ k') = true -> differ (s_ k') (s_ k) = true -> fails (tag_no_case (s_ k)) (w ++ j).
Proof. intros K L L' D. now apply (nf_kw k k' L L' D w j). Qed.
Ltac skip K := apply alt_next; [apply map_fails; repeat first [apply map_fails | apply pair_fails1 | apply preceded_fails1 | apply terminated_fails1]; eapply off; [exact K|reflexivity..]|].
Ltac pick H := apply alt_inv in H; let p := fresh "p" in let Hp := fresh "Hp" in destruct H as (p & Hp & H);
  destruct Hp as [<-|[<-|[<-|[<-|[<-|[<-|[<-|[<-|[<-|[]]]]]]]]]]; apply map_inv in H; let x := fresh "x" in let X := fresh "X" in destruct H as (x & H & X); try discriminate X; injection X as ->.
Section Words.
  Variables (w b j : str).
  Hypotheses (B : blank1 b) (S : solid j).
  Lemma clear_at r s g : kw "clear" w -> (update_stmt (w ++ b ++ j) = Ok r (UsClear (MkClear s g)) <-> silent_graph_ref_all j = Ok r (s, g)).
  Proof.
    intros K. split; intros H.
    - pick H. apply map_inv in H. destruct H as ([s' g'] & H & X). injection X as -> ->. now rewrite (word_stmt_at "clear") in H by auto.
    - skip K. apply alt_first. eapply map_ok; [|reflexivity]. apply (map_ok _ _ _ _ (s, g)); [|reflexivity]. now rewrite (word_stmt_at "clear") by auto.
  Qed.
  Lemma drop_at r s g : kw "drop" w -> (update_stmt (w ++ b ++ j) = Ok r (UsDrop (MkDrop s g)) <-> silent_graph_ref_all j = Ok r (s, g)).
  Proof.
    intros K. split; intros H.
    - pick H. apply map_inv in H. destruct H as ([s' g'] & H & X). injection X as -> ->. now rewrite (word_stmt_at "drop") in H by auto.
    - do 2 (skip K). apply alt_first. eapply map_ok; [|reflexivity]. apply (map_ok _ _ _ _ (s, g)); [|reflexivity]. now rewrite (word_stmt_at "drop") by auto.
  Qed.
  Lemma add_at r s f g : kw "add" w -> (add_stmt (w ++ b ++ j) = Ok r (MkAdd s f g) <-> silent_from_to j = Ok r (s, (f, g))).
  Proof.
    intros K. split; intros H.
    - apply map_inv in H. destruct H as ([s' [f' g']] & H & X). injection X as -> -> ->. now rewrite (word_stmt_at "add") in H by auto.
    - apply (map_ok _ _ _ _ (s, (f, g))); [|reflexivity]. now rewrite (word_stmt_at "add") by auto.
  Qed.
  Lemma move_at r s f g : kw "move" w -> (move_stmt (w ++ b ++ j) = Ok r (MkMove s f g) <-> silent_from_to j = Ok r (s, (f, g))).
  Proof.
    intros K. split; intros H.
    - apply map_inv in H. destruct H as ([s' [f' g']] & H & X). injection X as -> -> ->. now rewrite (word_stmt_at "move") in H by auto.
    - apply (map_ok _ _ _ _ (s, (f, g))); [|reflexivity]. now rewrite (word_stmt_at "move") by auto.
  Qed.
  Lemma copy_at r s f g : kw "copy" w -> (update_stmt (w ++ b ++ j) = Ok r (UsCopy (MkCopy s f g)) <-> silent_from_to j = Ok r (s, (f, g))).
  Proof.
    intros K. split; intros H.
    - pick H. apply map_inv in H. destruct H as ([s' [f' g']] & H & X). injection X as -> -> ->. now rewrite (word_stmt_at "copy") in H by auto.
    - do 4 (skip K). apply alt_first. eapply map_ok; [|reflexivity]. apply (map_ok _ _ _ _ (s, (f, g))); [|reflexivity]. now rewrite (word_stmt_at "copy") by auto.
  Qed.
  Variables (w' b' : str).
  Hypotheses (B' : blank1 b').
  Lemma word_solid k : word_like k = true -> kw k w -> solid (w ++ b ++ j).
  Proof. intros L K. apply (begins_solid k); [exact L|]. exists w, (b ++ j). auto. Qed.
  Lemma insert_data_at r q : kw "insert" w' -> kw "data" w -> (update_stmt (w' ++ b' ++ w ++ b ++ j) = Ok r (UsInsertData q) <-> quads_pattern j = Ok r q).
  Proof.
    intros K' K. pose proof (word_solid "data" eq_refl K) as S'. split; intros H.
    - pick H. unfold insert_data in H. rewrite (tag1_at "insert") in H by auto. now rewrite (tag1_at "data") in H by auto.
    - do 5 (skip K'). apply alt_first. eapply map_ok; [|reflexivity]. unfold insert_data. rewrite (tag1_at "insert") by auto. now rewrite (tag1_at "data") by auto.
  Qed.
  Lemma delete_data_at r q : kw "delete" w' -> kw "data" w -> (update_stmt (w' ++ b' ++ w ++ b ++ j) = Ok r (UsDeleteData q) <-> quads_pattern j = Ok r q).
  Proof.
    intros K' K. pose proof (word_solid "data" eq_refl K) as S'. split; intros H.
    - pick H. unfold delete_data in H. rewrite (tag1_at "delete") in H by auto. now rewrite (tag1_at "data") in H by auto.
    - do 6 (skip K'). apply alt_first. eapply map_ok; [|reflexivity]. unfold delete_data. rewrite (tag1_at "delete") by auto. now rewrite (tag1_at "data") by auto.
  Qed.
  Lemma delete_where_at r q : kw "delete" w' -> kw "where" w -> (update_stmt (w' ++ b' ++ w ++ b ++ j) = Ok r (UsDeleteWhere q) <-> quads_pattern j = Ok r q).
  Proof.
    intros K' K. pose proof (word_solid "where" eq_refl K) as S'. split; intros H.
    - pick H. unfold delete_where_data in H. rewrite (tag1_at "delete") in H by auto. now rewrite (tag1_at "where") in H by auto.
    - do 6 (skip K'). apply alt_next.
      { apply map_fails. unfold fails, delete_data. rewrite (tag1_at "delete") by auto. apply preceded_fails1, terminated_fails1. eapply off; [exact K|reflexivity..]. }
      apply alt_first. eapply map_ok; [|reflexivity]. unfold delete_where_data. rewrite (tag1_at "delete") by auto. now rewrite (tag1_at "where") by auto.
  Qed.
End Words.

Lemma clear_drop w1 b1 w2 b2 j r s g : kw "clear" w1 -> blank1 b1 -> kw "drop" w2 -> blank1 b2 -> solid j ->
  (update_stmt (w1 ++ b1 ++ j) = Ok r (UsClear (MkClear s g)) <-> update_stmt (w2 ++ b2 ++ j) = Ok r (UsDrop (MkDrop s g))).
Proof. intros. rewrite clear_at by assumption. rewrite drop_at by assumption. reflexivity. Qed.
Lemma add_copy w1 b1 w2 b2 j r s f g : kw "add" w1 -> blank1 b1 -> kw "copy" w2 -> blank1 b2 -> solid j ->
  (add_stmt (w1 ++ b1 ++ j) = Ok r (MkAdd s f g) <-> update_stmt (w2 ++ b2 ++ j) = Ok r (UsCopy (MkCopy s f g))).
Proof. intros. rewrite add_at by assumption. rewrite copy_at by assumption. reflexivity. Qed.
Lemma move_copy w1 b1 w2 b2 j r s f g : kw "move" w1 -> blank1 b1 -> kw "copy" w2 -> blank1 b2 -> solid j ->
  (move_stmt (w1 ++ b1 ++ j) = Ok r (MkMove s f g) <-> update_stmt (w2 ++ b2 ++ j) = Ok r (UsCopy (MkCopy s f g))).
Proof. intros. rewrite move_at by assumption. rewrite copy_at by assumption. reflexivity. Qed.
Lemma insert_delete w1 b1 w2 b2 w3 b3 w4 b4 j r q : kw "insert" w1 -> blank1 b1 -> kw "data" w2 -> blank1 b2 ->
  kw "delete" w3 -> blank1 b3 -> kw "data" w4 -> blank1 b4 -> solid j ->
  (update_stmt (w1 ++ b1 ++ w2 ++ b2 ++ j) = Ok r (UsInsertData q) <-> update_stmt (w3 ++ b3 ++ w4 ++ b4 ++ j) = Ok r (UsDeleteData q)).
Proof. intros. rewrite insert_data_at by assumption. rewrite delete_data_at by assumption. reflexivity. Qed.
Lemma insert_delete_where w1 b1 w2 b2 w3 b3 w4 b4 j r q : kw "insert" w1 -> blank1 b1 -> kw "data" w2 -> blank1 b2 ->
  kw "delete" w3 -> blank1 b3 -> kw "where" w4 -> blank1 b4 -> solid j ->
  (update_stmt (w1 ++ b1 ++ w2 ++ b2 ++ j) = Ok r (UsInsertData q) <-> update_stmt (w3 ++ b3 ++ w4 ++ b4 ++ j) = Ok r (UsDeleteWhere q)).
Proof. intros. rewrite insert_data_at by assumption. rewrite delete_where_at by assumption. reflexivity. Qed.
