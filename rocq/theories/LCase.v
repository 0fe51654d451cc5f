(** Keywords in any letter case. *)
From Verif Require Export LMods.
Notation length := List.length (only parsing).
Open Scope N_scope.
Open Scope list_scope.

Lemma tag_case {A} k (p : parser A) t t' x : low_ascii (s_ k) = true -> kw k t -> kw k t' ->
  preceded_tag (s_ k) p (t ++ x) = preceded_tag (s_ k) p (t' ++ x).
Proof.
  intros K H H'. pose proof (tnc_ok (s_ k) t x K H) as E. pose proof (tnc_ok (s_ k) t' x K H') as E'.
  cbv beta delta [preceded_tag preceded terminated Nom.map Nom.pair]. rewrite E, E'.
  destruct (sp x) as [y b|e]; [|reflexivity]. cbn [fst]. destruct (p y); reflexivity.
Qed.
Lemma tag1_case {A} k (p : parser A) t t' x : low_ascii (s_ k) = true -> kw k t -> kw k t' ->
  preceded_tag1 (s_ k) p (t ++ x) = preceded_tag1 (s_ k) p (t' ++ x).
Proof.
  intros K H H'. pose proof (tnc_ok (s_ k) t x K H) as E. pose proof (tnc_ok (s_ k) t' x K H') as E'.
  cbv beta delta [preceded_tag1 preceded terminated Nom.map Nom.pair]. rewrite E, E'.
  destruct (sp1 x) as [y b|e]; [|reflexivity]. cbn [fst]. destruct (p y); reflexivity.
Qed.
