(** Writing out again what was read. *)
From Verif Require Import LMods SpecDepth LDepth2.
From Verif Require Export LPrintEx2 LTame3.
Notation length := List.length (only parsing).
Open Scope N_scope.
Open Scope list_scope.

Lemma reprint_same n i r q i' r' q' w x : sparql_query_stmt i = Ok r q -> sparql_query_stmt i' = Ok r' q' -> docile q -> docile q' ->
  casing w -> blank1 x -> (2 * openings i + 2 <= n)%nat -> (2 * openings i' + 2 <= n)%nat -> (print w x n q = print w x n q' <-> q = q').
Proof.
  intros H H' D D' Hw Hx L L'. split; [|now intros ->]. intros E.
  destruct (print_read w Hw (MkBlanks x Hx) n q (returned_printable_at n i r q H D L)) as (b & _ & X).
  destruct (print_read w Hw (MkBlanks x Hx) n q' (returned_printable_at n i' r' q' H' D' L')) as (b' & _ & Y). cbn [btext] in *. congruence.
Qed.
Lemma tame_expression_s n : tame_expression (S n) = expression_tame (tame_expression n) (tame_ggp n).
Proof. unfold tame_expression, tame_ggp. cbn [tames]. now destruct (tames n). Qed.
Lemma tame_ggp_s n : tame_ggp (S n) = ggp_tame (tame_expression n) (tame_ggp n).
Proof. unfold tame_expression, tame_ggp. cbn [tames]. now destruct (tames n). Qed.
Ltac gentle := repeat first
  [ exact I
  | match goal with
    | |- tame_expression 0 _ => exact I
    | |- tame_ggp 0 _ => exact I
    | |- tame_expression (S _) _ => rewrite tame_expression_s
    | |- tame_ggp (S _) _ => rewrite tame_ggp_s
    | |- _ /\ _ => split
    | |- _ -> _ => intros ?; try discriminate
    | |- Forall _ [] => constructor
    | |- Forall _ (_ :: _) => constructor
    | |- plain_start _ => eexists _, _; split; [vm_compute; reflexivity|split; [reflexivity|vm_compute; intuition discriminate]]
    | |- tame_path _ => apply (tame_path_intro tame_path); [trivial|]
    | |- no_kelvin_sign _ => vm_compute; intuition discriminate
    | |- not_first _ _ => vm_compute; discriminate
    | |- _ = _ => reflexivity
    end
  | progress cbn -[pr_props_path pr_props pr_objects pr_objects_path pr_num pr_iri tame_expression tame_ggp plain_start not_first no_kelvin_sign]
  | progress hnf ].
Lemma sample_docile : docile sample.
Proof. intros n. unfold sample, tame, tame_query, tamem. do 4 (destruct n as [|n]; [gentle|]). gentle. Qed.
Lemma updates_docile : docile_update updates_sample.
Proof. intros n. unfold updates_sample. do 4 (destruct n as [|n]; [gentle|]). gentle. Qed.
