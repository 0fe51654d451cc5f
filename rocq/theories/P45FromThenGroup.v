(** C45: a dataset clause may be followed directly by the group. *)
From Verif Require Import LFlags4.
Open Scope list_scope.
Open Scope N_scope.

(** Refuted: a FROM clause directly followed by something that is not blank is rejected, with the whole
    list of clauses; *)
Theorem C45_clauses_refuted : forall d t r, W_dataset d t r -> solid r -> fails (separated_list sp data_set_clause) (t ++ r).
Proof. exact dataset_stuck. Qed.
Print Assumptions C45_clauses_refuted.
(** so no [ASK FROM <g>{ ... }] is read. *)
Theorem C45_ask_refuted : forall w b d t x r q, kw "ask" w -> blank1 b -> W_dataset d t (123 :: x) ->
  ask_query (w ++ b ++ t ++ 123 :: x) <> Ok r q.
Proof. exact ask_glued. Qed.
Print Assumptions C45_ask_refuted.

Example C45_sample :
  (exists e, ask_query (s_ "ASK FROM <g>{}") = Err e) /\ (exists q, ask_query (s_ "ASK FROM <g> {}") = Ok [] q).
Proof. repeat split; eexists; vm_compute; reflexivity. Qed.
Example C45_hypotheses : W_dataset (DonNamed (IriIri (s_ "g"))) (s_ "FROM NAMED <g>") (s_ "{}") /\ solid (s_ "{}").
Proof.
  split; [|split; [cbn; intuition discriminate|discriminate]].
  exists (s_ "FROM"), (s_ " NAMED <g>"). split; [reflexivity|]. split; [reflexivity|]. exists (s_ " "), (s_ "NAMED <g>"). split; [reflexivity|].
  split; [split; [split; [apply blank_space; [now left|constructor]|discriminate]|split; [cbn; intuition discriminate|discriminate]]|].
  exists (s_ "NAMED"), (s_ " <g>"). split; [reflexivity|]. split; [reflexivity|]. exists (s_ " "), (s_ "<g>"). split; [reflexivity|].
  split; [split; [split; [apply blank_space; [now left|constructor]|discriminate]|split; [cbn; intuition discriminate|discriminate]]|].
  split; [reflexivity|repeat constructor].
Qed.
