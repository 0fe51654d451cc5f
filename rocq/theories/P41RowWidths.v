(** C41: rows of a VALUES block have as many values as there are variables. *)
From Verif Require Import LFlags4.
Open Scope list_scope.

(** Refuted: for all numbers [n] and [m] there is a block with [n] variables and a row of [m] values that is
    read; *)
Theorem C41_widths_refuted : forall n m : nat, exists t vs row, List.length vs = n /\ List.length row = m /\
  datablock t = Ok [] (DbFull (MkInlineDataFull vs [row])).
Proof. exact any_widths. Qed.
Print Assumptions C41_widths_refuted.
(** and the values and variables do not matter: every list of variables goes with every list of rows. *)
Theorem C41_any_rows_refuted : forall vs rows, Forall wf_var vs -> Forall wf_values rows ->
  exists t, datablock t = Ok [] (DbFull (MkInlineDataFull vs rows)).
Proof. exact any_width. Qed.
Print Assumptions C41_any_rows_refuted.

Example C41_sample : datablock (s_ "(?x ?y){(1)(1 2 3)}") =
  Ok [] (DbFull (MkInlineDataFull [QMark (s_ "x"); QMark (s_ "y")]
    [[DbvNumericLiteral (NInt 1)]; [DbvNumericLiteral (NInt 1); DbvNumericLiteral (NInt 2); DbvNumericLiteral (NInt 3)]])).
Proof. vm_compute. reflexivity. Qed.
Example C41_hypotheses : Forall wf_var [QMark (s_ "x"); QMark (s_ "y")] /\ Forall wf_values [[DbvUnDef]; [DbvBooleanLiteral true; DbvUnDef; DbvUnDef]].
Proof. split; repeat constructor; discriminate. Qed.
