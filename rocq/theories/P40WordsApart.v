(** C40: adjacent words have to be separated. *)
From Verif Require Import LFlags4.
Open Scope list_scope.

(** Refuted: keywords and literals are read as prefixes, so that any sequence of the words [true], [false]
    and [undef] written together is read as that many values. *)
Theorem C40_run_together_refuted : forall l : list (option bool),
  datablock (s_ "?x{" ++ flat_map (fun o => s_ match o with Some true => "true" | Some false => "false" | None => "undef" end) l ++ s_ "}") =
  Ok [] (DbOneVar (MkInlineDataOneVar (QMark (s_ "x"))
    (List.map (fun o => match o with Some b => DbvBooleanLiteral b | None => DbvUnDef end) l))).
Proof. exact words_block. Qed.
Print Assumptions C40_run_together_refuted.

Example C40_sample : datablock (s_ "?x{trueundeffalse}") =
  Ok [] (DbOneVar (MkInlineDataOneVar (QMark (s_ "x")) [DbvBooleanLiteral true; DbvUnDef; DbvBooleanLiteral false])).
Proof. vm_compute. reflexivity. Qed.
