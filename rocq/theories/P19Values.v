(** C19: inline data blocks. *)
From Verif Require Import LEx.
Open Scope list_scope.
Open Scope N_scope.

(** [W_datablock]: one variable and its values in braces, or variables in parentheses and rows in
    braces; any number of each, any blank text.  All rows and values are returned, in order. *)
Theorem C19_block : forall d t r, W_datablock d t r -> datablock (t ++ r) = Ok r d.
Proof. exact rd_datablock. Qed.
Print Assumptions C19_block.
Theorem C19_inline_data : forall d t r, W_values d t r -> inline_data (t ++ r) = Ok r d.
Proof. exact rd_values. Qed.
Print Assumptions C19_inline_data.
(** each value is read as the kind of value that is written *)
Theorem C19_value : forall v t r, W_value v t r -> datablock_value (t ++ r) = Ok r v.
Proof. exact rd_value. Qed.
Print Assumptions C19_value.
(** A block that is returned is written there. *)
Theorem C19_only : forall i r d, datablock i = Ok r d -> exists t, i = t ++ r /\ R_datablock d t.
Proof. exact sd_datablock. Qed.
Print Assumptions C19_only.

Example C19_example :
  let t := s_ "VALUES (?a $b) { (1 undef)
 ('x'@en <u> ) ( ) }" in let r := s_ " }" in
  let d := DbFull (MkInlineDataFull [QMark (s_ "a"); Dollar (s_ "b")]
    [ [DbvNumericLiteral (NInt 1); DbvUnDef];
      [DbvRdfLiteral (MkRdfLiteral (s_ "x") (Some (LangTag (s_ "en")))); DbvIri (IriIri (s_ "u"))]; [] ]) in
  W_values d t r /\ inline_data (t ++ r) = Ok r d.
Proof.
  cbv zeta. split; [|vm_compute; reflexivity].
  at_ 6%nat. at_ 1%nat. at_ 7%nat.
  { at_ 1%nat. at_ 0%nat. at_ 5%nat; [|leaf]. at_ 3%nat. { at_ 2%nat. leaf. } at_ 2%nat. { at_ 2%nat. leaf. } fin. leaf. }
  at_ 1%nat. at_ 1%nat. at_ 1%nat. at_ 29%nat; [|leaf].
  at_ 11%nat. { at_ 9%nat; [|leaf]. at_ 1%nat. at_ 0%nat. at_ 7%nat; [|leaf]. at_ 2%nat. { at_ 1%nat. leaf. } at_ 5%nat. { at_ 5%nat. leaf. } fin. leaf. }
  at_ 14%nat. { at_ 13%nat; [|leaf]. at_ 1%nat. at_ 0%nat. at_ 11%nat; [|leaf]. at_ 7%nat. { at_ 6%nat. leaf. } at_ 4%nat. { at_ 3%nat. leaf. } fin. leaf. }
  at_ 4%nat. { at_ 3%nat; [|leaf]. at_ 1%nat. at_ 1%nat. at_ 0%nat; [|leaf]. fin. leaf. }
  fin. leaf.
Qed.
Example C19_example_one : let t := s_ "?x{:aa true}" in
  let d := DbOneVar (MkInlineDataOneVar (QMark (s_ "x")) [DbvIri (IriPrefixedName (PnameLN None (s_ "aa"))); DbvBooleanLiteral true]) in
  W_datablock d t [] /\ datablock (t ++ []) = Ok [] d.
Proof.
  cbv zeta. split; [|vm_compute; reflexivity].
  at_ 2%nat. at_ 0%nat. at_ 1%nat. at_ 0%nat. at_ 8%nat; [|leaf].
  at_ 4%nat. { at_ 3%nat. leaf. } at_ 4%nat. { at_ 4%nat. leaf. } fin. leaf.
Qed.
