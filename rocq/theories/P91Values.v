(** C91: the braces of VALUES are read alone. *)
From Verif Require Import LMods LC8 LValues2 LBlock4 LEx2 LEx.
Open Scope list_scope.
Open Scope N_scope.

(** VALUES with its variables ([W_columns]: one, or a list in brackets) and its braces: it is accepted in front of anything exactly if it is accepted by itself, with the same tree, and reading stops behind the braces. *)
Theorem C91_alone : forall c w b0 h b t, kw "values" w -> blank1 b0 -> (forall y, W_columns c h (b ++ 123 :: y)) -> blank b -> block t -> forall x r d,
  (inline_data (w ++ b0 ++ h ++ b ++ t ++ x) = Ok r d <-> r = x /\ inline_data (w ++ b0 ++ h ++ b ++ t) = Ok [] d).
Proof. exact values_iff. Qed.
Print Assumptions C91_alone.
(** The variables of the tree are those written, in their order, and its kind is theirs. *)
Theorem C91_columns : forall c w b0 h b t, kw "values" w -> blank1 b0 -> (forall y, W_columns c h (b ++ 123 :: y)) -> blank b -> block t -> forall x r d,
  inline_data (w ++ b0 ++ h ++ b ++ t ++ x) = Ok r d ->
  match c with OneColumn v => exists l, d = DbOneVar (MkInlineDataOneVar v l) | Columns vs => exists l, d = DbFull (MkInlineDataFull vs l) end.
Proof. exact values_columns. Qed.
Print Assumptions C91_columns.
(** What is in the braces does not depend on the name of the variable, ... *)
Theorem C91_one_name : forall v v' w b0 h b w' b0' h' b' t x x' l, kw "values" w -> blank1 b0 -> (forall y, W_columns (OneColumn v) h (b ++ 123 :: y)) -> blank b ->
  kw "values" w' -> blank1 b0' -> (forall y, W_columns (OneColumn v') h' (b' ++ 123 :: y)) -> blank b' -> block t ->
  (inline_data (w ++ b0 ++ h ++ b ++ t ++ x) = Ok x (DbOneVar (MkInlineDataOneVar v l)) <->
   inline_data (w' ++ b0' ++ h' ++ b' ++ t ++ x') = Ok x' (DbOneVar (MkInlineDataOneVar v' l))).
Proof. exact values_one_names. Qed.
Print Assumptions C91_one_name.
(** ... nor on the names in the brackets, nor on how many there are (see C41). *)
Theorem C91_names : forall vs vs' w b0 h b w' b0' h' b' t x x' l, kw "values" w -> blank1 b0 -> (forall y, W_columns (Columns vs) h (b ++ 123 :: y)) -> blank b ->
  kw "values" w' -> blank1 b0' -> (forall y, W_columns (Columns vs') h' (b' ++ 123 :: y)) -> blank b' -> block t ->
  (inline_data (w ++ b0 ++ h ++ b ++ t ++ x) = Ok x (DbFull (MkInlineDataFull vs l)) <->
   inline_data (w' ++ b0' ++ h' ++ b' ++ t ++ x') = Ok x' (DbFull (MkInlineDataFull vs' l))).
Proof. exact values_full_names. Qed.
Print Assumptions C91_names.

Example C91_one : (forall y, W_columns (OneColumn (QMark (s_ "x"))) (s_ "?x") (s_ " " ++ 123 :: y)) /\ block (s_ "{ 1 UNDEF }") /\
  exists l, inline_data (s_ "VALUES ?x { 1 UNDEF } .") = Ok (s_ " .") (DbOneVar (MkInlineDataOneVar (QMark (s_ "x")) l)) /\ inline_data (s_ "values $y{ 1 UNDEF }") = Ok [] (DbOneVar (MkInlineDataOneVar (Dollar (s_ "y")) l)).
Proof.
  split; [|split; [apply block_b_ok; vm_compute; reflexivity|eexists; split; vm_compute; reflexivity]].
  intros y. assert (V : W_var (QMark (s_ "x")) (s_ "?x") (s_ " {")) by (texts; lay). destruct V as [V _]. split; [exact V|reflexivity].
Qed.
Example C91_full : (forall y, W_columns (Columns [QMark (s_ "x"); Dollar (s_ "y")]) (s_ "(?x $y)") (s_ " " ++ 123 :: y)) /\ block (s_ "{ (1 2) (3 UNDEF) }") /\
  exists l, inline_data (s_ "VALUES (?x $y) { (1 2) (3 UNDEF) } .") = Ok (s_ " .") (DbFull (MkInlineDataFull [QMark (s_ "x"); Dollar (s_ "y")] l)) /\
    inline_data (s_ "VALUES (){ (1 2) (3 UNDEF) }") = Ok [] (DbFull (MkInlineDataFull [] l)).
Proof.
  split; [|split; [apply block_b_ok; vm_compute; reflexivity|eexists; split; vm_compute; reflexivity]].
  intros y. cbn [W_columns manyW].
  assert (V : W_var (QMark (s_ "x")) (s_ "?x") (s_ " ")) by (texts; lay). assert (V' : W_var (Dollar (s_ "y")) (s_ "$y") (s_ ")")) by (texts; lay). destruct V as [V _], V' as [V' _].
  exists (s_ "("), (s_ "?x $y)"). split; [reflexivity|]. split; [reflexivity|]. exists [], (s_ "?x $y)"). split; [reflexivity|]. split; [split; [constructor|now apply char_solid]|].
  exists (s_ "?x $y"), (s_ ")"). split; [reflexivity|]. split; [|reflexivity].
  exists (s_ "?x "), (s_ "$y"). split; [reflexivity|]. split.
  - exists (s_ "?x"), (s_ " "). split; [reflexivity|]. split; [split; [exact V|reflexivity]|]. split; [now repeat constructor|now apply char_solid].
  - exists (s_ "$y"), []. split; [reflexivity|]. split; [|split; [reflexivity|now eexists]].
    exists (s_ "$y"), []. split; [reflexivity|]. split; [split; [exact V'|reflexivity]|]. split; [constructor|now apply char_solid].
Qed.
Example C91_refused : (exists e, inline_data (s_ "VALUES ?x { (1) }") = Err e) /\ exists e, inline_data (s_ "VALUES (?x) { 1 } .") = Err e.
Proof. split; eexists; vm_compute; reflexivity. Qed.
