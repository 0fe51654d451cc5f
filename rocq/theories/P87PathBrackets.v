(** C87: brackets may be added around a path. *)
From Verif Require Import LMods LC8 LPathIn LEx2 LEx.
Open Scope list_scope.
Open Scope N_scope.

(** A path in any number of brackets is read up to the last one, with a bracketed element for each of them ([path_in]), exactly if the path inside is read up to the first closing one.
    [path_stop]: what follows does not go on with the path; it is no bar, and no modifier or non-ASCII character stands behind a blank. *)
Theorem C87_nested : forall n t x p, path_stop x ->
  (path_alternative (repeat 40 n ++ t ++ repeat 41 n ++ x) = Ok x (path_in n p) <-> path_alternative (t ++ repeat 41 n ++ x) = Ok (repeat 41 n ++ x) p).
Proof. exact paths_iff. Qed.
Print Assumptions C87_nested.
(** It can stand where the verb of a triple stands. *)
Theorem C87_verb : forall n t x p, path_stop x -> path_alternative (t ++ repeat 41 n ++ x) = Ok (repeat 41 n ++ x) p ->
  verb_path_or_simple (repeat 40 n ++ t ++ repeat 41 n ++ x) = Ok x (VpsPath (path_in n p)).
Proof. exact verb_paths. Qed.
Print Assumptions C87_verb.
(** Whatever follows: a path that starts with a bracket has, inside it, a path that is read by itself up to the closing bracket, and the tree starts with just that element. *)
Theorem C87_inside : forall i r p, path_alternative (40 :: i) = Ok r p -> exists k q m l, path_alternative i = Ok (41 :: k) q /\
  p = MkPathAlternative [MkPathSequence (PeiPathElt (MkPathElt (PpPath q) m) :: l)] /\ (m = None -> l = [] -> r = k).
Proof. exact path_less. Qed.
Print Assumptions C87_inside.

Example C87_read : exists p, path_alternative (s_ "<a> | ^<b>)) 1") = Ok (s_ ")) 1") p /\ path_alternative (s_ "((<a> | ^<b>)) 1") = Ok (s_ " 1") (path_in 2 p) /\ path_in 2 p <> p /\
  (exists e, path_alternative (s_ "((<a> | )) 1") = Err e).
Proof. eexists. split; [vm_compute; reflexivity|]. split; [vm_compute; reflexivity|]. split; [discriminate|]. eexists. vm_compute. reflexivity. Qed.
Example C87_stop : path_stop (s_ " 1").
Proof.
  assert (B : blank (s_ " ")) by now repeat constructor. split.
  - right. exists (s_ " "), (s_ "1"). split; [reflexivity|]. split; [split; [exact B|discriminate]|]. split; [now apply char_solid|]. exists 49, []. split; [reflexivity|]. split; [reflexivity|]. cbn. intros X. decompose [or] X; try discriminate; contradiction.
  - exists (s_ " "), (s_ "1"). split; [reflexivity|]. split; [exact B|]. split; [now apply char_solid|discriminate].
Qed.
Example C87_inside_used : exists r p, path_alternative (s_ "((<a>) +) | <b>") = Ok r p.
Proof. eexists _, _. vm_compute. reflexivity. Qed.
