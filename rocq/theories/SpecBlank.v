(** Specification side: texts that differ in their blanks only, and what that does to a tree.

    This file does not mention the parsers. *)
From Verif Require Export SpecLeaves.
Open Scope N_scope.
Open Scope list_scope.

Definition line_end (c : N) : bool := (c =? 10) || (c =? 13).
(** [h]: there is a [#] earlier on the line *)
Definition hash (h : bool) (c : N) : bool := if c =? 35 then true else if line_end c then false else h.
(** spaces, tabs and line ends; the end of a line with a [#] on it is not one of them, it might end a comment *)
Definition gap (h : bool) (c : N) : bool := (c =? 32) || (c =? 9) || (negb h && line_end c).
(** every run of such characters replaced by one space; [after]: a run has just been replaced *)
Fixpoint squeeze_from (h after : bool) (i : str) : str :=
  match i with
  | [] => []
  | c :: r => if gap h c then (if after then [] else [32]) ++ squeeze_from h true r else c :: squeeze_from (hash h c) false r
  end.
Definition squeeze (i : str) : str := squeeze_from false false i.
(** the same without regard to [#] *)
Fixpoint flat_from (after : bool) (i : str) : str :=
  match i with
  | [] => []
  | c :: r => if gap false c then (if after then [] else [32]) ++ flat_from true r else c :: flat_from false r
  end.
Definition flat (i : str) : str := flat_from false i.

(** two pieces of a tree that differ in runs of blanks only *)
Definition leaf_spaced (x y : leaf) : Prop :=
  match x, y with Name k s, Name k' t => k = k' /\ flat s = flat t | _, _ => x = y end.
(** two trees whose names and literals, listed by [L], differ in runs of blanks only and which are otherwise equal *)
Definition tree_spaced {A} (L : nat -> A -> list leaf) (a a' : A) : Prop :=
  (forall n, Forall2 leaf_spaced (L n a) (L n a')) /\ ((forall n, L n a = L n a') -> a = a').
