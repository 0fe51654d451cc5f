(** Specification side: texts that differ in the case of letters only, and what that does to a tree.

    This file does not mention the parsers. *)
From Verif Require Export SpecLeaves.
Open Scope N_scope.
Open Scope list_scope.

Definition capital (c : N) : Prop := 65 <= c /\ c <= 90.
(** the same character, or the capital and the small form of the same ASCII letter *)
Definition alike (c d : N) : Prop := c = d \/ (capital c /\ d = c + 32) \/ (capital d /\ c = d + 32).
(** ASCII letters, digits and the underscore *)
Definition wordish (c : N) : bool :=
  ((65 <=? c) && (c <=? 90)) || ((97 <=? c) && (c <=? 122)) || ((48 <=? c) && (c <=? 57)) || (c =? 95).
Definition starts_word (i : str) : bool := match i with c :: _ => wordish c | [] => false end.
Definition ends_word (prev : option N) : bool := match prev with Some c => wordish c | None => false end.
Definition letter_a (c : N) : Prop := c = 97 \/ c = 65.

(** [recased prev i j]: [j] is [i] with the case of some letters changed, [prev] being the character in front of both.
    A letter after a backslash is not changed (it is part of an escape), nor is the letter [a] standing alone (it is
    the verb of that name, which is case-sensitive). *)
Fixpoint recased (prev : option N) (i j : str) : Prop :=
  match i, j with
  | [], [] => True
  | c :: i', d :: j' =>
      alike c d /\
      (c <> d -> prev <> Some 92 /\ (letter_a c -> ends_word prev = true \/ starts_word i' = true)) /\
      recased (Some c) i' j'
  | _, _ => False
  end.

(** two pieces of a tree that differ in the case of letters only *)
Definition leaf_alike (x y : leaf) : Prop :=
  match x, y with Name k s, Name k' t => k = k' /\ Forall2 alike s t | _, _ => x = y end.
(** two trees whose names and literals, listed by [L], differ in the case of letters only and which are otherwise equal *)
Definition tree_alike {A} (L : nat -> A -> list leaf) (a a' : A) : Prop :=
  (forall n, Forall2 leaf_alike (L n a) (L n a')) /\ ((forall n, L n a = L n a') -> a = a').
