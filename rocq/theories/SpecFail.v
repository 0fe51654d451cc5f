(** Specification side: where a hard failure points.

    [spot i pos k]: the text [i] has, right in front of its suffix [pos],
    - an opening parenthesis or bracket and blanks, and [pos] does not start with a blank or with the closing one, or
    - a digit or a dot, the letter of an exponent and perhaps a sign, and [pos] does not start with a digit (nor with a
      sign if there was none).
    The kind is the one of the character that was expected. *)
From Verif Require Export Layout Nom.
Open Scope N_scope.
Open Scope list_scope.

Definition unclosed (o c : char) (i pos : str) : Prop :=
  exists t b, i = t ++ o :: b ++ pos /\ blank b /\ solid pos /\ not_first c pos.
Definition no_digits (i pos : str) : Prop :=
  exists t d e s, i = t ++ d :: e :: s ++ pos /\ (in_ranges digits d = true \/ d = 46) /\ (e = 101 \/ e = 69) /\
    ((s = [] /\ not_first 43 pos /\ not_first 45 pos) \/ s = [43] \/ s = [45]) /\ stops (in_ranges digits) pos.
Definition spot (i pos : str) (k : ekind) : Prop :=
  (k = KChar /\ (unclosed 40 41 i pos \/ unclosed 91 93 i pos)) \/ (k = KDigit /\ no_digits i pos).
(** somewhere in the text the letter of an exponent follows a digit or a dot *)
Definition number_letter (i : str) : Prop :=
  exists t d e u, i = t ++ d :: e :: u /\ (in_ranges digits d = true \/ d = 46) /\ (e = 101 \/ e = 69).
