(** C06: integer literals. *)
From Verif Require Import LProp1.
Open Scope list_scope.

(** [signed sg k ds]: sign text [sg], factor [k]; [value]: decimal value; [int_follow]: not followed by
    a digit, '.', 'e', 'E' (Spec.v, Spec2.v). *)
Theorem C06_in_range : forall sg k ds r,
  signed sg k ds -> digits1 ds -> int_follow r -> i64 (k * value ds) ->
  numeric_literal (sg ++ ds ++ r) = Ok r (NInt (k * value ds)).
Proof. exact int_in_range. Qed.
Print Assumptions C06_in_range.

Theorem C06_never_another_integer : forall i r z, numeric_literal i = Ok r (NInt z) ->
  exists sg k ds, i = sg ++ ds ++ r /\ signed sg k ds /\ digits1 ds /\ int_follow r /\
    z = (k * value ds)%Z /\ i64 z.
Proof. exact int_only. Qed.
Print Assumptions C06_never_another_integer.

(** Outside the range the number is still read, as the nearest double, without an exponent ([rounds] is in
    SpecF64.v). *)
Theorem C06_out_of_range : forall sg k ds r,
  signed sg k ds -> digits1 ds -> int_follow r -> ~ i64 (k * value ds) ->
  exists v, numeric_literal (sg ++ ds ++ r) = Ok r (NDouble v None) /\ rounds (inject_Z (value ds)) v /\
    (negative v = true <-> k = (-1)%Z).
Proof. exact int_out_of_range. Qed.
Print Assumptions C06_out_of_range.

Example C06_smallest :
  numeric_literal (s_ "-9223372036854775808)") = Ok (s_ ")") (NInt (-9223372036854775808)).
Proof. vm_compute. reflexivity. Qed.
Example C06_too_small : ~ i64 (-1 * value (s_ "9223372036854775809")) /\
  numeric_literal (s_ "-9223372036854775809)") = Ok (s_ ")") (NDouble (Finite true (2 ^ 52) 11) None).
Proof. split; [|vm_compute; reflexivity]. intros H. vm_compute in H. destruct H as [H _]. now apply H. Qed.
Example C06_follow : int_follow (s_ ") x") /\ signed (s_ "-") (-1) (s_ "12") /\ digits1 (s_ "12").
Proof. repeat split; try discriminate; try constructor; try reflexivity; repeat constructor. Qed.
