(** Specification side: which binary64 number a fraction is rounded to (IEEE 754, to nearest, ties to even).

    This file does not mention the parsers. *)
From Verif Require Export Ast.
From Coq Require Import Qabs Qpower.

Definition negative (v : f64) : bool := match v with Finite s _ _ | Infinite s => s end.
(** the size of a finite number *)
Definition magnitude (m : N) (e : Z) : Q := (inject_Z (Z.of_N m) * 2 ^ e)%Q.
(** the mantissas and exponents of binary64: 53 bits, the first of them set unless the exponent is the least one *)
Definition binary64 (m : N) (e : Z) : Prop :=
  (m < 2 ^ 53)%N /\ (-1074 <= e <= 971)%Z /\ ((2 ^ 52 <= m)%N \/ e = (-1074)%Z).
(** half way between the greatest number and the next power of two *)
Definition overflow : Q := inject_Z (2 ^ 1024 - 2 ^ 970).
(** [v] is [x], not negative, rounded: no number is nearer to [x], and if one is as near, the mantissa of [v] is even *)
Definition rounds (x : Q) (v : f64) : Prop :=
  match v with
  | Infinite _ => (overflow <= x)%Q
  | Finite _ m e => (x < overflow)%Q /\ binary64 m e /\
      forall m' e', binary64 m' e' ->
        (Qabs (x - magnitude m e) <= Qabs (x - magnitude m' e'))%Q /\
        ((Qabs (x - magnitude m e) == Qabs (x - magnitude m' e'))%Q -> (m', e') = (m, e) \/ N.even m = true)
  end.
