(** C07: decimal and double literals. *)
From Verif Require Import LProp1.
Open Scope list_scope.

(** Mantissa and exponent, the exponent in 64-bit range. *)
Theorem C07_double_partial : forall q t z x r,
  R_decimal q t -> R_exponent z x -> stops (in_ranges digits) r ->
  numeric_literal (t ++ x ++ r) = Ok r (NDouble q (Some z)).
Proof. exact numeric_exp. Qed.
Print Assumptions C07_double_partial.

(** A mantissa with a point, not followed by 'e'. *)
Theorem C07_decimal : forall q t r,
  R_decimal q t -> In 46%N t -> longest dec_text t (t ++ r) -> not_first 101 r -> not_first 69 r ->
  numeric_literal (t ++ r) = Ok r (NDouble q None).
Proof. exact decimal_plain. Qed.
Print Assumptions C07_decimal.

(** The mantissa is the longest prefix of its form, and the value is the one written, rounded. *)
Theorem C07_longest_mantissa : forall i r q e, numeric_literal i = Ok r (NDouble q e) ->
  exists t x, i = t ++ x ++ r /\ R_decimal q t /\ longest dec_text t i /\ opt_ R_exponent e x.
Proof. exact numeric_double_longest. Qed.
Print Assumptions C07_longest_mantissa.

(** The number is the fraction written, rounded to nearest, ties to even ([rounds], SpecF64.v), with the sign written;
    a fraction that is a binary64 number is kept exactly, any other changes by at most half of the last bit. *)
Theorem C07_rounded : forall i r v x, numeric_literal i = Ok r (NDouble v x) ->
  exists sg k ip pt fp y, i = (sg ++ ip ++ pt ++ fp) ++ y ++ r /\ signed sg k ip /\ digits0 ip /\ digits0 fp /\
    (pt = [46%N] \/ (pt = [] /\ fp = [])) /\ opt_ R_exponent x y /\ (negative v = true <-> k = (-1)%Z) /\
    let w := (inject_Z (value (ip ++ fp)) / inject_Z (10 ^ Z.of_nat (List.length fp)))%Q in
    rounds w v /\
    (forall m e, binary64 m e -> (w == magnitude m e)%Q -> exists s, v = Finite s m e) /\
    (forall s m e, v = Finite s m e -> (- 2 ^ (e - 1) <= w - magnitude m e <= 2 ^ (e - 1))%Q).
Proof. exact double_rounded. Qed.
Print Assumptions C07_rounded.

(** So decimals (exact in SPARQL) are not kept: two different ones give the same tree, and long ones become infinite. *)
Theorem C07_decimals_refuted : exists ip fp ip' fp' v,
  ~ (inject_Z (value (ip ++ fp)) / inject_Z (10 ^ Z.of_nat (List.length fp)) ==
     inject_Z (value (ip' ++ fp')) / inject_Z (10 ^ Z.of_nat (List.length fp')))%Q /\
  numeric_literal (ip ++ s_ "." ++ fp) = Ok [] (NDouble v None) /\
  numeric_literal (ip' ++ s_ "." ++ fp') = Ok [] (NDouble v None).
Proof.
  exists (s_ "0"), (s_ "1"), (s_ "0"), (s_ "10000000000000000001"), (Finite false 7205759403792794 (-56)).
  split; [|split; vm_compute; reflexivity]. vm_compute. discriminate.
Qed.
Print Assumptions C07_decimals_refuted.
Example C07_infinite : numeric_literal (s_ "-" ++ repeat 57%N 309 ++ s_ ".") = Ok [] (NDouble (Infinite true) None).
Proof. vm_compute. reflexivity. Qed.
Example C07_ties : numeric_literal (s_ "9007199254740993.") = Ok [] (NDouble (Finite false 4503599627370496 1) None) /\
  numeric_literal (s_ "9007199254740995.") = Ok [] (NDouble (Finite false 4503599627370498 1) None) /\
  numeric_literal (s_ "-0.") = Ok [] (NDouble (Finite true 0 (-1074)) None).
Proof. repeat split; vm_compute; reflexivity. Qed.

(** What is missing of C07 is false: an exponent outside the 64-bit range is silently left behind. *)
Theorem C07_exponent_refuted : forall q t c sg k ds r,
  R_decimal q t -> c = 101%N \/ c = 69%N -> signed sg k ds -> digits1 ds -> stops (in_ranges digits) r ->
  ~ i64 (k * value ds) ->
  numeric_literal (t ++ c :: sg ++ ds ++ r) = Ok (c :: sg ++ ds ++ r) (NDouble q None).
Proof. exact exponent_range. Qed.
Print Assumptions C07_exponent_refuted.
Example C07_exponent : exists t x, (exists q, R_decimal q t) /\ digits1 x /\
  numeric_literal (t ++ s_ "e" ++ x) = Ok (s_ "e" ++ x) (NDouble (Finite false 6755399441055744 (-52)) None).
Proof.
  exists (s_ "1.5"), (s_ "9223372036854775808"). split; [|split].
  - eexists. apply parse_decimal_iff. vm_compute. reflexivity.
  - split; [discriminate|repeat constructor].
  - vm_compute. reflexivity.
Qed.

(** 'e' without digits is not an error that lets another alternative be tried, but a failure. *)
Theorem C07_bare_exponent_fails : forall q t c sg k r,
  R_decimal q t -> c = 101%N \/ c = 69%N -> signed sg k r -> stops (in_ranges digits) r ->
  not_first 43 r -> not_first 45 r ->
  exists p e, numeric_literal (t ++ c :: sg ++ r) = Err (Failure p e).
Proof. exact bare_exponent. Qed.
Print Assumptions C07_bare_exponent_fails.

Example C07_reads : numeric_literal (s_ "-1.25E-3 ") = Ok (s_ " ") (NDouble (Finite true 5629499534213120 (-52)) (Some (-3)%Z)).
Proof. vm_compute. reflexivity. Qed.
Example C07_reads_decimal : numeric_literal (s_ "+.50.2") = Ok (s_ ".2") (NDouble (Finite false 4503599627370496 (-53)) None).
Proof. vm_compute. reflexivity. Qed.
Example C07_hypotheses : R_decimal (Finite true 5629499534213120 (-52)) (s_ "-1.25") /\ R_exponent (-3) (s_ "E-3").
Proof.
  split.
  - apply parse_decimal_iff. vm_compute. reflexivity.
  - exists (s_ "E"), (s_ "-3"). split; [reflexivity|]. split; [now right|].
    exists (s_ "-"), (-1)%Z, (s_ "3"). repeat split; try discriminate; repeat constructor.
Qed.
