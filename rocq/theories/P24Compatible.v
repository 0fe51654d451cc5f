(** C24: compatibility of string arguments. *)
From Verif Require Import LInv.

(** The code disagrees with the documented rule [compatible_doc] (Spec2.v) in both directions. *)
Example C24_both_ways :
  (exists a b, compatible_doc a b /\ compatible_arg a b = false) /\
  (exists a b, ~ compatible_doc a b /\ compatible_arg a b = true).
Proof.
  split.
  - exists (SLSimple []), (SLSimple []). split; [left; split; exact I|reflexivity].
  - exists (SLSimple []), (SLLanguage [] []). split; [|reflexivity].
    intros [[_ []]|[(s & t & g & H & _)|[(s & g & H) _]]]; discriminate.
Qed.
(** It agrees whenever the first argument is not simple. *)
Theorem C24_partial : forall a b, (forall s, a <> SLSimple s) ->
  (compatible_arg a b = true <-> compatible_doc a b).
Proof. exact compatible_not_simple. Qed.
Print Assumptions C24_partial.
(** With a simple first argument it is the exact opposite. *)
Theorem C24_simple_refuted : forall s b, compatible_arg (SLSimple s) b = true <-> ~ compatible_doc (SLSimple s) b.
Proof. exact compatible_simple. Qed.
Print Assumptions C24_simple_refuted.

Example C24_not_simple : compatible_arg (SLLanguage (s_ "a") (s_ "en")) (SLLanguage (s_ "b") (s_ "fr")) = false /\
  compatible_arg (SLLanguage (s_ "a") (s_ "en")) (SLTyped (s_ "b")) = true.
Proof. split; reflexivity. Qed.
