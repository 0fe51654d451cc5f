(** C12: prefixed names. *)
From Verif Require Import LGen2.
Open Scope list_scope.

(** Exactly what is read.  [R_pname_ns]: the prefix, possible blanks, the colon; [local_name]: the
    crate's local names (Spec.v). *)
Theorem C12_with_local_iff : forall i r p l, prefixed_name i = Ok r (PnameLN p l) <->
  exists t b, i = t ++ b ++ l ++ r /\ R_pname_ns p t /\ blank b /\ longest local_name l (l ++ r).
Proof. exact prefixed_ln_iff. Qed.
Print Assumptions C12_with_local_iff.
Theorem C12_without_local_iff : forall i r p, prefixed_name i = Ok r (PnameNS p) <->
  exists t, i = t ++ r /\ R_pname_ns p t /\ no_local r.
Proof. exact prefixed_ns_iff. Qed.
Print Assumptions C12_without_local_iff.

(** prefix:local is split at the colon, for every local name of the crate's kind.  Full statement:
    for every W3C local name (refuted below). *)
Theorem C12_split_at_colon_partial : forall p l r, prefix_name p -> longest local_name l (l ++ r) ->
  prefixed_name (p ++ 58%N :: l ++ r) = Ok r (PnameLN (Some p) l).
Proof.
  intros p l r Hp Hl. apply prefixed_ln_iff. exists (p ++ [58%N]), []. split; [now rewrite <- app_assoc|].
  split; [|split; [constructor|assumption]]. exists p, [58%N]. split; [reflexivity|]. split; [now split|].
  exists [], [58%N]. repeat split. constructor.
Qed.
Print Assumptions C12_split_at_colon_partial.
Theorem C12_empty_prefix_partial : forall l r, longest local_name l (l ++ r) ->
  prefixed_name (58%N :: l ++ r) = Ok r (PnameLN None l).
Proof.
  intros l r Hl. apply prefixed_ln_iff. exists [58%N], []. split; [reflexivity|].
  split; [|split; [constructor|assumption]]. exists [], [58%N]. split; [reflexivity|]. split; [reflexivity|].
  exists [], [58%N]. repeat split. constructor.
Qed.
Print Assumptions C12_empty_prefix_partial.

(** Single-character local names are left behind; *)
Theorem C12_refuted : forall p c b x, prefix_name p -> (start_char c || (c =? 58) || low_digit c)%N = true -> blank1 b ->
  prefixed_name (p ++ 58%N :: c :: b ++ x) = Ok (c :: b ++ x) (PnameNS (Some p)).
Proof. exact single_left. Qed.
Print Assumptions C12_refuted.
(** dots after the name are swallowed; *)
Theorem C12_trailing_dot_refuted : forall p l ds b x, prefix_name p -> local_name l -> all (N.eqb 46) ds -> blank1 b ->
  prefixed_name (p ++ 58%N :: l ++ ds ++ b ++ x) = Ok (b ++ x) (PnameLN (Some p) (l ++ ds)).
Proof. exact dots_swallowed. Qed.
Print Assumptions C12_trailing_dot_refuted.
(** blanks around the colon are accepted. *)
Theorem C12_blanks_refuted : forall p b b' l r, prefix_name p -> blank b -> blank b' -> longest local_name l (l ++ r) ->
  prefixed_name (p ++ b ++ 58%N :: b' ++ l ++ r) = Ok r (PnameLN (Some p) l).
Proof. exact blanks_around. Qed.
Print Assumptions C12_blanks_refuted.
Example C12_departures : prefixed_name (s_ "ex:a ") = Ok (s_ "a ") (PnameNS (Some (s_ "ex"))) /\
  prefixed_name (s_ "ex:ab. ") = Ok (s_ " ") (PnameLN (Some (s_ "ex")) (s_ "ab.")) /\
  prefixed_name (s_ "ex : ab") = Ok [] (PnameLN (Some (s_ "ex")) (s_ "ab")).
Proof. repeat split; vm_compute; reflexivity. Qed.
(** No single-character local name is ever returned. *)
Theorem C12_never_single : forall i r p c, prefixed_name i <> Ok r (PnameLN p [c]).
Proof. exact never_single. Qed.
Print Assumptions C12_never_single.

Example C12_reads : prefixed_name (s_ "a.b:c%2Fd\-e ") = Ok (s_ " ") (PnameLN (Some (s_ "a.b")) (s_ "c%2Fd\-e")).
Proof. vm_compute. reflexivity. Qed.
Example C12_hypotheses : prefix_name (s_ "ex") /\ longest local_name (s_ "ab") (s_ "ab" ++ s_ " ").
Proof.
  split.
  - exists 101%N, (s_ "x"). repeat split. exists [], (s_ "x"). repeat split; [constructor|]. right. exists 120%N, [].
    repeat split; [constructor|discriminate].
  - apply (pn_local_iff (s_ "ab ") (s_ " ") (s_ "ab")). vm_compute. reflexivity.
Qed.
