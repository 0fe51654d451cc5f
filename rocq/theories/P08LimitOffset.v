(** C08: LIMIT and OFFSET. *)
From Verif Require Import LProp1.
Open Scope list_scope.

(** Every way of writing the clause -- order, keyword case, blanks -- gives back that clause. *)
Theorem C08_read_back : forall l t r, R_limit_offset l t -> lo_follow l r ->
  limit_offset_clause (t ++ r) = Ok r l.
Proof. exact limit_offset_ok. Qed.
Print Assumptions C08_read_back.
(** Only what is written is returned. *)
Theorem C08_nothing_else : forall i r l, limit_offset_clause i = Ok r l ->
  exists t, i = t ++ r /\ R_limit_offset l t.
Proof. exact sd_limit_offset_clause. Qed.
Print Assumptions C08_nothing_else.
(** A number that does not fit is rejected. *)
Theorem C08_limit_too_large : forall w b t r,
  kw "limit" w -> blank b -> digits1 t -> ~ u64 (value t) -> stops low_digit r ->
  exists p e, limit_offset_clause (w ++ b ++ t ++ r) = Err (Error p e).
Proof. exact limit_range. Qed.
Print Assumptions C08_limit_too_large.
Theorem C08_offset_too_large : forall w b t r,
  kw "offset" w -> blank b -> digits1 t -> ~ u64 (value t) -> stops low_digit r ->
  exists p e, limit_offset_clause (w ++ b ++ t ++ r) = Err (Error p e).
Proof. exact offset_range. Qed.
Print Assumptions C08_offset_too_large.
(** As the second number it is left unread, with its keyword. *)
Theorem C08_second_too_large : forall w b t v b2 u r,
  kw "limit" w -> blank b -> R_u64 (value t) t -> stops low_digit (v ++ b2 ++ u ++ r) -> forall b1,
  blank b1 -> kw "offset" v -> blank b2 -> digits1 u -> ~ u64 (value u) -> stops low_digit r ->
  limit_offset_clause (w ++ b ++ t ++ b1 ++ v ++ b2 ++ u ++ r) =
    Ok (v ++ b2 ++ u ++ r) (LimitOffset (value t) None).
Proof. exact second_range. Qed.
Print Assumptions C08_second_too_large.

Example C08_reads : limit_offset_clause (s_ "oFFset18446744073709551615#c
LIMIT 0 }") = Ok (s_ " }") (OffsetLimit 18446744073709551615 (Some 0%Z)).
Proof. vm_compute. reflexivity. Qed.
Example C08_hypotheses : R_limit_offset (LimitOffset 5 None) (s_ "LiMiT 5 ") /\ lo_follow (LimitOffset 5 None) (s_ "}").
Proof.
  split.
  - exists (s_ "LiMiT 5"), (s_ " "). split; [reflexivity|]. split.
    + exists (s_ "LiMiT"), (s_ " 5"). split; [reflexivity|]. split; [reflexivity|].
      exists (s_ " "), (s_ "5"). split; [reflexivity|]. split; [constructor; [now left|constructor]|].
      repeat split; try discriminate; repeat constructor.
    + exists (s_ " "), []. split; [reflexivity|]. split; [constructor; [now left|constructor]|reflexivity].
  - split; [reflexivity|split].
    + split; [|discriminate]. intros H. repeat (destruct H as [H|H]; [discriminate|]). destruct H.
    + intros (t & r & E & H). destruct t as [|c t]; [discriminate|]. injection E as <- E.
      discriminate.
Qed.
