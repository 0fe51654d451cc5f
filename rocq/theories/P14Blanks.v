(** C14: blank text. *)
From Verif Require Import LInv.
Open Scope list_scope.

(** [blank] (Spec.v): spaces, tabs, line ends, and comments closed by a line end. *)
Theorem C14_longest_blank_prefix : forall i r b, sp i = Ok r b <-> i = b ++ r /\ longest blank b i.
Proof. exact sp_longest. Qed.
Print Assumptions C14_longest_blank_prefix.
Theorem C14_always_succeeds : forall i, exists r b, sp i = Ok r b.
Proof. exact sp_total. Qed.
Print Assumptions C14_always_succeeds.
Theorem C14_idempotent : forall i r b, sp i = Ok r b -> sp r = Ok r [].
Proof. intros i r b H. apply sp_iff in H. apply sp_nil, H. Qed.
Print Assumptions C14_idempotent.
(** Any two blank texts are skipped alike, whatever follows. *)
Theorem C14_interchangeable : forall b b' i, blank b -> blank b' ->
  exists r u v, sp (b ++ i) = Ok r u /\ sp (b' ++ i) = Ok r v.
Proof. exact blanks_alike. Qed.
Print Assumptions C14_interchangeable.
(** Where at least one blank is needed: the same, and the text must not be empty. *)
Theorem C14_at_least_one : forall i r b, sp1 i = Ok r b <-> i = b ++ r /\ longest blank b i /\ b <> [].
Proof. exact sp1_longest. Qed.
Print Assumptions C14_at_least_one.

Example C14_skips : sp (s_ " #a b
	#
# open") = Ok (s_ "# open") (s_ " #a b
	#
").
Proof. vm_compute. reflexivity. Qed.
