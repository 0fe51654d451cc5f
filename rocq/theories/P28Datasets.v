(** C28: dataset clauses. *)
From Verif Require Import LEx.
Open Scope list_scope.
Open Scope N_scope.

(** [FROM iri] and [FROM NAMED iri], any keyword case and blank text.  For the unnamed form the text
    must not also be readable as [NAMED iri]. *)
Theorem C28_clause : forall d t r, W_dataset d t r -> data_set_clause (t ++ r) = Ok r d.
Proof. exact rd_dataset. Qed.
Print Assumptions C28_clause.
(** Any number of clauses, in order, each followed by blank text. *)
Theorem C28_clauses : forall l t r, W_datasets l t r -> separated_list sp data_set_clause (t ++ r) = Ok r l.
Proof. exact rd_datasets. Qed.
Print Assumptions C28_clauses.
(** A clause that is returned was written with that keyword. *)
Theorem C28_only : forall i r d, data_set_clause i = Ok r d -> exists t, i = t ++ r /\ R_dataset d t.
Proof. exact sd_data_set_clause. Qed.
Print Assumptions C28_only.

Example C28_example :
  let t := s_ "FROM <a> from named ex:bc  From :dd" in let r := s_ "
 where {" in
  let l := [ DonDefault (IriIri (s_ "a")); DonNamed (IriPrefixedName (PnameLN (Some (s_ "ex")) (s_ "bc")));
             DonDefault (IriPrefixedName (PnameLN None (s_ "dd"))) ] in
  W_datasets l t r /\ separated_list sp data_set_clause (t ++ r) = Ok r l.
Proof.
  cbv zeta. split; [|vm_compute; reflexivity].
  assert (N : forall i, tag_no_case (s_ "named") i = Err (Error i KTag) -> forall w b v, i = w ++ b ++ v -> kw "named" w -> blank1 b -> no_iri v).
  { intros i H w b v E Hw _. exfalso. eapply not_begins_by in H as F; [|reflexivity]. destruct F. exists w, (b ++ v). auto. }
  at_ 8%nat. { at_ 4%nat. at_ 1%nat. split; [leaf|apply N; vr]. }
  at_ 1%nat. at_ 16%nat. { at_ 4%nat. at_ 1%nat. at_ 5%nat. at_ 1%nat. leaf. }
  at_ 2%nat. at_ 8%nat. { at_ 4%nat. at_ 1%nat. split; [leaf|apply N; vr]. }
  fin. apply (nxt1_at 2); [vr|vr|]. leaf.
Qed.
