(** C89: requests made of INSERT DATA, DELETE DATA and DELETE WHERE. *)
From Verif Require Import LMods LC8 LData LEx2 LEx.
Open Scope list_scope.
Open Scope N_scope.

(** One statement in front of anything: it is read exactly if its block is read by itself, as the statement its words name, and reading stops behind the block. *)
Theorem C89_statement : forall d x, data_ok d -> forall r s, update_stmt (data_text d ++ x) = Ok r s <-> r = x /\ data_reads d s.
Proof. exact data_iff. Qed.
Print Assumptions C89_statement.
(** Statements joined with semicolons ([request], blanks around the semicolon or not): the tree holds the statements in their order, each with the quads its block has by itself.
    Reading stops in front of the first statement whose block is not read by itself; the tree then ends with an empty request. *)
Theorem C89_request : forall l x r u, l <> [] -> Forall data_ok l -> nxt (not_first 59) x ->
  (update (request l x) = Ok r u <->
   exists l1 l2 ss, l = l1 ++ l2 /\ Forall2 data_reads l1 ss /\ match l2 with [] => True | d :: _ => data_refused d end /\
     r = request l2 x /\ u = request_tree ss (match l2 with [] => true | _ => false end)).
Proof. exact request_iff. Qed.
Print Assumptions C89_request.
(** The request is read to its end exactly if each block is read by itself. *)
Theorem C89_whole : forall l x, l <> [] -> Forall data_ok l -> nxt (not_first 59) x ->
  ((exists u, update (request l x) = Ok x u) <-> Forall (fun d => exists q, quads_pattern (data_block d) = Ok [] q) l).
Proof. exact request_whole. Qed.
Print Assumptions C89_whole.

Example C89_read : exists q1 q2 q3, quads_pattern (s_ "{?s ?p 1}") = Ok [] q1 /\ quads_pattern (s_ "{?s ?p 2}") = Ok [] q2 /\ quads_pattern (s_ "{}") = Ok [] q3 /\
  update (s_ "INSERT DATA {?s ?p 1} ; delete where {?s ?p 2};  Delete Data {}") = Ok [] (request_tree [UsInsertData q1; UsDeleteWhere q2; UsDeleteData q3] true).
Proof. do 3 eexists. repeat (split; [vm_compute; reflexivity|]). vm_compute. reflexivity. Qed.
Example C89_stops : exists q1, quads_pattern (s_ "{?s ?p 1}") = Ok [] q1 /\ (exists p k, quads_pattern (s_ "{1 2}") = Err (Error p k)) /\
  update (s_ "INSERT DATA {?s ?p 1} ; delete where {1 2};  Delete Data {}") = Ok (s_ "delete where {1 2};  Delete Data {}") (request_tree [UsInsertData q1] false).
Proof. eexists. split; [vm_compute; reflexivity|]. split; [do 2 eexists; vm_compute; reflexivity|]. vm_compute. reflexivity. Qed.
Example C89_hypotheses : let l := [Data InsertData (s_ "INSERT") (s_ " ") (s_ "DATA") (s_ " ") (s_ "{?s ?p 1}") (s_ " ") (s_ " ");
                                   Data DeleteWhere (s_ "delete") (s_ " ") (s_ "where") (s_ " ") (s_ "{?s ?p 2}") [] (s_ "  ");
                                   Data DeleteData (s_ "Delete") (s_ " ") (s_ "Data") (s_ " ") (s_ "{}") [] []] in
  request l [] = s_ "INSERT DATA {?s ?p 1} ; delete where {?s ?p 2};  Delete Data {}" /\ Forall data_ok l /\ nxt (not_first 59) [].
Proof.
  assert (B : forall c, block (s_ "{?s ?p " ++ [c + 48; 125]) \/ 9 < c).
  { intros c. destruct (N.le_gt_cases c 9) as [L|L]; [left|now right]. eexists. split; [reflexivity|].
    assert (NI : ~ In (c + 48) (s_ "{}""'#<\")) by (cbn; intros X; decompose [or] X; try contradiction; Lia.lia).
    repeat (apply ends_char; [first [exact NI | cbn; intros X; decompose [or] X; try discriminate; contradiction]|]). apply ends_close, ends_nil. }
  cbv zeta. split; [reflexivity|]. split.
  - constructor; [|constructor; [|constructor; [|constructor]]]; (split; [reflexivity|]; split; [split; [now repeat constructor|discriminate]|]; split; [reflexivity|]; split; [split; [now repeat constructor|discriminate]|]; split; [|split; now repeat constructor]).
    + destruct (B 1) as [X|X]; [exact X|discriminate X].
    + destruct (B 2) as [X|X]; [exact X|discriminate X].
    + eexists. split; [reflexivity|]. apply ends_close, ends_nil.
  - exists [], []. split; [reflexivity|]. split; [constructor|]. split; exact I.
Qed.
