(** For the examples about printed update requests. *)
From Verif Require Import LMods.
From Verif Require Export LPrint7 LPrintEx.
Notation length := List.length (only parsing).
Open Scope N_scope.
Open Scope list_scope.

Definition updates_text : str := s_ "PREFIX ab: <http://x> LOAD SILENT <http://a> INTO GRAPH <http://b> ; CLEAR ALL ; COPY <http://a> TO DEFAULT ; BASE <http://x> INSERT DATA { <a> <b> 5 . GRAPH <g> { ?s ?p 'x', 7 }?d ?e ?f .GRAPH ?h { } } ; WHERE<http://g> OFFSET { ?a ?b ?c . ?d ?e ?f } INSERT { } USING <http://g> USING NAMED <http://h> WHERE { ?a ?b ?c OPTIONAL { } } ; ".
Definition updates_sample : Update :=
  Eval vm_compute in match update updates_text with Ok _ q => q | Err _ => MkUpdate (MkPrologue []) None None end.
Lemma updates_printable : printable_update 3 updates_sample.
Proof.
  unfold updates_sample, printable_update. prn.
Qed.
