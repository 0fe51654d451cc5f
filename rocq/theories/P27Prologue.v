(** C27: the prologue keeps all declarations in order. *)
From Verif Require Import LEx.
Open Scope list_scope.

(** [W_prologue]: the declarations, in any keyword case, with any blank text (at least one blank
    character between two declarations); what follows does not start with another declaration. *)
Theorem C27_declarations : forall l t r, W_prologue (MkPrologue l) t r -> prologue (t ++ r) = Ok r (MkPrologue l).
Proof. exact (fun l => rd_prologue (MkPrologue l)). Qed.
Print Assumptions C27_declarations.

Open Scope N_scope.
Example C27_example :
  let t := s_ "base <http://b#>
 Prefix ab: <x>  PREFIX:<>" in let r := s_ " SELECT" in
  let l := [ DeclBase (s_ "http://b#"); DeclPrefix (MkPrefixDecl (Some (s_ "ab")) (s_ "x")); DeclPrefix (MkPrefixDecl None []) ] in
  W_prologue (MkPrologue l) t r /\ prologue (t ++ r) = Ok r (MkPrologue l).
Proof.
  cbv zeta. split; [|vm_compute; reflexivity].
  at_ 16%nat. { at_ 4%nat. at_ 1%nat. leaf. }
  at_ 2%nat. at_ 14%nat. { at_ 6%nat. at_ 1%nat. at_ 3%nat. at_ 1%nat. leaf. }
  at_ 2%nat. at_ 9%nat. { at_ 6%nat. at_ 0%nat. at_ 1%nat. at_ 0%nat. leaf. }
  fin. apply (nxt_at 1); [vr|vr|]. split; leaf.
Qed.
