(** C25: text of signs and path modifiers. *)
From Verif Require Import LInv.
Open Scope list_scope.

Theorem C25_sign_roundtrip : forall s, sign_from_str (sign_to_str s) = Some s.
Proof. intros []; reflexivity. Qed.
Print Assumptions C25_sign_roundtrip.
Theorem C25_sign_texts : forall x s, sign_from_str x = Some s <->
  (x = s_ "+" \/ x = []) /\ s = POS \/ x = s_ "-" /\ s = NEG.
Proof. exact sign_from_str_iff. Qed.
Print Assumptions C25_sign_texts.
Theorem C25_path_mod_texts : forall x m, path_mod_from_str x = Some m <-> R_mod m x.
Proof. exact path_mod_from_str_iff. Qed.
Print Assumptions C25_path_mod_texts.
(** the parsers of both *)
Theorem C25_path_mod_parser : forall i r m, path_mod i = Ok r m <-> exists t, i = t ++ r /\ R_mod m t.
Proof. exact path_mod_iff. Qed.
Print Assumptions C25_path_mod_parser.
Theorem C25_sign_parser : forall i r s, sign i = Ok r s <-> i = sign_to_str s ++ r.
Proof. exact sign_iff. Qed.
Print Assumptions C25_sign_parser.

Example C25_other_texts : sign_from_str (s_ "++") = None /\ path_mod_from_str (s_ "") = None.
Proof. split; reflexivity. Qed.
