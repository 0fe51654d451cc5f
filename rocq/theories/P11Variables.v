(** C11: variables. *)
From Verif Require Import LGen2.
Open Scope list_scope.

(** Exactly what is read: sigil, possible blanks, the longest run of name characters. *)
Theorem C11_read_iff : forall i r v, var i = Ok r v <->
  exists b, i = sigil v :: b ++ vname v ++ r /\ blank b /\ var_name_ok (vname v) /\ stops var_char r.
Proof. exact var_iff. Qed.
Print Assumptions C11_read_iff.
(** ?name and $name, with any name, followed by anything that is not a name character *)
Theorem C11_question_mark : forall s r, var_name_ok s -> stops var_char r ->
  var (63%N :: s ++ r) = Ok r (QMark s).
Proof. intros s r H S. apply (proj2 (var_iff (63%N :: s ++ r) r (QMark s))). exists []. repeat split; auto; try apply H. constructor. Qed.
Print Assumptions C11_question_mark.
Theorem C11_dollar : forall s r, var_name_ok s -> stops var_char r ->
  var (36%N :: s ++ r) = Ok r (Dollar s).
Proof. intros s r H S. apply (proj2 (var_iff (36%N :: s ++ r) r (Dollar s))). exists []. repeat split; auto; try apply H. constructor. Qed.
Print Assumptions C11_dollar.
(** Name characters are the W3C ones as first character of a name, as long as the code point is below
    0x10000 and its low byte is a letter only if it is a letter itself. *)
Theorem C11_name_characters_partial : forall c, (c < 0x10000)%N ->
  in_ranges letters (c mod 256) = in_ranges letters c -> var_char c = w3c_var_first c.
Proof. exact var_char_w3c. Qed.
Print Assumptions C11_name_characters_partial.
(** Outside of that the classes differ, in both directions: characters whose low byte is that of a letter are read as
    names, whatever they are; *)
Theorem C11_low_byte_refuted : forall s r, s <> [] -> Forall (fun c => in_ranges letters (c mod 256) = true) s -> stops var_char r ->
  var (63%N :: s ++ r) = Ok r (QMark s).
Proof. exact low_letters_read. Qed.
Print Assumptions C11_low_byte_refuted.
(** no name starts with another character beyond the basic plane; *)
Theorem C11_planes_refuted : forall g c r, g = 63%N \/ g = 36%N -> (0x10000 <= c)%N -> in_ranges letters (c mod 256) = false ->
  forall r' v, var (g :: c :: r) <> Ok r' v.
Proof. exact planes_rejected. Qed.
Print Assumptions C11_planes_refuted.
(** the middle dot, the combining characters and the ties end a name, but for those with such a low byte. *)
Theorem C11_more_refuted : forall s c r, var_name_ok s -> in_ranges [(0xB7, 0xB7); (0x300, 0x36F); (0x203F, 0x2040)]%N c = true ->
  in_ranges letters (c mod 256) = false -> var (63%N :: s ++ c :: r) = Ok (c :: r) (QMark s).
Proof. exact more_ends. Qed.
Print Assumptions C11_more_refuted.
Example C11_differ : exists c c' c'',
  (w3c_var_first c = false /\ var (63%N :: [c]) = Ok [] (QMark [c])) /\
  (w3c_var_first c' = true /\ forall r v, var (63%N :: [c']) <> Ok r v) /\
  (w3c_var_more c'' = true /\ var (63%N :: [97%N; c'']) = Ok [c''] (QMark [97%N])).
Proof.
  exists 0x2041%N, 0x10000%N, 0xB7%N. repeat split; try (vm_compute; reflexivity). intros r v. vm_compute. discriminate.
Qed.
(** Blanks between sigil and name are skipped. *)
Theorem C11_blank_refuted : forall b s r, blank b -> var_name_ok s -> stops var_char r -> var (63%N :: b ++ s ++ r) = Ok r (QMark s).
Proof. exact blank_in_var. Qed.
Print Assumptions C11_blank_refuted.
Example C11_blank : var (s_ "? x") = Ok [] (QMark (s_ "x")).
Proof. vm_compute. reflexivity. Qed.

Example C11_reads : var (s_ "$a_1-b") = Ok (s_ "-b") (Dollar (s_ "a_1")).
Proof. vm_compute. reflexivity. Qed.
Example C11_hypotheses : var_name_ok (s_ "a_1") /\ stops var_char (s_ "-b").
Proof. split; [split; [discriminate|repeat constructor]|reflexivity]. Qed.
