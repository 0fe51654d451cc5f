(** C60: what parsing costs. *)
From Verif Require Import LCost3 SpecCost LEx2 MUpdate.
Open Scope N_scope.
Open Scope list_scope.

(** The counting parser of SpecCost.v is the parser: it answers the same to every text. *)
Theorem C60_counts i : fst (t_sparql_query_stmt i) = sparql_query_stmt i.
Proof. exact (er_sparql_query_stmt i). Qed.
Print Assumptions C60_counts.
Example C60_counts_case :
  let i := s_ "SELECT ?x WHERE { FILTER ( (?x) = ((3)) ) } " in
  snd (t_sparql_query_stmt i) = 7 /\ exists r q, fst (t_sparql_query_stmt i) = Ok r q.
Proof. vm_compute. split; [reflexivity | eexists _, _; reflexivity]. Qed.

(** Accepted queries that double the calls with every eleven characters. *)
Theorem C60_accepted k : exists q,
  List.length (calls_query k) = (11 * k + 18)%nat /\ sparql_query_stmt (calls_query k) = Ok [] q /\
  2 ^ N.of_nat k <= snd (t_sparql_query_stmt (calls_query k)).
Proof. exact (ex_intro _ _ (calls_accepted k)). Qed.
Print Assumptions C60_accepted.
Example C60_accepted_case :
  calls_query 2 = s_ "ASK { FILTER (strlen (strlen (1,1),1)) }" /\
  snd (t_sparql_query_stmt (calls_query 2)) = 13 /\ snd (t_sparql_query_stmt (calls_query 8)) = 769.
Proof. vm_compute. repeat split. Qed.

(** Rejected texts that double the calls with every five characters. *)
Theorem C60_rejected k : let i := s_ "ASK { ?s " ++ open_path k in
  List.length (open_path k) = (5 * k)%nat /\ (exists x e, sparql_query_stmt i = Err (Error x e)) /\
  2 ^ N.of_nat k <= snd (t_sparql_query_stmt i).
Proof. exact (conj (open_length k) (conj (path_query_rejected k) (path_query_cost k))). Qed.
Print Assumptions C60_rejected.
Example C60_rejected_case :
  open_path 3 = s_ "(<a>|(<a>|(<a>|" /\
  snd (t_sparql_query_stmt (s_ "ASK { ?s " ++ open_path 3)) = 10 /\ snd (t_sparql_query_stmt (s_ "ASK { ?s " ++ open_path 8)) = 258.
Proof. vm_compute. repeat split. Qed.

(** So the work is not bounded by any polynomial in the length of the text, neither for accepted
    queries nor for rejected ones. *)
Theorem C60_polynomial_accepted_refuted c d :
  exists i q, sparql_query_stmt i = Ok [] q /\ c * N.of_nat (List.length i) ^ d < snd (t_sparql_query_stmt i).
Proof. exact (accepted_beyond c d). Qed.
Print Assumptions C60_polynomial_accepted_refuted.
Theorem C60_polynomial_rejected_refuted c d :
  exists i, (exists x e, sparql_query_stmt i = Err (Error x e)) /\
    c * N.of_nat (List.length i) ^ d < snd (t_sparql_query_stmt i).
Proof. exact (rejected_beyond c d). Qed.
Print Assumptions C60_polynomial_rejected_refuted.

(** The same for requests: the counting parser is the parser, ... *)
Theorem C60_update_counts i : fst (t_update i) = update i.
Proof. exact (er_update i). Qed.
Print Assumptions C60_update_counts.
Example C60_update_counts_case :
  let i := s_ "CLEAR ALL ; INSERT { } USING <g> WHERE { ?s ?p ?o } ; DROP ALL" in
  snd (t_update i) = 7 /\ exists u, fst (t_update i) = Ok [] u.
Proof. vm_compute. split; [reflexivity | eexists; reflexivity]. Qed.
(** ... and with every eleven characters the calls double. *)
Theorem C60_update_accepted k : exists u, let i := s_ "INSERT { } USING <g> WHERE { FILTER (" ++ calls_text k ++ s_ ") }" in
  List.length i = (11 * k + 41)%nat /\ update i = Ok [] u /\ 2 ^ N.of_nat k <= snd (t_update i).
Proof. exact (ex_intro _ _ (request_accepted k)). Qed.
Print Assumptions C60_update_accepted.
Example C60_update_accepted_case :
  snd (t_update (s_ "INSERT { } USING <g> WHERE { FILTER (strlen (strlen (1,1),1)) }")) = 14 /\
  calls_text 2 = s_ "strlen (strlen (1,1),1)".
Proof. vm_compute. repeat split. Qed.
Theorem C60_update_polynomial_refuted c d :
  exists i u, update i = Ok [] u /\ c * N.of_nat (List.length i) ^ d < snd (t_update i).
Proof. exact (requests_beyond c d). Qed.
Print Assumptions C60_update_polynomial_refuted.
