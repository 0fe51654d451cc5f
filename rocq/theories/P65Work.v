(** C65: the work for a bounded number of brackets. *)
From Verif Require Import SpecCost SpecDepth LWork3 LEx2 MUpdate.
Open Scope N_scope.
Open Scope list_scope.

(** The calls of the recursive functions, counted as for C60, are bounded by a power of a polynomial
    in the length of the text; only the exponent depends on the opening brackets. *)
Theorem C65_bound i : snd (t_sparql_query_stmt i) <=
  1150 * (N.of_nat (List.length i) + 2) ^ 2 * (7397876 * (N.of_nat (List.length i) + 2) ^ 7) ^ (N.of_nat (openings i) + 1).
Proof. exact (query_calls i). Qed.
Print Assumptions C65_bound.
(** So the work for the texts with at most [b] opening brackets is polynomial in their length. *)
Theorem C65_polynomial b : exists c d, forall i, (openings i <= b)%nat ->
  snd (t_sparql_query_stmt i) <= c * (N.of_nat (List.length i) + 2) ^ d.
Proof. exact (ex_intro _ _ (ex_intro _ _ (polynomial_calls b))). Qed.
Print Assumptions C65_polynomial.
Example C65_case :
  let i := s_ "ASK { FILTER (?x && ?y && ?z) } " in let j := s_ "ASK { { ?s ?p ?o . ?s ?p ?o } }" in
  openings i = 2%nat /\ snd (t_sparql_query_stmt i) = 4 /\ (exists q, fst (t_sparql_query_stmt i) = Ok [] q) /\
  openings j = 2%nat /\ snd (t_sparql_query_stmt j) = 8.
Proof. vm_compute. split; [reflexivity|]. split; [reflexivity|]. split; [eexists; reflexivity|]. split; reflexivity. Qed.
(** The exponent is needed: two texts of the same length, one of them with five brackets more. *)
Example C65_brackets :
  let i := s_ "ASK { ?s (<a>|(<a>|(<a>|(<a>|(<a>|" in let j := s_ "ASK { ?s  <a>| <a>| <a>| <a>| <a>|" in
  List.length i = List.length j /\ openings i = 6%nat /\ snd (t_sparql_query_stmt i) = 34 /\
  openings j = 1%nat /\ snd (t_sparql_query_stmt j) = 3.
Proof. vm_compute. repeat split. Qed.

(** Requests: the number of operations is bounded by the length, so one more factor is enough. *)
Theorem C65_requests i : snd (t_update i) <=
  (N.of_nat (List.length i) + 1) * ((7397876 * (N.of_nat (List.length i) + 2) ^ 7) ^ (N.of_nat (openings i) + 1) + 1).
Proof. exact (request_calls i). Qed.
Print Assumptions C65_requests.
Example C65_requests_case :
  let i := s_ "CLEAR ALL ; INSERT { } USING <g> WHERE { ?s ?p ?o } ; DROP ALL" in
  openings i = 2%nat /\ snd (t_update i) = 7 /\ exists u, fst (t_update i) = Ok [] u.
Proof. vm_compute. split; [reflexivity|]. split; [reflexivity | eexists; reflexivity]. Qed.
