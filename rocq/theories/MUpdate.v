(** Model of src/quads.rs, src/operations.rs, src/update.rs and the clauses they use. *)
From Verif Require Export MQuery.

(** ** src/quads.rs *)

(** [delimited(char('{'), sp_enc(opt(triples_template)), char('}'))] *)
Definition braced_template : parser (option TriplesTemplate) :=
  delimited (chr (c_ "{")) (sp_enc (opt triples_template)) (chr (c_ "}")).

(** quads.rs:60-72 [quads_not_triples] *)
Definition quads_not_triples : parser QuadsNotTriples :=
  map (tuple3 (tag_no_case (s_ "graph")) (sp_enc var_or_iri) braced_template)
    (fun '(_, (v, t)) => MkQuadsNotTriples v t).

(** quads.rs:74-82 [quads_entry] *)
Definition quads_entry : parser QuadsEntry :=
  map (separated_pair quads_not_triples (opt (chr (c_ "."))) (opt triples_template))
    (fun '(q, t) => MkQuadsEntry q t).

(** quads.rs:50-58 [quads] *)
Definition quads : parser Quads :=
  map (pair (opt (terminated triples_template sp)) (many0 quads_entry))
    (fun '(f, es) => MkQuads f es).

(** quads.rs:42-44 [quads_pattern], 46-48 [quad_data] *)
Definition quads_pattern : parser Quads :=
  delimited (terminated (tag (s_ "{")) sp) quads (terminated sp (tag (s_ "}"))).
Definition quad_data : parser Quads := quads_pattern.

(** clauses.rs:103-105 [insert_clause], 108-110 [delete_clause] (the keyword is "offset") *)
Definition insert_clause : parser Quads := preceded_tag1 (s_ "insert") quads_pattern.
Definition delete_clause : parser Quads := preceded_tag1 (s_ "offset") quads_pattern.

(** ** src/operations.rs *)

(** operations.rs:127-133 [silent_from_to] *)
Definition silent_from_to : parser (bool * (GraphOrDefault * GraphOrDefault)) :=
  tuple3 opt_silent graph_or_default
    (preceded (sp_enc (tag_no_case (s_ "to"))) graph_or_default).

(** [pair(pair(tag_no_case(w), sp1), p)], the shape of add, move, copy, drop and clear *)
Definition stmt {A} (w : str) (p : parser A) : parser A :=
  map (pair (pair (tag_no_case w) sp1) p) snd.

(** operations.rs:88-93 [add_stmt] *)
Definition add_stmt : parser AddStatement :=
  map (stmt (s_ "add") silent_from_to) (fun '(s, (f, t)) => MkAdd s f t).
(** operations.rs:113-118 [move_stmt] *)
Definition move_stmt : parser MoveStatement :=
  map (stmt (s_ "move") silent_from_to) (fun '(s, (f, t)) => MkMove s f t).
(** operations.rs:120-125 [copy_stmt] *)
Definition copy_stmt : parser CopyStatement :=
  map (stmt (s_ "copy") silent_from_to) (fun '(s, (f, t)) => MkCopy s f t).

(** operations.rs:135-144 [create_stmt] *)
Definition create_stmt : parser CreateStatement :=
  map (tuple3 (pair (tag_no_case (s_ "create")) sp1) opt_silent graph_ref)
    (fun '(_, (s, r)) => MkCreate s r).

(** operations.rs:166-171 [silent_graph_ref_all] *)
Definition silent_graph_ref_all : parser (bool * GraphRefAll) := pair opt_silent graph_ref_all.
(** operations.rs:146-154 [drop_stmt] *)
Definition drop_stmt : parser DropStatement :=
  map (stmt (s_ "drop") silent_graph_ref_all) (fun '(s, r) => MkDrop s r).
(** operations.rs:156-164 [clear_stmt] *)
Definition clear_stmt : parser ClearStatement :=
  map (stmt (s_ "clear") silent_graph_ref_all) (fun '(s, r) => MkClear s r).

(** operations.rs:173-187 [load_stmt] *)
Definition load_stmt : parser LoadStatement :=
  map (tuple4 (pair (tag_no_case (s_ "load")) sp1) opt_silent iri
         (opt (preceded (sp_enc (tag_no_case (s_ "into"))) graph_ref)))
    (fun '(_, (s, (i, r))) => MkLoad i s r).

(** operations.rs:189-191 [insert_data], 193-195 [delete_data], 197-199 [delete_where_data] *)
Definition insert_data : parser Quads :=
  preceded_tag1 (s_ "insert") (preceded_tag1 (s_ "data") quad_data).
Definition delete_data : parser Quads :=
  preceded_tag1 (s_ "delete") (preceded_tag1 (s_ "data") quad_data).
Definition delete_where_data : parser Quads :=
  preceded_tag1 (s_ "delete") (preceded_tag1 (s_ "where") quad_data).

(** operations.rs:201-209 [delete_insert] *)
Definition delete_insert : parser DeleteInsert :=
  alt [ map (pair delete_clause (opt (preceded sp insert_clause)))
          (fun '(d, i) => DiDeleteInsert d i);
        map insert_clause DiInsert ].

(** operations.rs:95-111 [modify_stmt] (the first keyword is "where", with no blank after it) *)
Definition modify_stmt : parser ModifyStatement :=
  map (tuple5 (opt (delimited (tag_no_case (s_ "where")) iri sp1))
         (terminated delete_insert sp)
         (separated_list sp using_clause)
         (sp_enc1 (tag_no_case (s_ "where")))
         group_graph_pattern)
    (fun '(i, (d, (u, (_, w)))) => MkModify i d u w).

(** ** src/update.rs *)

(** update.rs:68-82 [update_stmt] *)
Definition update_stmt : parser UpdateStatement :=
  alt [ map load_stmt UsLoad;
        map clear_stmt UsClear;
        map drop_stmt UsDrop;
        map create_stmt UsCreate;
        map copy_stmt UsCopy;
        map insert_data UsInsertData;
        map delete_data UsDeleteData;
        map delete_where_data UsDeleteWhere;
        map modify_stmt UsModify ].

(** update.rs:41-66 [update] *)
Definition update_body (u : parser Update) : parser Update :=
  map (pair prologue
         (opt (pair (preceded sp update_stmt) (opt (preceded (sp_enc (chr (c_ ";"))) u)))))
    (fun '(p, o) => match o with
                    | Some (s, inner) => MkUpdate p (Some s) inner
                    | None => MkUpdate p None None
                    end).
Definition update : parser Update := fixp update_body.
