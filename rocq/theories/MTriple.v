(** Model of src/triple.rs and of [graph_node] (src/graph.rs): the parsers that are mutually
    recursive through [graph_node].  Each Rust function [f] of that cycle is written [f_of gn] with
    the recursive parser as argument; [graph_node] ties the knot. *)
From Verif Require Export MTerminals.

(** triple.rs:54-56 [collection] *)
Definition collection_of (gn : parser GraphNode) : parser Collection :=
  map (bracketted (many1 (sp_enc gn))) MkCollection.

(** triple.rs:58-63 [object_list] *)
Definition object_list_of (gn : parser GraphNode) : parser ObjectList :=
  map (separated_nonempty_list (sp_enc (tag (s_ ","))) gn) MkObjectList.

(** triple.rs:65-78 [property_list_not_empty] *)
Definition property_list_not_empty_of (gn : parser GraphNode) : parser PropertyList :=
  map (terminated
         (separated_nonempty_list (sp_enc (many1 (sp_enc (chr (c_ ";")))))
            (map (separated_pair verb sp (object_list_of gn)) (fun '(v, l) => MkVerbList v l)))
         (many0 (preceded sp (chr (c_ ";")))))
    MkPropertyList.

(** triple.rs:46-52 [blank_node_property_list] *)
Definition blank_node_property_list_of (gn : parser GraphNode) : parser PropertyList :=
  delimited (terminated (chr (c_ "[")) sp) (property_list_not_empty_of gn)
    (preceded sp (chr (c_ "]"))).

(** triple.rs:85-90 [triples_node] *)
Definition triples_node_of (gn : parser GraphNode) : parser TriplesNode :=
  alt [ map (collection_of gn) TnCollection;
        map (blank_node_property_list_of gn) TnBlankNodePropertyList ].

(** graph.rs:278-283 [graph_node] *)
Definition graph_node_body (gn : parser GraphNode) : parser GraphNode :=
  alt [ map var_or_term GnVarOrTerm; map (triples_node_of gn) GnTriplesNode ].
Definition graph_node : parser GraphNode := fixp graph_node_body.

(** the public functions of triple.rs, with the recursive parser in place *)
Definition collection : parser Collection := collection_of graph_node.
Definition object_list : parser ObjectList := object_list_of graph_node.
Definition property_list_not_empty : parser PropertyList := property_list_not_empty_of graph_node.
Definition blank_node_property_list : parser PropertyList := blank_node_property_list_of graph_node.
Definition triples_node : parser TriplesNode := triples_node_of graph_node.

(** triple.rs:81-83 [property_list] *)
Definition property_list : parser (option PropertyList) := opt property_list_not_empty.

(** triple.rs:106-123 [triples_same_subject] *)
Definition triples_same_subject : parser TriplesSameSubject :=
  alt [ map (sp_sep triples_node property_list) (fun '(n, l) => TssNode n l);
        map (sp_sep1 var_or_term property_list_not_empty) (fun '(t, l) => TssTerm t l) ].

(** triple.rs:99-104 [triples_template] *)
Definition triples_template : parser TriplesTemplate :=
  terminated (separated_nonempty_list (many1 (sp_enc (chr (c_ ".")))) triples_same_subject)
    (opt (preceded sp (chr (c_ ".")))).

(** query/construct.rs:89-98 [construct_template] *)
Definition construct_template : parser ConstructTemplate :=
  map (delimited (terminated (chr (c_ "{")) sp)
         (separated_list (many1 (sp_enc (chr (c_ ".")))) triples_same_subject)
         (preceded sp (chr (c_ "}"))))
    MkConstructTemplate.
