(** Model of src/path.rs: property paths and the triples of a WHERE block. *)
From Verif Require Export MTriple.

(** ** Paths: recursive through [path_alternative] *)

(** path.rs:272-274 [path_one_in_property_set] *)
Definition path_one_in_property_set : parser PathOneInPropertySet :=
  map iri_or_a_or_caret MkPathOneInPropertySet.

(** path.rs:261-270 [path_negated_property_set] *)
Definition path_negated_property_set : parser PathNegatedPropertySet :=
  map (delimited (terminated (tag (s_ "(")) sp)
         (separated_nonempty_list (delimited sp (chr (c_ "|")) sp) path_one_in_property_set)
         (preceded sp (tag (s_ ")"))))
    MkPathNegatedPropertySet.

(** path.rs:229-242 [path_primary]; note the case-sensitive tag *)
Definition path_primary_of (pa : parser PathAlternative) : parser PathPrimary :=
  alt [ map iri PpIri;
        map (tag (s_ "a")) (fun _ => PpA);
        map (preceded (tag (s_ "!")) path_negated_property_set) PpNegated;
        map (delimited (tag (s_ "(")) pa (tag (s_ ")"))) PpPath ].

(** path.rs:251-259 [path_elt] *)
Definition path_elt_of (pa : parser PathAlternative) : parser PathElt :=
  map (pair (path_primary_of pa) (opt (preceded sp1 path_mod))) (fun '(p, m) => MkPathElt p m).

(** path.rs:244-249 [path_elt_or_inverse] *)
Definition path_elt_or_inverse_of (pa : parser PathAlternative) : parser PathEltOrInverse :=
  alt [ map (path_elt_of pa) PeiPathElt; map (preceded (tag (s_ "^")) (path_elt_of pa)) PeiInverse ].

(** path.rs:222-227 [path_sequence]; the separator is the same as in [path_alternative] *)
Definition path_sequence_of (pa : parser PathAlternative) : parser PathSequence :=
  map (separated_nonempty_list (delimited sp (tag (s_ "|")) sp) (path_elt_or_inverse_of pa))
    MkPathSequence.

(** path.rs:215-220 [path_alternative] *)
Definition path_alternative_body (pa : parser PathAlternative) : parser PathAlternative :=
  map (separated_nonempty_list (delimited sp (tag (s_ "|")) sp) (path_sequence_of pa))
    MkPathAlternative.
Definition path_alternative : parser PathAlternative := fixp path_alternative_body.

Definition path_primary : parser PathPrimary := path_primary_of path_alternative.
Definition path_elt : parser PathElt := path_elt_of path_alternative.
Definition path_elt_or_inverse : parser PathEltOrInverse := path_elt_or_inverse_of path_alternative.
Definition path_sequence : parser PathSequence := path_sequence_of path_alternative.

(** path.rs:171-176 [verb_path_or_simple] *)
Definition verb_path_or_simple : parser VerbPathOrSimple :=
  alt [ map path_alternative VpsPath; map var VpsSimple ].

(** path.rs:185-193 [property_list_path_entry] *)
Definition property_list_path_entry : parser PropertyListPathEntry :=
  map (separated_pair verb_path_or_simple sp1 object_list)
    (fun '(v, l) => MkPropertyListPathEntry v l).

(** ** Nodes and property lists: recursive through [graph_node_path] *)

(** path.rs:178-183 [object_list_path]; the separator is [;] *)
Definition object_list_path_of (gnp : parser GraphNodePath) : parser ObjectListPath :=
  map (separated_nonempty_list (sp_enc (tag (s_ ";"))) gnp) MkObjectListPath.

(** path.rs:152-165 [property_list_path_not_empty] *)
Definition property_list_path_not_empty_of (gnp : parser GraphNodePath) : parser PropertyListPath :=
  map (tuple3 (terminated verb_path_or_simple sp1)
         (object_list_path_of gnp)
         (many0 (preceded (many1 (sp_enc (chr (c_ ";")))) property_list_path_entry)))
    (fun '(v, (o, es)) => MkPropertyListPath v o es).

(** path.rs:144-150 [blank_node_property_list_path] *)
Definition blank_node_property_list_path_of (gnp : parser GraphNodePath) : parser PropertyListPath :=
  delimited (terminated (tag (s_ "[")) sp) (property_list_path_not_empty_of gnp)
    (preceded sp (tag (s_ "]"))).

(** path.rs:195-206 [triples_node_path] *)
Definition triples_node_path_of (gnp : parser GraphNodePath) : parser TriplesNodePath :=
  alt [ map (blank_node_property_list_path_of gnp) TnpBlankNodePropertyListPath;
        map (delimited (tag (s_ "(")) (many1 gnp) (tag (s_ ")"))) TnpCollectionPath ].

(** path.rs:208-213 [graph_node_path] *)
Definition graph_node_path_body (gnp : parser GraphNodePath) : parser GraphNodePath :=
  alt [ map var_or_term GnpVarOrTerm; map (triples_node_path_of gnp) GnpTriplesNodePath ].
Definition graph_node_path : parser GraphNodePath := fixp graph_node_path_body.

Definition object_list_path : parser ObjectListPath := object_list_path_of graph_node_path.
Definition property_list_path_not_empty : parser PropertyListPath :=
  property_list_path_not_empty_of graph_node_path.
Definition blank_node_property_list_path : parser PropertyListPath :=
  blank_node_property_list_path_of graph_node_path.
Definition triples_node_path : parser TriplesNodePath := triples_node_path_of graph_node_path.

(** path.rs:167-169 [property_list_path] *)
Definition property_list_path : parser (option PropertyListPath) := opt property_list_path_not_empty.

(** path.rs:125-142 [triples_same_subject_path] *)
Definition triples_same_subject_path : parser TriplesSameSubjectPath :=
  alt [ map (sp_sep1 var_or_term property_list_path_not_empty) (fun '(t, l) => TsspTerm t l);
        map (sp_sep triples_node_path property_list_path) (fun '(n, l) => TsspNode n l) ].

(** triple.rs:92-97 [triples_block] *)
Definition triples_block : parser TriplesBlock :=
  map (separated_nonempty_list (many1 (sp_enc (chr (c_ ".")))) triples_same_subject_path)
    MkTriplesBlock.
