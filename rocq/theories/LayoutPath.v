(** Specification side: safely laid out property paths and WHERE triples (continues Layout.v). *)
From Verif Require Export Layout.
Open Scope N_scope.
Open Scope list_scope.

(** ** Paths *)
(** no path modifier follows: there is no blank, or there is one and the character after it is an
    ASCII character other than a modifier (departure: the code takes the [?] of a variable that
    follows a path for a modifier) *)
Definition no_mod (r : str) : Prop :=
  solid r \/ nxt1 (fun r' => exists c r'', r' = c :: r'' /\ c < 128 /\ ~ In c (s_ "?*+")) r.
Definition W_iri_or_a (i : IriOrA) : lang :=
  match i with IoaIri i => W_iri i | IoaA => plain_word "a" end.
Definition W_iri_or_a_or_caret (i : IriOrAOrCaret) : lang :=
  match i with IocIriOrA i => W_iri_or_a i | IocCaret i => sym "^" >> W_iri_or_a i end.
Definition barW : lang := gap >> sym "|" >> gap.
Definition W_negated (n : PathNegatedPropertySet) : lang :=
  match n with
  | MkPathNegatedPropertySet l =>
      sym "(" >> gap >>
      sep1W (fun '(MkPathOneInPropertySet i) => W_iri_or_a_or_caret i) barW (nxt (not_first 124)) l >>
      gap >> sym ")"
  end.
Section Path.
  Context (WP : PathAlternative -> lang).
  Definition W_path_primary (p : PathPrimary) : lang :=
    match p with
    | PpIri i => W_iri i
    | PpA => fun t r => lit "a" t /\ no_iri (t ++ r)
    | PpNegated s => sym "!" >> W_negated s
    | PpPath p => sym "(" >> WP p >> sym ")"
    end.
  Definition W_elt (e : PathElt) : lang :=
    match e with
    | MkPathElt p m => W_path_primary p >> optW (fun m => gap1 >> tok (R_mod m)) no_mod m
    end.
  Definition W_elt_or_inverse (e : PathEltOrInverse) : lang :=
    match e with PeiPathElt e => W_elt e | PeiInverse e => sym "^" >> W_elt e end.
  (** departure: the elements joined by [|] form one sequence *)
  Definition path_layout (p : PathAlternative) : lang :=
    match p with
    | MkPathAlternative [MkPathSequence l] => sep1W W_elt_or_inverse barW (nxt (not_first 124)) l
    | _ => fun _ _ => False
    end.
End Path.
(** the least relation closed under the rule ([WP]: the paths inside brackets) *)
Inductive W_path : PathAlternative -> lang :=
| W_path_intro (WP : PathAlternative -> lang) p t r :
    (forall p t r, WP p t r -> W_path p t r) -> path_layout WP p t r -> W_path p t r.

(** ** WHERE triples *)
Definition W_verb_path (v : VerbPathOrSimple) : lang :=
  match v with VpsPath p => W_path p | VpsSimple v => W_var v end.
(** nodes are variables and terms (C29) *)
Definition W_graph_node_path (g : GraphNodePath) : lang :=
  match g with GnpVarOrTerm v => W_var_or_term v | GnpTriplesNodePath _ => fun _ _ => False end.
(** after the objects: no semicolon, or one that is not followed by something readable as an object *)
Definition objects_end (r : str) : Prop :=
  nxt (not_first 59) r \/
  exists s r', r = s ++ r' /\ (gap >> sym ";" >> gap) s r' /\ (first 59 r' \/ (begins "a" r' /\ no_iri r')).
(** departure: objects are separated by [;] *)
Definition W_object_list_path (o : ObjectListPath) : lang :=
  match o with MkObjectListPath l => sep1W W_graph_node_path (gap >> sym ";" >> gap) objects_end l end.
Definition W_path_entry (e : PropertyListPathEntry) : lang :=
  match e with MkPropertyListPathEntry v o => W_verb_path v >> gap1 >> W_object_list o end.
Definition W_property_list_path (p : PropertyListPath) : lang :=
  match p with
  | MkPropertyListPath v o es =>
      W_verb_path v >> gap1 >> W_object_list_path o >>
      manyW (fun e => semisW >> W_path_entry e) (nxt (not_first 59)) es
  end.
Definition W_tssp (t : TriplesSameSubjectPath) : lang :=
  match t with
  | TsspTerm v p => W_var_or_term v >> gap1 >> W_property_list_path p
  | TsspNode _ _ => fun _ _ => False
  end.
(** departure: no dot after the last triple *)
Definition W_triples_block (b : TriplesBlock) : lang :=
  match b with MkTriplesBlock l => sep1W W_tssp dotsW (nxt (not_first 46)) l end.
