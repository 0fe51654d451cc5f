(** Specification side: a way of writing update requests.

    [print_update w B n u] is one text for the request [u]; [printable_update n u] describes the requests for which
    that text is safe (see Print.v).  The file does not mention the parsers. *)
From Verif Require Export Print.
Open Scope N_scope.
Open Scope list_scope.

Section PrintU.
  Context (w : string -> str) (B : str).

  (** triples and a final dot *)
  Definition pr_dotted (l : TriplesTemplate) : str := joined (B ++ s_ "." ++ B) (List.map (pr_tss w B) l) ++ B ++ s_ ".".
  Definition pr_quads_entry (e : QuadsEntry) : str :=
    match e with
    | MkQuadsEntry (MkQuadsNotTriples v t) t' =>
        w "graph" ++ B ++ pr_voi v ++ B ++ pr_template w B (match t with Some t => t | None => [] end) ++ may_ pr_dotted t'
    end.
  (** departure: there is no blank between the entries *)
  Definition pr_quads (q : Quads) : str :=
    match q with
    | MkQuads f es => s_ "{" ++ B ++ may_ (fun f => pr_dotted f ++ B) f ++ flat_map pr_quads_entry es ++
        match es with [] => s_ "}" | _ => B ++ s_ "}" end
    end.
  Definition pr_silent (s : bool) : str := if s then w "silent" ++ B else [].
  Definition pr_graph_ref (i : Iri) : str := w "graph" ++ B ++ pr_iri i.
  Definition pr_graph_or_default (g : GraphOrDefault) : str :=
    match g with GodGraph i => pr_graph_ref i | GodDefault => w "default" end.
  Definition pr_graph_ref_all (g : GraphRefAll) : str :=
    match g with
    | GraGraphRef i => pr_graph_ref i
    | GraDefault => w "default"
    | GraNamed => w "named"
    | GraAll => w "all"
    end.
  (** departure: OFFSET stands for DELETE *)
  Definition pr_delete_insert (d : DeleteInsert) : str :=
    match d with
    | DiInsert q => w "insert" ++ B ++ pr_quads q
    | DiDeleteInsert d i => w "offset" ++ B ++ pr_quads d ++ may_ (fun q => B ++ w "insert" ++ B ++ pr_quads q) i
    end.
  Definition pr_using (d : DefaultOrNamedIri) : str := w "using" ++ B ++ pr_don w B d.

  Section Nested.
    Context (n : nat).
    (** departure: WHERE stands for WITH, and no blank follows it *)
    Definition pr_modify (m : ModifyStatement) : str :=
      match m with
      | MkModify i d u g => may_ (fun i => w "where" ++ pr_iri i ++ B) i ++ pr_delete_insert d ++ B ++
          joined B (List.map pr_using u) ++ B ++ w "where" ++ B ++ pr_ggp w B n g
      end.
    Definition pr_stmt (u : UpdateStatement) : str :=
      match u with
      | UsLoad (MkLoad i s g) => w "load" ++ B ++ pr_silent s ++ pr_iri i ++
          may_ (fun g => B ++ w "into" ++ B ++ pr_graph_ref g) g
      | UsClear (MkClear s g) => w "clear" ++ B ++ pr_silent s ++ pr_graph_ref_all g
      | UsDrop (MkDrop s g) => w "drop" ++ B ++ pr_silent s ++ pr_graph_ref_all g
      | UsCreate (MkCreate s g) => w "create" ++ B ++ pr_silent s ++ pr_graph_ref g
      | UsAdd (MkAdd s f t) => w "add" ++ B ++ pr_silent s ++ pr_graph_or_default f ++ B ++ w "to" ++ B ++ pr_graph_or_default t
      | UsMove (MkMove s f t) => w "move" ++ B ++ pr_silent s ++ pr_graph_or_default f ++ B ++ w "to" ++ B ++ pr_graph_or_default t
      | UsCopy (MkCopy s f t) => w "copy" ++ B ++ pr_silent s ++ pr_graph_or_default f ++ B ++ w "to" ++ B ++ pr_graph_or_default t
      | UsInsertData q => w "insert" ++ B ++ w "data" ++ B ++ pr_quads q
      | UsDeleteData q => w "delete" ++ B ++ w "data" ++ B ++ pr_quads q
      | UsDeleteWhere q => w "delete" ++ B ++ w "where" ++ B ++ pr_quads q
      | UsModify m => pr_modify m
      end.
    Fixpoint print_update (u : Update) : str :=
      match u with MkUpdate p s u => pr_prologue w B p ++ may_ pr_stmt s ++ may_ (fun u => B ++ s_ ";" ++ B ++ print_update u) u end.
  End Nested.
End PrintU.

Definition wf_tmpl (l : TriplesTemplate) : Prop := l <> [] /\ Forall wf_tss l.
Definition wf_quads_entry (e : QuadsEntry) : Prop :=
  match e with MkQuadsEntry (MkQuadsNotTriples v t) t' => wf_voi v /\ some_ wf_tmpl t /\ some_ wf_tmpl t' end.
Definition wf_quads (q : Quads) : Prop := match q with MkQuads f es => some_ wf_tmpl f /\ Forall wf_quads_entry es end.
Definition wf_god (g : GraphOrDefault) : Prop := match g with GodGraph i => wf_iri i | GodDefault => True end.
Definition wf_gra (g : GraphRefAll) : Prop := match g with GraGraphRef i => wf_iri i | _ => True end.
Definition wf_delete_insert (d : DeleteInsert) : Prop :=
  match d with DiInsert q => wf_quads q | DiDeleteInsert d i => wf_quads d /\ some_ wf_quads i end.
(** departures: ADD and MOVE are not read, an update with a WHERE group has a USING clause *)
Definition wf_stmt (n : nat) (u : UpdateStatement) : Prop :=
  match u with
  | UsLoad (MkLoad i s g) => wf_iri i /\ some_ wf_iri g
  | UsClear (MkClear s g) => wf_gra g
  | UsDrop (MkDrop s g) => wf_gra g
  | UsCreate (MkCreate s g) => wf_iri g
  | UsAdd _ | UsMove _ => False
  | UsCopy (MkCopy s f t) => wf_god f /\ wf_god t
  | UsInsertData q | UsDeleteData q | UsDeleteWhere q => wf_quads q
  | UsModify (MkModify i d u g) => some_ wf_iri i /\ wf_delete_insert d /\ (u <> [] /\ Forall wf_don u) /\ wf_ggp n g
  end.
Fixpoint printable_update (n : nat) (u : Update) : Prop :=
  match u with
  | MkUpdate p s u => wf_prologue p /\ some_ (wf_stmt n) s /\
      match s, u with
      | _, None => True
      | None, Some _ => False
      | Some _, Some u => printable_update n u
      end
  end.
