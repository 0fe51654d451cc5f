(** Specification side, continued: flags and tags that follow from keywords. *)
From Verif Require Export Spec2.
Open Scope N_scope.
Open Scope list_scope.

(** the text starts with the keyword and a blank *)
Definition says (k : string) (i : str) : Prop := exists w b r, i = w ++ b ++ r /\ kw k w /\ blank1 b.
(** the text is the keyword, blank text, and [j] *)
Definition after_word (k : string) (i j : str) : Prop :=
  exists w b, i = w ++ b ++ j /\ kw k w /\ blank1 b /\ solid j.
(** the keyword and the SILENT flag of the statements that have one *)
Definition silent_flag (u : UpdateStatement) : option (string * bool) :=
  match u with
  | UsLoad (MkLoad _ s _) => Some ("load", s)
  | UsClear (MkClear s _) => Some ("clear", s)
  | UsDrop (MkDrop s _) => Some ("drop", s)
  | UsCreate (MkCreate s _) => Some ("create", s)
  | UsAdd (MkAdd s _ _) => Some ("add", s)
  | UsMove (MkMove s _ _) => Some ("move", s)
  | UsCopy (MkCopy s _ _) => Some ("copy", s)
  | _ => None
  end%string.
Definition modifier_says (m : option SelectModifier) (j : str) : Prop :=
  match m with
  | Some SmDistinct => says "distinct" j
  | Some SmReduced => says "reduced" j
  | None => ~ begins "distinct" j /\ ~ begins "reduced" j
  end.
Definition order_word (o : Order) : string := match o with Asc => "asc" | Desc => "desc" end.
(** the keyword of a graph pattern; groups and unions have none *)
Definition pattern_word {E G} (p : GraphPatternNotTriples E G) : option string :=
  match p with
  | GpGroupOrUnion _ => None
  | GpOptional _ => Some "optional"
  | GpMinus _ => Some "minus"
  | GpGraph _ => Some "graph"
  | GpService _ => Some "service"
  | GpFilter _ => Some "filter"
  | GpBind _ => Some "bind"
  | GpInlineData _ => Some "values"
  end%string.
Definition announces {E G} (p : GraphPatternNotTriples E G) (i : str) : Prop :=
  match pattern_word p with Some k => says k i | None => exists r, i = 123 :: r end.
