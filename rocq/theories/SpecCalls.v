(** Specification side: which tree node each SPARQL function of one or two expressions stands for
    (SPARQL 1.1, rule 121 BuiltInCall).  [bool]: whether the code follows it (C21). *)
From Verif Require Export LayoutExpr.
Open Scope list_scope.

Definition unary_calls {E G} : list (string * (E -> BuiltInCall E G) * bool) :=
  [ ("str", BiStr, true); ("lang", BiLang, true); ("datatype", BiDatatype, true); ("iri", BiIri, true); ("uri", BiUri, true);
    ("bnode", (fun e => BiBnode (Some e)), true); ("abs", BiAbs, false); ("ceil", BiCeil, false); ("floor", BiFloor, false);
    ("round", BiRound, false); ("ucase", BiUCase, true); ("lcase", BiLCase, true); ("encode_for_uri", BiEncodeForUri, true);
    ("year", BiYear, true); ("month", BiMonth, true); ("day", BiDay, true); ("hours", BiHours, true); ("minutes", BiMinutes, true);
    ("seconds", BiSeconds, true); ("timezone", BiTimezone, true); ("tz", BiTz, true); ("md5", BiMD5, true); ("sha1", BiSHA1, true);
    ("sha256", BiSHA256, true); ("sha384", BiSHA384, true); ("sha512", BiSHA512, true); ("isiri", BiIsIri, true); ("isuri", BiIsUri, true);
    ("isblank", BiIsBlank, true); ("isliteral", BiIsLiteral, true); ("isnumeric", BiIsNumeric, true) ]%string.
Definition binary_calls {E G} : list (string * (E -> E -> BuiltInCall E G) * bool) :=
  [ ("langmatches", BiLangMatches, true); ("contains", BiContains, false); ("strstarts", BiStrStarts, true);
    ("strends", BiStrEnds, true); ("strbefore", BiStrBefore, true); ("strafter", BiStrAfter, true); ("strlang", BiStrLang, true);
    ("strdt", BiStrDt, true); ("sameterm", BiSameTerm, true) ]%string.
