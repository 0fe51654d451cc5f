# Formal model of mattsse/nom-sparql in Rocq (Coq 8.16.1)

## What is modelled

The crate is a recursive-descent parser written with the `nom` 5 combinators.  Everything
observable is a pure function `&str -> IResult<&str, AST>` plus a few pure helper methods, so the
model is a shallow embedding: one Gallina function per Rust function, over

* `str  := list N`   a text is its list of Unicode code points (theorems range over *all* lists
  of `N`, a superset of valid Rust strings; UTF-8 byte lengths are modelled where the code or nom
  slices by bytes);
* `res A := Ok rest a | Err e` with `e` one of `Error pos kind` (recoverable), `Failure pos kind`
  (after `cut`), `Incomplete`, `Panic` (byte-slicing inside a character), `OutOfFuel` (model only,
  proved unreachable).

The syntax trees are parameterised by the types `E` of expressions and `G` of group graph patterns, and the
corresponding parsers by the parsers `e : parser E` and `g : parser G` (`..._of e g`); the two mutually
recursive Rust types are closed by `Expression`/`GroupGraphPattern` at the end of `Ast.v`, the two mutually
recursive functions at the end of `MExpr.v`.  This is only a way of writing the recursion; the definitions
used in theorems are the closed ones.

Files (`rocq/theories`):

| file | contents |
|---|---|
| `Strings.v`, `Nom.v` | texts, UTF-8 lengths, the nom 5.1 combinators used by the crate |
| `Ast.v` | the syntax trees (`struct`/`enum` definitions) |
| `MTerminals.v`, `MTriple.v`, `MPath.v`, `MExpr.v`, `MQuery.v`, `MUpdate.v` | the crate's functions, one Gallina definition per Rust function, each with file and lines |
| `RepoTests.v` | the crate's own unit tests, replayed by `vm_compute` on the model (tests, not proofs) |
| `SpecF64.v`, `LF64.v` | binary64 numbers, rounding to nearest with ties to even; the rounding of the model meets it |
| `Spec.v` | what it means that a text is a way of writing a tree: `R_x tree text`, by recursion on the tree |
| `Spec2.v`, `Spec3.v`, `SpecCalls.v`, `SpecQuery.v` | further notions used in statements: longest match, follow conditions, W3C character classes, keywords of forms and statements, flags |
| `Layout.v`, `LayoutPath.v`, `LayoutExpr.v`, `LayoutQuery.v` | `W_x tree text rest`: the text is a *safe* way of writing the tree when `rest` follows (the texts for which reading is proved); every place where this is narrower than SPARQL is marked "departure" |
| `Print.v`, `PrintU.v` | a canonical printer for queries and update requests (parameterised by the letter case of keywords) and the predicates `printable`, `printable_update` on trees |
| `LNom.v`, `LGood*.v` | invariants of the combinators: termination, suffixes, error positions, Incomplete, panics |
| `LSound*.v`, `LMono.v` | soundness `sd_x`: whatever is returned is described by `R_x` |
| `LEval.v`, `LTok.v`, `LTerm*.v`, `LName*.v`, `LNum.v`, `LProp1.v`, `LInv.v` | exact characterisations of combinators and terminals; inversion lemmas |
| `LRd.v`, `LFirst.v`, `LC1.v`-`LC8.v` | completeness `rd_x`: every text described by `W_x` is read as its tree |
| `LPrint1.v`-`LPrint7.v` | the printed form of a printable tree is described by `W_x` |
| `SpecLeaves.v`, `LLeaves*.v` | the names, literals and numbers of a tree, in the order of the text |
| `SpecSize.v`, `LSize*.v` | the number of values, list elements and characters of a tree, and its bound |
| `SpecShape.v`, `LSign.v`, `LShape*.v` | non-empty lists and the nodes that occur in no tree |
| `SpecFail.v`, `LFail.v`, `LFail2.v` | where hard failures point |
| `SpecSafe.v`, `LSafe.v` | what characters and numbers the pieces of a tree may hold |
| `LayoutThen.v`, `LGen.v`, `LGen2.v`, `LGen3.v`, `LGen4.v` | departures from the standard, for every text of a kind (C04, C05, C09–C12, C18, C20, C22, C29, C31–C34, C44) |
| `SpecCase.v`, `LRecase1.v`-`LRecase5.v` | texts that differ in the case of letters, and the runs of every parser on two of them |
| `SpecBlank.v`, `LBlank1.v`-`LBlank5.v` | texts that differ in runs of blanks, and the runs of every parser on two of them |
| `SpecCost.v`, `LCost.v`, `LCost2.v`, `LCost3.v` | the parsers of queries and requests once more, counting calls; they answer alike; lower bounds of the count |
| `LWork.v`, `LWork2.v`, `LWork3.v` | upper bounds of the count, function by function, then for the knots by induction on the opening brackets |
| `SpecDepth.v`, `LDepth.v`, `LDepth2.v` | the recursive parsers with a limit on nested calls, and how deep a limit is enough |
| `SpecTame.v` | what a tree may hold that Print.v does not write (`docile`) |
| `LTame0.v`, `LTame.v`, `LTame2.v`, `LTame3.v`, `LTameEx.v` | every other condition of `printable` holds for what the parsers return |
| `SpecBlock.v` | a text from an opening brace to the one closing it (`block`) |
| `LBlock1.v` - `LBlock7.v` | no parser looks past the closing brace of the block it is in (`loc p`) |
| `SpecNest.v` | texts whose brackets match (`nested`), a check with a stack (`matching`) |
| `LNest.v`, `LNest2.v` - `LNest4.v` | what a parser takes from the text is `nested` |
| `LTmpl.v` | templates of CONSTRUCT against those of CONSTRUCT WHERE and GRAPH |
| `LAlike.v`, `LForms.v`, `LWhere.v`, `LPlace.v`, `LVals.v` | statements on their keywords; query forms on their heads; clauses in front of groups; places of constraints, calls and VALUES |
| `LPred.v` | predicates and objects of one subject in a group |
| `LArity.v` | calls by name and bracket |
| `LSwap.v` | clauses that differ in a keyword, named expressions |
| `LIri.v` | the places of IRIs |
| `LLit.v` | the places of literals and variables |
| `LBrackets.v`, `LBraces.v`, `LUnion.v`, `LPathIn.v`, `LExists.v`, `LItems.v`, `LData.v`, `LModify.v`, `LValues2.v` | expressions in brackets, groups in braces, groups joined with UNION, paths in brackets, groups of groups, requests of data statements, INSERT with a WHERE group, the braces of VALUES |
| `LEither.v`, `LDecl.v`, `LSub.v` | queries against requests; declarations and the rest of a text; SELECT as query and as sub-select |
| `LNever.v`, `LCall.v`, `LMods.v`, `LObj.v`, `LCase.v`, `LLead.v`, `LFlags*.v`, `LMore*.v` | lemmas behind single properties |
| `LEx.v`, `LEx2.v`, `LPrintEx.v`, `LPrintEx2.v` | tactics and samples for the non-vacuity examples |
| `P*.v` | property theorems, each with `Print Assumptions` and a non-vacuity `Example` |

Recursion.  The crate's recursive functions are cut at six points (`expression`,
`group_graph_pattern`, `graph_node`, `graph_node_path`, `path_alternative`, `update`); the model
uses `fixp body i := iterate body (length i + 1) times, then OutOfFuel`.  We prove that every body
calls itself only on strictly shorter text, hence each modelled function satisfies the same
recursive equation as the Rust function and `OutOfFuel` is unreachable (C01).

## Trusted base

* Coq 8.16.1's kernel and `vm_compute`.
* `Print Assumptions` is run under each property theorem and answers "Closed under the global context" for
  every one of them: no axioms, neither own nor from the standard library.
* The reading of the Rust code and, since nom's source is not in the sandbox, our knowledge of
  **nom 5.1** semantics (`Cargo.toml` asks for `nom = "5.0"`, no lock file): ordered `alt` that
  continues only on `Err::Error`; `opt`/`many0`/`separated_list` that propagate `Failure` and
  `Incomplete`; `many0`/`many1` and `separated_list` that answer `Err::Error` when an iteration --
  or, for `separated_list`, a *separator* -- consumes nothing; `escaped` that rejects an empty
  match followed by a non-escape; `tag_no_case` comparing char-wise by `to_lowercase` but slicing
  by bytes; error values `(input, ErrorKind)` where `alt` keeps the last error.
* That Rust's `str::parse::<f64>` rounds the decimal fraction to the nearest binary64 number, ties to even, keeps the
  sign of zero and overflows to an infinity (documented; exact since Rust 1.55).  `MTerminals.round_f64` does this on
  integers and is proved to meet the IEEE 754 description in `SpecF64.v`.

## Not modelled

* The amount in `Incomplete(Needed)`; machine stack depth, time and memory.
* `Display for SparqlQuery` (`unimplemented!()`), `read.rs`/`write.rs` (empty), derive-generated
  `Debug`/`Clone`, `terminals.rs::from_hex` (unused), and the constructor helpers that only build a value
  (`LimitOffsetClause::limit_offset`/`offset_limit`, `RdfLiteral::new`/`literal`, `Iri::iri_ref`/`prefixed_name`).
  Every other non-test function of the crate is modelled.

## Two kinds of theorems about reading

*Soundness* (C16): a returned tree describes the text consumed.  The relation `R_x` is the grammar the code
implements, in the shape of the W3C grammar; where the code departs from it the definition says so.
*Completeness* (C18-C34): a text described by `W_x` is read as its tree, with exactly the rest.  `W_x` takes the
following text as an argument because the code's tokens are not delimited.  The two together leave a gap --
texts in `R_x` but not in `W_x` -- which is either refuted (a theorem `..._refuted`, general where possible) or
makes the claim "partial".  For queries and update requests the printers of `Print.v` and `PrintU.v` give completeness in the form
parse(print t) = t for every printable tree t of any depth, every casing of the keywords and
every non-empty text of blanks (spaces, tabs, line ends, comments) between the parts.

## Plan per property

| id | modelled / how proved |
|---|---|
| C01 | guardedness of every recursive body; generic fixpoint lemma; no `OutOfFuel` for any input |
| C02, C03 | one invariant (`suffix`, strict for success) preserved by every combinator, induction on fuel |
| C04 | refuted for every path and keyword of a kind; `_partial`: no panic without U+212A and without a non-ASCII char directly after a blank |
| C05 | refuted for every path and expression at the end of the text; `_partial` for the sub-languages without expressions and paths |
| C06-C14 | exact "iff" characterisations of each terminal; W3C deviations as `_refuted` theorems |
| C15 | keyword lemma (iff); a relation between the runs of each parser on two texts that differ in case only (LRecase1-5), carried through every combinator and every parser |
| C16 | rendering relation by recursion on the tree; soundness of each parser by combinator lemmas and induction on text length |
| C17 | from the keyword lemma |
| C18 | canonical printer: parse(print t) = t; safe layouts of any depth; general refutations |
| C19, C27, C28, C30, C33, C34 | safe layouts with follow-conditions; induction on trees/lists |
| C20-C24, C26, C29, C31, C32 | true part proved, false part `_refuted` by a universal theorem describing what the code does instead |
| C25 | case analysis over all texts |
| C35 | equality of results before and after blanks; refuted with declarations |
| C36, C37, C38, C43, C44, C47 | inversion of the parsers: flag or tag iff keyword in the text |
| C57 | from C16: every rule of the grammar spreads the leaves of its parts over the text in order |
| C58 | a relation between the runs of each parser on two texts that differ in runs of blanks only (LBlank1-5); comments: the printer takes the text for the blanks as a parameter, from the round trips of C18 and C34 |
| C59 | a relation between the runs of two parsers that agree on texts with fewer opening brackets, by induction on their number (LDepth, LDepth2); nested braces and `CLEAR ALL;` repeated for the lower bounds |
| C60 | counting parsers answer as the parsers do (LCost, by the structure of the program); the count doubles with every level of `strlen (…,1)` and of `(<a>\|…` (LCost2, induction on the depth) |
| C61 | from C57, whose pieces carry their kind: each is a text of its lexical class, and those hold no character that ends them |
| C62 | from C16: for every rule, the size of the tree is at most 16 times the length of the text, and each nested expression or group is shorter than the text around it; the numbers are left to `lia` |
| C63 | what each parser returns satisfies a predicate on trees (`ens`), carried through the combinators and the knots |
| C64 | every parser keeps the place of a hard failure (`hf`), carried through the combinators and the knots; the three uses of `cut` |
| C65 | each function makes at most `c (n+2)^k` calls of the functions it is given (LWork2); a recursive call happens behind an opening bracket, so the number of levels is at most the number of brackets (LWork3) |
| C66 | each parser returns only trees that can be written (`ens p (tame ~~> wf)`), carried through the combinators and the knots with the levels bounded by the opening brackets (C59); then C18 and C34 |
| C67 | `loc p`: on a text inside a block `p` gives the same answer with anything added behind the block, and what is left is still inside; carried through all combinators, terminals and the knots |
| C68 | `eats p nested` (what `p` takes is `nested`), carried through all combinators and the knots; `delimited` with a bracket on each side makes a new pair |
| C69 | the word after the declarations is a query form for one parser and a statement word for the other |
| C70 | both parsers read the declarations first and go on behind the blanks; the word there shows that no declaration follows |
| C71 | both parsers are taken apart; a WHERE group that is read shows that no FROM stands in front of it |
| C72 | both readers are taken apart; the list of triples ends at the same place in both, and only one of them takes the dot behind it |
| C73 | every statement is evaluated on its keyword; what is left is the same parser |
| C74 | every form is evaluated on its head; what is left is one parser for the rest, with or without the blanks inside its parts |
| C75 | every clause is evaluated on its keyword and name; the earlier alternatives fail on the keyword |
| C76 | the alternatives of each place are taken apart; no built-in call starts with a bracket, and no constraint with ASC or DESC and a bracket |
| C77 | every place is evaluated on the keyword |
| C78 | the layout of one subject is read by the lemmas of C18; the rest then starts with no pattern; a further predicate is found only where no object is read after the semicolon |
| C79 | the constructor names the alternative, the keyword is taken off, the bracket is left; the other alternatives fail on the keyword |
| C80 | the keyword and the blank are taken off; what is left goes to the same parser |
| C81 | as C80; a group condition under a name is taken apart and put together again |
| C82 | every place is reduced to the parser of IRIs; the alternatives before it fail on its first character |
| C83 | the alternatives tried before fail on the first character or, for booleans, on the word; names that start with true or false are excluded by each place in the same way |
| C84 | induction on the brackets; each level of the operator tower stops at the closing bracket |
| C85 | induction on the braces; C67 for the innermost block, and an outer group is only read if the inner one is |
| C86 | induction on the chain; C67 for each block, so that a member does not depend on what follows it |
| C87 | induction on the brackets, in both directions; the other forms of a path element fail on a bracket |
| C88 | induction on the members, in both directions; C67 and C75 for each member; a rejected member ends the list and no closing brace stands there |
| C89 | induction on the statements, in both directions; C67 for the block of quads; every other alternative fails at one of the two words |
| C90 | C67 for both blocks, C01 for the text between them; every other alternative fails at INSERT or at the brace behind it |
| C91 | the locality of LBlock2.v for what is between the braces; the variables in front decide between the two alternatives |
| C39, C40, C41, C42, C45, C46, C48-C56 | what the code does instead, for all texts (`_refuted`), and the part that holds |

## What the proofs found

Each of these is a theorem (mostly `..._refuted`) in the file of the property; "for all" marks those that hold for
all texts of the shape, the others are single witnesses.

* Slicing inside a character panics: a path step followed by a blank and a non-ASCII character, a Kelvin sign in a
  keyword (C04, for every such text; nothing else panics).  Some inputs give `Incomplete` (C05, for every expression and path at the end of the text).
* A path step followed by ` ?x` takes the `?` as a modifier, so `{?s <p> ?o` is never read (C52, for all; `{?s <p> $o}`, `{?s ?p ?o}` and
  `{?s <p> * ?o}` are, for all names); `/` is
  not read and `|` never gives alternatives (C20, for all).
* In a group `;` separates the objects of one predicate, and `,` is not read at all (C78, for all).
* No argument or expression list has members: `IN (1)`, `<f>(?x)`, `COALESCE (?x)` are hard failures (C54, for all).
* Several kinds of nodes occur in no tree at any depth: argument lists with members, bracketed objects, alternatives of
  paths, ABS, CEIL, FLOOR, ROUND, ADD, MOVE (C63, for all).
* A dot after the last triple of a block or after a pattern is rejected, and the mark taken after a pattern is `?`
  (C53, for all).
* A keyword needs a blank after it: `ASK{`, `WHERE{`, `OPTIONAL{`, `FILTER(` are rejected (C48, for all), and so are
  `DESC(?x)` (C38), `FROM <g>{` (C45), `DESCRIBE <u>` at the end (C42) and declarations without a blank between
  them (C49), all for all texts.  `SELECT ?a ?b` (C55) and a closing
  brace directly after a pattern, as in `{ {}}` (C56), are rejected, for all.
* The last ORDER BY, GROUP BY or HAVING condition at the end of the text is dropped (C31, for all); in GROUP BY `AS ?v` is
  only read after a sum or an IN list (C50, for all).
* A VALUES block after a query is attached only in some cases (C32, for all).
* ADD and MOVE are never read, the DELETE clause has the keyword OFFSET, a modification needs USING (C23, for all);
  the rest of a request after a statement that is not read is silently ignored (C34).  WITH has the keyword WHERE, and a
  request starting with WITH is returned empty (C23, for all).
* One blank in front of PREFIX or BASE: a query is rejected, a request is returned empty (C35, for all).
* `?s a :C` reads `a :C` as one prefixed name (C39, for all), and likewise `true :c` (C51, for all) and a group
  starting with `select :c` (C44, for all).
* `trueundef` reads as two values (C40, for all); rows of VALUES may have any width (C41, for all); graph names
  starting with `default` are cut (C46, for all).
* Casts to `u8` look at the low byte of a character only: U+0420 is rejected in IRIs (C10, for all), U+2041 counts
  as a letter in names and U+10000 does not (C11, for all).
* The recursion depth is not bounded: `ASK {{{...} } }` and a long list of update statements exhaust any stack (C59,
  for all depths).
* Nested function calls are read in exponential time (C60): the first alternative for `strlen` reads the whole argument and fails at the comma, then the second reads it again. Bracketed paths that are not closed are rejected in exponential time, since the two nested lists of path.rs have the same separator.  What is returned is nevertheless linear in the text (C62), and for a bounded number of brackets the work is polynomial in the length (C65).

## Wrong programs

`seeded/LOG.jsonl` records one line for each edit of the model that stands for a wrong (or a repaired) program.  The
edit is made in a copy outside this directory, everything that depends on it is built again, and every proof that
fails is replaced by `Admitted`.  `theorems_failed` are the property theorems that fail themselves or use a lemma that
fails, as told by `Print Assumptions`; `first_failing_lemmas` are where the failures start.  A line with
`theorems_tightened` belongs to an edit that first went unnoticed or was noticed by the wrong theorem.  For the edits
with `"scope"` only the files of the named properties were built again.
