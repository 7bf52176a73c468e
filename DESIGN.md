# Design: a machine-checked model of eaburns/toaq in Rocq

Source: `/repo` (Go), read as text.  Model and proofs: `/verif/rocq/theories`.
Tool: Coq 8.16.1, standard library only.

## Trusted base

* Coq's kernel (including the `vm_compute` conversion used for table checks and
  concrete examples).
* `Print Assumptions` is printed under every property theorem.  Every property
  theorem is expected to be "Closed under the global context" (no axioms).
* The correspondence between the Go text and the Gallina definitions (each
  definition cites file and lines).  The grammar table is generated from
  `/repo/ast/toaq.go` by `tools/gen_grammar.py`, and the same script checks it
  against an independent expansion of `/repo/ast/toaq.peggy`.
* `tools/check_go.py` checks that the body of every generated function in
  `toaq.go` is what peggy emits for the rule in the table.  `RepoTests.v`
  (generated by `tools/gen_tests.py`) runs tests of the repository on the model.

## Layers

| files | models | how |
|---|---|---|
| `Base`, `Utf8` | Go strings, `utf8.DecodeRune`, `range` over strings | strings are Coq `string` (bytes); runes are `N` |
| `Tone*` | `tone/tone.go` | tables as association lists; derived maps built by folding over an arbitrary permutation of the tables |
| `Dict*` | `dict/dict.go:Load` after JSON decoding; `dict/main.go` | network and JSON decoding not modelled; `strings.ToLower`, `strconv.IsPrint`, `gofmt`, the time and the order of the map are parameters; `%#v` and `strconv.Quote` are written out |
| `Peg*`, `Grammar` | `ast/toaq.go`: helpers and the 403 generated rules x 4 passes; `vendor/.../peg` | grammar as data + one evaluator per pass, mirroring the code peggy emits for each construct |
| `Ast*` | `ast/ast.go`, `nodes.go`, `visit.go`, `equal.go`, `braces.go`, `parser.go` | one inductive type of nodes; Go interface categories as predicates |
| `Logic*` | `logic/*.go` | heap of mutable nodes addressed by number; panics and fuel exhaustion are explicit results |
| `App*` | `server/server.go:rootHandler` (POST body), `bot/bot.go` | composition of the above |
| `Pretty*`, `Main*`, `Dump*` | `main.go`, `vendor/.../pretty/pretty.go`, `logic/visit.go:NillOutAST` | `pretty.String` on the values that main.go shows |

Model files hold computable definitions only.  `Props_*.v` files hold the property
theorems, each closed by `exact`, followed by `Print Assumptions` and concrete
examples.

General simplifications: `int`/`int32` are unbounded; allocation never fails; the
Go scheduler plays no role (the code is sequential); `AST` back-pointers of logic
nodes are not modelled.

## Properties: plan

See `properties.jsonl`; the status of each is in `MANIFEST.json`.

* C01 tables are built from *any* permutation of the Diacritic rows; prove all four
  functions equal to those of the canonical order.
* C02-C08 direct induction over the rune sequence; C02 and C08 are expected to fail
  (`"áá"`, `"dodó"`), so a refutation plus the strongest true version.
* C09, C10 fold over entries; the nil dereference makes C10 false: refutation and
  characterisation.
* C11 generic theorem: a grammar with a rank function decreasing along
  non-consuming calls and with non-nullable repetition bodies terminates; the side
  condition is checked on the 403-rule table by computation.
* C12 inductive big-step PEG relation; the memoised evaluator computes it for every
  consistent memo table; every API call preserves consistency.
* C13 false (`.` does not match U+FFFD): refutation and exact version.
* C14, C15 induction over evaluation of the Node and Action passes.
* C16 Fail pass: bounds invariant over evaluation.  C17 direct induction.
* C18 false (`addTone` with digit tones, e.g. `"dai4"`): refutation; true for
  texts without the digits 1-7, and exactly (see Panics of Text).
* C19 sort system for rules and actions, checked on the table by computation;
  preservation proved once.
* C20 refutation (what follows a parenthetical is put before its `ki`).  The rest by
  induction over matching: `TileFacts.v` shows that every action concatenates the words
  of its labels in order, `TileApi.v` checks by computation that the labels of each rule
  cover what it matches; `SpellFacts.v` gives each rule a kind of string (letters, a
  sign, separators) and checks the 403 rules against it.  The spelling (`SpellSpec.v`)
  has its own table of vowels with tones, not that of package tone.
* C21 refutation (`hio?`), exact characterisation.
* C22, C23 refutations for Word, proof for Text.
* C41-C44: the trees of failures.  `Dedup.v` models DedupFails as a plan (which kids each
  node keeps) that is applied to the tree and to the parser's memo table, since nodes are
  shared.  `DedupFacts.v` proves it by induction over the tree with the set of nodes seen
  so far; that ByteOffset does not change needs that positions never fall on the way down,
  an invariant of the Fail functions.  `ErrFacts.v` follows the memo of the whole text's
  failure and lastFail through all operations.  `WordErr.v`: what Word can report (C23),
  given that no rule calls FullText.  `WordErrs.v`: the failure of the whole text is made
  once and kept, so all errors of a parser that say anything are that one.
* C24-C28 structural induction on nodes.  C27 false of parentheticals: the modifier
  is put before the closing word; exact version proved.
* C29-C38 on the heap model; several are false of the code and are refuted by
  running the model on a concrete text, with the strongest true version proved.
* C39, C40 composition.

## Package logic

* Nodes are cells of a heap, so sharing and updates through pointers are as in Go.
  `AST` fields are left out, and with them the `predications` map of the interpreter.
* `interpreter.liftedScope` is keyed by pointer in Go, here by the offset of the first
  word of the argument's predicate.  C53 proves that these differ in every parsed text.
* Of slices, only `terms` in `prenexStatement` is changed while shared; its contents are
  threaded through the calls.  `merge` works in place in Go, on slices that have no other
  user; here it is a function.
* `distributePredicatePrefix` has no caller and is not modelled.
* The functions of package `unicode` are a parameter `U`; concrete cases use their
  restriction to ASCII and the letters of Toaq.
* The iteration order of maps is a parameter (`keys` in `print`, a reordered table in
  `o_letters`).
* `outcome U d r` is what the fuel stands for: every large enough fuel gives `r`.
* Absence of panics (C30): `SafeBase.v` types the cells of the heap (`good_heap`) and gives
  a rule for each operation of the interpreter; `InterpSafe.v` and `SimplifySafe.v` prove
  each method safe for well sorted syntax within `supported` (LogicSpec.v).
* Scopes (C35): `ScopeSpec.v` defines a class of sentences, `ScopeFacts.v` an invariant of
  the heap (every statement has one parent, and the bindings of the variables free in a
  part are known), `ScopeInterp.v` and `ScopeRun.v` prove it of each method of the
  interpreter, `ScopeSimp.v` of the simplification.  `ScopeNum.v` concludes that bindings
  are visited once (C36, C37).
* Termination (C30): the invariant of the heap contains a rank that decreases to children;
  `ScopeEnds.v` proves that each method ends on that class of sentences, `ScopeTotal.v`
  that Interpret and String do.
* Meaning (C48): `Meaning.v` defines formulas and, by rules over the syntax, the meaning of
  a discourse; it uses no heap and nothing of `Interp.v`, only the tests on words
  of `LogicWords.v`.  `MeaningFacts.v` to `MeaningHoa.v` follow the
  interpreter: as long as variables are not renumbered, the number of a binding is the
  variable of the formula.  A definite argument is lifted if no variable in scope occurs in
  its restriction, which hasFreeVars decides by walking over the heap
  (`has_free_depends`).  `MeaningOne.v`: the meaning is unique.
* Clauses (C55): `Clauses.v` extends the formulas by clauses, quotes, pluralities and
  lambdas and defines the meaning by rules over the syntax, then addHoa (`fill`) and the
  simplification (`simplified`) as functions on formulas.  `ClauseHeap.v`: the tree at a node
  is a formula, and which nodes can change later (`at_f`); `ClauseHoa.v` and `ClauseSimp.v`:
  addHoa and simplify compute `fill` and `simple`; `ClauseRun.v` to `ClauseBind.v`: what a run
  of the interpreter makes (`steps`, `did`, `dida`); `ClauseSpecs.v` to `ClauseFront.v`: each
  method; `ClauseEnd.v`: Interpret; `ClauseOne.v`: the meaning is unique.
* Termination with clauses (C30): `ClauseHalt.v`: each method ends, by the size of the syntax;
  `ClauseTotal.v`: addHoa, simplify and String end, by the size of the formula that the tree
  shows; the walk of varRune, which leaves that tree, ends since operands are older than what
  connects them (`ordered`), or since what simplify makes is a formula again (`firm`).
  `ClauseApps.v`: the server, the bot and the command.
* Truth (C56): `Truth.v` says when a formula of `Clauses.v` is true in a structure, where
  predicates, connectives and quantifiers are arbitrary up to the laws in `lawful`, and which
  formulas are `tame`.  `TruthFacts.v`: truth depends on loose variables only;
  `TruthProof.v`: simplification of tame formulas whose bindings are distinct and whose
  variables are in scope preserves truth; `TruthEnd.v`: bindings are always distinct, since
  the nodes of the tree are.  `TruthCases.v`: a structure in which two texts change their
  truth value.
* Reports of errors (C57): `Report.v` says what a tree of failures shows; `ReportFacts.v` reads
  the printed tree back line by line, `ReportLabels.v` follows the labels of failures from the
  grammar through the fail pass and DedupFails.
* Notation (C49, C50): `Shown.v` defines how a formula is written and what can be read off
  that.  `ShownNums.v`: numbering keeps variables apart; `ShownHeap.v`: show writes the
  formula at a node; `ShownRead.v` reads the notation back with a parser that is proved to
  invert it.  `WordShape.v` and `WordSpell.v` infer from the grammar how predicate words are
  spelled, `WordName.v` what wordPred makes of them;
  `HeapNames.v` follows the names through Interpret and Simplify.
* Notation of clauses (C49, C35): `ClauseNotation.v` defines how a formula of `Clauses.v` is
  written and which of its variables are outside what binds them (`stray`).  `ClauseShown.v`:
  parts of the tree can be shared, so a binding can be numbered several times; what counts is
  its last visit, and without stray variables every reference is numbered as its binding is.
  `ClauseWritten.v`: texts.
* Reading clauses back (C50): `ClauseSketch.v` defines what can be read off the notation,
  `ClauseRead.v` a parser for it that is proved to invert it, `ClauseReadEnd.v` follows the
  names of predicates to the words of the text, and has two texts that quotation marks in a
  quotation make look alike.
* Orderly sentences (C35, C49, C56): `Orderly.v` defines a class of covered sentences by their
  words: no roi, no ke or ja before a variable, first-order relative clauses in definite
  descriptions, calm statements after lu, and linking words only where predicates are words.
  `OrderlyFacts.v`: variables are numbered as they are introduced; what is bound later does
  not occur earlier.  `OrderlyProof.v`: by induction on the rules of `Clauses.v`, what such
  sentences say has variables in scope and is tame (`Truth.v`).  `OrderlyEnd.v`:
  simplification leaves both as they are; texts.
* The dictionary generator (C58): `DictRead.v` is a specification of the part of Go that
  words.go is written in: tokens, string literals with escapes, the declaration.
  `DictGenFacts.v`: reading inverts quoting, and without "dict." in quoted strings erasing it
  only removes the package name.  `DictGenEnd.v`: the program, and two responses that go wrong.
  `DictGenExact.v`: the converse, by counting dots: the strings that the file declares have
  fewer dots than those of the dictionary if anything was erased from them.
* Function words (C52): `FuncWords.v` lists the words of each group and collects the function
  words of a tree.  `FuncSym.v` evaluates the grammar symbolically: for a call site it
  enumerates the texts the expression can accept, looking ahead through `class_at`;
  `FuncSound.v` proves that complete, `FuncTree.v` checks every action of the grammar against
  it.  It is assumed of `unicode.IsPunct` that the vowels, q and the combining marks are not
  punctuation (`letters_no_punct`).  The interjection m of the grammar is never accepted, and
  no rule makes a PrefixedPredicate.  `FuncSupport.v`: so `supported` (C30) only depends on
  the connectives.
* Numbers of variables with clauses (C36, C37): `Introduced.v`, what a formula introduces in
  order; `ClauseNum.v`: the nodes that are visited introduce just that, so if nothing is
  introduced twice the numbers are the positions, and if moreover variables are in scope and
  used, the period is written.
* Panics of Text (C18): `LateDigit.v` says where the digit is, `LateFacts.v` infers for every
  rule what runs of runes it matches without a panic (`look`), and that addTone is only
  reached after the desinence with the tone inside failed, so with two letters or more.  It
  is assumed of `unicode.IsPunct` that letters and digits are not punctuation
  (`punct_plain`).  `LateApi.v` and `LateEnds.v` carry this to the server, the bot and the
  program (C39, C40, C46): with covered sentences they crash on just those texts.
* Word (C63): `LateWord.v` shows that Word panics only for a digit within the word.  `calm`
  are the expressions without addTone, `snug` those that panic within what they match:
  lookaheads are calm, and what may be tried in vain is calm or a call, since a call that
  fails runs no action.  The rule non_function_word is not of this kind and done by hand.
* Wants (C64): `ErrCases.v` has the two texts for which the claim is false.  The rule
  punctuation, tried on a letter, fails behind it, so the farthest failure is behind the
  place of the error, and only space, a named rule, is reported.
* Roles (C60, C61): `Roles.v` says which tone the place of a word calls for, as a list of
  claims about a tree.  `RoleKinds.v` infers for every rule of the grammar a kind of values
  (text without tone, text whose first tone is t, a tree all of whose claims hold if its role
  is r, n terms, ...) by iteration; the result is checked, not the iteration.  `RoleFacts.v`:
  every kind that is inferred is right, by induction over the derivations.
* Case (C62): `CaseFold.v` makes letters small, except V, the tone sign.  `CaseFacts.v`
  checks each class and literal of the grammar once (`rules_ok`: a class has a capital
  letter if it has the small one, V excepted; literals have no letters that vary), and shows
  by induction over the fuel that accepting, failing and building nodes commute with
  folding.  Letters are assumed not to be punctuation (`punct_no_letter`).  For the trees of
  Text, `CaseText.v` makes all words small, those with a tone too, and takes the dotless i
  for i.  `CaseAlike.v`: the tables of tones and addTone respect this; `CaseTree.v`: so do
  all actions, by induction over the trees for mod; `CaseTalk.v`: two parsers for such texts
  keep related tables over any sequence of calls.
* `LogicTests.v` (generated) runs the 53 tests of `interp_test.go` on the model.

## Server and bot

* `App.v` composes the rest: `post` is the handler of POST once the body is read, up to the
  encoding of the map as JSON, which is `answer` (Json.v); `on_message` is one round of the bot's loop.
* `AST` in the response is the node itself; `pretty.String` of it is `pretty_value
  (node_value n)` (Pretty.v).
* `Json.v`: how encoding/json (Go before 1.22) writes a map of strings with sorted keys, with
  the escapes of SetEscapeHTML(true); written from its source, which is not in /repo.
* C59: `JsonRead.v` is a specification of RFC 8259 for objects of strings.  `JsonFacts.v`:
  reading inverts writing up to bytes that are not UTF-8.  `Utf8Valid.v`, `Utf8Shown.v`,
  `HeapText.v`, `ErrText.v`: what the parser, the printers, the interpreter and the messages
  are made of is UTF-8, even if the request is not.  `JsonApi.v`: requests and bodies.
* A panic in `post` is recovered by `net/http` and ends the request without an answer; one
  in the bot ends the bot.  A computation that never ends has no result here; in Go it
  overflows the stack, which cannot be recovered.

## The command line program

* `Main.v`: the part of main.go after the input has been read.  The result is what is
  written to the standard output, and the status or the panic with which it ends.
* `Pretty.v`: a value as reflection shows it (`value`), how it is printed (`show_value`),
  and the values of syntax trees and of logical trees after NillOutAST.
* C45, C46 composition.  C47: `PrettyFacts.v` reads a value back from its lines,
  `DumpFacts.v` a tree from its value; words have no newline because they are spelled as in
  the text (C20).

Not modelled: HTTP, HTML template, JSON decoding, Discord, reading and creating of
files, go/parser and go/format.
