#!/usr/bin/env python3
# Regenerates /verif/properties.jsonl.
import json
P=[]
def p(title, statement, quantifier, why, anchors):
    P.append(dict(id="C%02d"%(len(P)+1), title=title, statement=statement, quantifier=quantifier, why_tests_cant=why, anchors=anchors))

T="tone/tone.go"
p("Tone functions do not depend on map iteration order",
  "ToASCII, Strip, WithTone and Tone return the same result in every process, although the lookup tables they use (the reverse diacritic-to-tone map, the diacritic-to-letter map, the vowel string) are built at program start by ranging over Go maps, whose order is random.",
  "every iteration order of the Diacritic map and of each of its inner maps, every input byte string, every tone rune",
  "Go randomises map iteration per process; a test run observes one order out of an astronomically large set.",
  [T+":tone", T+":ascii", T+":vowels", T+":ToASCII", T+":WithTone", T+":Tone"])
p("ToASCII output is pure ASCII on Toaq text",
  "If every rune of the input is ASCII, a dotless i, or one of the letters in the Diacritic table, then every byte of ToASCII(input) is below 0x80.",
  "all byte strings over that alphabet",
  "Unbounded input length; which combinations of adjacent vowels are handled depends on scanner state carried over arbitrarily many runes.",
  [T+":ToASCII"])
p("ToASCII is the identity on ASCII text and idempotent on its own output",
  "ToASCII(s) = s for every ASCII string s; hence ToASCII(ToASCII(w)) = ToASCII(w) whenever ToASCII(w) is ASCII.",
  "all ASCII byte strings", "Quantifies over all strings.", [T+":ToASCII"])
p("Strip removes every tone marker",
  "Strip(s) contains none of the seven tone-marker characters - / V ? ^ \\ ~, and Strip(s) is a subsequence of ToASCII(s) from which exactly those characters are missing.",
  "all byte strings, valid UTF-8 or not", "Quantifies over all strings.", [T+":Strip"])
p("WithTone then Tone reads the tone back",
  "If the string has a vowel and no tone-marker character before the end of the syllable of its first vowel, then for each of the seven tones t, Tone(WithTone(s,t)) = t.",
  "all byte strings satisfying the side condition, all seven tones", "Quantifies over all strings.", [T+":WithTone", T+":Tone"])
p("WithTone only replaces the first vowel, and the last call wins",
  "WithTone(s,t) differs from s only in the single rune that is the first vowel of s; WithTone(WithTone(s,t1),t2) = WithTone(s,t2) for all tones t1,t2 (including None); a string without vowels is returned unchanged.",
  "all byte strings, all pairs of tones", "Quantifies over all strings and pairs of tones.", [T+":WithTone"])
p("WithTone panics exactly on unknown tones",
  "WithTone(s,t) returns normally for None and the seven tone markers; for every other rune t it panics if and only if s contains a vowel.",
  "all byte strings, all runes", "The set of runes times the set of strings cannot be enumerated.", [T+":WithTone", T+":Diacritic"])
p("Tone reports the tone of the first syllable",
  "Tone(s) is the tone of the first syllable of s; in particular it is None when the first syllable carries no tone.",
  "all Toaq words", "Quantifies over all words; the documentation states it for the first syllable, the code searches the whole word.", [T+":Tone"])
D="dict/dict.go"
p("Dictionary entries are stored under their own normalised word, last one wins",
  "On success every key k of the map returned by Load satisfies map[k].Word = k; the keys are exactly the normalised words of the entries in the response; each key holds the last entry of the response with that normalised word, with its definition, author and score unchanged.",
  "all server responses (success flag, entry lists, error fields)", "Quantifies over all entry lists including duplicates after normalisation.", [D+":Load"])
p("Load returns an error, and never crashes, on any decoded response",
  "For every JSON object decoded from the server Load returns either a map or an error.",
  "all combinations of present/absent success, data and error fields", "The remote service can send any object; tests use a fixed service.", [D+":Load"])
PA="ast/parser.go"; G="ast/toaq.go"; PG="ast/toaq.peggy"
p("Parsing terminates on every input",
  "Parser.Text, Parser.Tree and Parser.Word (at any offset within the text) return for every input byte string: the grammar has no left recursion and no repetition of an expression that can match the empty string, and the recursion depth is bounded by a constant times the input length.",
  "all byte strings, all start offsets, all 403 grammar rules",
  "Non-termination on some input cannot be ruled out by running finitely many inputs.", [G, PG, PA+":Text", PA+":Tree", PA+":Word"])
p("Memoisation is transparent",
  "The outcome of a parse (success or failure, number of bytes consumed, furthest failure position) is the one given by the plain recursive PEG semantics of the grammar, whatever was memoised by earlier calls of Tree, Word and Text on the same Parser in any order.",
  "all inputs, all histories of earlier calls on the same Parser",
  "Histories are unbounded; a stale or wrongly keyed memo entry only shows after particular call sequences.", [G+":_memo", G+":_memoize", G+":_accept", PA+":Parser"])
p("A successful parse has consumed the whole text",
  "If Text or Tree succeeds then the grammar matched every byte of the input.",
  "all byte strings, including invalid UTF-8", "Quantifies over all inputs; the end-of-input test is a negated 'any character', whose treatment of invalid or replacement characters matters.", [G+":_EOFAccepts", G+":_next", PG+":EOF"])
p("The parse tree is lossless",
  "In the tree returned by Tree, the texts of the leaves in left-to-right order concatenate to exactly the consumed input, and the Text of every inner node is the concatenation of the Texts of its children.",
  "all inputs that parse, all nodes of the tree", "Quantifies over all trees.", [G+":_full_textNode", G+":_sub", G+":_leaf", PA+":Tree"])
p("Text and Tree and the acceptance test agree",
  "Text succeeds exactly when Tree succeeds; once acceptance succeeded, the tree-building and AST-building passes never fail and consume the same number of bytes, so Text never returns a nil tree without an error.",
  "all inputs, all parser histories", "The three passes are separate generated functions that must make identical choices on every input.", [PA+":Text", PA+":Tree", G+":_full_textAction", G+":_full_textNode"])
p("Syntax errors are located inside the text",
  "When Text or Tree fails, the reported byte offset lies between 0 and the length of the input, the error construction neither panics nor loops, and line and column are those of that offset.",
  "all inputs that do not parse", "An out-of-range offset would make the location loop run forever, for some input no test contains.", [PA+":parse", PA+":byteOffset", "vendor/github.com/eaburns/peggy/peg/error.go:SimpleError", "vendor/github.com/eaburns/peggy/peg/loc.go:Location", G+":_failMemo"])
p("Source locations count lines and columns",
  "peg.Location(text, b) terminates iff b <= len(text); then Line is one more than the number of newlines among the runes that start before b, and Column is one more than the number of runes since the last newline.",
  "all byte strings and offsets", "Quantifies over all texts and offsets.", ["vendor/github.com/eaburns/peggy/peg/loc.go:Location"])
p("Text never panics",
  "Parser.Text returns an AST or an error for every input; in particular the grammar's actions (tone tables, addTone) never index out of range.",
  "all byte strings", "Quantifies over all inputs.", [PA+":Text", "ast/nodes.go:addTone", PG+":syllable"])
p("The AST is well-sorted",
  "In every AST returned by Text, each field holds a node of the category its documentation promises (sentences hold statements, terms hold arguments/adverbs/prepositions/term sets, connectives connect operands of their own category, ...), discourses and term lists are non-empty, so visiting it, printing it with braces and comparing it never hits an unknown node type.",
  "all inputs that parse", "Quantifies over all parse results; the Go types (interfaces with Node fields) do not enforce it.", [G, "ast/nodes.go", "ast/ast.go", "ast/visit.go:Visit"])
p("AST word offsets are in range and ordered",
  "For every word of an AST returned by Text, 0 <= S <= E <= len(text), and T is the normalised spelling of text[S:E]; in visiting order the words tile the consumed text without gaps or overlaps.",
  "all inputs that parse, all words of the AST", "Quantifies over all ASTs.", ["ast/ast.go:Word", PG, "ast/ast.go:Parenthetical"])
p("Start and End never panic on parsed nodes",
  "Node.Start and Node.End return for every node of an AST returned by Text.",
  "all inputs that parse, all nodes", "Quantifies over all ASTs; optional parts are nil pointers.", ["ast/ast.go:Predication", "ast/ast.go:Text", "ast/ast.go:start", "ast/ast.go:end"])
p("Repeated calls return independent trees",
  "The trees returned by two calls of Text (or Word) on one Parser share no mutable node, so modifying one result does not change the other.",
  "all inputs, all sequences of calls", "Aliasing shows only for call sequences that mutate an earlier result.", [PA+":Text", PA+":Word"])
p("Word errors point at the failing word",
  "When Word(offs) fails, the reported location is at or after offs.",
  "all inputs and offsets", "Quantifies over inputs and offsets.", [PA+":Word", PA+":parse"])
p("Equal is an equivalence that ignores positions",
  "On trees of AST nodes Equal is reflexive, symmetric and transitive; it is true exactly when the two trees are identical except for the S and E fields of words; and it never panics on a node that Visit can reach.",
  "all pairs and triples of AST trees", "Quantifies over all trees.", ["ast/equal.go:Equal", "ast/equal.go:copEqual", "ast/equal.go:wordEqual"])
p("Braces output is balanced and complete",
  "BracesString of any AST is well bracketed with brackets ( { [ < chosen by nesting depth modulo 4, every bracket pair encloses at least two items, and deleting brackets and separators leaves exactly the texts of the non-space words in visiting order.",
  "all AST trees", "Quantifies over all trees.", ["ast/braces.go:BracesString", "ast/braces.go:braces", "ast/braces.go:braceKids"])
p("Visit is a balanced pre-order traversal",
  "Visit calls the visitor once per reachable node in pre-order, then once with nil after the children of each node that was not pruned; a nil visitor result prunes exactly that subtree; the whole call terminates.",
  "all AST trees and all stateful visitors", "Quantifies over trees and visitor behaviours.", ["ast/visit.go:Visit"])
p("Attaching a modifier changes only the end of a node",
  "The mod operations (attaching white space or free modifiers) never change existing words other than the modifier chain of the last word, keep the order of words, and append the modifier's words after all existing words of the node.",
  "all AST nodes and modifiers", "Quantifies over all nodes.", ["ast/ast.go:mod", "ast/ast.go:modNode", "ast/ast.go:Parenthetical"])
p("ast.ToASCII only rewrites word texts",
  "ast.ToASCII applied to a tree changes nothing but the T field of each visited word, which becomes the tone.ToASCII of its former value, exactly once per word.",
  "all AST trees", "Quantifies over all trees.", ["ast/ast.go:ToASCII"])
I="logic/interp.go"; S="logic/simplify.go"; ST="logic/string.go"
p("Interpret returns nil exactly for fragment-only texts",
  "If Interpret returns, its result is nil if and only if the discourse contains no sentence.",
  "all ASTs", "Quantifies over all ASTs.", [I+":Interpret", I+":discourse"])
p("Interpret never panics on parsed text",
  "For every text accepted by the parser, Interpret returns.",
  "all inputs that parse", "Quantifies over all ASTs.", [I+":sentence", I+":connector", I+":relativeClause", I+":predicate"])
p("Interpretation is deterministic",
  "Interpret and String/PrettyString give the same result in every run, although variable-name assignment and the do-variable table range over Go maps.",
  "all ASTs, all map iteration orders", "Map order is random per process.", [ST+":print", I+":oLetters", I+":splitVar"])
p("Arguments are placed where linking words say",
  "When a predication is built, an argument linked with fi/go/cu/ta is put at position 1/2/3/4, unlinked arguments fill the remaining positions from left to right in their order, no argument is dropped unless two are linked to the same position, and no panic occurs.",
  "all argument lists", "Quantifies over all lists of linked and unlinked arguments.", [I+":orderArguments", I+":goPos"])
p("Connected arguments distribute over the whole statement",
  "A predication whose term list contains arguments connected by ru/ra means the connection of the predications for each choice of operand, with all combinations present.",
  "all term lists with connected arguments", "The number of combinations grows with the number of connectives; the code rewrites a shared slice in place.", [I+":prenexStatement", I+":withTerm0"])
p("Both operands of a connected preposition argument are interpreted",
  "A preposition applied to 'A ru B' yields the connection of the preposition applied to A and the preposition applied to B.",
  "all prepositional phrases with connected arguments", "Quantifies over all operands.", [I+":predicationPreposition"])
p("Variables are bound in scope",
  "In the logical form returned by Interpret every variable that refers to a binding occurs inside that binding's restriction or scope.",
  "all inputs on which Interpret returns", "Quantifies over all ASTs; scopes are moved by lifting.", [I+":predicateArgument", I+":clearHiFreeVarDefs", I+":subordinate"])
p("Variable numbers are sequential",
  "In the logical form returned by Interpret, distinct bindings have distinct numbers, numbers are 0..k-1 in order of first appearance, and every bound variable carries the number of its binding.",
  "all inputs on which Interpret returns", "Quantifies over all ASTs; node sharing can renumber a binding twice.", [S+":sequenceVarNums"])
p("Printed formulas end with a period and use distinct variable names",
  "String(n) of an interpreted text ends with '.', and two different variable numbers are never printed with the same name.",
  "all inputs on which Interpret returns", "Quantifies over all formulas.", [ST+":print", ST+":varRune"])
p("merge computes the union of variable sets",
  "merge(l, r) contains exactly the numbers occurring in l or r; the documentation further promises that the result is sorted and without duplicates.",
  "all pairs of integer slices", "Quantifies over all slices.", [S+":merge"])
p("The server always answers with an error or a full analysis",
  "For a POST body the handler produces either a response with exactly an Error field or one with Braces, AST, Text, Parse and Logic; Logic is 'fragment' only when the text has no sentence.",
  "all request bodies", "Quantifies over all inputs.", ["server/server.go:rootHandler", "server/server.go:safeInterp"])
p("The bot survives every message",
  "The bot's parse function returns a reply for every message text, and bridge-message unwrapping only strips a 'name: ' prefix from messages of the bridge account.",
  "all message texts and senders", "Any chat user can send any message.", ["bot/bot.go:parse", "bot/bot.go:fixBridgeMessage"])
with open("/verif/properties.jsonl","w") as f:
    for x in P: f.write(json.dumps(x,ensure_ascii=False)+"\n")
print(len(P))
