{"id": "C01", "title": "Tone functions do not depend on map iteration order", "statement": "ToASCII, Strip, WithTone and Tone return the same result in every process, although the lookup tables they use (the reverse diacritic-to-tone map, the diacritic-to-letter map, the vowel string) are built at program start by ranging over Go maps, whose order is random.", "quantifier": "every iteration order of the Diacritic map and of each of its inner maps, every input byte string, every tone rune", "why_tests_cant": "Go randomises map iteration per process; a test run observes one order out of an astronomically large set.", "anchors": ["tone/tone.go:tone", "tone/tone.go:ascii", "tone/tone.go:vowels", "tone/tone.go:ToASCII", "tone/tone.go:WithTone", "tone/tone.go:Tone"]}
{"id": "C02", "title": "ToASCII output is pure ASCII on Toaq text", "statement": "If every rune of the input is ASCII, a dotless i, or one of the letters in the Diacritic table, then every byte of ToASCII(input) is below 0x80.", "quantifier": "all byte strings over that alphabet", "why_tests_cant": "Unbounded input length; which combinations of adjacent vowels are handled depends on scanner state carried over arbitrarily many runes.", "anchors": ["tone/tone.go:ToASCII"]}
{"id": "C03", "title": "ToASCII is the identity on ASCII text and idempotent on its own output", "statement": "ToASCII(s) = s for every ASCII string s; hence ToASCII(ToASCII(w)) = ToASCII(w) whenever ToASCII(w) is ASCII.", "quantifier": "all ASCII byte strings", "why_tests_cant": "Quantifies over all strings.", "anchors": ["tone/tone.go:ToASCII"]}
{"id": "C04", "title": "Strip removes every tone marker", "statement": "Strip(s) contains none of the seven tone-marker characters - / V ? ^ \\ ~, and Strip(s) is a subsequence of ToASCII(s) from which exactly those characters are missing.", "quantifier": "all byte strings, valid UTF-8 or not", "why_tests_cant": "Quantifies over all strings.", "anchors": ["tone/tone.go:Strip"]}
{"id": "C05", "title": "WithTone then Tone reads the tone back", "statement": "If the string has a vowel and no tone-marker character before the end of the syllable of its first vowel, then for each of the seven tones t, Tone(WithTone(s,t)) = t.", "quantifier": "all byte strings satisfying the side condition, all seven tones", "why_tests_cant": "Quantifies over all strings.", "anchors": ["tone/tone.go:WithTone", "tone/tone.go:Tone"]}
{"id": "C06", "title": "WithTone only replaces the first vowel, and the last call wins", "statement": "WithTone(s,t) differs from s only in the single rune that is the first vowel of s; WithTone(WithTone(s,t1),t2) = WithTone(s,t2) for all tones t1,t2 (including None); a string without vowels is returned unchanged.", "quantifier": "all byte strings, all pairs of tones", "why_tests_cant": "Quantifies over all strings and pairs of tones.", "anchors": ["tone/tone.go:WithTone"]}
{"id": "C07", "title": "WithTone panics exactly on unknown tones", "statement": "WithTone(s,t) returns normally for None and the seven tone markers; for every other rune t it panics if and only if s contains a vowel.", "quantifier": "all byte strings, all runes", "why_tests_cant": "The set of runes times the set of strings cannot be enumerated.", "anchors": ["tone/tone.go:WithTone", "tone/tone.go:Diacritic"]}
{"id": "C08", "title": "Tone reports the tone of the first syllable", "statement": "Tone(s) is the tone of the first syllable of s; in particular it is None when the first syllable carries no tone.", "quantifier": "all Toaq words", "why_tests_cant": "Quantifies over all words; the documentation states it for the first syllable, the code searches the whole word.", "anchors": ["tone/tone.go:Tone"]}
{"id": "C09", "title": "Dictionary entries are stored under their own normalised word, last one wins", "statement": "On success every key k of the map returned by Load satisfies map[k].Word = k; the keys are exactly the normalised words of the entries in the response; each key holds the last entry of the response with that normalised word, with its definition, author and score unchanged.", "quantifier": "all server responses (success flag, entry lists, error fields)", "why_tests_cant": "Quantifies over all entry lists including duplicates after normalisation.", "anchors": ["dict/dict.go:Load"]}
{"id": "C10", "title": "Load returns an error, and never crashes, on any decoded response", "statement": "For every JSON object decoded from the server Load returns either a map or an error.", "quantifier": "all combinations of present/absent success, data and error fields", "why_tests_cant": "The remote service can send any object; tests use a fixed service.", "anchors": ["dict/dict.go:Load"]}
{"id": "C11", "title": "Parsing terminates on every input", "statement": "Parser.Text, Parser.Tree and Parser.Word (at any offset within the text) return for every input byte string: the grammar has no left recursion and no repetition of an expression that can match the empty string, and the recursion depth is bounded by a constant times the input length.", "quantifier": "all byte strings, all start offsets, all 403 grammar rules", "why_tests_cant": "Non-termination on some input cannot be ruled out by running finitely many inputs.", "anchors": ["ast/toaq.go", "ast/toaq.peggy", "ast/parser.go:Text", "ast/parser.go:Tree", "ast/parser.go:Word"]}
{"id": "C12", "title": "Memoisation is transparent", "statement": "The outcome of a parse (success or failure, number of bytes consumed, furthest failure position) is the one given by the plain recursive PEG semantics of the grammar, whatever was memoised by earlier calls of Tree, Word and Text on the same Parser in any order.", "quantifier": "all inputs, all histories of earlier calls on the same Parser", "why_tests_cant": "Histories are unbounded; a stale or wrongly keyed memo entry only shows after particular call sequences.", "anchors": ["ast/toaq.go:_memo", "ast/toaq.go:_memoize", "ast/toaq.go:_accept", "ast/parser.go:Parser"]}
{"id": "C13", "title": "A successful parse has consumed the whole text", "statement": "If Text or Tree succeeds then the grammar matched every byte of the input.", "quantifier": "all byte strings, including invalid UTF-8", "why_tests_cant": "Quantifies over all inputs; the end-of-input test is a negated 'any character', whose treatment of invalid or replacement characters matters.", "anchors": ["ast/toaq.go:_EOFAccepts", "ast/toaq.go:_next", "ast/toaq.peggy:EOF"]}
{"id": "C14", "title": "The parse tree is lossless", "statement": "In the tree returned by Tree, the texts of the leaves in left-to-right order concatenate to exactly the consumed input, and the Text of every inner node is the concatenation of the Texts of its children.", "quantifier": "all inputs that parse, all nodes of the tree", "why_tests_cant": "Quantifies over all trees.", "anchors": ["ast/toaq.go:_full_textNode", "ast/toaq.go:_sub", "ast/toaq.go:_leaf", "ast/parser.go:Tree"]}
{"id": "C15", "title": "Text and Tree and the acceptance test agree", "statement": "Text succeeds exactly when Tree succeeds; once acceptance succeeded, the tree-building and AST-building passes never fail and consume the same number of bytes, so Text never returns a nil tree without an error.", "quantifier": "all inputs, all parser histories", "why_tests_cant": "The three passes are separate generated functions that must make identical choices on every input.", "anchors": ["ast/parser.go:Text", "ast/parser.go:Tree", "ast/toaq.go:_full_textAction", "ast/toaq.go:_full_textNode"]}
{"id": "C16", "title": "Syntax errors are located inside the text", "statement": "When Text or Tree fails, the reported byte offset lies between 0 and the length of the input, the error construction neither panics nor loops, and line and column are those of that offset.", "quantifier": "all inputs that do not parse", "why_tests_cant": "An out-of-range offset would make the location loop run forever, for some input no test contains.", "anchors": ["ast/parser.go:parse", "ast/parser.go:byteOffset", "vendor/github.com/eaburns/peggy/peg/error.go:SimpleError", "vendor/github.com/eaburns/peggy/peg/loc.go:Location", "ast/toaq.go:_failMemo"]}
{"id": "C17", "title": "Source locations count lines and columns", "statement": "peg.Location(text, b) terminates iff b <= len(text); then Line is one more than the number of newlines among the runes that start before b, and Column is one more than the number of runes since the last newline.", "quantifier": "all byte strings and offsets", "why_tests_cant": "Quantifies over all texts and offsets.", "anchors": ["vendor/github.com/eaburns/peggy/peg/loc.go:Location"]}
{"id": "C18", "title": "Text never panics", "statement": "Parser.Text returns an AST or an error for every input; in particular the grammar's actions (tone tables, addTone) never index out of range.", "quantifier": "all byte strings", "why_tests_cant": "Quantifies over all inputs.", "anchors": ["ast/parser.go:Text", "ast/nodes.go:addTone", "ast/toaq.peggy:syllable"]}
{"id": "C19", "title": "The AST is well-sorted", "statement": "In every AST returned by Text, each field holds a node of the category its documentation promises (sentences hold statements, terms hold arguments/adverbs/prepositions/term sets, connectives connect operands of their own category, ...), discourses and term lists are non-empty, so visiting it, printing it with braces and comparing it never hits an unknown node type.", "quantifier": "all inputs that parse", "why_tests_cant": "Quantifies over all parse results; the Go types (interfaces with Node fields) do not enforce it.", "anchors": ["ast/toaq.go", "ast/nodes.go", "ast/ast.go", "ast/visit.go:Visit"]}
{"id": "C20", "title": "AST word offsets are in range and ordered", "statement": "For every word of an AST returned by Text, 0 <= S <= E <= len(text), and T is the normalised spelling of text[S:E]; in visiting order the words tile the consumed text without gaps or overlaps.", "quantifier": "all inputs that parse, all words of the AST", "why_tests_cant": "Quantifies over all ASTs.", "anchors": ["ast/ast.go:Word", "ast/toaq.peggy", "ast/ast.go:Parenthetical"]}
{"id": "C21", "title": "Start and End never panic on parsed nodes", "statement": "Node.Start and Node.End return for every node of an AST returned by Text.", "quantifier": "all inputs that parse, all nodes", "why_tests_cant": "Quantifies over all ASTs; optional parts are nil pointers.", "anchors": ["ast/ast.go:Predication", "ast/ast.go:Text", "ast/ast.go:start", "ast/ast.go:end"]}
{"id": "C22", "title": "Repeated calls return independent trees", "statement": "The trees returned by two calls of Text (or Word) on one Parser share no mutable node, so modifying one result does not change the other.", "quantifier": "all inputs, all sequences of calls", "why_tests_cant": "Aliasing shows only for call sequences that mutate an earlier result.", "anchors": ["ast/parser.go:Text", "ast/parser.go:Word"]}
{"id": "C23", "title": "Word errors point at the failing word", "statement": "When Word(offs) fails, the reported location is at or after offs.", "quantifier": "all inputs and offsets", "why_tests_cant": "Quantifies over inputs and offsets.", "anchors": ["ast/parser.go:Word", "ast/parser.go:parse"]}
{"id": "C24", "title": "Equal is an equivalence that ignores positions", "statement": "On trees of AST nodes Equal is reflexive, symmetric and transitive; it is true exactly when the two trees are identical except for the S and E fields of words; and it never panics on a node that Visit can reach.", "quantifier": "all pairs and triples of AST trees", "why_tests_cant": "Quantifies over all trees.", "anchors": ["ast/equal.go:Equal", "ast/equal.go:copEqual", "ast/equal.go:wordEqual"]}
{"id": "C25", "title": "Braces output is balanced and complete", "statement": "BracesString of any AST is well bracketed with brackets ( { [ < chosen by nesting depth modulo 4, every bracket pair encloses at least two items, and deleting brackets and separators leaves exactly the texts of the non-space words in visiting order.", "quantifier": "all AST trees", "why_tests_cant": "Quantifies over all trees.", "anchors": ["ast/braces.go:BracesString", "ast/braces.go:braces", "ast/braces.go:braceKids"]}
{"id": "C26", "title": "Visit is a balanced pre-order traversal", "statement": "Visit calls the visitor once per reachable node in pre-order, then once with nil after the children of each node that was not pruned; a nil visitor result prunes exactly that subtree; the whole call terminates.", "quantifier": "all AST trees and all stateful visitors", "why_tests_cant": "Quantifies over trees and visitor behaviours.", "anchors": ["ast/visit.go:Visit"]}
{"id": "C27", "title": "Attaching a modifier changes only the end of a node", "statement": "The mod operations (attaching white space or free modifiers) never change existing words other than the modifier chain of the last word, keep the order of words, and append the modifier's words after all existing words of the node.", "quantifier": "all AST nodes and modifiers", "why_tests_cant": "Quantifies over all nodes.", "anchors": ["ast/ast.go:mod", "ast/ast.go:modNode", "ast/ast.go:Parenthetical"]}
{"id": "C28", "title": "ast.ToASCII only rewrites word texts", "statement": "ast.ToASCII applied to a tree changes nothing but the T field of each visited word, which becomes the tone.ToASCII of its former value, exactly once per word.", "quantifier": "all AST trees", "why_tests_cant": "Quantifies over all trees.", "anchors": ["ast/ast.go:ToASCII"]}
{"id": "C29", "title": "Interpret returns nil exactly for fragment-only texts", "statement": "If Interpret returns, its result is nil if and only if the discourse contains no sentence.", "quantifier": "all ASTs", "why_tests_cant": "Quantifies over all ASTs.", "anchors": ["logic/interp.go:Interpret", "logic/interp.go:discourse"]}
{"id": "C30", "title": "Interpret never panics on parsed text", "statement": "For every text accepted by the parser, Interpret returns.", "quantifier": "all inputs that parse", "why_tests_cant": "Quantifies over all ASTs.", "anchors": ["logic/interp.go:sentence", "logic/interp.go:connector", "logic/interp.go:relativeClause", "logic/interp.go:predicate"]}
{"id": "C31", "title": "Interpretation is deterministic", "statement": "Interpret and String/PrettyString give the same result in every run, although variable-name assignment and the do-variable table range over Go maps.", "quantifier": "all ASTs, all map iteration orders", "why_tests_cant": "Map order is random per process.", "anchors": ["logic/string.go:print", "logic/interp.go:oLetters", "logic/interp.go:splitVar"]}
{"id": "C32", "title": "Arguments are placed where linking words say", "statement": "When a predication is built, an argument linked with fi/go/cu/ta is put at position 1/2/3/4, unlinked arguments fill the remaining positions from left to right in their order, no argument is dropped unless two are linked to the same position, and no panic occurs.", "quantifier": "all argument lists", "why_tests_cant": "Quantifies over all lists of linked and unlinked arguments.", "anchors": ["logic/interp.go:orderArguments", "logic/interp.go:goPos"]}
{"id": "C33", "title": "Connected arguments distribute over the whole statement", "statement": "A predication whose term list contains arguments connected by ru/ra means the connection of the predications for each choice of operand, with all combinations present.", "quantifier": "all term lists with connected arguments", "why_tests_cant": "The number of combinations grows with the number of connectives; the code rewrites a shared slice in place.", "anchors": ["logic/interp.go:prenexStatement", "logic/interp.go:withTerm0"]}
{"id": "C34", "title": "Both operands of a connected preposition argument are interpreted", "statement": "A preposition applied to 'A ru B' yields the connection of the preposition applied to A and the preposition applied to B.", "quantifier": "all prepositional phrases with connected arguments", "why_tests_cant": "Quantifies over all operands.", "anchors": ["logic/interp.go:predicationPreposition"]}
{"id": "C35", "title": "Variables are bound in scope", "statement": "In the logical form returned by Interpret every variable that refers to a binding occurs inside that binding's restriction or scope.", "quantifier": "all inputs on which Interpret returns", "why_tests_cant": "Quantifies over all ASTs; scopes are moved by lifting.", "anchors": ["logic/interp.go:predicateArgument", "logic/interp.go:clearHiFreeVarDefs", "logic/interp.go:subordinate"]}
{"id": "C36", "title": "Variable numbers are sequential", "statement": "In the logical form returned by Interpret, distinct bindings have distinct numbers, numbers are 0..k-1 in order of first appearance, and every bound variable carries the number of its binding.", "quantifier": "all inputs on which Interpret returns", "why_tests_cant": "Quantifies over all ASTs; node sharing can renumber a binding twice.", "anchors": ["logic/simplify.go:sequenceVarNums"]}
{"id": "C37", "title": "Printed formulas end with a period and use distinct variable names", "statement": "String(n) of an interpreted text ends with '.', and two different variable numbers are never printed with the same name.", "quantifier": "all inputs on which Interpret returns", "why_tests_cant": "Quantifies over all formulas.", "anchors": ["logic/string.go:print", "logic/string.go:varRune"]}
{"id": "C38", "title": "merge computes the union of variable sets", "statement": "merge(l, r) contains exactly the numbers occurring in l or r; the documentation further promises that the result is sorted and without duplicates.", "quantifier": "all pairs of integer slices", "why_tests_cant": "Quantifies over all slices.", "anchors": ["logic/simplify.go:merge"]}
{"id": "C39", "title": "The server always answers with an error or a full analysis", "statement": "For a POST body the handler produces either a response with exactly an Error field or one with Braces, AST, Text, Parse and Logic; Logic is 'fragment' only when the text has no sentence.", "quantifier": "all request bodies", "why_tests_cant": "Quantifies over all inputs.", "anchors": ["server/server.go:rootHandler", "server/server.go:safeInterp"]}
{"id": "C40", "title": "The bot survives every message", "statement": "The bot's parse function returns a reply for every message text, and bridge-message unwrapping only strips a 'name: ' prefix from messages of the bridge account.", "quantifier": "all message texts and senders", "why_tests_cant": "Any chat user can send any message.", "anchors": ["bot/bot.go:parse", "bot/bot.go:fixBridgeMessage"]}
{"id": "C41", "title": "A parser reports one syntax error", "statement": "Once Tree or Text has failed on a Parser, every later call of Tree or Text on it returns the same error: tree, location and message, whatever calls of Tree, Text and Word come between.", "quantifier": "all texts, all sequences of calls before and after", "why_tests_cant": "Quantifies over call sequences; the memo tables that the error is built from are changed by every Word call in between.", "anchors": ["ast/parser.go:parse", "ast/toaq.go:_failMemo", "ast/toaq.go:_memoize"]}
{"id": "C42", "title": "DedupFails keeps one copy of every failure", "statement": "After peg.DedupFails on the tree of a syntax error, a walk of the tree meets each node that it met before exactly once, in the order of first occurrence and with the same name, position and expectation; ByteOffset of the error is unchanged, and the leaves that the message lists are still leaves.", "quantifier": "all texts, all errors of Tree, Text and Word on parsers in any state", "why_tests_cant": "The trees share nodes and have exponentially many paths; tests see a few of them.", "anchors": ["vendor/github.com/eaburns/peggy/peg/fail.go:DedupFails", "ast/parser.go:byteOffset", "main.go:main"]}
{"id": "C43", "title": "DedupFails on an error does not affect the parser", "statement": "Calling peg.DedupFails on the tree of an error changes no result, error message or error location of later calls on the same Parser.", "quantifier": "all texts, all sequences of calls", "why_tests_cant": "No test uses a parser after DedupFails; quantifies over call sequences.", "anchors": ["vendor/github.com/eaburns/peggy/peg/fail.go:DedupFails", "ast/parser.go:Tree", "ast/toaq.go:_failMemo"]}
{"id": "C44", "title": "The error message lists what was expected at the error", "statement": "The message of a syntax error is \"want \", the expectations of the leaves of the error tree at its greatest position, each leaf once, as a list in words, then \"; got \" and EOF at the end of the text, otherwise at most ten bytes from the position of the error in quotes.", "quantifier": "all texts, all errors of Tree, Text and Word on parsers in any state", "why_tests_cant": "Tests compare a few messages; this covers every tree, shared nodes and list length.", "anchors": ["vendor/github.com/eaburns/peggy/peg/fail.go:SimpleError", "vendor/github.com/eaburns/peggy/peg/fail.go:LeafFails"]}
{"id": "C45", "title": "The program exits with 1 exactly on syntax errors", "statement": "main exits with status 1 exactly when the input does not parse; it then has written the deduplicated error tree, and on a line of its own the path followed by the error message. If it exits at all the status is 0 or 1.", "quantifier": "all inputs and paths, all unicode tables", "why_tests_cant": "main has no tests; the claim is about every input, and about the absence of other ways to exit.", "anchors": ["main.go:main"]}
{"id": "C46", "title": "The program reports on every accepted text", "statement": "If the input parses, main exits with status 0 and has written the parse tree, the AST, the words, the braces, and either \"fragment\" if there is no sentence or the logical tree and the formula.", "quantifier": "all inputs and paths, all unicode tables", "why_tests_cant": "Depends on every stage returning on every accepted text; panics and endless loops are rare inputs.", "anchors": ["main.go:main", "logic/visit.go:NillOutAST", "vendor/github.com/eaburns/pretty/pretty.go:String"]}
{"id": "C47", "title": "The AST that is shown determines the AST", "statement": "For texts on one line, pretty.String shows two parsed ASTs alike exactly if they are equal up to word positions and modifiers.", "quantifier": "all pairs of accepted texts without newline, parsers in any state", "why_tests_cant": "Injectivity over all pairs of trees.", "anchors": ["vendor/github.com/eaburns/pretty/pretty.go:String", "ast/ast.go:PrettyPrint"]}
{"id": "C48", "title": "Interpret returns the meaning of the sentence", "statement": "The formula Interpret returns is the meaning given by a compositional semantics of the syntax: arguments in their places, quantifiers of arguments outside the statement in order, variables bound by the nearest binding of their name, hoa bound by the argument of the relative clause, connectives distributed over statements, definite arguments that do not depend on a variable bound in front of the discourse in order, bare predicates in a restriction applied to the restricted variable; which variables are the same, and nothing else, is preserved by numbering.", "quantifier": "all texts that parse, all unicode tables", "why_tests_cant": "Relates the result to the meaning for sentences of unbounded depth; tests compare strings of 53 sentences.", "anchors": ["logic/interp.go:Interpret", "logic/interp.go:prenexStatement", "logic/interp.go:predicateArgument", "logic/interp.go:relativeClause", "logic/simplify.go:addHoa", "logic/interp.go:discourse"]}
{"id": "C49", "title": "String writes the meaning", "statement": "String of the result of Interpret is the meaning of the discourse in the usual notation: quantifiers before what they apply to, in brackets with their restriction; connectives between operands, which are in parentheses unless they are predications or have the same connective; = and ≺ between two arguments; · for a missing argument; variables by names of one capital and maybe digits, different variables by different names.", "quantifier": "all texts that parse, all unicode tables that map a-x to A-X", "why_tests_cant": "Relates the output to the meaning for sentences of unbounded depth and any number of variables.", "anchors": ["logic/string.go:String", "logic/string.go:varRune", "logic/interp.go:Interpret"]}
{"id": "C50", "title": "The string that is shown determines the meaning", "statement": "Two discourses shown as the same string have the same meaning up to the names of variables, the association of connectives and serial predicates, and the focus. Association is not determined: mai? da poq? da suq? da and mai? da poq? ru suq? da are shown alike.", "quantifier": "all pairs of texts that parse", "why_tests_cant": "Unambiguity of the output over all pairs of sentences.", "anchors": ["logic/string.go:String", "logic/string.go:parens"]}
{"id": "C51", "title": "Interpret invents no predicates", "statement": "Every predicate in the tree Interpret returns is =, ≺, raq or chua, or it is what wordPred makes of a predicate word in one of the sentences. If the discourse was parsed from a text, every such name consists of letters a to z, the first not y or z.", "quantifier": "all discourses; all texts that parse, all unicode tables that agree with ASCII", "why_tests_cant": "Provenance over the whole interpreter, and the spelling of all words the grammar accepts.", "anchors": ["logic/interp.go:predicate", "logic/interp.go:wordPred", "logic/interp.go:poPred", "logic/interp.go:miPred", "logic/simplify.go:simplify"]}
{"id": "C52", "title": "Function words come from their lists", "statement": "In every tree Text returns, each function word (quantifier, conjunction, particle, complementizer, terminator, illocution, interjection and so on) read as lower-case letters without tone marks is one of the words of its group as the language lists them, so the interpreter never meets an unknown one; hence whether Interpret supports a sentence is decided by its connectives alone.", "quantifier": "all texts that parse, any state of the parser, all unicode tables that agree with ASCII and in which vowels, q and combining marks are not punctuation", "why_tests_cant": "Grammar actions copy spans of the text; spelling variants (case, dotless i, tone marks, composed or not) are unboundedly many combinations.", "anchors": ["ast/toaq.peggy", "ast/ast.go:nodes", "logic/interp.go:quantifier", "logic/interp.go:conjunction"]}
{"id": "C53", "title": "Arguments start at different places", "statement": "In a tree that Text returns no two PredicateArguments that Visit shows have predicates that start at the same byte, however they are nested, connected or put into modifiers.", "quantifier": "all texts that parse, any state of the parser", "why_tests_cant": "All shapes of trees the grammar can build, in particular predicates that begin with other phrases.", "anchors": ["ast/toaq.peggy", "ast/ast.go:PredicateArgument", "logic/interp.go:liftedScope"]}
{"id": "C54", "title": "Word reads the bytes it says", "statement": "Word returns a word that starts at the given offset and is spelled as in the text, with the white space after it attached; the two lie side by side and together are as long as the number of bytes it returns.", "quantifier": "all texts, all offsets, any state of the parser", "why_tests_cant": "All spellings of all words in all texts.", "anchors": ["ast/parser.go:Word", "ast/toaq.peggy:word"]}
{"id": "C55", "title": "Interpret returns the meaning of sentences with clauses", "statement": "The formula Interpret returns for sentences with content clauses, properties, quotes, prepositional phrases, adverbs and roi is the meaning given by a compositional semantics over the syntax: what each clause says and about whom, which definite descriptions are bound outside the sentence and which are universal because they depend on a variable in scope, what prepositions and adverbs are said of, and what remains after constants are substituted and properties applied.", "quantifier": "all syntax trees of covered sentences, all interpretations of the words", "why_tests_cant": "Clauses nest without bound and every construct changes what later ones see (variables in scope, hoa, lifted arguments).", "anchors": ["logic/interp.go:Interpret", "logic/simplify.go:simplifyStatement"]}
{"id": "C56", "title": "Simplification does not change what is said", "statement": "The formula Interpret returns is true in the same structures as what the discourse says literally: whatever predicates, connectives and quantifiers mean, as long as = is identity, replacing variables by the constants they equal, applying properties to their arguments and merging pluralities changes no truth value.", "quantifier": "all syntax trees of covered sentences, all structures, all assignments", "why_tests_cant": "Truth in all structures, and all nestings of properties, clauses and quantifiers through which substitution passes.", "anchors": ["logic/simplify.go:simplifyStatement", "logic/simplify.go:simplify", "logic/interp.go:Interpret"]}
{"id": "C57", "title": "The report of a syntax error leaves nothing out", "statement": "What the program writes about a rejected text determines what failed at which offset within which rules, once each, and the message: two rejected texts are reported alike exactly if their trees of failures (names, positions of rules, what was wanted, nesting and order) and their messages are the same.", "quantifier": "all pairs of rejected texts, all paths", "why_tests_cant": "Injectivity is about all pairs of texts; the printer leaves out commas, line breaks and indentation in some cases, and labels may contain its punctuation.", "anchors": ["vendor/github.com/eaburns/peggy/peg/pretty.go:PrettyWrite", "vendor/github.com/eaburns/peggy/peg/fail.go:DedupFails", "main.go:main"]}
{"id": "C58", "title": "The generated file declares the dictionary that was loaded", "statement": "When Load succeeds, the generator (dict/main.go) exits with status 0 and writes a Go source file whose variable Words is the map that Load returned: the same keys, and for each the same word, definition, author and score.", "quantifier": "all responses of the server, all orders of map iteration, all times", "why_tests_cant": "Definitions are arbitrary strings: quoting, escapes, invalid UTF-8 and the textual removal of \"dict.\" interact; the claim is about what the Go compiler reads back from the text.", "anchors": ["dict/main.go:main", "dict/main.go:gofmt", "dict/dict.go:Load"]}
{"id": "C59", "title": "The client reads what the server computed", "statement": "The body of the answer to a POST request is a JSON object (RFC 8259). If the text parses, its members are AST, Braces, Logic, Parse and Text, and their values are exactly the strings that the handler computed; if it does not, its only member is Error, with exactly the message of the parser.", "quantifier": "all requests, also those that are not UTF-8", "why_tests_cant": "encoding/json silently replaces bytes that are not UTF-8, and the strings are made by cutting, quoting and printing parts of arbitrary requests; that no such cut splits a character is an invariant of the grammar, the actions and the interpreter.", "anchors": ["server/server.go:rootHandler", "vendor/github.com/eaburns/peggy/peg/fail.go:SimpleError", "logic/string.go:PrettyString", "ast/braces.go:BracesString"]}
{"id": "C60", "title": "The place of a word in the tree and its tone agree", "statement": "In every tree that Text returns, tone.Tone of the text of each word (modifiers included, spaces and quoted words excepted) is the tone of its place: ? for the predicate of a statement and inside of serial predicates, / for an argument, V for a relative clause, ^ for a content clause, ~ for an adverb, \\ for a preposition, and no tone for function words other than those that head such a predicate (po, mi, mo, lu).  Of a serial predicate its first word has the tone; of connected predicates the left one, and the right one is either ? or, between prepositions, also \\.", "quantifier": "all texts, also with the tones written after the syllables, all definitions of punctuation", "why_tests_cant": "The tone is decided character by character by the syllable rules of the grammar and by the actions that move a tone to its vowel, and the place by the rules above them; that they never disagree is a statement about all derivations.", "anchors": ["ast/toaq.peggy:predicate_2", "ast/toaq.peggy:tone", "ast/nodes.go:addTone", "tone/tone.go:Tone"]}
{"id": "C61", "title": "Term sets connect as many terms as terms", "statement": "In every tree that Text returns, each TermSet connects two Terms of the same number, at least two and at most five.", "quantifier": "all texts", "why_tests_cant": "The rule for term sets is a chain of ordered alternatives over nested term sets, terms and clauses; equality of the two lengths must hold in all derivations, also when an alternative fails late.", "anchors": ["ast/toaq.peggy:termset", "ast/toaq.peggy:terms_V", "ast/ast.go:Prepend"]}
{"id": "C62", "title": "Capital letters do not matter to the parser", "statement": "For two texts that differ only in the case of the letters A to Z other than V: Tree accepts the one if it accepts the other, with trees that differ in nothing but case, and if it fails, it reports the same offset, line and expected alternatives, and the same message up to case. Text returns a tree, an error or panics on both alike, and its trees differ in nothing but the case of the letters of words (with i for the dotless i that the parser makes of i, but not of I); places are the same. Any sequence of calls of Tree, Text and Word, recovered panics included, has the same results up to case on both. V is excepted because it is a tone sign and v is no letter.", "quantifier": "all pairs of texts, all definitions of punctuation that exclude the letters of ASCII, also parsers on which other methods were called before", "why_tests_cant": "The grammar has no notion of case: every class of every rule lists small and capital letters separately, and words are told apart by rules that compare letter by letter; one forgotten capital in one class changes which texts are accepted, and only for texts in which that rule meets that letter.", "anchors": ["ast/toaq.peggy:a", "ast/toaq.peggy:b", "ast/toaq.peggy:relative_tone", "ast/parser.go:Parser.Tree", "vendor/github.com/eaburns/peggy/peg/fail.go:SimpleError", "tone/tone.go:Diacritic", "ast/nodes.go:addTone"]}
{"id": "C63", "title": "Word panics exactly for a digit after two letters", "statement": "With an offset in the text, Word panics if and only if the grammar matches a word there in which one of the digits 1 to 7 comes after two of the letters a u i o e q; it returns a word if and only if one without such a digit is matched, and an error if and only if none is. What was called before makes no difference.", "quantifier": "all texts, all offsets in the text, any state of the parser", "why_tests_cant": "All spellings of all words in all texts, after any calls.", "anchors": ["ast/parser.go:Word", "ast/nodes.go:addTone", "ast/toaq.peggy:word"]}
{"id": "C64", "title": "Errors at the same place after the same text ask for the same things", "statement": "If Tree rejects two texts that agree up to the place of the error, and the place is the same, then both errors list the same things as wanted; the wants are those of the farthest place where the grammar failed, and this is the place of the error.", "quantifier": "all pairs of texts that Tree rejects", "why_tests_cant": "All pairs of texts; each message by itself looks reasonable.", "anchors": ["ast/toaq.go:_punctuationAccepts", "ast/toaq.go:_spaceFail", "ast/parser.go:parse"]}
